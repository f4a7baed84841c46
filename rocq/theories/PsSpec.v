(** PsSpec.v - specification: reading PostScript.  A scanner for the part of the
    PostScript syntax (PLRM 3.2) that consists of comments, names, numbers,
    procedure, array and dictionary brackets and (...) strings.  Hexadecimal
    strings and immediately evaluated names are not read (Bad). *)
From Coq Require Import Reals.
From Flocq Require Import Core IEEE754.BinarySingleNaN.
From Verif Require Import Base Num NumReal NumF64 Geo Stl RealSpec StlRead Env Ast Lexer Parser Ps Draw Main DocSpec.

Local Unset Implicit Arguments.
Definition FF : ascii := "012"%char.
Definition BS : ascii := "008"%char.
Inductive ptok := PName (s : bytes) | PWord (s : bytes) | PStr (s : bytes) | PMark (s : bytes).
(** Between tokens; in a word, a name, a comment; after < and >; in a string
    with this many open parentheses, in an escape, in an octal escape with this
    value and so many more digits, after a carriage return. *)
Inductive pst := Gap | Wd (acc : bytes) | Nm (acc : bytes) | Cmt | Lss | Gtr
  | St (d : nat) (acc : bytes) | Es (d : nat) (acc : bytes) | Oc (d : nat) (acc : bytes) (v : N) (more : bool) | Cr (d : nat) (acc : bytes) | Bad.

Definition is_white (c : ascii) : bool := existsb (byte_eqb c) [NUL; TAB; LF; FF; CR; SP].
Definition is_delim (c : ascii) : bool := existsb (byte_eqb c) (B "()<>[]{}/%").
Definition is_regular (c : ascii) : bool := negb (is_white c) && negb (is_delim c).
Definition ends_comment (c : ascii) : bool := existsb (byte_eqb c) [LF; CR; FF].
Definition octal (c : ascii) : option N :=
  if ((48 <=? N_of_ascii c) && (N_of_ascii c <=? 55))%N then Some (N_of_ascii c - 48)%N else None.

Definition gap (c : ascii) : pst * list ptok :=
  if is_white c then (Gap, [])
  else if is_regular c then (Wd [c], [])
  else if byte_eqb c "%" then (Cmt, [])
  else if byte_eqb c "(" then (St 0 [], [])
  else if byte_eqb c "/" then (Nm [], [])
  else if byte_eqb c "<" then (Lss, [])
  else if byte_eqb c ">" then (Gtr, [])
  else if byte_eqb c ")" then (Bad, [])
  else (Gap, [PMark [c]]).
Definition in_str (d : nat) (acc : bytes) (c : ascii) : pst * list ptok :=
  if byte_eqb c "(" then (St (S d) (acc ++ [c]), [])
  else if byte_eqb c ")" then match d with O => (Gap, [PStr acc]) | S d' => (St d' (acc ++ [c]), []) end
  else if byte_eqb c BSLASH then (Es d acc, [])
  else if byte_eqb c CR then (Cr d (acc ++ [LF]), [])
  else (St d (acc ++ [c]), []).
Definition step (s : pst) (c : ascii) : pst * list ptok :=
  match s with
  | Gap => gap c
  | Wd a => if is_regular c then (Wd (a ++ [c]), []) else let '(s', o) := gap c in (s', PWord a :: o)
  | Nm a => if is_regular c then (Nm (a ++ [c]), [])
            else match a with
                 | [] => (Bad, [])
                 | _ => let '(s', o) := gap c in (s', PName a :: o)
                 end
  | Cmt => if ends_comment c then (Gap, []) else (Cmt, [])
  | Lss => if byte_eqb c "<" then (Gap, [PMark (B "<<")]) else (Bad, [])
  | Gtr => if byte_eqb c ">" then (Gap, [PMark (B ">>")]) else (Bad, [])
  | St d a => in_str d a c
  | Es d a =>
      match octal c with
      | Some v => (Oc d a v true, [])
      | None =>
          if byte_eqb c LF then (St d a, [])
          else if byte_eqb c CR then (Cr d a, [])
          else if byte_eqb c "n" then (St d (a ++ [LF]), [])
          else if byte_eqb c "r" then (St d (a ++ [CR]), [])
          else if byte_eqb c "t" then (St d (a ++ [TAB]), [])
          else if byte_eqb c "b" then (St d (a ++ [BS]), [])
          else if byte_eqb c "f" then (St d (a ++ [FF]), [])
          else (St d (a ++ [c]), [])
      end
  | Oc d a v more =>
      match octal c with
      | Some w => if more then (Oc d a (8 * v + w) false, []) else (St d (a ++ [ascii_of_N ((8 * v + w) mod 256)]), [])
      | None => in_str d (a ++ [ascii_of_N (v mod 256)]) c
      end
  | Cr d a => if byte_eqb c LF then (St d a, []) else in_str d a c
  | Bad => (Bad, [])
  end.
Fixpoint run (s : pst) (t : bytes) : pst * list ptok :=
  match t with
  | [] => (s, [])
  | c :: t' => let '(s1, o1) := step s c in let '(s2, o2) := run s1 t' in (s2, o1 ++ o2)
  end.
(** The tokens of a complete program; None if it ends inside a string or has a
    syntax error. *)
Definition ps_read (t : bytes) : option (list ptok) :=
  match run Gap t with
  | (Gap, o) | (Cmt, o) => Some o
  | (Wd a, o) => Some (o ++ [PWord a])
  | (Nm (c :: a), o) => Some (o ++ [PName (c :: a)])
  | _ => None
  end.
(** s between parentheses is one complete string with the value v. *)
Definition string_body (s v : bytes) : Prop := run Gap (B "(" ++ s ++ B ")") = (Gap, [PStr v]).

(** The byte that the label of a diameter starts with. *)
Definition oslash : ascii := "233"%char.
(** No byte that means something inside a string. *)
Definition harmless (s : bytes) : Prop := ~ In "("%char s /\ ~ In ")"%char s /\ ~ In BSLASH s.

(** Line ends in strings: CR LF and CR count as LF. *)
Fixpoint line_ends (s : bytes) : bytes :=
  match s with
  | [] => []
  | c :: t =>
      if byte_eqb c CR then
        LF :: match t with
              | d :: t' => if byte_eqb d LF then line_ends t' else line_ends t
              | [] => []
              end
      else c :: line_ends t
  end.

(** One number or name. *)
Definition word_like (s : bytes) : Prop := s <> [] /\ Forall (fun c => is_regular c = true) s.
(** Text that does not end a comment. *)
Definition one_line (s : bytes) : Prop := ~ In LF s /\ ~ In CR s /\ ~ In FF s.

Definition ws (s : string) : list ptok := map PWord (split_on SP (B s)).
(** The definitions before the first page. *)
Definition prolog : list ptok :=
  [PName (B "FontSize"); PMark (B "{")] ++ ws "8" ++ [PMark (B "}")] ++ ws "def" ++
  [PName (B "CenterText"); PMark (B "{")] ++
  ws "dup stringwidth pop -2 div currentfont begin FontBBox end 4 1 roll pop pop pop 2 div -1600 div FontSize mul rmoveto" ++
  [PMark (B "}")] ++ ws "def" ++ [PName (B "Courier")] ++ ws "findfont FontSize scalefont setfont".

Section Prog.
  Context {A : Arith} {E : Env}.
  Definition nw (x : num) : ptok := PWord (fmt_num x).
  (** Showing the string v at a place. *)
  Definition show_prog (at_ : v2) (v : bytes) (center : bool) : list ptok :=
    ws "newpath" ++ [nw (x2 at_); nw (y2 at_)] ++ ws "moveto" ++ [PStr v] ++ (if center then ws "CenterText" else []) ++ ws "show".
  Definition text_prog (t : text) (p : list ptok) : Prop :=
    exists v, (if t_raw t then string_body (t_str t) v else v = line_ends (t_str t)) /\ p = show_prog (t_at t) v (t_center t).
  Definition line_prog (l : line) : list ptok :=
    ws "newpath" ++ [nw (x2 (lo l)); nw (y2 (lo l))] ++ ws "moveto" ++ [nw (x2 (lt_ l)); nw (y2 (lt_ l))] ++ ws "lineto stroke".
  (** Angles are in degrees. *)
  Definition arc_prog (a : arc) : list ptok :=
    ws "newpath" ++ [nw (x2 (ac a)); nw (y2 (ac a)); nw (ar a);
      nw (ndiv (nmul (astart a) (of_Z 180)) PI); nw (ndiv (nmul (aend a) (of_Z 180)) PI)] ++ ws "arc stroke".
  (** The page size, the border and the line with time and number of the page. *)
  Definition frame_prog : list ptok :=
    [PMark (B "<<"); PName (B "PageSize"); PMark (B "[")] ++ ws "792 612" ++ [PMark (B "]"); PMark (B ">>")] ++ ws "setpagedevice" ++
    ws ".1 setlinewidth newpath 5 5 moveto 5 607 lineto 787 607 lineto 787 5 lineto 5 5 lineto stroke".
  Definition stamp_prog (kk nn : bytes) : list ptok :=
    let at_ := V2 (of_Z 7) (of_Z 7) in
    let number := B "page " ++ kk ++ B " of " ++ nn in
    match flag_timestamp, flag_number_pages with
    | true, true => show_prog at_ (now ++ B " " ++ number) false
    | true, false => show_prog at_ now false
    | false, true => show_prog at_ number false
    | false, false => []
    end.
  (** The program of page k of n with this contents. *)
  Definition page_prog (kk nn : bytes) (p : opage) (prog : list ptok) : Prop :=
    exists ts, Forall2 text_prog (o_text p) ts /\
      prog = frame_prog ++ stamp_prog kk nn ++ concat ts ++ concat (map arc_prog (o_arcs p)) ++ concat (map line_prog (o_lines p)) ++ ws "showpage".
End Prog.

(** ** Pages *)
Section Pages.
  Context {A : Arith} {E : Env}.
  (** p is what page pg shows: what its items add, then the title box. *)
  Definition page_shows (st : stl_map) (pg : page) (p : opage) : Prop :=
    exists cs box t, Forall2 (always_adds st) (pg_draws pg) cs /\ Forall (fun c => c_ok c = true) cs /\
      titled pg t /\ is_title_box t box /\ p = plus_page (sum_pages (map c_page cs)) box.
  (** Item k of the list is paired with the number S (n + k). *)
  Fixpoint page_progs (nn : bytes) (n : nat) (ps : list opage) (progs : list (list ptok)) : Prop :=
    match ps, progs with
    | [], [] => True
    | p :: ps', g :: progs' => (exists kk, spells kk (S n) /\ page_prog kk nn p g) /\ page_progs nn (S n) ps' progs'
    | _, _ => False
    end.
  (** Every string that the program writes without escaping is well formed. *)
  Definition raw_ok (ps : list opage) : Prop :=
    forall p t, In p ps -> In t (o_text p) -> t_raw t = true -> exists v, string_body (t_str t) v.
End Pages.

(** ** Text items, in exact arithmetic *)
(** Where a text starts: the place of @ in inches from the middle of the page. *)
Definition text_place (ml : list (@meta XR)) (tx ty : R) : Prop :=
  (exists x a b, In x ml /\ m_name x = B "@" /\ m_val x = MLoc (emb2 a b) /\ tx = 72 * a + 396 /\ ty = 72 * b + 306)%R \/
  (~ has ml "@" /\ tx = 396%R /\ ty = 306%R).
(** Line k of the lines, if it is not empty, 12 k points below the first. *)
Definition text_line (tx ty : R) (kw : nat * bytes) : list (@text XR) :=
  match snd kw with
  | [] => []
  | w => [Text (emb2 tx (ty - 12 * INR (fst kw))) w false false]
  end.
Definition laid_out (tx ty : R) (ls : list bytes) : list (@text XR) :=
  concat (map (text_line tx ty) (combine (seq 0 (length ls)) ls)).

(** ** The title box, in doubles *)
(** A title of n bytes starting at x, and the box lines starting at l, lie
    between the left and the right border; a Courier character is 0.6 em wide,
    one em is 8 points. *)
Definition inside_border (n : nat) (x l : f64) : Prop :=
  (is_finite x = true /\ is_finite l = true /\ 5 <= B2R l < B2R x /\ B2R x + 48 / 10 * INR n <= 787 /\ B2R l <= 787)%R.
(** The title at (x, 8) and the two lines of its box. *)
Definition title_box {A : Arith} (t : bytes) (x l : num) : opage :=
  OPage [Line (V2 l (of_Z 5)) (V2 l (of_Z 16)); Line (V2 l (of_Z 16)) (V2 (of_Z 787) (of_Z 16))] [] [Text (V2 x (of_Z 8)) t false false].
