(** StlRead.v - model of STLFile::Make, the STL text reader (stl.cc:72-133). *)
From Verif Require Import Base Num Geo Stl Regex Env.

(** std::getline in a loop: the pieces between line feeds; an empty last piece
    is not a line. *)
Fixpoint getlines (s : bytes) : list bytes :=
  match s with
  | [] => []
  | c :: t =>
      if byte_eqb c LF then [] :: getlines t
      else match getlines t with
           | [] => [[c]]
           | h :: r =>
               (* t starts with a line feed exactly when h is its empty first line *)
               (c :: h) :: r
           end
  end.

(** One RE2 '.' in UTF-8 mode: an ASCII byte other than LF or a multi-byte
    sequence.  RE2 compiles 80-10FFFF to the byte ranges written here. *)
Definition in_range (lo hi : N) (c : ascii) : bool :=
  ((lo <=? N_of_ascii c) && (N_of_ascii c <=? hi))%N.
Definition re_cont : re := RChr (in_range 128 191).
Definition re_dot : re :=
  RAlt (RChr (fun c => in_range 0 127 c && negb (byte_eqb c LF)))
 (RAlt (RCat (RChr (in_range 194 223)) re_cont)
 (RAlt (RCat (RChr (in_range 224 239)) (RCat re_cont re_cont))
       (RCat (RChr (in_range 240 244)) (RCat re_cont (RCat re_cont re_cont))))).

Definition re_sp : re := RStar (RC SP).
Definition re_sp1 : re := RPlus (RC SP).
(** [-.e0-9] *)
Definition num_char (c : ascii) : bool :=
  in_range 48 57 c || byte_eqb c "-" || byte_eqb c "." || byte_eqb c "e".
Definition re_num : re := RPlus (RChr num_char).

(** stl.cc:85 *)
Definition re_solid : re :=
  RCat re_sp (RCat (RAlt (RLit (B "solid")) (RLit (B "endsolid")))
                   (ROpt (RCat (RC SP) (RStar re_dot)))).
(** stl.cc:91 *)
Definition re_oloop : re :=
  RCat re_sp (RCat (RAlt (RLit (B "outer loop")) (RLit (B "endloop"))) re_sp).
(** stl.cc:98-99, 119-120: keyword followed by three numbers *)
Definition re_three (kw : string) : re :=
  RCat re_sp (RCat (RLit (B kw))
    (RCat re_sp1 (RCat re_num (RCat re_sp1 (RCat re_num (RCat re_sp1 (RCat re_num re_sp))))))).
Definition re_facet : re := re_three "facet normal".
Definition re_vertex : re := re_three "vertex".
(** stl.cc:106 *)
Definition re_efacet : re := RCat re_sp (RCat (RLit (B "endfacet")) re_sp).

(** The maximal runs of bytes other than space. *)
Definition words (s : bytes) : list bytes :=
  filter (fun w => match w with [] => false | _ => true end) (split_on SP s).

Section Read.
  Context {A : Arith} {E : Env}.

  (** RE2::FullMatch(line, re, &x, &y, &z) for a keyword of [skip] words: the
      captured groups contain no space and are separated by spaces, so they are
      the words after the keyword.  Fails if a group does not convert. *)
  Definition match_three (r : re) (skip : nat) (line : bytes) : option v3 :=
    if rmatch r line then
      match skipn skip (words line) with
      | [a; b; c] =>
          match re2_double a, re2_double b, re2_double c with
          | Some x, Some y, Some z => Some (V3 x y z)
          | _, _, _ => None
          end
      | _ => None
      end
    else None.

  (** Local state of Make: norm, points and the facets so far. *)
  Record rd := Rd { rd_norm : v3; rd_pts : list v3; rd_facets : list facet }.

  (** One iteration of the loop, stl.cc:81-128.  None: return nullptr. *)
  Definition read_line (n : nat) (s : rd) (line : bytes) : outcome (option rd * list diag) :=
    if rmatch re_solid line then Ret (Some s, [])
    else if rmatch re_oloop line then Ret (Some s, [])
    else match match_three re_facet 2 line with
    | Some v => Ret (Some (Rd v [] (rd_facets s)), [])
    | None =>
    if rmatch re_efacet line then
      if eq3 (rd_norm s) zero3
      then Ret (Some s, [DLog (dec_of_nat n ++ B ": missing normal")])
      else match rd_pts s with
           | p0 :: p1 :: p2 :: _ =>
               Ret (Some (Rd zero3 [] (rd_facets s ++ [mk_facet (rd_norm s) p0 p1 p2])), [])
           | _ => Abort (AUB "e[0..2] of a vector with fewer than three points")
           end
    else match match_three re_vertex 1 line with
    | Some p => Ret (Some (Rd (rd_norm s) (rd_pts s ++ [p]) (rd_facets s)), [])
    | None => Ret (None, [DLog (dec_of_nat n ++ B ": Unknown line: '" ++ line ++ B "'")])
    end end.

  Fixpoint read_lines (n : nat) (s : rd) (ls : list bytes) : outcome (option rd * list diag) :=
    match ls with
    | [] => Ret (Some s, [])
    | l :: t =>
        do! '(r, lg) <- read_line n s l;
        match r with
        | None => Ret (None, lg)
        | Some s' => do! '(r', lg') <- read_lines (S n) s' t; Ret (r', lg ++ lg')
        end
    end.

  (** stl.cc:72-133  STLFile::Make *)
  Definition stl_make (contents : bytes) : outcome (option stl * list diag) :=
    do! '(r, lg) <- read_lines 1 (Rd zero3 [] []) (getlines contents);
    match r with
    | None => Ret (None, lg)
    | Some s => do! m <- index (rd_facets s); Ret (Some m, lg)
    end.
End Read.
