(** Lexer.v - model of lexer.l (flex) and NewQuote (ast.cc:158-177). *)
From Verif Require Import Base Num Regex Env.

(** ** Character classes of lexer.l. *)
Definition byte_in (lo hi : N) (c : ascii) : bool :=
  ((lo <=? N_of_ascii c) && (N_of_ascii c <=? hi))%N.
Definition is_digit (c : ascii) : bool := byte_in 48 57 c.
Definition is_alpha_ (c : ascii) : bool := byte_in 65 90 c || byte_in 97 122 c || byte_eqb c "_".
Definition is_alnum_ (c : ascii) : bool := is_alpha_ c || is_digit c.
(** flex '.': any byte except LF *)
Definition not_lf (c : ascii) : bool := negb (byte_eqb c LF).

(** The action of a rule. *)
Inductive action :=
| APunct (c : ascii)
| AKw (n : nat)          (* 0 angle 1 dia 2 dim 3 draw 4 load 5 page 6 rad 7 text *)
| AId | ANum | AStr
| ASkip
| AError.

Definition re_id : re := RCat (RChr is_alpha_) (RStar (RChr is_alnum_)).
Definition re_sign : re := ROpt (RChr (fun c => byte_eqb c "-" || byte_eqb c "+")).
Definition re_num1 : re :=
  RCat re_sign (RCat (RPlus (RChr is_digit)) (ROpt (RCat (RC ".") (RStar (RChr is_digit))))).
Definition re_num2 : re := RCat re_sign (RCat (RC ".") (RPlus (RChr is_digit))).
Definition str_plain (c : ascii) : bool :=
  negb (byte_eqb c DQUOTE || byte_eqb c BSLASH || byte_eqb c LF).
Definition str_esc (c : ascii) : bool :=
  byte_eqb c "'" || byte_eqb c DQUOTE || byte_eqb c "?" || byte_eqb c BSLASH || byte_eqb c "n".
Definition re_str : re :=
  RCat (RC DQUOTE)
    (RCat (RStar (RAlt (RChr str_plain) (RCat (RC BSLASH) (RChr str_esc)))) (RC DQUOTE)).
Definition re_ws : re := RChr (fun c => byte_eqb c SP || byte_eqb c TAB || byte_eqb c LF || byte_eqb c CR).
Definition re_comment : re := RCat (RLit (B "//")) (RStar (RChr not_lf)).

(** lexer.l:74-103, in order. *)
Definition rules : list (re * action) :=
  [ (RC "{", APunct "{"); (RC "}", APunct "}"); (RC "[", APunct "["); (RC "]", APunct "]");
    (RC "(", APunct "("); (RC ")", APunct ")"); (RC "=", APunct "="); (RC ";", APunct ";");
    (RC ":", APunct ":"); (RC ",", APunct ","); (RC "@", APunct "@");
    (RLit (B "angle"), AKw 0); (RLit (B "dia"), AKw 1); (RLit (B "dim"), AKw 2);
    (RLit (B "draw"), AKw 3); (RLit (B "load"), AKw 4); (RLit (B "page"), AKw 5);
    (RLit (B "rad"), AKw 6); (RLit (B "text"), AKw 7);
    (re_id, AId); (re_num1, ANum); (re_num2, ANum); (re_str, AStr);
    (re_ws, ASkip); (re_comment, ASkip);
    (RChr not_lf, AError) ].

(** flex: the longest match, the earliest rule among those. *)
Fixpoint best (rs : list (re * action)) (s : bytes) : option (nat * action) :=
  match rs with
  | [] => None
  | (r, a) :: t =>
      match longest r s, best t s with
      | None, b => b
      | Some n, None => Some (n, a)
      | Some n, Some (m, b) => if n <? m then Some (m, b) else Some (n, a)
      end
  end.

(** A matched piece of the input and the rule that matched it. *)
Record lexeme := Lexeme { lx_line : nat; lx_text : bytes; lx_act : action }.

Definition count_lf (s : bytes) : nat := length (filter (byte_eqb LF) s).

(** The scanner loop.  yylineno is advanced over the matched text before the
    rule's YY_USER_ACTION (lexer.l:44-56) records the line.  [fuel] = length of
    the input suffices since every match is non-empty (proved: scan_lossless);
    a match of length 0 or no match at all would be flex's "scanner jammed". *)
Fixpoint scan (fuel : nat) (line : nat) (s : bytes) : option (list lexeme) :=
  match s with
  | [] => Some []
  | _ =>
      match fuel with
      | O => None
      | S fuel' =>
          match best rules s with
          | Some (S n, a) =>
              let text := firstn (S n) s in
              let line' := line + count_lf text in
              match scan fuel' line' (skipn (S n) s) with
              | Some l => Some (Lexeme line' text a :: l)
              | None => None
              end
          | _ => None
          end
      end
  end.
Definition scan_all (s : bytes) : option (list lexeme) := scan (length s) 1 s.

(** yytext as a C string: what std::string(yytext) sees. *)
Fixpoint cstr (s : bytes) : bytes :=
  match s with
  | [] => []
  | c :: t => if byte_eqb c NUL then [] else c :: cstr t
  end.

(** ast.cc:158-177  NewQuote: decodes in place.  ret.length() - 1 is unsigned,
    so an empty string would run out of bounds. *)
Fixpoint nq_loop (fuel t f : nat) (buf : bytes) : outcome bytes :=
  let len := length buf in
  if (len =? 0) || (f <? len - 1) then
    match fuel with
    | O => Abort (AUB "NewQuote: loop bound")
    | S fuel' =>
        match nth_error buf f with
        | None => Abort (AUB "NewQuote: read out of range")
        | Some c =>
            if negb (byte_eqb c BSLASH) then
              if t <? len then nq_loop fuel' (S t) (S f) (set_nth t c buf)
              else Abort (AUB "NewQuote: write out of range")
            else
              match nth_error buf (S f) with
              | None => Abort (AUB "NewQuote: read out of range")
              | Some e =>
                  if t <? len
                  then nq_loop fuel' (S t) (S (S f))
                         (set_nth t (if byte_eqb e "n" then LF else e) buf)
                  else Abort (AUB "NewQuote: write out of range")
              end
        end
    end
  else Ret (firstn t buf).
Definition new_quote (s : bytes) : outcome bytes := nq_loop (length s) 0 1 s.

Section Tokens.
  Context {A : Arith} {E : Env}.

  (** Tokens as the parser sees them (parser.y:65-68). *)
  Inductive tok :=
  | TP (c : ascii)
  | TKw (n : nat)
  | TId (s : bytes)
  | TNum (f : num)
  | TStr (s : bytes)
  | TErr (s : bytes)       (* rule lexer.l:103, returns 256 *)
  | TThrow.                (* std::stof throws out of yylex *)
  Record ltok := LTok { t_line : nat; t_tok : tok }.

  (** The action code of lexer.l for one lexeme; None: no token. *)
  Definition tok_of (x : lexeme) : outcome (option ltok) :=
    let mk t := Ret (Some (LTok (lx_line x) t)) in
    match lx_act x with
    | APunct c => mk (TP c)
    | AKw n => mk (TKw n)
    | AId => mk (TId (cstr (lx_text x)))
    | ANum => mk (match stof (cstr (lx_text x)) with Some f => TNum f | None => TThrow end)
    | AStr => do! s <- new_quote (cstr (lx_text x)); mk (TStr s)
    | ASkip => Ret None
    | AError => mk (TErr (cstr (lx_text x)))
    end.

  Fixpoint toks_of (l : list lexeme) : outcome (list ltok) :=
    match l with
    | [] => Ret []
    | x :: r =>
        do! t <- tok_of x;
        do! ts <- toks_of r;
        Ret (match t with Some k => k :: ts | None => ts end)
    end.

  (** All tokens of an input.  The program lexes on demand; what it would have
      read after it stopped is ignored by the parser model. *)
  Definition tokens (s : bytes) : outcome (list ltok) :=
    match scan_all s with
    | Some l => toks_of l
    | None => Abort (AUB "scanner jammed")
    end.
End Tokens.
