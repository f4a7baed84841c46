(** LrParser.v - the parser bison generates from parser.y, driven by its tables (lalr1.cc). *)
From Verif Require Import Base Num Env Ast Lexer Parser Lalr.

(** Terminals (parser.y:65-68 and the characters): 0 is the end, 1 any other token. *)
Definition tLB := 2. Definition tRB := 3. Definition tComma := 4. Definition tLP := 5. Definition tRP := 6. Definition tEq := 7. Definition tSemi := 8. Definition tLC := 9. Definition tRC := 10.
Definition tColon := 11. Definition tAt := 12. Definition tKw (n : nat) := 13 + n. Definition tID := 21. Definition tNUM := 22. Definition tSTR := 23.
(** Nonterminals. *)
Definition nAccept := 0. Definition nLocation := 1. Definition nPoint := 2. Definition nInput := 3. Definition nModel := 4. Definition nPage := 5. Definition nString := 6. Definition nArg := 7.
Definition nPageParts := 8. Definition nDrawParts := 9. Definition nTextParts := 10. Definition nDimParts := 11.
(** parser.y:106-206, in order; keyword n is that of Lexer.v: 0 ANGLE, 1 DIA, 2 DIM, 3 DRAW, 4 LOAD, 5 PAGE, 6 RAD, 7 TEXT. *)
Definition the_grammar : grammar := [
  (nAccept, [N nInput; T 0]);
  (* 1 location *) (nLocation, [T tLB; T tNUM; T tComma; T tNUM; T tRB]);
  (* 2-3 point *) (nPoint, [T tLB; T tNUM; T tComma; T tNUM; T tComma; T tNUM; T tRB]); (nPoint, [T tID; T tLP; N nPoint; T tRP]);
  (* 4-6 input *) (nInput, [N nInput; N nModel]); (nInput, [N nInput; N nPage]); (nInput, []);
  (* 7 model *) (nModel, [T (tKw 4); T tID; T tEq; T tSTR; T tSemi]);
  (* 8 page *) (nPage, [T (tKw 5); T tLC; N nPageParts; T tRC]);
  (* 9-10 string_lit *) (nString, [N nString; T tSTR]); (nString, [T tSTR]);
  (* 11-16 arg *) (nArg, [T tID; T tEq; N nString]); (nArg, [T tID; T tEq; N nPoint]); (nArg, [T tID; T tEq; T tNUM]); (nArg, [T tID; T tEq; N nLocation]);
    (nArg, [T tID; T tEq; T tNUM; T tColon; T tNUM]); (nArg, [T tAt; N nLocation]);
  (* 17-20 page_parts *) (nPageParts, [N nPageParts; N nArg; T tSemi]); (nPageParts, [N nPageParts; T (tKw 3); T tID; T tLC; N nDrawParts; T tRC]);
    (nPageParts, [N nPageParts; T (tKw 7); T tLB; N nString; T tRB; T tLC; N nTextParts; T tRC]); (nPageParts, []);
  (* 21-30 draw_parts *) (nDrawParts, [N nDrawParts; N nArg; T tSemi]);
    (nDrawParts, [N nDrawParts; T (tKw 0); T tLP; T tRP; T tSemi]); (nDrawParts, [N nDrawParts; T (tKw 0); T tLP; N nDimParts; T tRP; T tSemi]);
    (nDrawParts, [N nDrawParts; T (tKw 1); T tLP; T tRP; T tSemi]); (nDrawParts, [N nDrawParts; T (tKw 1); T tLP; N nDimParts; T tRP; T tSemi]);
    (nDrawParts, [N nDrawParts; T (tKw 2); T tLP; T tRP; T tSemi]); (nDrawParts, [N nDrawParts; T (tKw 2); T tLP; N nDimParts; T tRP; T tSemi]);
    (nDrawParts, [N nDrawParts; T (tKw 6); T tLP; T tRP; T tSemi]); (nDrawParts, [N nDrawParts; T (tKw 6); T tLP; N nDimParts; T tRP; T tSemi]);
    (nDrawParts, []);
  (* 31-32 text_parts *) (nTextParts, [N nTextParts; N nArg; T tSemi]); (nTextParts, []);
  (* 33-34 dim_parts *) (nDimParts, [N nDimParts; T tComma; N nArg]); (nDimParts, [N nArg]) ].
Definition the_tables : list row := Eval vm_compute in fst (make the_grammar 12).
Lemma tables_made : make the_grammar 12 = (the_tables, true).
Proof. vm_compute. reflexivity. Qed.
Lemma no_conflicts : conflicts the_tables = [].
Proof. vm_compute. reflexivity. Qed.

Section Machine.
  Context {A : Arith} {E : Env}.
  Variable file : bytes.
  Variable eof_line : nat.
  (** The number of the token each rule of lexer.l:74-84 returns. *)
  Definition code_char (c : ascii) : nat :=
    if byte_eqb c "[" then tLB else if byte_eqb c "]" then tRB else if byte_eqb c "," then tComma else if byte_eqb c "(" then tLP else if byte_eqb c ")" then tRP
    else if byte_eqb c "=" then tEq else if byte_eqb c ";" then tSemi else if byte_eqb c "{" then tLC else if byte_eqb c "}" then tRC else if byte_eqb c ":" then tColon
    else if byte_eqb c "@" then tAt else 1.
  (** lexer.l:74-103; 256 and an exception have no number in the grammar. *)
  Definition code (k : tok) : nat :=
    match k with
    | TP c => code_char c
    | TKw n => if n <? 8 then tKw n else 1
    | TId _ => tID | TNum _ => tNUM | TStr _ => tSTR
    | TErr _ | TThrow => 1
    end.
  (** The %union of parser.y:70-85; tokens keep their line for @1, @2 and @3. *)
  Inductive sval :=
  | VNone | VTok (t : ltok) | VLoc (v : v2) | VPoint (p : point) | VStr (s : bytes) | VMeta (m : meta) | VMetas (l : list meta)
  | VDraw (ml : list meta) (ds : list dim) | VParts (ml : list meta) (ds : list drawable) | VModel (m : model) | VPage (p : page).
  Definition at_ (l : nat) : loc := Loc file l.
  (** The actions (parser.y:106-206): $$ from $1 .. $n; the document is the object [result]
      points to.  A shape of values that is not in the grammar does not occur. *)
  Definition act (p : nat) (vs : list sval) (d : document) : outcome (sval * document) :=
    match p, vs with
    | 1, [_; VTok (LTok _ (TNum x)); _; VTok (LTok _ (TNum y)); _] => Ret (VLoc (V2 x y), d)
    | 2, [VTok (LTok l _); VTok (LTok _ (TNum x)); _; VTok (LTok _ (TNum y)); _; VTok (LTok _ (TNum z)); _] => Ret (VPoint (PVal (V3 x y z) (at_ l)), d)
    | 3, [VTok (LTok l (TId n)); _; VPoint q; _] => Ret (VPoint (PFunc n q (at_ l)), d)
    | 4, [_; VModel m] => Ret (VNone, Doc (doc_models d ++ [m]) (doc_pages d))
    | 5, [_; VPage q] => Ret (VNone, Doc (doc_models d) (doc_pages d ++ [q]))
    | 6, [] => Ret (VNone, d)
    | 7, [VTok (LTok l _); VTok (LTok _ (TId n)); _; VTok (LTok _ (TStr s)); _] => Ret (VModel (Model n s (at_ l)), d)
    | 8, [VTok (LTok l _); _; VParts ml ds; _] => Ret (VPage (Page (at_ l) ml ds), d)
    | 9, [VStr s; VTok (LTok _ (TStr u))] => Ret (VStr (s ++ u), d)
    | 10, [VTok (LTok _ (TStr s))] => Ret (VStr s, d)
    | 11, [VTok (LTok l (TId n)); _; VStr s] => Ret (VMeta (Meta n (MStr s) (at_ l)), d)
    | 12, [VTok (LTok l (TId n)); _; VPoint q] => Ret (VMeta (Meta n (MPoint q) (at_ l)), d)
    | 13, [VTok (LTok l (TId n)); _; VTok (LTok _ (TNum x))] => Ret (VMeta (Meta n (MNum x) (at_ l)), d)
    | 14, [VTok (LTok l (TId n)); _; VLoc v] => Ret (VMeta (Meta n (MLoc v) (at_ l)), d)
    | 15, [VTok (LTok l (TId n)); _; VTok (LTok _ (TNum x)); _; VTok (LTok _ (TNum y))] => do! v <- mk_scale x y; Ret (VMeta (Meta n v (at_ l)), d)
    | 16, [VTok (LTok l _); VLoc v] => Ret (VMeta (Meta (B "@") (MLoc v) (at_ l)), d)
    | 17, [VParts ml ds; VMeta m; _] => Ret (VParts (ml ++ [m]) ds, d)
    | 18, [VParts ml ds; _; VTok (LTok l (TId n)); _; VDraw m dm; _] => Ret (VParts ml (ds ++ [DDraw (at_ l) n m dm]), d)
    | 19, [VParts ml ds; VTok (LTok l _); _; VStr s; _; _; VMetas m; _] => Ret (VParts ml (ds ++ [DText (at_ l) s m]), d)
    | 20, [] => Ret (VParts [] [], d)
    | 21, [VDraw ml ds; VMeta m; _] => Ret (VDraw (ml ++ [m]) ds, d)
    | 22, [VDraw ml ds; VTok (LTok l _); _; _; _] => Ret (VDraw ml (ds ++ [Dim KAngle (at_ l) []]), d)
    | 23, [VDraw ml ds; VTok (LTok l _); _; VMetas m; _; _] => Ret (VDraw ml (ds ++ [Dim KAngle (at_ l) m]), d)
    | 24, [VDraw ml ds; VTok (LTok l _); _; _; _] => Ret (VDraw ml (ds ++ [Dim KDia (at_ l) []]), d)
    | 25, [VDraw ml ds; VTok (LTok l _); _; VMetas m; _; _] => Ret (VDraw ml (ds ++ [Dim KDia (at_ l) m]), d)
    | 26, [VDraw ml ds; VTok (LTok l _); _; _; _] => Ret (VDraw ml (ds ++ [Dim KDim (at_ l) []]), d)
    | 27, [VDraw ml ds; VTok (LTok l _); _; VMetas m; _; _] => Ret (VDraw ml (ds ++ [Dim KDim (at_ l) m]), d)
    | 28, [VDraw ml ds; VTok (LTok l _); _; _; _] => Ret (VDraw ml (ds ++ [Dim KRad (at_ l) []]), d)
    | 29, [VDraw ml ds; VTok (LTok l _); _; VMetas m; _; _] => Ret (VDraw ml (ds ++ [Dim KRad (at_ l) m]), d)
    | 30, [] => Ret (VDraw [] [], d)
    | 31, [VMetas ml; VMeta m; _] => Ret (VMetas (ml ++ [m]), d)
    | 32, [] => Ret (VMetas [], d)
    | 33, [VMetas ml; _; VMeta m] => Ret (VMetas (ml ++ [m]), d)
    | 34, [VMeta m] => Ret (VMetas [m], d)
    | _, _ => Abort (AUB "parser tables")
    end.
  (** The stack of states and values, top first; the tokens not yet shifted; the document. *)
  Inductive conf :=
  | Conf (stk : list (nat * sval)) (ts : list ltok) (d : document)
  | Done (d : document) (e : option perr).
  Definition row_of (q : nat) : row := nth q the_tables (Row [] [] []).
  Definition final : nat := Eval vm_compute in
    match lookup nInput (gotos (nth 0 the_tables (Row [] [] []))) with Some q => match lookup 0 (shifts (nth q the_tables (Row [] [] []))) with Some r => r | None => 0 end | None => 0 end.
  (** lalr1.cc, yyreduce: pop the right hand side, run the action, go to the next state. *)
  Definition reduce (p : nat) (stk : list (nat * sval)) (ts : list ltok) (d : document) : conf :=
    let n := length (rhs the_grammar p) in
    match act p (rev (map snd (firstn n stk))) d with
    | Abort e => Done d (Some (PDead e))
    | Ret (v, d') =>
        match skipn n stk with
        | (q, w) :: r => match lookup (lhs the_grammar p) (gotos (row_of q)) with
                         | Some q' => Conf ((q', v) :: (q, w) :: r) ts d'
                         | None => Done d (Some (PDead (AUB "parser tables")))
                         end
        | [] => Done d (Some (PDead (AUB "parser tables")))
        end
    end.
  (** lalr1.cc, yynewstate to yyreduce.  A state that needs no lookahead does not call yylex;
      std::stof can throw in yylex, and a token that the lexer has reported (256) goes
      straight to error recovery, which gives up since no rule mentions [error]. *)
  Definition step (c : conf) : conf :=
    match c with
    | Done _ _ => c
    | Conf [] ts d => Done d (Some (PDead (AUB "parser tables")))
    | Conf (((q, _) :: _) as stk) ts d =>
        if q =? final then Done d None
        else match consistent (row_of q), default (row_of q) with
        | true, Some p => reduce p stk ts d
        | _, _ =>
            match ts with
            | LTok _ TThrow :: _ | LTok _ (TErr _) :: _ => Done d (Some (stop eof_line ts))
            | _ => match action (row_of q) (match ts with [] => 0 | t :: _ => code (t_tok t) end) with
                   | Shift q' => match ts with [] => Conf ((q', VNone) :: stk) [] d | t :: r => Conf ((q', VTok t) :: stk) r d end
                   | Reduce p => reduce p stk ts d
                   | Error => Done d (Some (stop eof_line ts))
                   end
            end
        end
    end.
  (** yyparse on these tokens ends with this document and this error, if any. *)
  Definition runs (ts : list ltok) (d : document) (e : option perr) : Prop := exists n, iter n step (Conf [(0, VNone)] ts (Doc [] [])) = Done d e.
End Machine.
