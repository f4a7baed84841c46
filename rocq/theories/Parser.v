(** Parser.v - model of the parser of parser.y and of Parse (parser.cc:49-71).

    The generated LALR(1) automaton is modelled by a predictive parser that
    looks at the same tokens in the same order and stops at the first token
    that cannot continue a sentence; Grammar.v states the grammar itself and
    P_Parser.v proves that this parser decides it.  P_Lr.v proves that the
    LALR(1) tables of the grammar, run as lalr1.cc does, give the same. *)
From Verif Require Import Base Num Env Ast Lexer.

Section Parser.
  Context {A : Arith} {E : Env}.
  Variable file : bytes.      (* the filename in every location *)
  Variable eof_line : nat.    (* yylineno at the end of the input *)

  (** Why a parse stopped: a syntax error, or the process died. *)
  Inductive perr :=
  | PSyntax (l : nat) (msg : bytes)
  | PDead (a : abort).
  Inductive pres (X : Type) :=
  | POk (x : X) (rest : list ltok)
  | PFail (e : perr).
  Arguments POk {X} x rest.
  Arguments PFail {X} e.
  Definition pbind {X Y} (r : pres X) (f : X -> list ltok -> pres Y) : pres Y :=
    match r with POk x ts => f x ts | PFail e => PFail e end.

  (** The token at the head of the input does not fit. *)
  Definition stop (ts : list ltok) : perr :=
    match ts with
    | [] => PSyntax eof_line (B "syntax error")
    | LTok _ TThrow :: _ => PDead (AThrow "std::stof")
    | LTok l (TErr s) :: _ => PSyntax l s
    | LTok l _ :: _ => PSyntax l (B "syntax error")
    end.
  Definition fail {X} (ts : list ltok) : pres X := PFail (stop ts).

  Definition mkloc (l : nat) : loc := Loc file l.

  (** A single character token. *)
  Definition punct (c : ascii) (ts : list ltok) : pres nat :=
    match ts with
    | LTok l (TP d) :: r => if byte_eqb c d then POk l r else fail ts
    | _ => fail ts
    end.
  Definition pnum (ts : list ltok) : pres num :=
    match ts with LTok _ (TNum f) :: r => POk f r | _ => fail ts end.

  (** parser.y:109-111 point, the part after ID or '[' chosen by the caller:
      here a point in function-argument position. *)
  Fixpoint parse_point (ts : list ltok) : pres point :=
    match ts with
    | LTok l (TId n) :: LTok lp (TP c) :: r =>
        if byte_eqb c "(" then
          pbind (parse_point r) (fun p ts1 =>
          pbind (punct ")" ts1) (fun _ ts2 => POk (PFunc n p (mkloc l)) ts2))
        else fail (LTok lp (TP c) :: r)
    | LTok _ (TId _) :: r => fail r
    | LTok l (TP c) :: r =>
        if byte_eqb c "[" then
          pbind (pnum r) (fun x t1 => pbind (punct "," t1) (fun _ t2 =>
          pbind (pnum t2) (fun y t3 => pbind (punct "," t3) (fun _ t4 =>
          pbind (pnum t4) (fun z t5 => pbind (punct "]" t5) (fun _ t6 =>
          POk (PVal (V3 x y z) (mkloc l)) t6))))))
        else fail ts
    | _ => fail ts
    end.

  (** parser.y:106 location *)
  Definition parse_location (ts : list ltok) : pres v2 :=
    pbind (punct "[" ts) (fun _ t0 =>
    pbind (pnum t0) (fun x t1 => pbind (punct "," t1) (fun _ t2 =>
    pbind (pnum t2) (fun y t3 => pbind (punct "]" t3) (fun _ t4 => POk (V2 x y) t4))))).

  (** parser.y:125-126 string_lit: one or more literals, concatenated *)
  Fixpoint parse_more_str (acc : bytes) (ts : list ltok) : bytes * list ltok :=
    match ts with
    | LTok _ (TStr s) :: r => parse_more_str (acc ++ s) r
    | _ => (acc, ts)
    end.
  Definition parse_string_lit (ts : list ltok) : pres bytes :=
    match ts with
    | LTok _ (TStr s) :: r => let '(w, r') := parse_more_str s r in POk w r'
    | _ => fail ts
    end.

  (** Scale{$3, $5}: float to int conversions (parser.y:136-137) *)
  Definition mk_scale (a b : num) : outcome mval :=
    match to_int a, to_int b with
    | Some x, Some y => Ret (MScale x y)
    | _, _ => Abort (AUB "Scale: float to int out of range")
    end.

  (** The value of an argument, parser.y:128-137 after ID '=' *)
  Definition parse_value (ts : list ltok) : pres mval :=
    match ts with
    | LTok _ (TStr _) :: _ => pbind (parse_string_lit ts) (fun s r => POk (MStr s) r)
    | LTok _ (TId _) :: _ => pbind (parse_point ts) (fun p r => POk (MPoint p) r)
    | LTok _ (TNum a) :: r =>
        match r with
        | LTok _ (TP c) :: r' =>
            if byte_eqb c ":" then
              pbind (pnum r') (fun b r'' =>
                match mk_scale a b with
                | Ret v => POk v r''
                | Abort e => PFail (PDead e)
                end)
            else POk (MNum a) r
        | _ => POk (MNum a) r
        end
    | LTok l (TP c) :: r =>
        if byte_eqb c "[" then
          pbind (pnum r) (fun x t1 => pbind (punct "," t1) (fun _ t2 =>
          pbind (pnum t2) (fun y t3 =>
            match t3 with
            | LTok _ (TP d) :: t4 =>
                if byte_eqb d "]" then POk (MLoc (V2 x y)) t4
                else if byte_eqb d "," then
                  pbind (pnum t4) (fun z t5 => pbind (punct "]" t5) (fun _ t6 =>
                  POk (MPoint (PVal (V3 x y z) (mkloc l))) t6))
                else fail t3
            | _ => fail t3
            end)))
        else fail ts
    | _ => fail ts
    end.

  (** parser.y:128-140 arg *)
  Definition parse_arg (ts : list ltok) : pres meta :=
    match ts with
    | LTok l (TId n) :: r =>
        pbind (punct "=" r) (fun _ t1 =>
        pbind (parse_value t1) (fun v t2 => POk (Meta n v (mkloc l)) t2))
    | LTok l (TP c) :: r =>
        if byte_eqb c "@"
        then pbind (parse_location r) (fun v t => POk (Meta (B "@") (MLoc v) (mkloc l)) t)
        else fail ts
    | _ => fail ts
    end.

  (** parser.y:204-206 dim_parts, the part after the first arg *)
  Fixpoint parse_more_args (fuel : nat) (acc : list meta) (ts : list ltok) : pres (list meta) :=
    match fuel with
    | O => PFail (PDead (AUB "fuel"))
    | S fuel' =>
        match ts with
        | LTok _ (TP c) :: r =>
            if byte_eqb c ","
            then pbind (parse_arg r) (fun a t => parse_more_args fuel' (acc ++ [a]) t)
            else POk acc ts
        | _ => POk acc ts
        end
    end.

  (** '(' ')' ';'  or  '(' dim_parts ')' ';' *)
  Definition parse_dim_args (fuel : nat) (ts : list ltok) : pres (list meta) :=
    pbind (punct "(" ts) (fun _ t0 =>
      let fin ml t := pbind (punct ")" t) (fun _ t2 => pbind (punct ";" t2) (fun _ t3 => POk ml t3)) in
      match t0 with
      | LTok _ (TP c) :: _ =>
          if byte_eqb c ")" then fin [] t0
          else pbind (parse_arg t0) (fun a t1 => pbind (parse_more_args fuel [a] t1) fin)
      | _ => pbind (parse_arg t0) (fun a t1 => pbind (parse_more_args fuel [a] t1) fin)
      end).

  Definition dkind_of_kw (n : nat) : option dkind :=
    match n with 0 => Some KAngle | 1 => Some KDia | 2 => Some KDim | 6 => Some KRad | _ => None end.

  (** arg ';' *)
  Definition parse_arg_semi (ts : list ltok) : pres meta :=
    pbind (parse_arg ts) (fun a t => pbind (punct ";" t) (fun _ t' => POk a t')).

  (** parser.y:152-196 draw_parts, up to the closing '}' *)
  Fixpoint parse_draw_parts (fuel : nat) (ml : list meta) (ds : list dim) (ts : list ltok)
    : pres (list meta * list dim) :=
    match fuel with
    | O => PFail (PDead (AUB "fuel"))
    | S fuel' =>
        match ts with
        | LTok l (TKw n) :: r =>
            match dkind_of_kw n with
            | Some k =>
                pbind (parse_dim_args fuel' r) (fun m t =>
                parse_draw_parts fuel' ml (ds ++ [Dim k (mkloc l) m]) t)
            | None => fail ts
            end
        | LTok _ (TP c) :: r =>
            if byte_eqb c "}" then POk (ml, ds) r
            else pbind (parse_arg_semi ts) (fun a t => parse_draw_parts fuel' (ml ++ [a]) ds t)
        | _ => pbind (parse_arg_semi ts) (fun a t => parse_draw_parts fuel' (ml ++ [a]) ds t)
        end
    end.

  (** parser.y:198-202 text_parts, up to the closing '}' *)
  Fixpoint parse_text_parts (fuel : nat) (ml : list meta) (ts : list ltok) : pres (list meta) :=
    match fuel with
    | O => PFail (PDead (AUB "fuel"))
    | S fuel' =>
        match ts with
        | LTok _ (TP c) :: r =>
            if byte_eqb c "}" then POk ml r
            else pbind (parse_arg_semi ts) (fun a t => parse_text_parts fuel' (ml ++ [a]) t)
        | _ => pbind (parse_arg_semi ts) (fun a t => parse_text_parts fuel' (ml ++ [a]) t)
        end
    end.

  (** parser.y:142-150 page_parts, up to the closing '}' *)
  Fixpoint parse_page_parts (fuel : nat) (ml : list meta) (ds : list drawable) (ts : list ltok)
    : pres (list meta * list drawable) :=
    match fuel with
    | O => PFail (PDead (AUB "fuel"))
    | S fuel' =>
        match ts with
        | LTok _ (TKw 3) :: r =>
            match r with
            | LTok l (TId n) :: r1 =>
                pbind (punct "{" r1) (fun _ t1 =>
                pbind (parse_draw_parts fuel' [] [] t1) (fun md t2 =>
                parse_page_parts fuel' ml (ds ++ [DDraw (mkloc l) n (fst md) (snd md)]) t2))
            | _ => fail r
            end
        | LTok l (TKw 7) :: r =>
            pbind (punct "[" r) (fun _ t1 =>
            pbind (parse_string_lit t1) (fun s t2 =>
            pbind (punct "]" t2) (fun _ t3 =>
            pbind (punct "{" t3) (fun _ t4 =>
            pbind (parse_text_parts fuel' [] t4) (fun m t5 =>
            parse_page_parts fuel' ml (ds ++ [DText (mkloc l) s m]) t5)))))
        | LTok _ (TP c) :: r =>
            if byte_eqb c "}" then POk (ml, ds) r
            else pbind (parse_arg_semi ts) (fun a t => parse_page_parts fuel' (ml ++ [a]) ds t)
        | _ => pbind (parse_arg_semi ts) (fun a t => parse_page_parts fuel' (ml ++ [a]) ds t)
        end
    end.

  (** parser.y:118-123 model and page *)
  Definition parse_model (ts : list ltok) : pres model :=
    match ts with
    | LTok l (TKw 4) :: LTok _ (TId n) :: r =>
        pbind (punct "=" r) (fun _ t1 =>
          match t1 with
          | LTok _ (TStr s) :: t2 =>
              pbind (punct ";" t2) (fun _ t3 => POk (Model n s (mkloc l)) t3)
          | _ => fail t1
          end)
    | LTok l (TKw 4) :: r => fail r
    | _ => fail ts
    end.
  Definition parse_page (fuel : nat) (ts : list ltok) : pres page :=
    match ts with
    | LTok l (TKw 5) :: r =>
        pbind (punct "{" r) (fun _ t1 =>
        pbind (parse_page_parts fuel [] [] t1) (fun md t2 => POk (Page (mkloc l) (fst md) (snd md)) t2))
    | _ => fail ts
    end.

  (** parser.y:113-116 input: items are added to the document as they are
      completed, so an error leaves the items before it in the document. *)
  Fixpoint parse_input (fuel : nat) (d : document) (ts : list ltok) : document * option perr :=
    match fuel with
    | O => (d, Some (PDead (AUB "fuel")))
    | S fuel' =>
        match ts with
        | [] => (d, None)
        | LTok _ (TKw 4) :: _ =>
            match parse_model ts with
            | POk m r => parse_input fuel' (Doc (doc_models d ++ [m]) (doc_pages d)) r
            | PFail e => (d, Some e)
            end
        | LTok _ (TKw 5) :: _ =>
            match parse_page fuel' ts with
            | POk p r => parse_input fuel' (Doc (doc_models d) (doc_pages d ++ [p])) r
            | PFail e => (d, Some e)
            end
        | _ => (d, Some (stop ts))
        end
    end.
End Parser.
Arguments POk {A X} x rest.
Arguments PFail {A X} e.

(** parser.cc:49-71  Parse: return code, document, diagnostics. *)
Definition parse {A : Arith} {E : Env} (filename contents : bytes)
  : outcome (nat * document * list diag) :=
  do! ts <- tokens contents;
  match parse_input filename (1 + count_lf contents) (S (length ts)) (Doc [] []) ts with
  | (d, None) => Ret (0, d, [])
  | (d, Some (PSyntax l m)) => Ret (1, d, [DParse (Loc filename l) m])
  | (_, Some (PDead e)) => Abort e
  end.
