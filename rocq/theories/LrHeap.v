(** LrHeap.v - the objects the generated parser creates, passes on and deletes.

    Objects are numbered in the order of their creation.  Counted are the objects that the
    scanner (lexer.l: new std::string, NewQuote) and the actions of parser.y create with
    [new] and make_unique; what the containers and strings allocate themselves is theirs. *)
From Verif Require Import Base Num Env Ast Lexer Parser Lalr LrParser.

(** What an action does to the object of $i: nothing ($i has none), makes it $$ or a part of
    $$, deletes it, moves its contents to $$ and deletes it, or moves its contents to the
    document and deletes it. *)
Inductive fate := Plain | Keep | Delete | Empty | Give.
(** The fates of $1 .. $n; whether $$ is a new object; whether a new object becomes a part of $$. *)
Record rule := Rule { fates : list fate; newly : bool; inner : bool }.
(** parser.y:106-206 with the constructors of ast.h: std::unique_ptr parameters delete their
    object when the constructor returns, after its contents have been moved (ast.h:129-130,
    154-171, 189-197, 264-265, 326-329, 338-339, 366-369; ast.cc:179-185). *)
Definition rules : list rule := [
  Rule [Plain; Plain] false false;
  (* location *) Rule [Plain; Plain; Plain; Plain; Plain] true false;
  (* point *) Rule [Plain; Plain; Plain; Plain; Plain; Plain; Plain] true false; Rule [Delete; Plain; Keep; Plain] true false;
  (* input *) Rule [Plain; Give] false false; Rule [Plain; Give] false false; Rule [] false false;
  (* model, page *) Rule [Plain; Delete; Plain; Delete; Plain] true false; Rule [Plain; Plain; Empty; Plain] true false;
  (* string_lit *) Rule [Keep; Delete] false false; Rule [Keep] false false;
  (* arg *) Rule [Delete; Plain; Delete] true false; Rule [Delete; Plain; Keep] true false; Rule [Delete; Plain; Plain] true false; Rule [Delete; Plain; Delete] true false;
    Rule [Delete; Plain; Plain; Plain; Plain] true false; Rule [Plain; Delete] true false;
  (* page_parts *) Rule [Keep; Keep; Plain] false false; Rule [Keep; Plain; Delete; Plain; Empty; Plain] false true;
    Rule [Keep; Plain; Plain; Delete; Plain; Plain; Empty; Plain] false true; Rule [] true false;
  (* draw_parts *) Rule [Keep; Keep; Plain] false false;
    Rule [Keep; Plain; Plain; Plain; Plain] false true; Rule [Keep; Plain; Plain; Empty; Plain; Plain] false true;
    Rule [Keep; Plain; Plain; Plain; Plain] false true; Rule [Keep; Plain; Plain; Empty; Plain; Plain] false true;
    Rule [Keep; Plain; Plain; Plain; Plain] false true; Rule [Keep; Plain; Plain; Empty; Plain; Plain] false true;
    Rule [Keep; Plain; Plain; Plain; Plain] false true; Rule [Keep; Plain; Plain; Empty; Plain; Plain] false true;
    Rule [] true false;
  (* text_parts *) Rule [Keep; Keep; Plain] false false; Rule [] true false;
  (* dim_parts *) Rule [Keep; Plain; Keep] false false; Rule [Keep] true false ].
Definition rule_of (p : nat) : rule := nth p rules (Rule [] false false).
(** %destructor (parser.y:86-88): symbols with a type other than <fp> and <doc> (parser.y:67-68, 90-100). *)
Definition destroyed (x : sym) : bool :=
  match x with
  | T n => (n =? tID) || (n =? tSTR)
  | N n => negb (n =? nInput) && negb (n =? nAccept)
  end.
(** The symbol of a state (yystos_). *)
Definition transitions (r : row) : list (sym * nat) := map (fun e => (T (fst e), snd e)) (shifts r) ++ map (fun e => (N (fst e), snd e)) (gotos r).
Definition symbols_of : list (option sym) := Eval vm_compute in
  map (fun q => option_map fst (find (fun e => snd e =? q) (flat_map transitions the_tables))) (seq 0 (length the_tables)).
Definition symbol_of (q : nat) : option sym := nth q symbols_of None.

(** Objects: the first of a list is the object of the value, the others belong to it. *)
Fixpoint settle_fates (fs : list fate) (os : list (list nat)) : list nat * list nat * list nat :=
  match fs, os with
  | f :: fs, o :: os =>
      let '(k, x, g) := settle_fates fs os in
      match f with
      | Plain => (k, x, g)
      | Keep => (o ++ k, x, g)
      | Delete => (k, o ++ x, g)
      | Empty => match o with a :: o => (o ++ k, a :: x, g) | [] => (k, x, g) end
      | Give => match o with a :: o => (k, a :: x, o ++ g) | [] => (k, x, g) end
      end
  | _, _ => ([], [], [])
  end.

Section Heap.
  Context {A : Arith} {E : Env}.
  Variable file : bytes.
  Variable eof_line : nat.
  (** Entries of the stack with their objects; the objects of the lookahead that has been read;
      the number of objects created; those deleted; those in the document. *)
  Record store := Store { made : nat; gone : list nat; kept : list nat }.
  Inductive hconf :=
  | HConf (stk : list (nat * sval * list nat)) (la : option (list nat)) (ts : list ltok) (d : document) (h : store)
  | HDone (d : document) (e : option perr) (h : store).
  (** lalr1.cc, yyreturn and the handler of exceptions: the lookahead and the stack are destroyed. *)
  Definition cleared (stk : list (nat * sval * list nat)) : list nat :=
    flat_map (fun e => match symbol_of (fst (fst e)) with Some x => if destroyed x then snd e else [] | None => [] end) stk.
  Definition finish (stk : list (nat * sval * list nat)) (la : list nat) (d : document) (e : option perr) (h : store) : hconf :=
    HDone d e (Store (made h) (gone h ++ la ++ cleared stk) (kept h)).
  Definition hreduce (p : nat) (stk : list (nat * sval * list nat)) (la : option (list nat)) (ts : list ltok) (d : document) (h : store) : hconf :=
    let n := length (rhs the_grammar p) in
    match act file p (rev (map (fun e => snd (fst e)) (firstn n stk))) d with
    | Abort e => HDone d (Some (PDead e)) h
    | Ret (v, d') =>
        match skipn n stk with
        | (q, w, o) :: r =>
            match lookup (lhs the_grammar p) (gotos (row_of q)) with
            | Some q' =>
                let '(k, x, g) := settle_fates (fates (rule_of p)) (rev (map snd (firstn n stk))) in
                let k1 := if newly (rule_of p) then [made h] else [] in
                let k2 := if inner (rule_of p) then [made h] else [] in
                HConf ((q', v, k1 ++ k ++ k2) :: (q, w, o) :: r) la ts d' (Store (made h + length k1 + length k2) (gone h ++ x) (kept h ++ g))
            | None => HDone d (Some (PDead (AUB "parser tables"))) h
            end
        | [] => HDone d (Some (PDead (AUB "parser tables"))) h
        end
    end.
  (** yylex: identifiers and strings create one std::string each. *)
  Definition read (ts : list ltok) (h : store) : list nat * store :=
    match ts with
    | LTok _ (TId _) :: _ | LTok _ (TStr _) :: _ => ([made h], Store (S (made h)) (gone h) (kept h))
    | _ => ([], h)
    end.
  (** [LrParser.step] with the objects. *)
  Definition hstep (c : hconf) : hconf :=
    match c with
    | HDone _ _ _ => c
    | HConf [] la ts d h => HDone d (Some (PDead (AUB "parser tables"))) h
    | HConf (((q, _, _) :: _) as stk) la ts d h =>
        if q =? final then finish stk (match la with Some o => o | None => [] end) d None h
        else match consistent (row_of q), default (row_of q) with
        | true, Some p => hreduce p stk la ts d h
        | _, _ =>
            let '(o, h) := match la with Some o => (o, h) | None => read ts h end in
            match ts with
            | LTok _ TThrow :: _ | LTok _ (TErr _) :: _ => finish stk o d (Some (stop eof_line ts)) h
            | _ => match action (row_of q) (match ts with [] => 0 | t :: _ => code (t_tok t) end) with
                   | Shift q' => match ts with [] => HConf ((q', VNone, o) :: stk) None [] d h | t :: r => HConf ((q', VTok t, o) :: stk) None r d h end
                   | Reduce p => hreduce p stk (Some o) ts d h
                   | Error => finish stk o d (Some (stop eof_line ts)) h
                   end
            end
        end
    end.
  Definition hstart (ts : list ltok) : hconf := HConf [(0, VNone, [])] None ts (Doc [] []) (Store 0 [] []).
  (** yyparse ends like this, with these objects. *)
  Definition hruns (ts : list ltok) (d : document) (e : option perr) (h : store) : Prop := exists n, iter n hstep (hstart ts) = HDone d e h.
End Heap.
