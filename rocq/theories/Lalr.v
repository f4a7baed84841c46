(** Lalr.v - the LALR(1) tables of a grammar, as bison computes them.

    The states are the sets of LR(0) items; the lookaheads are the least sets closed under
    propagation (bison manual, "Parser Algorithm" and "LR Table Construction").  A state with
    reductions takes the one with most lookaheads as its default, which is also taken on a token
    without any action ("Default Reductions"); a state whose only action is its default does
    not read a token at all. *)
From Coq Require Import List Arith Bool.
Import ListNotations.

(** Terminals and nonterminals are numbers; terminal 0 is the end of the input, nonterminal 0 is
    $accept, whose production is the first one. *)
Inductive sym := T (n : nat) | N (n : nat).
Definition sym_eqb (a b : sym) : bool := match a, b with T m, T n => m =? n | N m, N n => m =? n | _, _ => false end.
Definition grammar := list (nat * list sym).
(** A production and how many symbols of its right hand side have been read. *)
Definition item := (nat * nat)%type.
Definition item_eqb (a b : item) : bool := (fst a =? fst b) && (snd a =? snd b).
Definition item_ltb (a b : item) : bool := (fst a <? fst b) || ((fst a =? fst b) && (snd a <? snd b)).
Fixpoint insert (i : item) (l : list item) : list item :=
  match l with [] => [i] | j :: r => if item_eqb i j then l else if item_ltb i j then i :: l else j :: insert i r end.
Definition mem (n : nat) (l : list nat) : bool := existsb (Nat.eqb n) l.
Definition union (l r : list nat) : list nat := fold_left (fun acc n => if mem n acc then acc else acc ++ [n]) r l.

Section Tables.
  Variable g : grammar.
  Definition rhs (p : nat) : list sym := snd (nth p g (0, [])).
  Definition lhs (p : nat) : nat := fst (nth p g (0, [])).
  Definition next (i : item) : option sym := nth_error (rhs (fst i)) (snd i).
  Definition of_nonterm (n : nat) : list nat := filter (fun p => lhs p =? n) (seq 0 (length g)).
  (** ** LR(0) states, each as the sorted list of its kernel items *)
  Definition closure_step (l : list item) : list item :=
    fold_left (fun acc i => match next i with Some (N n) => fold_left (fun acc p => insert (p, 0) acc) (of_nonterm n) acc | _ => acc end) l l.
  Fixpoint iter {X} (n : nat) (f : X -> X) (x : X) : X := match n with 0 => x | S n => iter n f (f x) end.
  Definition closure (k : list item) : list item := iter (length g) closure_step k.
  Definition goto_kernel (k : list item) (x : sym) : list item :=
    fold_left (fun acc i => match next i with Some y => if sym_eqb x y then insert (fst i, S (snd i)) acc else acc | None => acc end) (closure k) [].
  Fixpoint kernel_eqb (a b : list item) : bool :=
    match a, b with [], [] => true | x :: a, y :: b => item_eqb x y && kernel_eqb a b | _, _ => false end.
  Fixpoint index_of (k : list item) (l : list (list item)) : option nat :=
    match l with [] => None | x :: r => if kernel_eqb k x then Some 0 else option_map S (index_of k r) end.
  Definition nexts (k : list item) : list sym :=
    fold_left (fun acc i => match next i with Some x => if existsb (sym_eqb x) acc then acc else acc ++ [x] | None => acc end) (closure k) [].
  (** States in the order in which they are found. *)
  Fixpoint explore (fuel done : nat) (l : list (list item)) : list (list item) :=
    match fuel with
    | 0 => l
    | S fuel => match nth_error l done with
                | None => l
                | Some k => explore fuel (S done) (fold_left (fun acc x => let k' := goto_kernel k x in if index_of k' acc then acc else acc ++ [k']) (nexts k) l)
                end
    end.
  Definition states (fuel : nat) : list (list item) := explore fuel 0 [[(0, 0)]].
  (** ** Nullable nonterminals and first terminals *)
  Definition nullable_step (l : list nat) : list nat :=
    union l (map fst (filter (fun p => forallb (fun s => match s with N n => mem n l | T _ => false end) (snd p)) g)).
  Definition nullables : list nat := iter (length g) nullable_step [].
  Fixpoint first_of (nl : list nat) (fs : list (list nat)) (w : list sym) : list nat * bool :=
    match w with
    | [] => ([], true)
    | T n :: _ => ([n], false)
    | N n :: r => if mem n nl then let '(f, e) := first_of nl fs r in (union (nth n fs []) f, e) else (nth n fs [], false)
    end.
  Definition first_step (nl : list nat) (fs : list (list nat)) : list (list nat) :=
    map (fun n => fold_left (fun acc p => if fst p =? n then union acc (fst (first_of nl fs (snd p))) else acc) g (nth n fs [])) (seq 0 (length fs)).
  Definition firsts (nterms : nat) : list (list nat) := iter (length g) (first_step nullables) (repeat [] nterms).
  (** ** Lookaheads: for each state the items of its closure with the terminals that may follow *)
  Definition las := list (list (item * list nat)).
  Definition add_la (q : nat) (i : item) (ts : list nat) (l : las) : las :=
    map (fun qs => if fst qs =? q then map (fun e => if item_eqb (fst e) i then (fst e, union (snd e) ts) else e) (snd qs) else snd qs)
      (combine (seq 0 (length l)) l).
  Definition la_step (nl : list nat) (fs : list (list nat)) (sts : list (list item)) (l : las) : las :=
    fold_left (fun acc q =>
      let k := nth q sts [] in
      let trans := map (fun x => (x, match index_of (goto_kernel k x) sts with Some r => r | None => 0 end)) (nexts k) in
      fold_left (fun acc i =>
        match next i with
        | None => acc
        | Some x =>
            let ts := match find (fun e => item_eqb (fst e) i) (nth q acc []) with Some e => snd e | None => [] end in
            let acc := match find (fun e => sym_eqb (fst e) x) trans with Some e => add_la (snd e) (fst i, S (snd i)) ts acc | None => acc end in
            match x with
            | T _ => acc
            | N n => let '(f, e) := first_of nl fs (skipn (S (snd i)) (rhs (fst i))) in
                     fold_left (fun acc p => add_la q (p, 0) (if e then union f ts else f) acc) (of_nonterm n) acc
            end
        end) (closure k) acc) (seq 0 (length sts)) l.
  Definition la_init (sts : list (list item)) : las := map (fun k => map (fun i => (i, [])) (closure k)) sts.
  Fixpoint size (l : las) : nat := match l with [] => 0 | r :: l => fold_left (fun n e => n + length (snd e)) r 0 + size l end.
  Fixpoint settle (fuel : nat) (f : las -> las) (l : las) : las :=
    match fuel with 0 => l | S n => let l' := f l in if size l' =? size l then l' else settle n f l' end.

  (** ** The tables *)
  Record row := Row { shifts : list (nat * nat); gotos : list (nat * nat); reds : list (nat * list nat) }.
  Definition make (nterms : nat) : list row * bool :=
    let sts := states 500 in let fs := firsts nterms in let nl := nullables in
    let l := settle 50 (la_step nl fs sts) (la_init sts) in
    (map (fun q => let k := nth q sts [] in
       let trans := map (fun x => (x, index_of (goto_kernel k x) sts)) (nexts k) in
       Row (flat_map (fun e => match e with (T n, Some r) => [(n, r)] | _ => [] end) trans)
           (flat_map (fun e => match e with (N n, Some r) => [(n, r)] | _ => [] end) trans)
           (flat_map (fun e => match next (fst e) with None => [(fst (fst e), snd e)] | Some _ => [] end) (nth q l [])))
      (seq 0 (length sts)),
     (* everything has settled: no further state, lookahead or first terminal *)
     (length sts <? 500) && (size (la_step nl fs sts l) =? size l) && forallb (fun k => forallb (fun x => match index_of (goto_kernel k x) sts with Some _ => true | None => false end) (nexts k)) sts &&
     (length (union nl (nullable_step nl)) =? length nl) && forallb (fun e => length (union (fst e) (snd e)) =? length (fst e)) (combine fs (first_step nl fs)) &&
     forallb (fun k => (length (closure_step (closure k)) =? length (closure k))) sts).
  (** Tokens on which a state would have to choose: shift and reduce, or two reductions. *)
  Fixpoint doubles (l : list nat) : list nat := match l with [] => [] | n :: r => if mem n r then n :: doubles r else doubles r end.
  Definition conflicts (t : list row) : list (nat * list nat) :=
    filter (fun e => negb (length (snd e) =? 0)) (combine (seq 0 (length t)) (map (fun r => doubles (map fst (shifts r) ++ flat_map snd (reds r))) t)).
  (** The default reduction: the one with most lookaheads, the first among equals. *)
  Definition default (r : row) : option nat :=
    option_map fst (fold_left (fun acc e => match acc with None => Some e | Some b => if length (snd b) <? length (snd e) then Some e else acc end) (reds r) None).
  (** A state that reduces without looking at the next token. *)
  Definition consistent (r : row) : bool := match shifts r, reds r with [], [_] => true | _, _ => false end.
  Definition lookup (n : nat) (l : list (nat * nat)) : option nat := option_map snd (find (fun e => fst e =? n) l).
  Inductive act := Shift (q : nat) | Reduce (p : nat) | Error.
  Definition action (r : row) (t : nat) : act :=
    match lookup t (shifts r) with
    | Some q => Shift q
    | None => match find (fun e => mem t (snd e)) (reds r) with
              | Some e => Reduce (fst e)
              | None => match default r with Some p => Reduce p | None => Error end
              end
    end.
End Tables.
