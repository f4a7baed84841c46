(** LalrSpec.v - specification: what an LALR(1) table of a grammar has to say
    (Aho, Sethi and Ullman, 4.7): which items are valid after which symbols, and
    with which next tokens. *)
From Coq Require Import List Arith.
From Verif Require Import Lalr.
Import ListNotations.

Local Unset Implicit Arguments.

Section Spec.
  Variable g : grammar.
  (** w can be rewritten into w'. *)
  Inductive derives : list sym -> list sym -> Prop :=
  | derives_refl w : derives w w
  | derives_step u n p r v w : nth_error g p = Some (n, r) -> derives (u ++ r ++ v) w -> derives (u ++ N n :: v) w.
  (** Something w stands for starts with the token t. *)
  Definition starts (w : list sym) (t : nat) : Prop := exists v, derives w (T t :: v).
  Definition tail_of (la : option nat) : list sym := match la with Some t => [T t] | None => [] end.
  (** After the symbols d the parser may be in production p, k symbols of which have been
      read, and la may follow the production: the LR(1) items valid for d. *)
  Inductive valid : list sym -> item -> option nat -> Prop :=
  | valid_start : valid [] (0, 0) None
  | valid_inner d p k la m r n p' r' t : valid d (p, k) la -> nth_error g p = Some (m, r) -> nth_error r k = Some (N n) -> nth_error g p' = Some (n, r') ->
      starts (skipn (S k) r ++ tail_of la) t -> valid d (p', 0) (Some t)
  | valid_shift d p k la m r x : valid d (p, k) la -> nth_error g p = Some (m, r) -> nth_error r k = Some x -> valid (d ++ [x]) (p, S k) la.

  (** The tables lead from the first state to state q. *)
  Variable t : list row.
  Inductive leads : list sym -> nat -> Prop :=
  | leads_nil : leads [] 0
  | leads_shift d q r n q' : leads d q -> nth_error t q = Some r -> In (n, q') (shifts r) -> leads (d ++ [T n]) q'
  | leads_goto d q r n q' : leads d q -> nth_error t q = Some r -> In (n, q') (gotos r) -> leads (d ++ [N n]) q'.
  (** State q may reduce by production p before token n. *)
  Definition may_reduce (q p n : nat) : Prop := exists r la, nth_error t q = Some r /\ In (p, la) (reds r) /\ In n la.
  (** p has been read completely. *)
  Definition complete (p : nat) : item := (p, match nth_error g p with Some (_, r) => length r | None => 0 end).
End Spec.
