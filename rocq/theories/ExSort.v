(** ExSort.v - another implementation of std::sort for the Examples. *)
From Coq Require Import Permutation Sorted.
From Verif Require Import Base P_Base.

Local Unset Implicit Arguments.
Lemma backwards_ok T (lt : T -> T -> bool) l : strict_weak lt l = true -> Permutation (sort lt (rev l)) l /\ StronglySorted (fun a b => lt b a = false) (sort lt (rev l)).
Proof.
  intro H. apply strict_weak_iff in H. split; [eapply perm_trans; [apply sort_perm|apply Permutation_sym, Permutation_rev]|].
  apply (sort_sorted H). rewrite Forall_forall. intros x Hx. apply in_rev. exact Hx.
Qed.
Definition backwards : sorter := Sorter (fun T lt l => sort lt (rev l)) backwards_ok.
Lemma backwards_differs : srun backwards (fun a b : nat * nat => Nat.ltb (fst a) (fst b)) [(1, 1); (1, 2); (0, 3)]%nat <> srun stable (fun a b => Nat.ltb (fst a) (fst b)) [(1, 1); (1, 2); (0, 3)]%nat.
Proof. discriminate. Qed.
