(** P_LrSharp.v - scripts for which the parser takes two steps per token. *)
From Coq Require Import ZArith.
From Verif Require Import Base Num Env Ast Lexer Parser Lalr LrParser StackSpec P_Lr P_LrDepth P_LrTime.
Local Unset Implicit Arguments.

Section Sharp.
  Context {A : Arith}.
  Variable file : bytes.
  Variable eof : nat.
  Notation step := (LrParser.step file eof).
  (** page { t = "a" "a" ... "a"; } with n + 1 strings *)
  Definition tail_of (n : nat) : list ltok := repeat (LTok 1 (TStr (B "a"))) n ++ map (LTok 1) [TP ";"%char; TP "}"%char].
  Definition long_title (n : nat) : list ltok := map (LTok 1) [TKw 5; TP "{"%char; TId (B "t"); TP "="%char; TStr (B "a")] ++ tail_of n.
  Lemma long_length n : length (long_title n) = n + 7.
  Proof. unfold long_title, tail_of. rewrite !app_length, repeat_length. cbn [map length]. lia. Qed.
  Definition in_title (stk : list (nat * sval)) (q : nat) : Prop :=
    (forall k s d, iter 2 step (Conf ((q, VStr s) :: stk) (tail_of (S k)) d) = Conf ((q, VStr (s ++ B "a")) :: stk) (tail_of k) d) /\
    forall s d, (exists stk' r d', iter 7 step (Conf ((q, VStr s) :: stk) (tail_of 0) d) = Conf stk' r d') /\ exists d', iter 8 step (Conf ((q, VStr s) :: stk) (tail_of 0) d) = Done d' None.
  Lemma title_start n : exists q stk s d, iter 8 step (Conf [(0, VNone)] (long_title n) (Doc [] [])) = Conf ((q, VStr s) :: stk) (tail_of n) d /\ in_title stk q.
  Proof.
    destruct n as [|n]; (do 4 eexists; split; [vm_compute; reflexivity|]); (split; [intros k s d; unfold tail_of; cbn [repeat app]; generalize (repeat (LTok 1 (TStr (B "a"))) k ++ map (LTok 1) [TP ";"%char; TP "}"%char]); intro r; vm_compute; reflexivity|]);
      (intros s d; split; [do 3 eexists; vm_compute; reflexivity|eexists; vm_compute; reflexivity]).
  Qed.
  Lemma title_goes_on stk q : in_title stk q -> forall n s d, exists s', iter (2 * n) step (Conf ((q, VStr s) :: stk) (tail_of n) d) = Conf ((q, VStr s') :: stk) (tail_of 0) d.
  Proof.
    intros [H _]. induction n as [|n IH]; intros s d; [exists s; reflexivity|]. destruct (IH (s ++ B "a") d) as [s' E]. exists s'. replace (2 * S n) with (2 + 2 * n) by lia. rewrite iter_add, H. exact E.
  Qed.
  Lemma sharp n : exists ts d, length ts = n + 7 /\ (exists stk r d', iter (2 * length ts + 1) step (Conf [(0, VNone)] ts (Doc [] [])) = Conf stk r d') /\
    iter (2 * length ts + 2) step (Conf [(0, VNone)] ts (Doc [] [])) = Done d None.
  Proof.
    destruct (title_start n) as (q & stk & s & d & E1 & IT). destruct (title_goes_on stk q IT n s d) as [s' E2]. destruct IT as [_ IT]. destruct (IT s' d) as ((stk' & r & d1 & E3) & d2 & E4).
    exists (long_title n), d2. split; [apply long_length|]. rewrite long_length.
    replace (2 * (n + 7) + 1) with (8 + (2 * n + 7)) by lia. replace (2 * (n + 7) + 2) with (8 + (2 * n + 8)) by lia. rewrite !(iter_add _ 8), E1, !(iter_add _ (2 * n)), E2.
    split; [exists stk', r, d1; exact E3|exact E4].
  Qed.
End Sharp.
