(** P_Text.v - what the rules for numbers as text imply. *)
From Coq Require Import Reals ZArith Lra Lia.
From Flocq Require Import Core IEEE754.BinarySingleNaN.
From Verif Require Import Base Num NumF64 NumReal Env LangSpec DocSpec TextSpec P_Base.

Local Unset Implicit Arguments.
Local Open Scope R_scope.

(** ** Powers of ten *)
Definition r10 : radix := Build_radix 10 eq_refl.
Lemma ten_bpow e : ten e = bpow r10 e.
Proof. unfold ten. rewrite bpow_powerRZ. reflexivity. Qed.
Lemma ten_pos e : 0 < ten e.
Proof. rewrite ten_bpow. apply bpow_gt_0. Qed.
Lemma ten_add a b : ten (a + b) = ten a * ten b.
Proof. rewrite !ten_bpow. apply bpow_plus. Qed.
Lemma ten_inv e : ten e * ten (- e) = 1.
Proof. rewrite <- ten_add, Z.add_opp_diag_r. reflexivity. Qed.
Lemma ten_Z n : (0 <= n)%Z -> ten n = IZR (10 ^ n).
Proof. intro H. rewrite ten_bpow. symmetry. exact (IZR_Zpower r10 n H). Qed.

(** ** Nearest decimals *)
Lemma near_int r e : exists z : Z, Rabs (IZR z * ten (- e) - r) <= / 2 * ten (- e).
Proof.
  exists (ZnearestE (r * ten e)). pose proof (Znearest_half (fun x => negb (Z.even x)) (r * ten e)) as H. rewrite Rabs_minus_sym in H.
  replace (IZR (ZnearestE (r * ten e)) * ten (- e) - r) with ((IZR (ZnearestE (r * ten e)) - r * ten e) * ten (- e)).
  - rewrite Rabs_mult, (Rabs_pos_eq (ten (- e))) by (apply Rlt_le, ten_pos). apply Rmult_le_compat_r; [apply Rlt_le, ten_pos|exact H].
  - rewrite Rmult_minus_distr_r, Rmult_assoc, ten_inv. ring.
Qed.
Lemma nearest_places n r q : nearest (places n) r q -> Rabs (q - r) <= / 2 * ten (- Z.of_nat n).
Proof. intros [_ H]. destruct (near_int r (Z.of_nat n)) as [z Hz]. eapply Rle_trans; [|exact Hz]. apply H. exists z. reflexivity. Qed.
Lemma nearest_figures n r q : (0 < n)%nat -> nearest (figures n) r q -> Rabs (q - r) <= / 2 * ten (1 - Z.of_nat n) * Rabs r.
Proof.
  intros N [_ H]. destruct (Req_dec r 0) as [->|NZ].
  { rewrite Rabs_R0, Rmult_0_r. eapply Rle_trans; [apply (H 0)|rewrite Rminus_0_r, Rabs_R0; lra].
    exists 0%Z, 0%Z. split; [apply Z.pow_pos_nonneg; lia|]. rewrite Rmult_0_l. reflexivity. }
  destruct (mag r10 r) as [e He]. specialize (He NZ). rewrite <- !ten_bpow in He. destruct (near_int r (Z.of_nat n - e)) as [z Hz].
  assert (K : / 2 * ten (- (Z.of_nat n - e)) <= / 2 * ten (1 - Z.of_nat n) * Rabs r).
  { rewrite Rmult_assoc. apply Rmult_le_compat_l; [lra|]. replace (- (Z.of_nat n - e))%Z with ((1 - Z.of_nat n) + (e - 1))%Z by lia. rewrite ten_add.
    apply Rmult_le_compat_l; [apply Rlt_le, ten_pos|apply He]. }
  eapply Rle_trans; [|exact K]. eapply Rle_trans; [|exact Hz]. apply H.
  assert (Z1 : (Z.abs z <= 10 ^ Z.of_nat n)%Z).
  { assert (IZR (Z.abs z) < IZR (10 ^ Z.of_nat n) + 1); [|rewrite <- plus_IZR in *; apply lt_IZR in H0; lia].
    rewrite abs_IZR, <- ten_Z by lia.
    apply (Rmult_lt_reg_r (ten (- (Z.of_nat n - e)))); [apply ten_pos|]. rewrite <- (Rabs_pos_eq (ten (- (Z.of_nat n - e)))) at 1 by (apply Rlt_le, ten_pos). rewrite <- Rabs_mult.
    assert (ten (Z.of_nat n) * ten (- (Z.of_nat n - e)) = ten e) by (rewrite <- ten_add; f_equal; lia).
    pose proof (ten_pos (- (Z.of_nat n - e))) as TP. apply Rabs_def2b in Hz || idtac.
    assert (Rabs (IZR z * ten (- (Z.of_nat n - e))) <= Rabs r + / 2 * ten (- (Z.of_nat n - e))).
    { replace (IZR z * ten (- (Z.of_nat n - e))) with (r + (IZR z * ten (- (Z.of_nat n - e)) - r)) by ring. eapply Rle_trans; [apply Rabs_triang|]. lra. }
    destruct He as [_ He]. rewrite Rmult_plus_distr_r, H0. lra. }
  destruct (Z.eq_dec (Z.abs z) (10 ^ Z.of_nat n)) as [Q|Q].
  - assert (exists y, z = (10 * y)%Z /\ (Z.abs y < 10 ^ Z.of_nat n)%Z) as (y & -> & Hy).
    { destruct n as [|n]; [lia|]. rewrite Nat2Z.inj_succ, Z.pow_succ_r in * by lia. pose proof (Z.pow_pos_nonneg 10 (Z.of_nat n) ltac:(lia) ltac:(lia)).
      destruct (Z.abs_eq_or_opp z) as [E|E]; rewrite E in Q; [exists (10 ^ Z.of_nat n)%Z|exists (- 10 ^ Z.of_nat n)%Z]; split; lia. }
    exists y, (1 + - (Z.of_nat n - e))%Z. split; [exact Hy|]. rewrite ten_add, mult_IZR. replace (ten 1) with 10 by (unfold ten; simpl; ring). ring.
  - exists z, (- (Z.of_nat n - e))%Z. split; [lia|reflexivity].
Qed.
Lemma six_figures r q : nearest (figures 6) r q -> Rabs (q - r) <= 5 / 1000000 * Rabs r.
Proof. intro H. eapply Rle_trans; [exact (nearest_figures 6 r q ltac:(lia) H)|]. change (1 - Z.of_nat 6)%Z with (-5)%Z. apply Rmult_le_compat_r; [apply Rabs_pos|]. unfold ten. simpl. lra. Qed.
