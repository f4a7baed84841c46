(** P_Err.v - rounding errors of vector operations in doubles. *)
From Coq Require Import Reals Lra ZArith Lia.
From Flocq Require Import Core IEEE754.BinarySingleNaN.
From Verif Require Import Base Num NumReal NumF64 NumLaws Geo Stl Ast F64Spec P_Bound P_Text2 TextSpec RealSpec.

Local Unset Implicit Arguments.
Local Open Scope R_scope.

Lemma bp_shift k n : (0 <= n)%Z -> bp (k + n) = IZR (2 ^ n) * bp k.
Proof. intro H. unfold bp. change (2 ^ n)%Z with (Zpower radix2 n). rewrite (IZR_Zpower radix2 n H), bpow_plus. ring. Qed.
Lemma bp_add j k : bp (j + k) = bp j * bp k.
Proof. apply bpow_plus. Qed.

(** x and r are at most 2^k, and x is within e of r *)
Definition apx (k : Z) (e : R) (x : f64) (r : R) : Prop := bnd k x /\ Rabs r <= bp k /\ Rabs (B2R x - r) <= e.
Lemma apx_exact k x : bnd k x -> apx k 0 x (B2R x).
Proof. intros H. split; [exact H|]. split; [apply H|]. rewrite Rminus_diag_eq by reflexivity. rewrite Rabs_R0. lra. Qed.
Lemma apx_weak j k e e' x r : (j <= k)%Z -> e <= e' -> apx j e x r -> apx k e' x r.
Proof. intros L LE (H1 & H2 & H3). pose proof (bp_le j k L). split; [exact (bnd_mono j k x L H1)|]. split; lra. Qed.
(** half an ulp *)
Lemma rnd_err k r : (-1000 <= k)%Z -> Rabs r <= bp k -> Rabs (rnd r - r) <= bp (k - 54).
Proof.
  intros L H. assert (V : Valid_exp (SpecFloat.fexp 53 1024)) by (apply (fexp_correct 53 1024); reflexivity).
  destruct H as [H|H].
  - eapply Rle_trans; [apply error_le_half_ulp; exact V|]. replace (k - 54)%Z with ((k - 53) + -1)%Z by ring. rewrite bp_add. change (bp (-1)) with (/ 2). rewrite Rmult_comm. apply Rmult_le_compat_r; [lra|].
    destruct (Req_dec r 0) as [->|NZ].
    + rewrite ulp_FLT_0 || idtac. unfold ulp. rewrite Req_bool_true by reflexivity.
      destruct (negligible_exp (SpecFloat.fexp 53 1024)) as [n|] eqn:NE; [|apply Rlt_le, bp_pos].
      assert (Q : SpecFloat.fexp 53 1024 n = (-1074)%Z).
      { destruct (negligible_exp_spec' (SpecFloat.fexp 53 1024)) as [[X _]|(m & X & Y)]; rewrite NE in X; [discriminate|injection X as ->]. unfold SpecFloat.fexp, SpecFloat.emin in *. lia. }
      rewrite Q. apply bpow_le. lia.
    + rewrite ulp_neq_0 by exact NZ. apply bpow_le. unfold cexp, SpecFloat.fexp, SpecFloat.emin. pose proof (mag_le_bpow radix2 r k NZ H). lia.
  - assert (G : generic_format radix2 (SpecFloat.fexp 53 1024) r).
    { assert (G0 : generic_format radix2 (SpecFloat.fexp 53 1024) (bp k)) by (apply generic_format_bpow; unfold SpecFloat.fexp, SpecFloat.emin; lia).
      unfold Rabs in H. destruct (Rcase_abs r); [replace r with (- bp k) by lra; apply generic_format_opp, G0|rewrite H; exact G0]. }
    rewrite round_generic by (apply valid_rnd_N || exact G). rewrite Rminus_diag_eq, Rabs_R0 by reflexivity. apply Rlt_le, bp_pos.
Qed.

Lemma add_val k x y : (-1000 <= k < 1000)%Z -> bnd k x -> bnd k y -> B2R (fadd x y) = rnd (B2R x + B2R y).
Proof.
  intros L [F1 B1] [F2 B2]. assert (B : Rabs (rnd (B2R x + B2R y)) <= bp (k + 1)).
  { apply rnd_bound; [lia|]. rewrite bp_S. eapply Rle_trans; [apply Rabs_triang|]. lra. }
  pose proof (Bplus_correct 53 1024 prec64 emax64 mode_NE x y F1 F2) as C. rewrite (bp_emax (k + 1)) in C by (exact B || lia). apply C.
Qed.
Lemma sub_val k x y : (-1000 <= k < 1000)%Z -> bnd k x -> bnd k y -> B2R (fsub x y) = rnd (B2R x - B2R y).
Proof.
  intros L [F1 B1] [F2 B2]. assert (B : Rabs (rnd (B2R x - B2R y)) <= bp (k + 1)).
  { apply rnd_bound; [lia|]. rewrite bp_S. unfold Rminus. eapply Rle_trans; [apply Rabs_triang|]. rewrite Rabs_Ropp. lra. }
  pose proof (Bminus_correct 53 1024 prec64 emax64 mode_NE x y F1 F2) as C. rewrite (bp_emax (k + 1)) in C by (exact B || lia). apply C.
Qed.
Lemma mul_val j k x y : (-1000 <= j + k < 1000)%Z -> bnd j x -> bnd k y -> B2R (fmul x y) = rnd (B2R x * B2R y).
Proof.
  intros L [F1 B1] [F2 B2]. assert (B : Rabs (rnd (B2R x * B2R y)) <= bp (j + k)).
  { apply rnd_bound; [lia|]. unfold bp. rewrite bpow_plus, Rabs_mult. apply Rmult_le_compat; try apply Rabs_pos; assumption. }
  pose proof (Bmult_correct 53 1024 prec64 emax64 mode_NE x y) as C. rewrite (bp_emax (j + k)) in C by (exact B || lia). apply C.
Qed.
Lemma apx_add k e1 e2 x y r s : (-1000 <= k < 1000)%Z -> apx k e1 x r -> apx k e2 y s -> apx (k + 1) (e1 + e2 + bp (k - 53)) (fadd x y) (r + s).
Proof.
  intros L (B1 & R1 & H1) (B2 & R2 & H2). split; [apply bnd_add; (lia || assumption)|]. split; [rewrite bp_S; eapply Rle_trans; [apply Rabs_triang|lra]|].
  rewrite (add_val k) by assumption. assert (X : Rabs (B2R x + B2R y) <= bp (k + 1)) by (rewrite bp_S; eapply Rle_trans; [apply Rabs_triang|]; destruct B1, B2; lra).
  pose proof (rnd_err (k + 1) _ ltac:(lia) X) as Q. replace (k + 1 - 54)%Z with (k - 53)%Z in Q by ring.
  replace (rnd (B2R x + B2R y) - (r + s)) with ((rnd (B2R x + B2R y) - (B2R x + B2R y)) + ((B2R x - r) + (B2R y - s))) by ring.
  eapply Rle_trans; [apply Rabs_triang|]. pose proof (Rabs_triang (B2R x - r) (B2R y - s)). lra.
Qed.
Lemma apx_sub k e1 e2 x y r s : (-1000 <= k < 1000)%Z -> apx k e1 x r -> apx k e2 y s -> apx (k + 1) (e1 + e2 + bp (k - 53)) (fsub x y) (r - s).
Proof.
  intros L (B1 & R1 & H1) (B2 & R2 & H2). split; [apply bnd_sub; (lia || assumption)|].
  assert (T : forall a b, Rabs (a - b) <= Rabs a + Rabs b) by (intros a b; unfold Rminus; eapply Rle_trans; [apply Rabs_triang|]; rewrite Rabs_Ropp; lra).
  split; [rewrite bp_S; eapply Rle_trans; [apply T|lra]|].
  rewrite (sub_val k) by assumption. assert (X : Rabs (B2R x - B2R y) <= bp (k + 1)) by (rewrite bp_S; eapply Rle_trans; [apply T|]; destruct B1, B2; lra).
  pose proof (rnd_err (k + 1) _ ltac:(lia) X) as Q. replace (k + 1 - 54)%Z with (k - 53)%Z in Q by ring.
  replace (rnd (B2R x - B2R y) - (r - s)) with ((rnd (B2R x - B2R y) - (B2R x - B2R y)) + ((B2R x - r) - (B2R y - s))) by ring.
  eapply Rle_trans; [apply Rabs_triang|]. pose proof (T (B2R x - r) (B2R y - s)). lra.
Qed.
Lemma apx_mul j k e1 e2 x y r s : (-1000 <= j + k < 1000)%Z -> apx j e1 x r -> apx k e2 y s -> apx (j + k) (bp j * e2 + bp k * e1 + bp (j + k - 54)) (fmul x y) (r * s).
Proof.
  intros L (B1 & R1 & H1) (B2 & R2 & H2). split; [apply bnd_mul; (lia || assumption)|].
  split; [rewrite bp_add, Rabs_mult; apply Rmult_le_compat; try apply Rabs_pos; assumption|].
  rewrite (mul_val j k) by assumption. assert (X : Rabs (B2R x * B2R y) <= bp (j + k)) by (rewrite bp_add, Rabs_mult; apply Rmult_le_compat; try apply Rabs_pos; first [apply B1|apply B2]).
  pose proof (rnd_err (j + k) _ ltac:(lia) X) as Q.
  replace (rnd (B2R x * B2R y) - r * s) with ((rnd (B2R x * B2R y) - (B2R x * B2R y)) + (B2R x * (B2R y - s) + s * (B2R x - r))) by ring.
  eapply Rle_trans; [apply Rabs_triang|]. pose proof (Rabs_triang (B2R x * (B2R y - s)) (s * (B2R x - r))) as T. rewrite !Rabs_mult in T.
  assert (Q1 : Rabs (B2R x) * Rabs (B2R y - s) <= bp j * e2) by (apply Rmult_le_compat; try apply Rabs_pos; [apply B1|exact H2]).
  assert (Q2 : Rabs s * Rabs (B2R x - r) <= bp k * e1) by (apply Rmult_le_compat; try apply Rabs_pos; assumption). lra.
Qed.
Lemma apx_neg k e x r : apx k e x r -> apx k e (fneg x) (- r).
Proof.
  intros (B & R1 & H). split; [apply bnd_neg, B|]. split; [rewrite Rabs_Ropp; exact R1|]. unfold fneg. rewrite B2R_Bopp. replace (- B2R x - - r) with (- (B2R x - r)) by ring. rewrite Rabs_Ropp. exact H.
Qed.

Section Vec.
  Context (lm : libm) (asc : bool).
  #[local] Instance AF : Arith := F64 lm asc.
  Definition apx3 (k : Z) (e : R) (p : v3) (q : rpt) : Prop := apx k e (x3 p : f64) (rx q) /\ apx k e (y3 p : f64) (ry q) /\ apx k e (z3 p : f64) (rz q).
  Definition apxm (e : R) (m : m3) (r : rmat) : Prop := apx3 0 e (row0 m) (r0 r) /\ apx3 0 e (row1 m) (r1 r) /\ apx3 0 e (row2 m) (r2 r).
  Lemma apx3_weak j k e e' p q : (j <= k)%Z -> e <= e' -> apx3 j e p q -> apx3 k e' p q.
  Proof. intros L LE (H1 & H2 & H3). split; [|split]; eapply apx_weak; eassumption. Qed.
  Lemma apx_sum3 k e1 e2 e3 (x y z : f64) r s t : (-990 <= k < 990)%Z -> apx k e1 x r -> apx k e2 y s -> apx k e3 z t -> 0 <= e1 -> 0 <= e3 ->
    apx (k + 2) (e1 + e2 + e3 + 6 * bp (k - 54)) (@sum3 AF x y z : f64) (r + s + t).
  Proof.
    intros L H1 H2 H3 P1 P3. pose proof (bp_pos (k - 54)) as U. assert (Q1 : bp (k - 53) = 2 * bp (k - 54)) by (rewrite <- bp_S; f_equal; ring). assert (Q2 : bp (k + 1 - 53) = 4 * bp (k - 54)) by (replace (k + 1 - 53)%Z with (k - 53 + 1)%Z by ring; rewrite bp_S, Q1; ring).
    change (@sum3 AF x y z : f64) with (if asc then fadd (fadd x y) z else fadd x (fadd y z)). replace (k + 2)%Z with (k + 1 + 1)%Z by ring. destruct asc.
    - eapply apx_weak; [apply Z.le_refl| |apply apx_add; [lia|apply (apx_add k); [lia|exact H1|exact H2]|eapply apx_weak; [|apply Rle_refl|exact H3]; lia]]. lra.
    - replace (r + s + t) with (r + (s + t)) by ring.
      eapply apx_weak; [apply Z.le_refl| |apply apx_add; [lia|eapply apx_weak; [|apply Rle_refl|exact H1]; lia|apply (apx_add k); [lia|exact H2|exact H3]]]. lra.
  Qed.
  Lemma apx3_add k e1 e2 p q a b : (-1000 <= k < 1000)%Z -> apx3 k e1 p a -> apx3 k e2 q b -> apx3 (k + 1) (e1 + e2 + bp (k - 53)) (add3 p q) (radd a b).
  Proof. intros L (H1 & H2 & H3) (G1 & G2 & G3). split; [|split]; apply apx_add; assumption. Qed.
  Lemma apx3_sub k e1 e2 p q a b : (-1000 <= k < 1000)%Z -> apx3 k e1 p a -> apx3 k e2 q b -> apx3 (k + 1) (e1 + e2 + bp (k - 53)) (sub3 p q) (rsub a b).
  Proof. intros L (H1 & H2 & H3) (G1 & G2 & G3). split; [|split]; apply apx_sub; assumption. Qed.
  Lemma apx3_mul j k e1 e2 p (x : f64) a r : (-1000 <= j + k < 1000)%Z -> apx3 j e1 p a -> apx k e2 x r -> apx3 (j + k) (bp j * e2 + bp k * e1 + bp (j + k - 54)) (mul3 p (x : @num AF)) (rscale r a).
  Proof.
    intros L (H1 & H2 & H3) G. split; [|split]; cbn [rscale rx ry rz]; rewrite (Rmult_comm r); apply apx_mul; assumption.
  Qed.
  Lemma apx_dot j k e1 e2 p q a b : (-980 <= j + k < 980)%Z -> 0 <= e1 -> 0 <= e2 -> apx3 j e1 p a -> apx3 k e2 q b ->
    apx (j + k + 2) (3 * (bp j * e2) + 3 * (bp k * e1) + 9 * bp (j + k - 54)) (dot3 p q : f64) (rdot a b).
  Proof.
    intros L P1 P2 (H1 & H2 & H3) (G1 & G2 & G3). pose proof (bp_pos j). pose proof (bp_pos k). pose proof (bp_pos (j + k - 54)).
    assert (P : 0 <= bp j * e2 + bp k * e1 + bp (j + k - 54)) by (assert (0 <= bp j * e2) by (apply Rmult_le_pos; lra); assert (0 <= bp k * e1) by (apply Rmult_le_pos; lra); lra).
    eapply apx_weak; [apply Z.le_refl| |apply (apx_sum3 (j + k)); [lia|apply apx_mul; [lia|exact H1|exact G1]|apply apx_mul; [lia|exact H2|exact G2]|apply apx_mul; [lia|exact H3|exact G3]|exact P|exact P]]. lra.
  Qed.
  Lemma apx_mulm k e1 e2 v a m r : (-980 <= k < 980)%Z -> 0 <= e1 -> 0 <= e2 -> apx3 k e1 v a -> apxm e2 m r -> apx3 (k + 2) (3 * (bp k * e2) + 3 * e1 + 9 * bp (k - 54)) (mulm v m) (rmul a r).
  Proof.
    intros L P1 P2 (H1 & H2 & H3) ((A1 & A2 & A3) & (B1 & B2 & B3) & (C1 & C2 & C3)). pose proof (bp_pos k). pose proof (bp_pos (k - 54)).
    assert (X : forall (x y z : f64) r s t (m1 m2 m3 : f64) n1 n2 n3, apx k e1 x r -> apx k e1 y s -> apx k e1 z t -> apx 0 e2 m1 n1 -> apx 0 e2 m2 n2 -> apx 0 e2 m3 n3 ->
      apx (k + 2) (3 * (bp k * e2) + 3 * e1 + 9 * bp (k - 54)) (@sum3 AF (fmul x m1) (fmul y m2) (fmul z m3) : f64) (r * n1 + s * n2 + t * n3)).
    { intros x y z r' s t m1 m2 m3 n1' n2' n3' X1 X2 X3 Y1 Y2 Y3. assert (M : forall (x y : f64) r s, apx k e1 x r -> apx 0 e2 y s -> apx k (bp k * e2 + e1 + bp (k - 54)) (fmul x y) (r * s)).
      { intros x' y' rr ss XX YY. replace k with (k + 0)%Z at 1 by ring. eapply apx_weak; [apply Z.le_refl| |apply apx_mul; [lia|exact XX|exact YY]]. replace (k + 0 - 54)%Z with (k - 54)%Z by ring. change (bp 0) with 1. lra. }
      assert (P : 0 <= bp k * e2 + e1 + bp (k - 54)) by (assert (0 <= bp k * e2) by (apply Rmult_le_pos; lra); lra).
      eapply apx_weak; [apply Z.le_refl| |apply (apx_sum3 k); [lia|apply M; eassumption|apply M; eassumption|apply M; eassumption|exact P|exact P]]. lra. }
    split; [|split]; cbn [mulm rmul x3 y3 z3 rx ry rz]; apply X; assumption.
  Qed.
End Vec.
