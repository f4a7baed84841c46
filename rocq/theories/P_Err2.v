(** P_Err2.v - rounding errors of lengths and unit vectors in doubles. *)
From Coq Require Import Reals Lra ZArith Lia.
From Flocq Require Import Core IEEE754.BinarySingleNaN.
From Verif Require Import Base Num NumReal NumF64 NumLaws Geo Stl Ast F64Spec P_Bound P_Text2 TextSpec P_Real P_Err RealSpec.

Local Unset Implicit Arguments.
Local Open Scope R_scope.

Definition tiny : R := / 2 ^ 1075.
Lemma tiny_pos : 0 < tiny. Proof. unfold tiny. apply Rinv_0_lt_compat, pow_lt. lra. Qed.
Lemma rnd_rel r : Rabs (rnd r - r) <= / 9007199254740992 * Rabs r + tiny.
Proof. pose proof (rnd64_error r) as H. replace (2 ^ 53) with 9007199254740992 in H by (cbn [pow]; ring). exact H. Qed.
Lemma rnd_rel_pos r : 0 <= r -> Rabs (rnd r - r) <= / 9007199254740992 * r + tiny.
Proof. intro H. pose proof (rnd_rel r) as Q. rewrite (Rabs_pos_eq r H) in Q. exact Q. Qed.
Lemma rnd_pos r : 0 <= r -> 0 <= rnd r.
Proof.
  intro H. rewrite <- (round_0 radix2 (SpecFloat.fexp 53 1024) (round_mode mode_NE)). apply round_le; [|apply valid_rnd_N|exact H].
  apply (fexp_correct 53 1024); reflexivity.
Qed.
Lemma sum_sq_err a b c (f : bool) : 0 <= a -> 0 <= b -> 0 <= c ->
  let s := if f then rnd (rnd (rnd a + rnd b) + rnd c) else rnd (rnd a + rnd (rnd b + rnd c)) in
  0 <= s /\ Rabs (s - (a + b + c)) <= / 2251799813685248 * (a + b + c) + 8 * tiny.
Proof.
  intros Ha Hb Hc s. pose proof tiny_pos as TP.
  assert (T1 : tiny <= 1) by (unfold tiny; rewrite <- Rinv_1; apply Rinv_le_contravar; [lra|]; apply pow_R1_Rle; lra).
  pose proof (rnd_rel_pos a Ha) as Qa. pose proof (rnd_rel_pos b Hb) as Qb. pose proof (rnd_rel_pos c Hc) as Qc.
  pose proof (rnd_pos a Ha) as Pa. pose proof (rnd_pos b Hb) as Pb. pose proof (rnd_pos c Hc) as Pc.
  apply Rabs_le_inv in Qa, Qb, Qc. unfold s. destruct f.
  - assert (P : 0 <= rnd a + rnd b) by lra. pose proof (rnd_rel_pos _ P) as Q. pose proof (rnd_pos _ P) as P'. apply Rabs_le_inv in Q.
    assert (PP : 0 <= rnd (rnd a + rnd b) + rnd c) by lra. pose proof (rnd_rel_pos _ PP) as QQ. pose proof (rnd_pos _ PP) as PP'. apply Rabs_le_inv in QQ.
    split; [exact PP'|]. apply Rabs_le. lra.
  - assert (P : 0 <= rnd b + rnd c) by lra. pose proof (rnd_rel_pos _ P) as Q. pose proof (rnd_pos _ P) as P'. apply Rabs_le_inv in Q.
    assert (PP : 0 <= rnd a + rnd (rnd b + rnd c)) by lra. pose proof (rnd_rel_pos _ PP) as QQ. pose proof (rnd_pos _ PP) as PP'. apply Rabs_le_inv in QQ.
    split; [exact PP'|]. apply Rabs_le. lra.
Qed.
(** Square roots of numbers that are close. *)
Lemma sqrt_err s S d h : 0 <= s -> 0 <= S -> 0 <= d <= 1 -> 0 <= h -> Rabs (s - S) <= d * S + h * h -> Rabs (sqrt s - sqrt S) <= d * sqrt S + h.
Proof.
  intros Ps PS Pd Ph H. apply Rabs_le_inv in H. pose proof (sqrt_pos S) as N. pose proof (sqrt_sqrt S PS) as Q. set (r := sqrt S) in *. apply Rabs_le.
  assert (D0 : 0 <= d * r) by (apply Rmult_le_pos; lra). split.
  - destruct (Rle_or_lt r (d * r + h)) as [L|L]; [pose proof (sqrt_pos s); lra|].
    assert (G : r - (d * r + h) <= sqrt s); [|lra]. rewrite <- (sqrt_Rsqr (r - (d * r + h))) by lra. apply sqrt_le_1_alt. unfold Rsqr.
    assert (X : (r - (d * r + h)) * (r - (d * r + h)) <= (r - (d * r + h)) * r) by (apply Rmult_le_compat_l; lra).
    assert (Y : h * h <= h * r) by (apply Rmult_le_compat_l; lra). assert (Z : d * r * r = d * S) by (rewrite Rmult_assoc, Q; reflexivity). nra.
  - assert (G : sqrt s <= r + (d * r + h)); [|lra]. rewrite <- (sqrt_Rsqr (r + (d * r + h))) by lra. apply sqrt_le_1_alt. unfold Rsqr.
    assert (Z : d * r * r = d * S) by (rewrite Rmult_assoc, Q; reflexivity). assert (0 <= h * r) by (apply Rmult_le_pos; lra). assert (0 <= d * r * h) by (apply Rmult_le_pos; lra). nra.
Qed.
Definition small : R := / 2 ^ 530.
Lemma small_pos : 0 < small. Proof. unfold small. apply Rinv_0_lt_compat, pow_lt. lra. Qed.
Lemma tiny_small : 16 * tiny <= (small / 4) * (small / 4).
Proof.
  unfold tiny, small. replace (2 ^ 1075) with (2 ^ 530 * 2 ^ 530 * 2 ^ 15) by (rewrite <- !pow_add; reflexivity). rewrite !Rinv_mult.
  pose proof (Rinv_0_lt_compat (2 ^ 530) ltac:(apply pow_lt; lra)) as P. set (z := / 2 ^ 530) in *. assert (0 < z * z) by (apply Rmult_lt_0_compat; exact P). assert (Q : / 2 ^ 15 = / 32768) by (f_equal; cbn [pow]; ring). rewrite Q. nra.
Qed.
Lemma small_bp : small = bp (-530). Proof. unfold small, bp. rewrite bpow_powerRZ. reflexivity. Qed.

Definition rlen (u : rpt) : R := sqrt (rdot u u).
Lemma rlen_pos u : 0 <= rlen u. Proof. apply sqrt_pos. Qed.
Lemma rlen_sq u : rlen u * rlen u = rdot u u. Proof. apply sqrt_sqrt. apply rdot_pos. Qed.
Lemma rdot_len u v : Rabs (rdot u v) <= rlen u * rlen v.
Proof.
  unfold rlen. rewrite <- sqrt_mult by apply rdot_pos. rewrite <- sqrt_Rsqr_abs. apply sqrt_le_1_alt.
  assert (Q : rdot u u * rdot v v - Rsqr (rdot u v) = rdot (rcross u v) (rcross u v)) by (unfold rdot, rcross, Rsqr; cbn [rx ry rz]; ring).
  pose proof (rdot_pos (rcross u v)). lra.
Qed.
Lemma rlen_near u v : Rabs (rlen u - rlen v) <= rlen (rsub u v).
Proof.
  rewrite <- (Rabs_pos_eq (rlen (rsub u v))) by apply rlen_pos. apply Rsqr_le_abs_0. unfold Rsqr. rewrite rlen_sq. pose proof (rdot_len u v) as C. pose proof (Rle_abs (rdot u v)).
  replace ((rlen u - rlen v) * (rlen u - rlen v)) with (rlen u * rlen u + rlen v * rlen v - 2 * (rlen u * rlen v)) by ring. rewrite !rlen_sq.
  assert (Q : rdot (rsub u v) (rsub u v) = rdot u u + rdot v v - 2 * rdot u v) by (unfold rdot, rsub; cbn [rx ry rz]; ring). lra.
Qed.
Lemma rlen_small u e : 0 <= e -> Rabs (rx u) <= e -> Rabs (ry u) <= e -> Rabs (rz u) <= e -> rlen u <= 2 * e.
Proof.
  intros P X Y Z. unfold rlen. rewrite <- (sqrt_Rsqr (2 * e)) by lra. apply sqrt_le_1_alt. unfold rdot, Rsqr.
  assert (S : forall a, Rabs a <= e -> a * a <= e * e) by (intros a H; apply Rabs_le_inv in H; nra). pose proof (S _ X). pose proof (S _ Y). pose proof (S _ Z). nra.
Qed.
Lemma coord_len u : Rabs (rx u) <= rlen u /\ Rabs (ry u) <= rlen u /\ Rabs (rz u) <= rlen u.
Proof.
  unfold rlen, rdot. split; [|split]; rewrite <- sqrt_Rsqr_abs; apply sqrt_le_1_alt; unfold Rsqr; pose proof (Rle_0_sqr (rx u)); pose proof (Rle_0_sqr (ry u)); pose proof (Rle_0_sqr (rz u)); unfold Rsqr in *; lra.
Qed.

Section Norm.
  Context (lm : libm) (asc : bool).
  #[local] Instance AF : Arith := F64 lm asc.
  Definition rv (p : v3) : rpt := P3 (B2R (x3 p : f64)) (B2R (y3 p : f64)) (B2R (z3 p : f64)).
  Lemma sqn_val k p : (-480 <= k < 480)%Z -> bnd3 lm asc k p -> let s := B2R (sqn3 p : f64) in
    bnd (2 * k + 2) (sqn3 p : f64) /\ 0 <= s /\ Rabs (s - rdot (rv p) (rv p)) <= / 2251799813685248 * rdot (rv p) (rv p) + 8 * tiny.
  Proof.
    intros L H s. pose proof (bnd_dot lm asc k k p p ltac:(lia) H H) as BD. replace (k + k + 2)%Z with (2 * k + 2)%Z in BD by ring. split; [exact BD|].
    destruct H as (H1 & H2 & H3). pose proof (bnd_mul k k _ _ ltac:(lia) H1 H1) as M1. pose proof (bnd_mul k k _ _ ltac:(lia) H2 H2) as M2. pose proof (bnd_mul k k _ _ ltac:(lia) H3 H3) as M3.
    pose proof (mul_val k k _ _ ltac:(lia) H1 H1) as V1. pose proof (mul_val k k _ _ ltac:(lia) H2 H2) as V2. pose proof (mul_val k k _ _ ltac:(lia) H3 H3) as V3.
    pose proof (sum_sq_err (B2R (x3 p : f64) * B2R (x3 p : f64)) (B2R (y3 p : f64) * B2R (y3 p : f64)) (B2R (z3 p : f64) * B2R (z3 p : f64)) asc (Rle_0_sqr _) (Rle_0_sqr _) (Rle_0_sqr _)) as Q. cbv zeta in Q.
    assert (SV : s = if asc then rnd (rnd (rnd (B2R (x3 p : f64) * B2R (x3 p : f64)) + rnd (B2R (y3 p : f64) * B2R (y3 p : f64))) + rnd (B2R (z3 p : f64) * B2R (z3 p : f64)))
      else rnd (rnd (B2R (x3 p : f64) * B2R (x3 p : f64)) + rnd (rnd (B2R (y3 p : f64) * B2R (y3 p : f64)) + rnd (B2R (z3 p : f64) * B2R (z3 p : f64))))).
    { unfold s, sqn3, dot3. change (@sum3 AF (x3 p * x3 p)%num (y3 p * y3 p)%num (z3 p * z3 p)%num) with (if asc then fadd (fadd (fmul (x3 p) (x3 p)) (fmul (y3 p) (y3 p))) (fmul (z3 p) (z3 p)) else fadd (fmul (x3 p) (x3 p)) (fadd (fmul (y3 p) (y3 p)) (fmul (z3 p) (z3 p)))).
      rewrite <- V1, <- V2, <- V3. destruct asc.
      - rewrite <- (add_val (k + k)) by (lia || assumption). apply (add_val (k + k + 1)); [lia|apply bnd_add; [lia|assumption..]|eapply bnd_mono; [|exact M3]; lia].
      - rewrite <- (add_val (k + k) (fmul (y3 p : f64) (y3 p : f64))) by (lia || assumption). apply (add_val (k + k + 1)); [lia|eapply bnd_mono; [|exact M1]; lia|apply bnd_add; [lia|assumption..]]. }
    rewrite <- SV in Q. exact Q.
  Qed.
  Lemma sqrt_val x : fin x -> 0 <= B2R x -> fin (fsqrt x) /\ B2R (fsqrt x) = rnd (sqrt (B2R x)).
  Proof.
    intros F P. destruct (Bsqrt_correct 53 1024 prec64 emax64 mode_NE x) as (V & FF & _). split; [|exact V].
    unfold fin, fsqrt. rewrite FF. destruct x as [s|s| |s m e b]; try discriminate; try reflexivity. destruct s; [|reflexivity]. exfalso.
    assert (N : F2R (Float radix2 (cond_Zopp true (Zpos m)) e) < 0) by (apply F2R_lt_0; reflexivity). cbn [B2R] in P. lra.
  Qed.
  (** norm() is right to a few units in the last place. *)
  Lemma norm_err k p : (-480 <= k < 480)%Z -> bnd3 lm asc k p -> let n := B2R (norm3 p : f64) in
    fin (norm3 p : f64) /\ 0 <= n /\ Rabs (n - rlen (rv p)) <= / 1125899906842624 * rlen (rv p) + small.
  Proof.
    intros L H n. destruct (sqn_val k p L H) as (BS & P & Q). destruct (sqrt_val (sqn3 p : f64) (proj1 BS) P) as (F & V). split; [exact F|].
    assert (N : n = rnd (sqrt (B2R (sqn3 p : f64)))) by exact V. pose proof small_pos as SP. pose proof tiny_pos as TP. pose proof tiny_small as TS.
    pose proof (sqrt_err (B2R (sqn3 p : f64)) (rdot (rv p) (rv p)) (/ 2251799813685248) (small / 4) P (rdot_pos _) ltac:(lra) ltac:(lra) ltac:(lra)) as E. fold (rlen (rv p)) in E.
    pose proof (sqrt_pos (B2R (sqn3 p : f64))) as R0. split; [rewrite N; apply rnd_pos, R0|].
    pose proof (rnd_rel_pos _ R0) as E2. rewrite <- N in E2. pose proof (rlen_pos (rv p)) as LP. apply Rabs_le_inv in E, E2. apply Rabs_le.
    assert (TT : tiny <= small / 4).
    { assert (small / 4 <= 1). { unfold small. assert (1 <= 2 ^ 530) by (apply pow_R1_Rle; lra). assert (/ 2 ^ 530 <= 1) by (rewrite <- Rinv_1; apply Rinv_le_contravar; lra). lra. } nra. }
    lra.
  Qed.
  Lemma apx_rv k e p q : apx3 lm asc k e p q -> bnd3 lm asc k p /\ Rabs (rx (rsub (rv p) q)) <= e /\ Rabs (ry (rsub (rv p) q)) <= e /\ Rabs (rz (rsub (rv p) q)) <= e.
  Proof. intros ((B1 & _ & H1) & (B2 & _ & H2) & (B3 & _ & H3)). split; [split; [exact B1|split; assumption]|]. cbn [rsub rv rx ry rz]. auto. Qed.
  Lemma norm_apx k e p q : (-430 <= k < 430)%Z -> 0 <= e -> apx3 lm asc k e p q -> let n := B2R (norm3 p : f64) in
    fin (norm3 p : f64) /\ 0 <= n /\ Rabs (n - rlen q) <= 2 * e + bp (k - 48).
  Proof.
    intros L P H n. destruct (apx_rv k e p q H) as (B & E1 & E2 & E3). destruct (norm_err k p ltac:(lia) B) as (F & N & Q). change (0 <= n) in N. change (Rabs (n - rlen (rv p)) <= / 1125899906842624 * rlen (rv p) + small) in Q. split; [exact F|]. split; [exact N|].
    pose proof (rlen_near (rv p) q) as NR. pose proof (rlen_small (rsub (rv p) q) e P E1 E2 E3) as NS.
    assert (NB : rlen (rv p) <= 2 * bp k) by (apply rlen_small; [apply Rlt_le, bp_pos|apply B|apply B|apply B]).
    assert (S1 : small <= bp (k - 50)) by (rewrite small_bp; apply bp_le; lia).
    assert (K48 : bp (k - 48) = 4 * bp (k - 50)) by (replace (k - 48)%Z with (k - 50 + 2)%Z by ring; rewrite bp_shift by lia; reflexivity).
    assert (K0 : bp k = 1125899906842624 * bp (k - 50)) by (replace (bp k) with (bp (k - 50 + 50)) by (f_equal; ring); rewrite bp_shift by lia; reflexivity).
    apply Rabs_le_inv in Q, NR. apply Rabs_le. pose proof (bp_pos (k - 50)). lra.
  Qed.
  (** Eigen's normalized() of a vector that is not too short. *)
  Lemma div_val j x y : (-1000 <= j < 1000)%Z -> fin x -> B2R y <> 0 -> Rabs (B2R x / B2R y) <= bp j -> bnd j (fdiv x y) /\ B2R (fdiv x y) = rnd (B2R x / B2R y).
  Proof.
    intros L F NZ H. assert (B : Rabs (rnd (B2R x / B2R y)) <= bp j) by (apply rnd_bound; [lia|exact H]).
    pose proof (Bdiv_correct 53 1024 prec64 emax64 mode_NE x y NZ) as C. rewrite (bp_emax j) in C by (exact B || lia). destruct C as (C1 & C2 & _).
    split; [split; [unfold fdiv; rewrite C2; exact F|unfold fdiv; rewrite C1; exact B]|exact C1].
  Qed.
  Lemma flt_pos (x : f64) : fin x -> 0 < B2R x -> flt (fz_ 0) x = true.
  Proof.
    intros F P. unfold flt. rewrite Bltb_correct; [|reflexivity|exact F]. apply Rlt_bool_true. replace (B2R (fz_ 0)) with 0 by reflexivity. exact P.
  Qed.
  Lemma normalized_apx k e p q : (-400 <= k < 400)%Z -> 0 <= e <= bp (k - 6) -> apx3 lm asc k e p q -> bp (k - 3) <= rlen q ->
    apx3 lm asc 1 (48 * e * / bp k + bp (-43)) (normalized3 p) (rscale (/ rlen q) q).
  Proof.
    intros L [P PE] H LQ. destruct (norm_apx k e p q ltac:(lia) P H) as (F & N & Q). set (n := B2R (norm3 p : f64)). change (0 <= n) in N. change (Rabs (n - rlen q) <= 2 * e + bp (k - 48)) in Q.
    pose proof (bp_pos (k - 6)) as U.
    assert (K1 : bp (k - 3) = 8 * bp (k - 6)) by (replace (k - 3)%Z with (k - 6 + 3)%Z by ring; rewrite bp_shift by lia; reflexivity).
    assert (K2 : bp (k - 4) = 4 * bp (k - 6)) by (replace (k - 4)%Z with (k - 6 + 2)%Z by ring; rewrite bp_shift by lia; reflexivity).
    assert (K48 : bp (k - 48) <= bp (k - 6)) by (apply bp_le; lia).
    assert (NL : bp (k - 4) <= n) by (apply Rabs_le_inv in Q; lra).
    assert (SP : 0 < B2R (sqn3 p : f64)).
    { destruct (apx_rv k e p q H) as (B & _). destruct (sqn_val k p ltac:(lia) B) as (BS & PS & _). destruct PS as [PS|PS]; [exact PS|exfalso].
      assert (Z : n = rnd (sqrt (B2R (sqn3 p : f64)))) by (apply (sqrt_val (sqn3 p : f64) (proj1 BS)); exact (Req_le _ _ PS)).
      pose proof (f_equal (fun t => rnd (sqrt t)) PS) as Y. cbv beta in Y. rewrite sqrt_0, round_0 in Y by apply valid_rnd_N. assert (n = 0) by (transitivity (rnd (sqrt (B2R (sqn3 p : f64)))); [exact Z|symmetry; exact Y]). lra. }
    unfold normalized3. assert (T : (nz <? sqn3 p)%num = true). { destruct (apx_rv k e p q H) as (B & _). destruct (sqn_val k p ltac:(lia) B) as (BS & _). apply (flt_pos (sqn3 p : f64)); [apply BS|exact SP]. }
    rewrite T. fold (norm3 p).
    assert (X : forall (x : f64) r, apx k e x r -> Rabs r <= rlen q -> apx 1 (48 * e * / bp k + bp (-43)) (fdiv x (norm3 p : f64)) (/ rlen q * r)).
    { intros x r (BX & RX & EX) RQ. set (m := rlen q) in *. assert (MP : 0 < m) by lra. assert (NP : 0 < n) by lra.
      assert (BK : bp k = 64 * bp (k - 6)) by (replace (bp k) with (bp (k - 6 + 6)) by (f_equal; ring); rewrite bp_shift by lia; reflexivity).
      assert (B48 : bp (k - 48) = bp (-48) * bp k) by (replace (k - 48)%Z with (-48 + k)%Z by ring; apply bp_add).
      set (d := / m * r).
      assert (D1 : Rabs d <= 1) by (unfold d; rewrite Rabs_mult, (Rabs_pos_eq (/ m)) by (apply Rlt_le, Rinv_0_lt_compat, MP); apply (Rmult_le_reg_l m); [exact MP|]; rewrite <- Rmult_assoc, Rinv_r by lra; lra).
      assert (EQ : B2R x / n - d = ((B2R x - r) + d * (m - n)) / n) by (unfold d; field; lra).
      assert (ER : Rabs (B2R x / n - d) <= 48 * e * / bp k + 16 * bp (-48)).
      { rewrite EQ. unfold Rdiv. rewrite Rabs_mult, (Rabs_pos_eq (/ n)) by (apply Rlt_le, Rinv_0_lt_compat, NP).
        assert (G : Rabs (B2R x - r + d * (m - n)) <= 3 * e + bp (k - 48)).
        { eapply Rle_trans; [apply Rabs_triang|]. rewrite Rabs_mult, (Rabs_minus_sym m n). assert (Rabs d * Rabs (n - m) <= 1 * (2 * e + bp (k - 48))) by (apply Rmult_le_compat; try apply Rabs_pos; assumption). lra. }
        assert (IN : / n <= 16 * / bp k). { replace (16 * / bp k) with (/ (bp (k - 4))) by (rewrite K2, BK; field; lra). apply Rinv_le_contravar; lra. }
        eapply Rle_trans; [apply Rmult_le_compat; [apply Rabs_pos|apply Rlt_le, Rinv_0_lt_compat, NP|exact G|exact IN]|]. rewrite B48. apply Req_le. field. lra. }
      assert (ES : 48 * e * / bp k <= 3 / 4). { apply (Rmult_le_reg_r (bp k)); [lra|]. rewrite Rmult_assoc, Rinv_l by lra. lra. }
      assert (B48' : bp (-48) <= / 64) by (change (/ 64) with (bp (-6)); apply bp_le; lia).
      assert (QB : Rabs (B2R x / n) <= bp 1) by (change (bp 1) with 2; apply Rabs_le_inv in D1, ER; apply Rabs_le; lra).
      destruct (div_val 1 x (norm3 p : f64) ltac:(lia) (proj1 BX) ltac:(change (n <> 0); lra) QB) as (BD & VD). change (B2R (fdiv x (norm3 p : f64)) = rnd (B2R x / n)) in VD.
      split; [exact BD|]. split; [change (bp 1) with 2; lra|]. rewrite VD. pose proof (rnd_err 1 _ ltac:(lia) QB) as RE. change (1 - 54)%Z with (-53)%Z in RE.
      assert (B53 : bp (-53) <= bp (-48)) by (apply bp_le; lia). assert (B45 : bp (-43) = 32 * bp (-48)) by (change (bp (-43)) with (bp (-48 + 5)); rewrite bp_shift by lia; reflexivity). pose proof (bp_pos (-48)).
      replace (rnd (B2R x / n) - d) with ((rnd (B2R x / n) - B2R x / n) + (B2R x / n - d)) by ring. eapply Rle_trans; [apply Rabs_triang|]. lra. }
    destruct H as (H1 & H2 & H3). destruct (coord_len q) as (C1 & C2 & C3). split; [|split]; cbn [div3 x3 y3 z3 rscale rx ry rz]; apply X; assumption.
  Qed.
End Norm.
