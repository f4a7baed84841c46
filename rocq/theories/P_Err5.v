(** P_Err5.v - the labels of angles in doubles. *)
From Coq Require Import Reals Lra ZArith Lia.
From Flocq Require Import Core IEEE754.BinarySingleNaN.
From Verif Require Import Base Num NumReal NumF64 NumLaws Geo Stl Env Ast Ps Draw F64Spec DocSpec P_Base P_Meta P_Dims P_Doc P_Script3 P_Script4 P_Bound P_Text P_Text2
  DimSpec TextSpec P_Real P_Value P_Mark P_Pi P_Err P_Err2 P_Err3 P_Err4 ErrSpec RealSpec.

Local Unset Implicit Arguments.
Local Open Scope R_scope.

(** acos away from 1 and -1 *)
Lemma acos_slope x : -1 < x < 1 -> derivable_pt_lim acos x (-1 / sqrt (1 - x²)).
Proof. intro H. exact (derive_pt_eq_1 acos x _ (derivable_pt_acos x H) (derive_pt_acos x H)). Qed.
Lemma acos_lip m c v : (0 <= m)%Z -> Rabs c <= 1 - bp (-2 * m) -> Rabs (v - c) <= bp (-2 * m - 1) -> Rabs (acos v - acos c) <= bp (m + 1) * Rabs (v - c).
Proof.
  intros M C D. set (d := bp (-2 * m - 1)) in *. assert (DP : 0 < d) by apply bp_pos.
  assert (D2 : bp (-2 * m) = 2 * d) by (unfold d; rewrite <- bp_S; f_equal; ring). rewrite D2 in C. apply Rabs_le_inv in C. apply Rabs_le_inv in D.
  assert (SL : forall t, Rmin c v <= t <= Rmax c v -> - (1 - d) <= t <= 1 - d).
  { intros t [H1 H2]. unfold Rmin, Rmax in H1, H2. destruct (Rle_dec c v); lra. }
  destruct (MVT_abs acos (fun x => -1 / sqrt (1 - x²)) c v) as (t & Q & T).
  { intros t T. apply acos_slope. pose proof (SL t T). lra. }
  rewrite Q. apply Rmult_le_compat_r; [apply Rabs_pos|]. pose proof (SL t T) as B.
  assert (G : bp (-m - 1) <= sqrt (1 - t²)).
  { rewrite <- (sqrt_Rsqr (bp (-m - 1))) by apply Rlt_le, bp_pos. apply sqrt_le_1_alt. unfold Rsqr. rewrite <- bp_add. replace (- m - 1 + (- m - 1))%Z with (-2 * m - 2)%Z by ring.
    assert (bp (-2 * m - 2) <= d) by (apply bp_le; lia). nra. }
  pose proof (bp_pos (-m - 1)) as P1. unfold Rdiv. rewrite Rabs_mult, Rabs_inv, (Rabs_pos_eq (sqrt (1 - t²))) by apply sqrt_pos. replace (Rabs (-1)) with 1 by (unfold Rabs; destruct (Rcase_abs (-1)); lra).
  rewrite Rmult_1_l. replace (bp (m + 1)) with (/ bp (-m - 1)). { apply Rinv_le_contravar; assumption. }
  unfold bp. rewrite <- bpow_opp. f_equal. ring.
Qed.

Section Unit.
  Context (lm : libm) (asc : bool).
  #[local] Instance AU : Arith := F64 lm asc.
  Lemma normalized_rel k rho p q : (-400 <= k < 400)%Z -> 0 <= rho <= / 64 -> apx3 lm asc k (rho * rlen q) p q -> bp (k - 3) <= rlen q ->
    apx3 lm asc 1 (4 * rho + bp (-44)) (normalized3 p) (rscale (/ rlen q) q).
  Proof.
    intros L [P PE] H LQ. set (m := rlen q) in *. pose proof (bp_pos (k - 3)) as B3. assert (MP : 0 < m) by lra. set (e := rho * m) in *.
    assert (EP : 0 <= e) by (apply Rmult_le_pos; lra).
    destruct (norm_apx lm asc k e p q ltac:(lia) EP H) as (F & N & Q). set (n := B2R (norm3 p : f64)). change (0 <= n) in N. change (Rabs (n - m) <= 2 * e + bp (k - 48)) in Q.
    assert (K48 : bp (k - 48) <= bp (-45) * m). { replace (k - 48)%Z with (-45 + (k - 3))%Z by ring. rewrite bp_add. apply Rmult_le_compat_l; [apply Rlt_le, bp_pos|exact LQ]. }
    assert (B45 : bp (-45) = / 35184372088832) by reflexivity.
    assert (NL : 9 / 10 * m <= n). { apply Rabs_le_inv in Q. assert (e <= m * / 64) by (unfold e; rewrite Rmult_comm; apply Rmult_le_compat_l; lra). rewrite B45 in K48. lra. }
    assert (SP : 0 < B2R (sqn3 p : f64)).
    { destruct (apx_rv lm asc k e p q H) as (B & _). destruct (sqn_val lm asc k p ltac:(lia) B) as (BS & PS & _). destruct PS as [PS|PS]; [exact PS|exfalso].
      assert (Z : n = rnd (sqrt (B2R (sqn3 p : f64)))) by (apply (sqrt_val (sqn3 p : f64) (proj1 BS)); exact (Req_le _ _ PS)).
      pose proof (f_equal (fun t => rnd (sqrt t)) PS) as Y. cbv beta in Y. rewrite sqrt_0, round_0 in Y by apply valid_rnd_N. assert (n = 0) by (transitivity (rnd (sqrt (B2R (sqn3 p : f64)))); [exact Z|symmetry; exact Y]). lra. }
    unfold normalized3. assert (T : (nz <? sqn3 p)%num = true). { destruct (apx_rv lm asc k e p q H) as (B & _). destruct (sqn_val lm asc k p ltac:(lia) B) as (BS & _). apply (flt_pos (sqn3 p : f64)); [apply BS|exact SP]. }
    rewrite T. fold (norm3 p).
    assert (X : forall (x : f64) r, apx k e x r -> Rabs r <= m -> apx 1 (4 * rho + bp (-44)) (fdiv x (norm3 p : f64)) (/ m * r)).
    { intros x r (BX & RX & EX) RQ. assert (NP : 0 < n) by lra. set (d := / m * r).
      assert (D1 : Rabs d <= 1) by (unfold d; rewrite Rabs_mult, (Rabs_pos_eq (/ m)) by (apply Rlt_le, Rinv_0_lt_compat, MP); apply (Rmult_le_reg_l m); [exact MP|]; rewrite <- Rmult_assoc, Rinv_r by lra; lra).
      assert (EQ : B2R x / n - d = ((B2R x - r) + d * (m - n)) / n) by (unfold d; field; lra).
      assert (ER : Rabs (B2R x / n - d) <= 10 / 9 * (3 * rho + bp (-45))).
      { rewrite EQ. unfold Rdiv. rewrite Rabs_mult, (Rabs_pos_eq (/ n)) by (apply Rlt_le, Rinv_0_lt_compat, NP).
        assert (G : Rabs (B2R x - r + d * (m - n)) <= (3 * rho + bp (-45)) * m).
        { eapply Rle_trans; [apply Rabs_triang|]. rewrite Rabs_mult, (Rabs_minus_sym m n). assert (Rabs d * Rabs (n - m) <= 1 * (2 * e + bp (k - 48))) by (apply Rmult_le_compat; try apply Rabs_pos; assumption). unfold e in *. lra. }
        assert (IN : / n <= 10 / 9 * / m). { replace (10 / 9 * / m) with (/ (9 / 10 * m)) by (field; lra). apply Rinv_le_contravar; lra. }
        eapply Rle_trans; [apply Rmult_le_compat; [apply Rabs_pos|apply Rlt_le, Rinv_0_lt_compat, NP|exact G|exact IN]|]. apply Req_le. field. lra. }
      assert (QB : Rabs (B2R x / n) <= bp 1) by (change (bp 1) with 2; apply Rabs_le_inv in D1, ER; apply Rabs_le; lra).
      destruct (div_val 1 x (norm3 p : f64) ltac:(lia) (proj1 BX) ltac:(change (n <> 0); lra) QB) as (BD & VD). change (B2R (fdiv x (norm3 p : f64)) = rnd (B2R x / n)) in VD.
      split; [exact BD|]. split; [change (bp 1) with 2; lra|]. rewrite VD. pose proof (rnd_err 1 _ ltac:(lia) QB) as RE. change (1 - 54)%Z with (-53)%Z in RE.
      assert (B53 : bp (-53) = / 9007199254740992) by reflexivity. assert (B44 : bp (-44) = / 17592186044416) by reflexivity.
      replace (rnd (B2R x / n) - d) with ((rnd (B2R x / n) - B2R x / n) + (B2R x / n - d)) by ring. eapply Rle_trans; [apply Rabs_triang|]. lra. }
    destruct H as (H1 & H2 & H3). destruct (coord_len q) as (C1 & C2 & C3). split; [|split]; cbn [div3 x3 y3 z3 rscale rx ry rz]; apply X; assumption.
  Qed.
  (** The same without a fitting power of two. *)
  Lemma normalized_any K rho p q : 0 <= rho <= / 64 -> apx3 lm asc K (rho * rlen q) p q -> bp (-300) <= rlen q <= bp 300 ->
    apx3 lm asc 1 (4 * rho + bp (-44)) (normalized3 p) (rscale (/ rlen q) q).
  Proof.
    intros PR H [L1 L2]. pose proof (bp_pos (-300)) as P3. assert (NZ : rlen q <> 0) by lra. assert (QP : 0 <= rlen q) by lra.
    set (j := mag_val _ _ (mag radix2 (rlen q))). pose proof (bpow_mag_le radix2 (rlen q) NZ) as G1. pose proof (bpow_mag_gt radix2 (rlen q)) as G2. rewrite (Rabs_pos_eq _ QP) in G1, G2. fold j in G1, G2.
    assert (J : (-301 < j <= 301)%Z).
    { split; [apply (lt_bpow radix2); eapply Rle_lt_trans; [|exact G2]; eapply Rle_trans; [|exact L1]; apply bpow_le; lia|].
      assert (j - 1 <= 300)%Z; [|lia]. apply (le_bpow radix2). eapply Rle_trans; [exact G1|exact L2]. }
    apply (normalized_rel (j + 1)); [lia|exact PR| |].
    - assert (X : forall (x : f64) r, apx K (rho * rlen q) x r -> Rabs r <= rlen q -> apx (j + 1) (rho * rlen q) x r).
      { intros x r (BX & RX & EX) RQ. assert (B1 : bp (j + 1) = 2 * bp j) by apply bp_S. unfold bp in G2. fold (bp j) in G2.
        assert (rho * rlen q <= rlen q) by (rewrite <- (Rmult_1_l (rlen q)) at 2; apply Rmult_le_compat_r; lra).
        split; [split; [apply BX|]|split; [lra|exact EX]]. pose proof (Rabs_triang_inv (B2R x) r). lra. }
      destruct H as (H1 & H2 & H3). destruct (coord_len q) as (C1 & C2 & C3). split; [|split]; apply X; assumption.
    - replace (j + 1 - 3)%Z with (j - 1 + -1)%Z by ring. rewrite bp_add. change (bp (-1)) with (/ 2). unfold bp. pose proof (bpow_gt_0 radix2 (j - 1)). lra.
  Qed.
End Unit.

Section Angle.
  Context (lm : libm) (asc : bool) (E : @Env (F64 lm asc)).
  #[local] Instance AA : Arith := F64 lm asc.
  Definition rhat (u : rpt) : rpt := rscale (/ rlen u) u.
  Lemma rhat_unit u : 0 < rlen u -> rdot (rhat u) (rhat u) = 1.
  Proof. intro P. unfold rhat. transitivity (/ rlen u * / rlen u * rdot u u); [unfold rdot, rscale; cbn [rx ry rz]; ring|]. rewrite <- rlen_sq. field. lra. Qed.
  Lemma rhat_dot u v : 0 < rlen u -> 0 < rlen v -> rdot (rhat u) (rhat v) = cosine u v.
  Proof. intros P Q. unfold rhat, cosine. fold (rlen u) (rlen v). transitivity (/ rlen u * / rlen v * rdot u v); [unfold rdot, rscale; cbn [rx ry rz]; ring|]. field. lra. Qed.
  Lemma side_apx s d k m r kd kp ap f u : a_view lm asc (v_rot s) -> m = v_rot s -> rotation r -> apxm lm asc (5 * bp (-54)) m r -> NoDup (names (d_meta d)) -> (-280 <= k <= 280)%Z -> bnd3 lm asc k ap ->
    side64 lm asc s d k kd kp ap u -> side_arg (v_points s) m kd kp (d_meta d) (mulm ap m) = Some f ->
    0 < rlen u /\ apx3 lm asc 1 (225 * bp (-44)) (fst f) (rmul (rhat u) r).
  Proof.
    intros VW -> RR M N LK Bap SD SA. assert (RL : forall x, rlen (rmul x r) = rlen x) by (intro x; unfold rlen; rewrite (proj1 RR); reflexivity).
    assert (RH : forall x, rscale (/ rlen (rmul x r)) (rmul x r) = rmul (rhat x) r) by (intro x; rewrite RL; unfold rhat; apply pt_ext; unfold rscale, rmul; cbn [rx ry rz]; ring).
    pose proof (bp_pos (-54)) as B54. pose proof (bp_pos (-44)) as B44. assert (Q44 : bp (-44) = 1024 * bp (-54)) by (change (bp (-44)) with (bp (-54 + 10)); rewrite bp_shift by lia; reflexivity).
    assert (S64 : 0 <= 56 * bp (-44) <= / 64) by (split; [lra|]; assert (bp (-44) = / 17592186044416) as -> by reflexivity; lra).
    destruct SD as [(v & PV & BV & -> & LV)|(p & PP & BP & -> & LP)].
    - fold (rlen (val3 lm asc v)) in LV. change (val3 lm asc v) with (rv lm asc v) in *. destruct (top_power lm asc v BV LV) as (j & LJ & Bj & Lj).
      assert (VP : 0 < rlen (rv lm asc v)) by (pose proof (bp_pos (-200)); lra). split; [exact VP|].
      pose proof (evaluates_arg _ _ _ _ _ N PV) as V. unfold point_arg in V. unfold side_arg in SA. destruct (arg kd (d_meta d)) as [x|]; [|discriminate V]. destruct (arg kp (d_meta d)); [discriminate SA|]. rewrite V in SA. injection SA as <-. cbn [fst].
      pose proof (turned_apx lm asc j v _ r ltac:(lia) Bj M) as T. rewrite <- RH. eapply apx3_weak; [apply Z.le_refl| |apply (normalized_any lm asc (j + 2) (56 * bp (-44)) _ _ S64)].
      + lra.
      + eapply apx3_weak; [apply Z.le_refl| |exact T]. rewrite RL. assert (J54 : bp (j - 54) = 2 * bp (-54) * bp (j - 1)) by (change 2 with (bp 1); rewrite <- !bp_add; f_equal; ring).
        assert (bp (-54) * bp (j - 1) <= bp (-54) * rlen (rv lm asc v)) by (apply Rmult_le_compat_l; lra). assert (0 < bp (-54) * rlen (rv lm asc v)) by (apply Rmult_lt_0_compat; assumption). rewrite J54, Q44. lra.
      + rewrite RL. destruct (coord_len (rv lm asc v)) as (C1 & _). split; [eapply Rle_trans; [|exact LV]; apply bp_le; lia|].
        eapply Rle_trans; [apply (rlen_small _ (bp 200)); [apply Rlt_le, bp_pos|apply BV|apply BV|apply BV]|]. rewrite <- bp_S. apply bp_le. lia.
    - set (u := rsub (val3 lm asc p) (val3 lm asc ap)) in *. fold (rlen u) in LP.
      assert (VP : 0 < rlen u) by (pose proof (bp_pos (k - 10)); lra). split; [exact VP|].
      pose proof (evaluates_arg _ _ _ _ _ N PP) as V. unfold point_arg in V. unfold side_arg in SA. destruct (arg kp (d_meta d)) as [x|]; [|discriminate V]. destruct (arg kd (d_meta d)); [discriminate SA|]. rewrite V in SA. injection SA as <-. cbn [fst].
      pose proof (turned_apx lm asc k p _ r ltac:(lia) BP M) as Tp. pose proof (turned_apx lm asc k ap _ r ltac:(lia) Bap M) as Ta.
      pose proof (apx3_sub lm asc (k + 2) _ _ _ _ _ _ ltac:(lia) Tp Ta) as T. rewrite rmul_sub in T. change (rsub (rv lm asc p) (rv lm asc ap)) with u in T.
      rewrite <- RH. eapply apx3_weak; [apply Z.le_refl| |apply (normalized_any lm asc (k + 2 + 1) (56 * bp (-44)) _ _ S64)].
      + lra.
      + eapply apx3_weak; [apply Z.le_refl| |exact T]. rewrite RL. assert (J54 : bp (k - 54) = bp (-44) * bp (k - 10)) by (rewrite <- bp_add; f_equal; ring).
        assert (J51 : bp (k + 2 - 53) = 8 * bp (k - 54)) by (replace (k + 2 - 53)%Z with (k - 54 + 3)%Z by ring; rewrite bp_shift by lia; reflexivity).
        assert (bp (-44) * bp (k - 10) <= bp (-44) * rlen u) by (apply Rmult_le_compat_l; lra). rewrite J51, J54. lra.
      + rewrite RL. split; [eapply Rle_trans; [|exact LP]; apply bp_le; lia|].
        assert (CB : forall x y : f64, bnd k x -> bnd k y -> Rabs (B2R x - B2R y) <= bp (k + 1)).
        { intros x1 y1 [_ H1] [_ H2]. rewrite bp_S. apply Rabs_le. apply Rabs_le_inv in H1, H2. lra. }
        destruct BP as (P1 & P2 & P3). destruct Bap as (A1 & A2 & A3).
        eapply Rle_trans; [apply (rlen_small u (bp (k + 1))); [apply Rlt_le, bp_pos|apply CB; assumption|apply CB; assumption|apply CB; assumption]|]. rewrite <- bp_S. apply bp_le. lia.
  Qed.
  (** The cosine that the program takes the acos of. *)
  Lemma cos_apx f t (u v : rpt) : 0 < rlen u -> 0 < rlen v -> forall r, rotation r -> apx3 lm asc 1 (225 * bp (-44)) f (rmul (rhat u) r) -> apx3 lm asc 1 (225 * bp (-44)) t (rmul (rhat v) r) ->
    fin (dot3 f (normalized3 t) : f64) /\ Rabs (B2R (dot3 f (normalized3 t) : f64) - cosine u v) <= bp (-31).
  Proof.
    intros PU PV r RR F T. assert (U1 : rlen (rmul (rhat v) r) = 1) by (unfold rlen; rewrite (proj1 RR), rhat_unit by exact PV; apply sqrt_1).
    assert (B44 : bp (-44) = / 17592186044416) by reflexivity.
    assert (T2 : apx3 lm asc 1 (901 * bp (-44)) (normalized3 t) (rmul (rhat v) r)).
    { replace (rmul (rhat v) r) with (rscale (/ rlen (rmul (rhat v) r)) (rmul (rhat v) r)) by (rewrite U1, Rinv_1; apply pt_ext; unfold rscale; cbn [rx ry rz]; ring).
      eapply apx3_weak; [apply Z.le_refl| |apply (normalized_any lm asc 1 (225 * bp (-44)))]; [lra|lra|rewrite U1, Rmult_1_r; exact T|rewrite U1; split; change 1 with (bp 0); apply bp_le; lia]. }
    assert (E1 : 0 <= 225 * bp (-44)) by lra. assert (E2 : 0 <= 901 * bp (-44)) by lra.
    pose proof (apx_dot lm asc 1 1 _ _ _ _ _ _ ltac:(lia) E1 E2 F T2) as (B & _ & D). split; [apply B|]. rewrite (proj1 RR), (rhat_dot u v PU PV) in D. eapply Rle_trans; [exact D|].
    change (1 + 1 - 54)%Z with (-52)%Z. change (bp 1) with 2. assert (B52 : bp (-52) = / 4503599627370496) by reflexivity. assert (B31 : bp (-31) = / 2147483648) by reflexivity. rewrite B44, B52, B31. lra.
  Qed.
  Lemma pi64 : fin (fdec 31415926535897932 (-16)) /\ B2R (fdec 31415926535897932 (-16)) = 7074237752028440 / 2251799813685248.
  Proof. split; [vm_compute; reflexivity|]. rewrite <- SF2R_B2SF, fdec_pi. unfold SF2R, F2R. cbn [Fnum Fexp cond_Zopp bpow]. simpl. lra. Qed.
  Lemma to_degrees m (x : f64) c : (0 <= m <= 14)%Z -> acos_close lm -> fin x -> Rabs c <= 1 - bp (-2 * m) -> Rabs (B2R x - c) <= bp (-31) ->
    close (bp (m - 24)) (fdiv (fmul (l_acos lm x) (fz_ 180)) (fdec 31415926535897932 (-16))) (acos c * 180 / Rtrigo1.PI).
  Proof.
    intros LM AC FX C D.
    assert (D2 : Rabs (B2R x - c) <= bp (-2 * m - 1)) by (eapply Rle_trans; [exact D|apply bp_le; lia]).
    assert (X1 : Rabs (B2R x) <= 1). { assert (bp (-2 * m - 1) <= bp (-2 * m)) by (apply bp_le; lia). apply Rabs_le_inv in C, D2. apply Rabs_le. lra. }
    destruct (AC x FX X1) as [FA EA]. pose proof (acos_lip m c (B2R x) ltac:(lia) C D2) as LIP.
    assert (L30 : bp (m + 1) * Rabs (B2R x - c) <= bp (m - 30)) by (replace (m - 30)%Z with (m + 1 + -31)%Z by ring; rewrite (bp_add (m + 1) (-31)); apply Rmult_le_compat_l; [apply Rlt_le, bp_pos|exact D]).
    set (al := acos c) in *. pose proof (acos_bound c) as AB. fold al in AB. pose proof pi_bounds as PB. set (X := B2R (l_acos lm x)) in *.
    assert (EX : Rabs (X - al) <= bp (m - 30) + bp (-50)). { replace (X - al) with ((X - acos (B2R x)) + (acos (B2R x) - al)) by ring. eapply Rle_trans; [apply Rabs_triang|]. lra. }
    assert (M30 : bp (-30) <= bp (m - 30) <= bp (-16)) by (split; apply bp_le; lia). assert (B30 : bp (-30) = / 1073741824) by reflexivity. assert (B16 : bp (-16) = / 65536) by reflexivity. assert (B50 : bp (-50) = / 1125899906842624) by reflexivity.
    assert (BX : bnd 2 (l_acos lm x)) by (split; [exact FA|]; change (bp 2) with 4; fold X; apply Rabs_le_inv in EX; apply Rabs_le; lra).
    destruct (apx_int 8 180 ltac:(lia) ltac:(lia) ltac:(lia)) as (B180 & _ & _). assert (V180 : B2R (fz_ 180) = 180) by (apply fz_val; lia).
    pose proof (mul_val 2 8 _ _ ltac:(lia) BX B180) as VM. rewrite V180 in VM. fold X in VM. pose proof (bnd_mul 2 8 _ _ ltac:(lia) BX B180) as BM. set (y := fmul (l_acos lm x) (fz_ 180)) in *.
    assert (RM : Rabs (X * 180) <= bp 10) by (change (bp 10) with 1024; apply Rabs_le_inv in EX; apply Rabs_le; lra).
    pose proof (rnd_err 10 _ ltac:(lia) RM) as EM. change (10 - 54)%Z with (-44)%Z in EM. rewrite <- VM in EM. assert (B44 : bp (-44) = / 17592186044416) by reflexivity.
    destruct pi64 as [FP VP]. set (P := fdec 31415926535897932 (-16)) in *. set (Y := B2R y) in *.
    assert (YB : Rabs (Y - 180 * al) <= 180 * (bp (m - 30) + bp (-50)) + bp (-44)). { apply Rabs_le_inv in EM, EX. apply Rabs_le. lra. }
    assert (IP : / B2R P = 2251799813685248 / 7074237752028440) by (rewrite VP; field).
    assert (IQ : 10000000000000 / 31415926535898 <= / Rtrigo1.PI <= 100000000000000 / 314159265358979).
    { split; [replace (10000000000000 / 31415926535898) with (/ (31415926535898 / 10000000000000)) by field|replace (100000000000000 / 314159265358979) with (/ (314159265358979 / 100000000000000)) by field]; apply Rinv_le_contravar; lra. }
    assert (ZB : Rabs (Y / B2R P - al * 180 / Rtrigo1.PI) <= 58 * (bp (m - 30) + bp (-50)) + bp (-44) + / 100000000000).
    { unfold Rdiv. rewrite IP. set (b := / Rtrigo1.PI) in *. replace (Y * (2251799813685248 / 7074237752028440) - al * 180 * b) with ((Y - 180 * al) * (2251799813685248 / 7074237752028440) + al * (180 * (2251799813685248 / 7074237752028440 - b))) by ring.
      eapply Rle_trans; [apply Rabs_triang|]. rewrite !Rabs_mult. rewrite (Rabs_pos_eq (2251799813685248 / 7074237752028440)) by lra.
      assert (A4 : Rabs al <= 4) by (apply Rabs_le; lra). assert (DB : Rabs 180 * Rabs (2251799813685248 / 7074237752028440 - b) <= / 1000000000000) by (rewrite <- Rabs_mult; apply Rabs_le; lra).
      assert (Rabs al * (Rabs 180 * Rabs (2251799813685248 / 7074237752028440 - b)) <= 4 * / 1000000000000) by (apply Rmult_le_compat; [apply Rabs_pos|apply Rmult_le_pos; apply Rabs_pos|exact A4|exact DB]). lra. }
    assert (QB : Rabs (Y / B2R P) <= bp 9).
    { change (bp 9) with 512. unfold Rdiv. rewrite IP. apply Rabs_le_inv in YB. apply Rabs_le. lra. }
    destruct (div_val 9 y P ltac:(lia) (proj1 BM) ltac:(rewrite VP; lra) QB) as (BD & VD). split; [apply BD|]. rewrite VD. fold Y.
    pose proof (rnd_err 9 _ ltac:(lia) QB) as RE. change (9 - 54)%Z with (-45)%Z in RE. assert (B45 : bp (-45) = / 35184372088832) by reflexivity.
    replace (rnd (Y / B2R P) - al * 180 / Rtrigo1.PI) with ((rnd (Y / B2R P) - Y / B2R P) + (Y / B2R P - al * 180 / Rtrigo1.PI)) by ring. eapply Rle_trans; [apply Rabs_triang|].
    assert (B24 : bp (m - 24) = 64 * bp (m - 30)) by (replace (m - 24)%Z with (m - 30 + 6)%Z by ring; rewrite bp_shift by lia; reflexivity). rewrite B24. lra.
  Qed.
  Lemma cosine_sym u v : cosine u v = cosine v u.
  Proof. unfold cosine. rewrite (Rmult_comm (sqrt (rdot u u))). f_equal. unfold rdot. ring. Qed.
  Theorem angle_label64 (STD : std64 lm asc E) d s s' d' k m ap u v p n q : d_kind d = KAngle -> trig_close lm -> acos_close lm -> a_view lm asc (v_rot s) -> (-280 <= k <= 280)%Z -> (0 <= m <= 14)%Z ->
    is_point lm asc s d "apex" ap -> bnd3 lm asc k ap -> side64 lm asc s d k "from_dir" "from_point" ap u -> side64 lm asc s d k "to_dir" "to_point" ap v ->
    Rabs (cosine u v) <= 1 - bp (-2 * m) ->
    visit_base_dim d s = Ret (s', d', true) -> format64 lm asc (d_meta d) 1 p n q ->
    exists w pos, o_text (v_page s') = o_text (v_page s) ++ [Text pos ((p ++ w ++ q) ++ B " deg") true false] /\ decimal_within n (bp (m - 24)) (angle_between u v) w.
  Proof.
    intros K T AC VW LK LM Pap Bap Su Sv CM H FD. destruct (angle_visit_any d s s' d' K H) as (N & fm & va & vp & vf & vt & G & DR). unfold angle_args in G.
    destruct (point_arg (v_points s) (v_rot s) "at" (d_meta d)) as [a|]; [|discriminate G]. rewrite (evaluates_arg _ _ _ _ _ N Pap) in G.
    destruct (side_arg (v_points s) (v_rot s) "from_dir" "from_point" (d_meta d) (mulm ap (v_rot s))) as [f|] eqn:SF; [|discriminate G].
    destruct (side_arg (v_points s) (v_rot s) "to_dir" "to_point" (d_meta d) (mulm ap (v_rot s))) as [t|] eqn:ST; [|discriminate G].
    destruct (fmt_arg "%.1f" (d_meta d)) as [fm'|] eqn:F; [|discriminate]. destruct (neq (z3 (cross3 (fst t) (fst f))) nz); [discriminate|]. injection G as -> <- <- <- <-.
    destruct (view_apx lm asc _ T VW) as (r & RR & M).
    destruct (side_apx s d k _ r _ _ ap f u VW eq_refl RR M N LK Bap Su SF) as (PU & AF). destruct (side_apx s d k _ r _ _ ap t v VW eq_refl RR M N LK Bap Sv ST) as (PV & AT).
    destruct (angle_text (d_loc d) fm a (mulm ap (v_rot s)) (fst f) (snd f) (fst t) (snd t) s s' DR) as (_ & pos & x & y & XY & TX).
    assert (CL : close (bp (m - 24)) (ndiv (nmul (nacos (dot3 x (normalized3 y))) (of_Z 180)) Geo.PI : f64) (angle_between u v)).
    { unfold angle_between. destruct XY as [[-> ->]|[-> ->]].
      - destruct (cos_apx _ _ u v PU PV r RR AF AT) as [FX CX]. exact (to_degrees m _ _ LM AC FX CM CX).
      - destruct (cos_apx _ _ v u PV PU r RR AT AF) as [FX CX]. rewrite cosine_sym in CM |- *. exact (to_degrees m _ _ LM AC FX CM CX). }
    destruct (formatted64 lm asc E STD _ "%.1f" (B "1") 1 fm p n q _ _ _ N eq_refl ltac:(split; [discriminate|reflexivity]) ltac:(lia) F FD CL) as (w & Q & DW). exists w, pos. split; [|exact DW].
    rewrite TX. do 3 f_equal. f_equal. exact Q.
  Qed.
End Angle.
