(** P_Float.v - the scale of a drawing in double and float arithmetic. *)
From Coq Require Import Reals Lra ZArith Lia.
From Flocq Require Import Core IEEE754.BinarySingleNaN.
From Flocq Require Import Relative.
From Verif Require Import Base Num NumReal NumF64 NumLaws Geo Stl Ast Env Ps Draw GeoSpec DocSpec F64Spec P_Base P_Lang2 P_Bound P_Centre P_Named.

Local Unset Implicit Arguments.
Local Open Scope R_scope.

Notation fx32 := (SpecFloat.fexp 24 128).
Notation fx64 := (SpecFloat.fexp 53 1024).
Notation rnd32 := (round radix2 fx32 (round_mode mode_NE)).
Lemma v32 : Valid_exp fx32. Proof. apply (fexp_correct 24 128); reflexivity. Qed.
Lemma v64 : Valid_exp fx64. Proof. apply (fexp_correct 53 1024); reflexivity. Qed.
#[local] Existing Instance v32. #[local] Existing Instance v64.
Lemma format_32_64 x : generic_format radix2 fx32 x -> generic_format radix2 fx64 x.
Proof.
  apply generic_inclusion_mag. intros _. unfold SpecFloat.fexp, SpecFloat.emin. lia.
Qed.
Lemma f32_val (x : f64) : fin x -> Rabs (rnd32 (B2R x)) < bpow radix2 128 -> fin (f_to_f32 x) /\ B2R (f_to_f32 x) = rnd32 (B2R x).
Proof.
  intros F L. destruct x as [s|s| |s m e H]; try discriminate F.
  - split; [reflexivity|]. cbn [f_to_f32 B2R]. rewrite round_0; [reflexivity|apply valid_rnd_N].
  - cbn [f_to_f32]. pose proof (binary_normalize_correct 24 128 prec32 emax32 mode_NE (cond_Zopp s (Zpos m)) e false) as C. cbv zeta in C.
    change (F2R (Float radix2 (cond_Zopp s (Z.pos m)) e)) with (B2R (B754_finite s m e H : f64)) in C. rewrite (Rlt_bool_true _ _ L) in C. destruct C as (C1 & C2 & _).
    change (binary_normalize 24 128 prec32 emax32 mode_NE (cond_Zopp s (Z.pos m)) e false) with (norm32 (cond_Zopp s (Z.pos m)) e) in C1, C2.
    pose proof (generic_format_B2R 24 128 (norm32 (cond_Zopp s (Z.pos m)) e)) as G. destruct (norm32 (cond_Zopp s (Z.pos m)) e) as [s'|s'| |s' m' e' H']; try discriminate C2.
    + split; [reflexivity|]. rewrite <- C1. reflexivity.
    + pose proof (binary_normalize_correct 53 1024 prec64 emax64 mode_NE (cond_Zopp s' (Zpos m')) e' false) as D. cbv zeta in D.
      change (F2R (Float radix2 (cond_Zopp s' (Z.pos m')) e')) with (B2R (B754_finite s' m' e' H' : f32)) in D. rewrite round_generic in D by (apply valid_rnd_N || exact (format_32_64 _ G)).
      rewrite Rlt_bool_true in D.
      * destruct D as (D1 & D2 & _). split; [exact D2|]. unfold norm64. rewrite D1. exact C1.
      * rewrite C1. eapply Rlt_trans; [exact L|]. apply bpow_lt. lia.
Qed.
Lemma rel64 x : bp (-1000) <= Rabs x -> Rabs (rnd x - x) <= bp (-53) * Rabs x.
Proof.
  intro H. pose proof (relative_error_N_FLT radix2 (-1074) 53 ltac:(reflexivity) (fun z => negb (Z.even z)) x) as K.
  assert (Q : bpow radix2 (-1074 + 53 - 1) <= Rabs x) by (eapply Rle_trans; [|exact H]; apply bpow_le; lia). specialize (K Q).
  replace (bp (-53)) with (/ 2 * bpow radix2 (-53 + 1)); [exact K|]. unfold bp. rewrite bpow_plus. change (bpow radix2 1) with 2. field.
Qed.
Lemma rel32 x : bp (-100) <= Rabs x -> Rabs (rnd32 x - x) <= bp (-24) * Rabs x.
Proof.
  intro H. pose proof (relative_error_N_FLT radix2 (-149) 24 ltac:(reflexivity) (fun z => negb (Z.even z)) x) as K.
  assert (Q : bpow radix2 (-149 + 24 - 1) <= Rabs x) by (eapply Rle_trans; [|exact H]; apply bpow_le; lia). specialize (K Q).
  replace (bp (-24)) with (/ 2 * bpow radix2 (-24 + 1)); [exact K|]. unfold bp. rewrite bpow_plus. change (bpow radix2 1) with 2. field.
Qed.
Lemma int_val z : (Z.abs z <= 2 ^ 40)%Z -> fin (fz_ z) /\ B2R (fz_ z) = IZR z.
Proof.
  intro L. assert (V : B2R (fz_ z) = IZR z) by (apply fz_val; lia). split; [|exact V].
  unfold fz_, norm64. pose proof (binary_normalize_correct 53 1024 prec64 emax64 mode_NE z 0 false) as C. cbv zeta in C.
  assert (R1 : F2R (Float radix2 z 0) = IZR z) by (unfold F2R; simpl; ring). rewrite R1 in C.
  rewrite (bp_emax 40) in C; [exact (proj1 (proj2 C))|lia|]. apply rnd_bound; [lia|]. rewrite <- abs_IZR. change (bp 40) with (IZR (2 ^ 40)). apply IZR_le. exact L.
Qed.
(** The two roundings of 72 * a / b. *)
Lemma scale_steps lm asc a b : (Z.abs a <= 2 ^ 31)%Z -> (Z.abs b <= 2 ^ 31)%Z -> b <> 0%Z ->
  fin (proj_scale (A := F64 lm asc) (a, b)) /\ B2R (proj_scale (A := F64 lm asc) (a, b) : f64) = rnd32 (rnd (72 * (IZR a / IZR b))).
Proof.
  intros La Lb NB. unfold proj_scale. cbn [fst snd to_f32 F64 ndiv nmul of_Z].
  destruct (int_val 72 ltac:(lia)) as [F72 V72]. destruct (int_val a ltac:(lia)) as [Fa Va]. destruct (int_val b ltac:(lia)) as [Fb Vb]. destruct (int_val (72 * a) ltac:(lia)) as [Fp Vp].
  destruct (fmul_exact (fz_ 72) (fz_ a) (fz_ (72 * a)) F72 Fa) as [Fm Vm]; [rewrite V72, Va, Vp, mult_IZR; reflexivity|exact Fp|]. rewrite Vp, mult_IZR in Vm.
  assert (NZ : B2R (fz_ b) <> 0) by (rewrite Vb; intro Z; apply eq_IZR in Z; contradiction).
  assert (MB : Rabs (72 * (IZR a / IZR b)) <= bp 38).
  { assert (B1 : 1 <= Rabs (IZR b)) by (rewrite <- abs_IZR; apply (IZR_le 1); lia).
    assert (A1 : Rabs (IZR a) <= IZR (2 ^ 31)) by (rewrite <- abs_IZR; apply IZR_le; lia).
    rewrite Rabs_mult, (Rabs_pos_eq 72) by lra. unfold Rdiv. rewrite Rabs_mult, Rabs_inv.
    assert (I1 : 0 < / Rabs (IZR b) <= 1). { split; [apply Rinv_0_lt_compat; lra|]. rewrite <- Rinv_1. apply Rinv_le_contravar; lra. }
    change (bp 38) with (IZR (2 ^ 38)). pose proof (Rabs_pos (IZR a)). change (2 ^ 31)%Z with 2147483648%Z in A1. change (2 ^ 38)%Z with 274877906944%Z. nra. }
  pose proof (rnd_bound 38 _ ltac:(lia) MB) as RB.
  pose proof (Bdiv_correct 53 1024 prec64 emax64 mode_NE (fmul (fz_ 72) (fz_ a)) (fz_ b) NZ) as C.
  assert (EQ : B2R (fmul (fz_ 72) (fz_ a)) / B2R (fz_ b) = 72 * (IZR a / IZR b)) by (rewrite Vm, Vb; unfold Rdiv; ring).
  rewrite EQ, (bp_emax 38) in C by (exact RB || lia). destruct C as (C1 & C2 & _).
  destruct (f32_val (fdiv (fmul (fz_ 72) (fz_ a)) (fz_ b))) as [F V].
  - unfold fin, fdiv. rewrite C2. exact Fm.
  - unfold fdiv. rewrite C1. eapply Rle_lt_trans; [|apply (bpow_lt radix2 38 128); lia].
    apply (abs_round_le_generic radix2 fx32 (round_mode mode_NE)); [apply generic_format_bpow; unfold SpecFloat.fexp, SpecFloat.emin; lia|exact RB].
  - split; [exact F|]. rewrite V. unfold fdiv. rewrite C1. reflexivity.
Qed.
Lemma scale_close lm asc a b : (Z.abs a <= 2 ^ 31)%Z -> (Z.abs b <= 2 ^ 31)%Z -> b <> 0%Z ->
  let x := 72 * (IZR a / IZR b) in Rabs (B2R (proj_scale (A := F64 lm asc) (a, b) : f64) - x) <= bp (-23) * Rabs x.
Proof.
  intros La Lb NB x. destruct (scale_steps lm asc a b La Lb NB) as [_ V]. rewrite V. fold x. destruct (Z.eq_dec a 0) as [->|NA].
  - assert (x = 0) as -> by (unfold x; unfold Rdiv; ring). rewrite !round_0 by apply valid_rnd_N. rewrite Rminus_0_r, Rabs_R0. lra.
  - assert (X : bp (-26) <= Rabs x).
    { assert (A1 : 1 <= Rabs (IZR a)) by (rewrite <- abs_IZR; apply (IZR_le 1); lia).
      assert (B1 : 0 < Rabs (IZR b) <= IZR (2 ^ 31)) by (rewrite <- abs_IZR; split; [apply (IZR_lt 0)|apply IZR_le]; lia).
      unfold x, Rdiv. rewrite !Rabs_mult, Rabs_inv, (Rabs_pos_eq 72) by lra.
      assert (I1 : / IZR (2 ^ 31) <= / Rabs (IZR b)) by (apply Rinv_le_contravar; lra).
      assert (I2 : bp (-26) <= 32 * / IZR (2 ^ 31)) by (change (bp (-26)) with (/ IZR (2 ^ 26)); change (2 ^ 26)%Z with 67108864%Z; change (2 ^ 31)%Z with 2147483648%Z; lra).
      assert (I3 : 0 < / IZR (2 ^ 31)) by (apply Rinv_0_lt_compat; apply (IZR_lt 0); lia). nra. }
    pose proof (rel64 x) as R1. assert (X1 : bp (-1000) <= Rabs x) by (apply Rle_trans with (bp (-26)); [apply bp_le; lia|exact X]). specialize (R1 X1).
    assert (Y : Rabs (rnd x) <= Rabs x * (1 + bp (-53))). { replace (rnd x) with (rnd x - x + x) by ring. eapply Rle_trans; [apply Rabs_triang|]. lra. }
    assert (Y' : Rabs x * (1 - bp (-53)) <= Rabs (rnd x)).
    { assert (Rabs x <= Rabs (rnd x) + Rabs (rnd x - x)); [|lra]. replace x with (rnd x - (rnd x - x)) at 1 by ring. unfold Rminus at 1. eapply Rle_trans; [apply Rabs_triang|]. rewrite Rabs_Ropp. lra. }
    assert (E53 : 0 < bp (-53) <= / 2 * / 2) by (split; [apply bp_pos|change (/ 2 * / 2) with (/ 2 * / 2); apply Rle_trans with (bp (-2)); [apply bp_le; lia|change (bp (-2)) with (/ 4); lra]]).
    assert (X2 : bp (-100) <= Rabs (rnd x)). { apply Rle_trans with (Rabs x * (1 - bp (-53))); [|exact Y']. apply Rle_trans with (bp (-26) * / 2); [|pose proof (bp_pos (-26)); nra].
      replace (bp (-26) * / 2) with (bp (-27)); [apply bp_le; lia|]. pose proof (bp_S (-27)) as BS. change (-27 + 1)%Z with (-26)%Z in BS. lra. }
    pose proof (rel32 _ X2) as R2.
    replace (rnd32 (rnd x) - x) with ((rnd32 (rnd x) - rnd x) + (rnd x - x)) by ring. eapply Rle_trans; [apply Rabs_triang|].
    assert (B1 : bp (-23) = 2 * bp (-24)) by (exact (bp_S (-24))). assert (B2 : bp (-53) <= bp (-25)) by (apply bp_le; lia). assert (B3 : bp (-24) = 2 * bp (-25)) by (exact (bp_S (-25))).
    pose proof (Rabs_pos x). pose proof (bp_pos (-24)). pose proof (bp_pos (-25)). rewrite B1.
    assert (R3 : bp (-24) * Rabs (rnd x) <= bp (-24) * (Rabs x * (1 + bp (-53)))) by (apply Rmult_le_compat_l; lra).
    assert (R4 : bp (-53) * Rabs x <= bp (-25) * Rabs x) by (apply Rmult_le_compat_r; lra).
    assert (R5 : bp (-24) * Rabs x * bp (-53) <= bp (-24) * Rabs x * / 4) by (apply Rmult_le_compat_l; [apply Rmult_le_pos; lra|lra]). nra.
Qed.
Lemma scale_exact lm asc a b : (Z.abs a <= 2 ^ 31)%Z -> (Z.abs b <= 2 ^ 31)%Z -> b <> 0%Z ->
  let x := 72 * (IZR a / IZR b) in generic_format radix2 fx32 x -> B2R (proj_scale (A := F64 lm asc) (a, b) : f64) = x.
Proof.
  intros La Lb NB x G. destruct (scale_steps lm asc a b La Lb NB) as [_ V]. rewrite V. fold x.
  rewrite (round_generic radix2 fx64) by (apply valid_rnd_N || exact (format_32_64 _ G)). apply round_generic; [apply valid_rnd_N|exact G].
Qed.
Theorem float_scale lm asc (E : @Env (F64 lm asc)) st l n ml ds s s1 ds1 a b : visit_draw st l n ml ds s = Ret (s1, ds1, true) -> asks_scale ml a b ->
  (Z.abs a <= 2 ^ 31)%Z -> (Z.abs b <= 2 ^ 31)%Z -> b <> 0%Z ->
  exists proj ls q (sc : f64) off, shows st n ml proj ls /\ v_page s1 = plus_page (v_page s) (put_page (sc : @num (F64 lm asc)) off (plus_page (OPage ls [] []) q)) /\
    fin sc /\ Rabs (B2R sc - 72 * (IZR a / IZR b)) <= bp (-23) * Rabs (72 * (IZR a / IZR b)) /\
    (generic_format radix2 fx32 (72 * (IZR a / IZR b)) -> B2R sc = 72 * (IZR a / IZR b)).
Proof.
  intros H AS La Lb NB. destruct (placed_off _ _ _ _ _ _ _ _ H) as (a' & b' & proj & ls & q & pl & AS' & SH & HP & HV).
  destruct (one_scale ml a b a' b' (drawn_nodup _ _ _ _ _ _ _ _ H) AS AS') as [<- <-]. cbv zeta in HV.
  exists proj, ls, q, (proj_scale (A := F64 lm asc) (a, b) : f64). eexists. split; [exact SH|]. split; [exact HV|].
  split; [exact (proj1 (scale_steps lm asc a b La Lb NB))|]. split; [exact (scale_close lm asc a b La Lb NB)|exact (scale_exact lm asc a b La Lb NB)].
Qed.
