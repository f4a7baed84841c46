(** P_FinDim2.v - dimensions of every kind put only finite doubles on a page. *)
From Coq Require Import Reals Lra ZArith Lia.
From Flocq Require Import Core IEEE754.BinarySingleNaN.
From Verif Require Import Base Num NumReal NumF64 NumLaws Geo Stl StlRead Env Ast Lexer Parser Ps Draw Main GeoSpec DocSpec PsSpec FiniteSpec StlSpec EndSpec F64Spec LookSpec FinDimSpec
  P_Base P_Meta P_Frame P_Dims P_Doc P_Script P_Script2 P_Script3 P_Script4 P_Order P_Part P_Index P_Hide P_Lines P_Geo1 P_Total P_Bound P_Float
  LangSpec Grammar P_Parser P_Parser2 P_Parser3 PrintSpec P_Print P_Lang P_Lang2 P_Ps P_Ps2 P_Value P_Finite P_Finite64 P_Err P_Err2 P_FinDim64 RealSpec.

Local Unset Implicit Arguments.
Local Open Scope R_scope.
#[local] Existing Instance v32. #[local] Existing Instance v64.

(** ** Comparisons *)
Lemma flt_between (a v b : f64) : fin a -> fin b -> flt a v = true -> flt v b = true -> fin v.
Proof.
  intros Fa Fb H1 H2. destruct v as [s|s| |s m e k]; try reflexivity; [|destruct b as [t|t| |t n f j]; try destruct t; discriminate H2]. destruct s.
  - destruct a as [t|t| |t n f j]; try destruct t; try discriminate Fa; discriminate H1.
  - destruct b as [t|t| |t n f j]; try destruct t; try discriminate Fb; discriminate H2.
Qed.
Lemma flt_lt (a b : f64) : fin a -> fin b -> flt a b = true -> B2R a < B2R b.
Proof. intros Fa Fb H. unfold flt in H. rewrite Bltb_correct in H by assumption. destruct (Rlt_bool_spec (B2R a) (B2R b)) as [L|]; [exact L|discriminate H]. Qed.
Lemma flt_ge (a b : f64) : fin a -> fin b -> flt a b = false -> B2R b <= B2R a.
Proof. intros Fa Fb H. unfold flt in H. rewrite Bltb_correct in H by assumption. destruct (Rlt_bool_spec (B2R a) (B2R b)) as [|L]; [discriminate H|exact L]. Qed.
(** The smaller of two numbers, of which one is bounded, is bounded when it is
    more than one. *)
Lemma smaller_bnd k (u v : f64) : bnd k u \/ bnd k v -> flt (fz_ 1) (if flt v u then v else u) = true -> bnd k (if flt v u then v else u).
Proof.
  assert (F1 : fin (fz_ 1)) by (vm_compute; reflexivity). assert (V1 : B2R (fz_ 1) = 1) by (apply (int_val 1); lia).
  intros [[F B]|[F B]] H; destruct (flt v u) eqn:C.
  - pose proof (flt_between _ _ _ F1 F H C) as FV. pose proof (flt_lt _ _ F1 FV H) as L1. pose proof (flt_lt _ _ FV F C) as L2. split; [exact FV|]. rewrite V1 in L1. rewrite Rabs_pos_eq by lra. apply Rabs_le_inv in B. lra.
  - split; assumption.
  - split; assumption.
  - assert (FU : fin u).
    { destruct u as [s|s| |s m e j]; try reflexivity; [|vm_compute in H; discriminate H]. destruct s; [vm_compute in H; discriminate H|]. destruct v as [t|t| |t n f j]; try destruct t; try discriminate F; discriminate C. }
    pose proof (flt_lt _ _ F1 FU H) as L1. pose proof (flt_ge _ _ F FU C) as L2. split; [exact FU|]. rewrite V1 in L1. rewrite Rabs_pos_eq by lra. apply Rabs_le_inv in B. lra.
Qed.
Lemma bnd_div_far j k (x y : f64) : (0 <= k)%Z -> (0 <= j + k < 1000)%Z -> bnd j x -> bp (- k) <= Rabs (B2R y) -> bnd (j + k) (fdiv x y).
Proof.
  intros K L [F B] Y. pose proof (bp_pos (- k)) as KP. assert (NZ : B2R y <> 0) by (intro Z; rewrite Z, Rabs_R0 in Y; lra).
  apply div_val; [lia|exact F|exact NZ|]. unfold Rdiv. rewrite Rabs_mult, Rabs_inv.
  unfold bp in *. rewrite bpow_plus. apply Rmult_le_compat; [apply Rabs_pos|apply Rlt_le, Rinv_0_lt_compat; lra|exact B|]. rewrite <- (Rinv_inv (bpow radix2 k)), <- bpow_opp. apply Rinv_le_contravar; lra.
Qed.
Lemma tiny_bp : tiny = bp (-1075). Proof. unfold tiny, bp. rewrite bpow_powerRZ. reflexivity. Qed.
Section Dims.
  Context (lm : libm) (asc : bool).
  Notation AN := (F64 lm asc).
  Context {E : @Env AN}.
  Notation P := (fun x : @num AN => bnd 600 (x : f64)).
  Notation M128 := (metas_nums (A := AN) (fun x => bnd 128 (x : f64))).
  (** ** Directions *)
  Definition good (v : @v3 AN) : Prop := bnd3 lm asc 2 v /\ bp (-1) <= B2R (norm3 v : f64).
  Lemma good_unit (p : @v3 AN) : bnd3 lm asc 391 p -> big (x3 p) \/ big (y3 p) \/ big (z3 p) -> good (normalized3 p).
  Proof.
    intros H G. split; [apply (normalized_bnd lm asc 391); [lia|exact H]|]. set (q := rv lm asc p). pose proof (coord_len q) as (C1 & C2 & C3).
    assert (L1 : bp (-390) <= rlen q). { destruct G as [G|[G|G]]; [eapply Rle_trans; [exact G|exact C1]|eapply Rle_trans; [exact G|exact C2]|eapply Rle_trans; [exact G|exact C3]]. }
    pose proof (bp_pos (-390)) as P390. destruct H as ((F1 & B1) & (F2 & B2) & (F3 & B3)).
    assert (L2 : rlen q <= bp 392). { change (bp 392) with (bp (391 + 1)). rewrite bp_S. apply rlen_small; [apply Rlt_le, bp_pos|exact B1|exact B2|exact B3]. }
    destruct (mag radix2 (rlen q)) as [k Hk]. specialize (Hk ltac:(lra)). rewrite Rabs_pos_eq in Hk by lra.
    assert (K1 : (-390 < k)%Z). { apply (lt_bpow radix2). unfold bp in L1. lra. }
    assert (K2 : (k - 1 <= 392)%Z). { apply (le_bpow radix2). unfold bp in L2. lra. }
    assert (AP : apx3 lm asc k 0 p q).
    { assert (X : forall x : f64, fin x -> Rabs (B2R x) <= rlen q -> apx k 0 x (B2R x)) by (intros x F Lx; apply apx_exact; split; [exact F|unfold bp; lra]).
      split; [|split]; [exact (X _ F1 C1)|exact (X _ F2 C2)|exact (X _ F3 C3)]. }
    assert (KL : bp (k - 3) <= rlen q). { eapply Rle_trans; [|apply Hk]. apply bpow_le. lia. }
    pose proof (normalized_apx lm asc k 0 p q ltac:(lia) ltac:(split; [lra|apply Rlt_le, bp_pos]) AP KL) as N. set (e := 48 * 0 * / bp k + bp (-43)) in N.
    assert (Z : e = bp (-43)) by (unfold e; ring). rewrite Z in N. clear e Z.
    destruct (norm_apx lm asc 1 (bp (-43)) _ _ ltac:(lia) (Rlt_le _ _ (bp_pos _)) N) as (_ & _ & Q).
    assert (U : rlen (rscale (/ rlen q) q) = 1).
    { set (m := rscale (/ rlen q) q). pose proof (rlen_pos m) as MP. pose proof (rlen_sq m) as M2. assert (D : rdot m m = 1).
      { unfold m. replace (rdot (rscale (/ rlen q) q) (rscale (/ rlen q) q)) with (/ rlen q * / rlen q * rdot q q) by (unfold rdot, rscale; cbn [rx ry rz]; ring). rewrite <- rlen_sq. field. lra. }
      rewrite D in M2. nra. }
    rewrite U in Q. apply Rabs_le_inv in Q. change (bp (-43)) with (/ 8796093022208) in Q. change (bp (1 - 48)) with (/ 140737488355328) in Q. change (bp (-1)) with (/ 2).
    match type of Q with _ <= ?n - _ <= _ => change (/ 2 <= n) end. lra.
  Qed.
  (** ** Directions in the page plane *)
  Definition good2 (v : @v2 AN) : Prop := bnd2 lm asc 2 v /\ (bp (-2) <= Rabs (B2R (x2 v : f64)) \/ bp (-2) <= Rabs (B2R (y2 v : f64))).
  Lemma good_flat (p : @v2 AN) : bnd2 lm asc 390 p -> big (x2 p) \/ big (y2 p) -> good2 (normalized2 p).
  Proof.
    intros [H1 H2] G. set (x := B2R (x2 p : f64)). set (y := B2R (y2 p : f64)).
    pose proof (bnd_mul 390 390 _ _ ltac:(lia) H1 H1) as M1. pose proof (bnd_mul 390 390 _ _ ltac:(lia) H2 H2) as M2. pose proof (bnd_add 780 _ _ ltac:(lia) M1 M2) as BS. change (780 + 1)%Z with 781%Z in BS.
    pose proof (mul_val 390 390 _ _ ltac:(lia) H1 H1) as V1. pose proof (mul_val 390 390 _ _ ltac:(lia) H2 H2) as V2. fold x in V1. fold y in V2.
    pose proof (sum_sq_err (x * x) (y * y) 0 true (Rle_0_sqr _) (Rle_0_sqr _) (Rle_refl 0)) as Q. cbv zeta in Q.
    rewrite (round_0 radix2 (SpecFloat.fexp 53 1024)), !Rplus_0_r in Q by apply valid_rnd_N. rewrite (round_generic radix2 (SpecFloat.fexp 53 1024) (round_mode mode_NE) (rnd (rnd (x * x) + rnd (y * y)))) in Q by (apply generic_format_round; [exact v64|apply valid_rnd_N]).
    set (sq := fadd (fmul (x2 p) (x2 p)) (fmul (y2 p) (y2 p))) in *. assert (VS : B2R sq = rnd (rnd (x * x) + rnd (y * y))).
    { unfold sq. rewrite <- V1, <- V2. apply (add_val 780); [lia|exact M1|exact M2]. }
    rewrite <- VS in Q. destruct Q as [S0 SE]. set (s := B2R sq) in *. apply Rabs_le_inv in SE. set (D := x * x + y * y) in *.
    assert (DL : bp (-780) <= D).
    { assert (SQ : forall z, bp (-390) <= Rabs z -> bp (-780) <= z * z).
      { intros z L. replace (z * z) with (Rabs z * Rabs z) by (rewrite <- Rabs_mult; apply Rabs_pos_eq, Rle_0_sqr). change (-780)%Z with (-390 + -390)%Z. unfold bp. rewrite bpow_plus. pose proof (bpow_gt_0 radix2 (-390)). unfold bp in L. apply Rmult_le_compat; lra. }
      pose proof (Rle_0_sqr x) as X0. pose proof (Rle_0_sqr y) as Y0. unfold Rsqr in X0, Y0. unfold D. destruct G as [G|G]; [pose proof (SQ x G)|pose proof (SQ y G)]; lra. }
    assert (T1 : 1048576 * tiny <= bp (-780)). { rewrite tiny_bp. change 1048576 with (bp 20). unfold bp. rewrite <- bpow_plus. apply bpow_le. lia. }
    pose proof tiny_pos as TP. pose proof (bp_pos (-780)) as P780. assert (SP : 0 < s) by lra.
    assert (FS : fin sq) by apply BS. assert (LT : flt (fz_ 0) sq = true) by (apply flt_pos; assumption).
    destruct (sqrt_val sq FS S0) as (FN & VN). fold s in VN. set (q := sqrt s) in *. assert (Q2 : q * q = s) by (apply sqrt_sqrt; lra). assert (Q0 : 0 < q) by (apply sqrt_lt_R0; exact SP).
    assert (QL : 512 * tiny <= q). { apply Rsqr_incr_0_var; [|lra]. unfold Rsqr. assert (tiny <= / 1048576) by (rewrite tiny_bp; change (/ 1048576) with (bp (-20)); apply bp_le; lia). assert (tiny * tiny <= / 1048576 * tiny) by (apply Rmult_le_compat_r; lra). lra. }
    pose proof (rnd_rel_pos q ltac:(lra)) as RQ. apply Rabs_le_inv in RQ. set (n := fsqrt sq) in *. set (v := B2R n) in *. rewrite <- VN in RQ. assert (VP : 0 < v) by lra.
    assert (SD : s <= 2 * D /\ D <= 2 * s) by lra. destruct SD as [SD1 SD2].
    assert (EQ : normalized2 p = @Num.V2 AN (fdiv (x2 p) n) (fdiv (y2 p) n)).
    { unfold normalized2. assert (T : (nz <? sqn2 p)%num = true) by exact LT. rewrite T. reflexivity. }
    rewrite EQ. clear EQ. cbv beta.
    assert (UP : forall z : f64, fin z -> B2R z * B2R z <= D -> bnd 2 (fdiv z n) /\ B2R (fdiv z n) = rnd (B2R z / v)).
    { intros z F L. apply div_val; [lia|exact F|fold v; lra|]. fold v. unfold Rdiv. rewrite Rabs_mult, (Rabs_pos_eq (/ v)) by (apply Rlt_le, Rinv_0_lt_compat, VP).
      change (bp 2) with 4. apply (Rmult_le_reg_r v); [exact VP|]. rewrite Rmult_assoc, Rinv_l by lra. rewrite Rmult_1_r.
      assert (ZQ : Rabs (B2R z) <= 2 * q). { apply Rsqr_incr_0_var; [|lra]. rewrite <- Rsqr_abs. unfold Rsqr. nra. } lra. }
    assert (X0 : 0 <= x * x) by apply Rle_0_sqr. assert (Y0 : 0 <= y * y) by apply Rle_0_sqr.
    destruct (UP (x2 p) (proj1 H1) ltac:(fold x; unfold D; lra)) as [UX VX]. destruct (UP (y2 p) (proj1 H2) ltac:(fold y; unfold D; lra)) as [UY VY].
    split; [split; [exact UX|exact UY]|]. cbn [x2 y2].
    assert (LO : forall z, D <= 2 * (z * z) -> bp (-2) <= Rabs (rnd (z / v))).
    { intros z L. change (bp (-2)) with (/ 4). pose proof (rnd_rel (z / v)) as RZ.
      assert (ZA : 2 / 5 <= Rabs (z / v)).
      { unfold Rdiv at 2. rewrite Rabs_mult, (Rabs_pos_eq (/ v)) by (apply Rlt_le, Rinv_0_lt_compat, VP). apply (Rmult_le_reg_r v); [exact VP|]. rewrite Rmult_assoc, Rinv_l by lra. rewrite Rmult_1_r.
        assert (ZQ : q / 2 <= Rabs z). { apply Rsqr_incr_0_var; [|apply Rabs_pos]. rewrite <- Rsqr_abs. unfold Rsqr. nra. } lra. }
      pose proof (Rabs_triang_inv (z / v) (z / v - rnd (z / v))) as T. replace (z / v - (z / v - rnd (z / v))) with (rnd (z / v)) in T by ring. rewrite Rabs_minus_sym in RZ.
      assert (tiny <= / 1024) by (rewrite tiny_bp; change (/ 1024) with (bp (-10)); apply bp_le; lia). lra. }
    destruct (Rle_or_lt (y * y) (x * x)) as [C|C].
    - left. rewrite VX. apply LO. fold x. unfold D. lra.
    - right. rewrite VY. apply LO. fold y. unfold D. lra.
  Qed.
  (** ** Arcs *)
  Lemma arc_keep (s : @vst AN) (a : @arc AN) : bnd 38 (v_scale s : f64) -> bnd2 lm asc 550 (v_d s) -> page_nums P (v_page s) ->
    bnd2 lm asc 510 (ac a) -> bnd 500 (ar a : f64) -> bnd 600 (astart a : f64) -> bnd 600 (aend a : f64) -> page_nums P (v_page (add_arcs [a] s)).
  Proof.
    intros S D (K1 & K2 & K3) B R1 R2 R3. split; [exact K1|]. split; [|exact K3]. intros x I. cbn [v_page add_arcs set_page o_arcs map] in I. apply in_app_or in I. destruct I as [I|[<-|[]]]; [exact (K2 x I)|].
    cbn [ac ar astart aend]. assert (Q : bnd2 lm asc 551 (place s (ac a))).
    { unfold place. apply (bnd2_add lm asc 550); [lia| |exact D]. apply (bnd2_mono lm asc 548); [lia|]. apply (bnd2_mul lm asc 510 38); [lia|exact B|exact S]. }
    destruct Q as [Q1 Q2]. split; [split; [exact (bnd_mono 551 600 _ ltac:(lia) Q1)|exact (bnd_mono 551 600 _ ltac:(lia) Q2)]|]. split; [|split; assumption].
    apply (bnd_mono 538); [lia|]. apply (bnd_mul 500 38); [lia|exact R1|exact S].
  Qed.
  Lemma int_bnd k z : (0 <= k < 1024)%Z -> (Z.abs z <= 2 ^ k)%Z -> bnd k (@of_Z AN z : f64).
  Proof. intros. apply bnd_int; assumption. Qed.
  (** ** Angles *)
  Definition bounded_atan2 : Prop := forall y x : f64, bnd 2 y -> bnd 2 x -> bnd 600 (l_atan2 lm y x).
  Lemma draw_angle_keeps l fm (a p fd fp td tp : @v3 AN) (s s' : @vst AN) : bounded_atan2 -> bnd 38 (v_scale s : f64) -> bp (-26) <= B2R (v_scale s : f64) -> bnd2 lm asc 550 (v_d s) -> page_nums P (v_page s) ->
    bnd3 lm asc 390 a -> bnd3 lm asc 390 p -> bnd3 lm asc 390 fp -> bnd3 lm asc 390 tp -> good fd -> good td ->
    (s', true) = draw_angle l fm a p fd fp td tp s -> page_nums P (v_page s').
  Proof.
    intros AT S SL D K Ba Bp Bfp Btp Gf Gt. unfold draw_angle. match goal with |- context [if ?c then _ else _] => destruct c end; [discriminate|]. cbv zeta.
    match goal with |- context [ngt (z3 ?c) nz] => set (sw := ngt (z3 c) nz) end.
    assert (G1 : good (if sw then td else fd)) by (destruct sw; assumption). assert (G2 : good (if sw then fd else td)) by (destruct sw; assumption).
    assert (P1 : bnd3 lm asc 390 (if sw then tp else fp)) by (destruct sw; assumption). assert (P2 : bnd3 lm asc 390 (if sw then fp else tp)) by (destruct sw; assumption).
    set (f := if sw then td else fd). set (t := if sw then fd else td). set (fpt0 := if sw then tp else fp). set (tpt0 := if sw then fp else tp). change (good f) in G1. change (good t) in G2. change (bnd3 lm asc 390 fpt0) in P1. change (bnd3 lm asc 390 tpt0) in P2. clearbody f t fpt0 tpt0. clear Gf Gt Bfp Btp.
    intro H. match type of H with (s', true) = (?X, true) => assert (Q : s' = X) by exact (f_equal fst H) end. clear H. subst s'.
    destruct G1 as [Bf Nf]. destruct G2 as [Bt Nt].
    pose proof (bnd3_sub lm asc 390 a p ltac:(lia) Ba Bp) as BL0. pose proof (norm_bnd lm asc 391 _ ltac:(lia) BL0) as BL. change (391 + 1)%Z with 392%Z in BL. set (len := norm3 (sub3 a p)). change (bnd 392 (len : f64)) in BL. clearbody len.
    assert (BG : bnd 27 (to_f32 (n2 / v_scale s)%num : f64)).
    { apply bnd_f32; [lia|]. apply (bnd_div_low 1 26); [lia|lia|exact (bnd_int 1 2 ltac:(lia) ltac:(lia))|exact SL]. }
    match goal with |- context [to_f32 ?x] => set (gap := to_f32 x) end. change (bnd 27 (gap : f64)) in BG. clearbody gap.
    assert (DS : forall u : @v3 AN, bnd3 lm asc 2 u -> bnd3 lm asc 28 (div3 u (v_scale s))).
    { intros u (U1 & U2 & U3). split; [|split]; (apply (bnd_div_low 2 26); [lia|lia|assumption|exact SL]). }
    assert (UA : forall u, bnd3 lm asc 2 u -> bnd3 lm asc 28 (div3 (normalized3 u) (v_scale s))) by (intros u U; apply DS, (normalized_bnd lm asc 2); [lia|exact U]).
    assert (UB : forall u w, bnd3 lm asc 2 u -> bnd3 lm asc 2 w -> bp (-1) <= B2R (norm3 u : f64) -> forall d : @num AN, bnd 6 (d : f64) ->
      bnd3 lm asc 28 (div3 (normalized3 (sub3 w (div3 (mul3 u d) (norm3 u)))) (v_scale s))).
    { intros u w U W N d Bd. apply DS, (normalized_bnd lm asc 10); [lia|]. apply (bnd3_sub lm asc 9); [lia|apply (bnd3_mono lm asc 2); [lia|exact W]|].
      assert (M : bnd3 lm asc 8 (mul3 u d)) by (apply (bnd3_mul lm asc 2 6); [lia|exact U|exact Bd]). destruct M as (M1 & M2 & M3). split; [|split]; (apply (bnd_div_low 8 1); [lia|lia|assumption|exact N]). }
    assert (Bd : bnd 6 (dot3 f t : f64)) by (apply (bnd_dot lm asc 2 2); [lia|exact Bf|exact Bt]).
    pose proof (UA f Bf) as Bfa. pose proof (UA t Bt) as Bta. pose proof (UB f t Bf Bt Nf _ Bd) as Bfb. pose proof (UB t f Bt Bf Nt _ Bd) as Btb. clear UA UB DS.
    set (fa := div3 (normalized3 f) (v_scale s)). set (ta := div3 (normalized3 t) (v_scale s)). set (fb := div3 (normalized3 (sub3 t (div3 (mul3 f (dot3 f t)) (norm3 f)))) (v_scale s)).
    set (tb := div3 (normalized3 (sub3 f (div3 (mul3 t (dot3 f t)) (norm3 t)))) (v_scale s)). change (bnd3 lm asc 28 fa) in Bfa. change (bnd3 lm asc 28 ta) in Bta. change (bnd3 lm asc 28 fb) in Bfb. change (bnd3 lm asc 28 tb) in Btb. clearbody fa ta fb tb.
    assert (PT : forall u, bnd3 lm asc 2 u -> bnd3 lm asc 395 (add3 p (mul3 u len))).
    { intros u U. apply (bnd3_add lm asc 394); [lia|apply (bnd3_mono lm asc 390); [lia|exact Bp]|]. apply (bnd3_mul lm asc 2 392); [lia|exact U|exact BL]. }
    pose proof (PT f Bf) as Bfpt. pose proof (PT t Bt) as Btpt. clear PT. set (fpt := add3 p (mul3 f len)). set (tpt := add3 p (mul3 t len)). change (bnd3 lm asc 395 fpt) in Bfpt. change (bnd3 lm asc 395 tpt) in Btpt. clearbody fpt tpt.
    assert (END : forall u, bnd3 lm asc 2 u -> bnd3 lm asc 396 (add3 p (mul3 u (len + gap * n2)%num))).
    { intros u U. apply (bnd3_add lm asc 395); [lia|apply (bnd3_mono lm asc 390); [lia|exact Bp]|]. apply (bnd3_mul lm asc 2 393); [lia|exact U|]. apply (bnd_add 392); [lia|exact BL|].
      apply (bnd_mono 28); [lia|]. apply (bnd_mul 27 1); [lia|exact BG|exact (bnd_int 1 2 ltac:(lia) ltac:(lia))]. }
    assert (BEG : forall u w, bnd3 lm asc 2 u -> bnd3 lm asc 390 w -> bnd3 lm asc 391 (add3 w (mul3 u gap))).
    { intros u w U W. apply (bnd3_add lm asc 390); [lia|exact W|]. apply (bnd3_mono lm asc 29); [lia|]. apply (bnd3_mul lm asc 2 27); [lia|exact U|exact BG]. }
    assert (BARB : forall q u w z, (Z.abs z <= 8)%Z -> bnd3 lm asc 395 q -> bnd3 lm asc 28 u -> bnd3 lm asc 28 w -> bnd3 lm asc 397 (add3 (add3 q (mul3 u (of_Z z))) (mul3 w (of_Z 6)))).
    { intros q u w z Lz Q U W. assert (I : forall v y, (Z.abs y <= 8)%Z -> bnd3 lm asc 28 v -> bnd3 lm asc 31 (mul3 v (of_Z y))) by (intros v y Ly V; apply (bnd3_mul lm asc 28 3); [lia|exact V|apply int_bnd; [lia|exact Ly]]).
      apply (bnd3_add lm asc 396); [lia| |apply (bnd3_mono lm asc 31); [lia|apply I; [lia|exact W]]]. apply (bnd3_add lm asc 395); [lia|exact Q|apply (bnd3_mono lm asc 31); [lia|apply I; [exact Lz|exact U]]]. }
    match goal with |- context [add_lines ?ls s] => set (s1 := add_lines ls s) end.
    assert (K1 : page_nums P (v_page s1)).
    { apply lines_keep; [exact S|exact D|exact K|]. intros x [<-|[<-|[<-|[<-|[<-|[<-|[]]]]]]]; cbn [line3 lo lt_].
      - split; [exact (xy_bnd lm asc 391 510 _ ltac:(lia) (BEG f fpt0 Bf P1))|exact (xy_bnd lm asc 396 510 _ ltac:(lia) (END f Bf))].
      - split; [exact (xy_bnd lm asc 391 510 _ ltac:(lia) (BEG t tpt0 Bt P2))|exact (xy_bnd lm asc 396 510 _ ltac:(lia) (END t Bt))].
      - split; [exact (xy_bnd lm asc 395 510 _ ltac:(lia) Bfpt)|exact (xy_bnd lm asc 397 510 _ ltac:(lia) (BARB _ _ _ 2%Z ltac:(lia) Bfpt Bfa Bfb))].
      - split; [exact (xy_bnd lm asc 395 510 _ ltac:(lia) Bfpt)|exact (xy_bnd lm asc 397 510 _ ltac:(lia) (BARB _ _ _ (-2)%Z ltac:(lia) Bfpt Bfa Bfb))].
      - split; [exact (xy_bnd lm asc 395 510 _ ltac:(lia) Btpt)|exact (xy_bnd lm asc 397 510 _ ltac:(lia) (BARB _ _ _ 2%Z ltac:(lia) Btpt Bta Btb))].
      - split; [exact (xy_bnd lm asc 395 510 _ ltac:(lia) Btpt)|exact (xy_bnd lm asc 397 510 _ ltac:(lia) (BARB _ _ _ (-2)%Z ltac:(lia) Btpt Bta Btb))]. }
    assert (K2 : page_nums P (v_page (add_arcs [arc3 p len f t] s1))).
    { apply arc_keep; [exact S|exact D|exact K1|exact (xy_bnd lm asc 390 510 p ltac:(lia) Bp)|exact (bnd_mono 392 500 _ ltac:(lia) BL)| |];
        unfold arc3; cbn [astart aend]; apply AT; first [apply Bf|apply Bt]. }
    apply text_keep; [exact S|exact D|exact K2|]. exact (xy_bnd lm asc 390 510 a ltac:(lia) Ba).
  Qed.
  (** ** Diameters and radii *)
  Definition short_labels : Prop := forall fm (x : @num AN), (Z.of_nat (length (@pf_format AN E fm x)) < 2 ^ 60)%Z.
  Lemma label_bnd (s : @vst AN) (x : @num AN) z : bp (-26) <= B2R (v_scale s : f64) -> bnd 390 (x : f64) -> (Z.abs z <= 2 ^ 61)%Z -> bnd 510 ((x + char_half * of_Z z / v_scale s)%num : f64).
  Proof.
    intros SL B L. apply (bnd_mono 391); [lia|]. apply (bnd_add 390); [lia|exact B|]. apply (bnd_mono 91); [lia|]. apply (bnd_div_low 65 26); [lia|lia| |exact SL]. apply (bnd_mul 4 61); [lia| |apply int_bnd; [lia|exact L]].
    unfold char_half. apply (bnd_mul 4 0); [lia|apply int_bnd; [lia|unfold kFontSize; lia]|].
    split; [vm_compute; reflexivity|]. change (of_dec (Arith := AN) 3 (-1)) with (fdec 3 (-1)). rewrite <- SF2R_B2SF.
    replace (B2SF (fdec 3 (-1))) with (SpecFloat.S754_finite false 5404319552844595 (-54)) by (vm_compute; reflexivity). unfold SF2R, F2R, bp. simpl. rewrite Rabs_pos_eq by lra. lra.
  Qed.
  (** What the two kinds have in common. *)
  Record circle_ready (s : @vst AN) (ce a d0 : @v2 AN) (r : @num AN) : Prop := {
    cr_scale : bnd 38 (v_scale s : f64); cr_low : bp (-26) <= B2R (v_scale s : f64); cr_off : bnd2 lm asc 550 (v_d s); cr_page : page_nums P (v_page s);
    cr_ce : bnd2 lm asc 390 ce; cr_at : bnd2 lm asc 390 a; cr_dir : good2 (normalized2 d0); cr_r : bnd 390 (r : f64) }.
  Lemma leader_bnd s ce a d0 r : circle_ready s ce a d0 r -> let dir := normalized2 d0 in let direct := sub2 a ce in let len := nmin (x2 direct / x2 dir)%num (y2 direct / y2 dir)%num in
    ngt len n1 = true -> bnd2 lm asc 510 (add2 ce (mul2 dir len)).
  Proof.
    intros [_ _ _ _ Bc Ba [Bd Gd] _] dir direct len G. apply (bnd2_mono lm asc 397); [lia|]. apply (bnd2_add lm asc 396); [lia|apply (bnd2_mono lm asc 390); [lia|exact Bc]|].
    assert (BD : bnd2 lm asc 391 direct) by (apply (bnd2_sub lm asc 390); [lia|exact Ba|exact Bc]). destruct BD as [D1 D2].
    apply (bnd2_mono lm asc 395); [lia|]. apply (bnd2_mul lm asc 2 393); [lia|exact Bd|].
    apply (smaller_bnd 393 (fdiv (x2 direct) (x2 dir)) (fdiv (y2 direct) (y2 dir))); [|exact G].
    destruct Gd as [Gd|Gd]; [left|right]; (apply (bnd_div_far 391 2); [lia|lia|assumption|exact Gd]).
  Qed.
  Lemma mark_bnd s ce a d0 r : circle_ready s ce a d0 r -> let dir := normalized2 d0 in let dr := div2 dir (v_scale s) in let cr := Num.V2 (- y2 dr)%num (x2 dr) in
    bnd2 lm asc 393 (add2 ce (mul2 dir r)) /\ bnd2 lm asc 393 (sub2 ce (mul2 dir r)) /\
    forall q x y, bnd2 lm asc 393 q -> (Z.abs x <= 8)%Z -> (Z.abs y <= 8)%Z -> bnd2 lm asc 510 (add2 q (comb2 x dr y cr)).
  Proof.
    intros [S SL _ _ Bc Ba [Bd Gd] Br] dir dr cr. assert (M : bnd2 lm asc 392 (mul2 dir r)) by (apply (bnd2_mul lm asc 2 390); [lia|exact Bd|exact Br]). assert (C : bnd2 lm asc 392 ce) by (apply (bnd2_mono lm asc 390); [lia|exact Bc]).
    split; [apply (bnd2_add lm asc 392); [lia|exact C|exact M]|]. split; [apply (bnd2_sub lm asc 392); [lia|exact C|exact M]|].
    assert (B1 : bnd2 lm asc 28 dr) by (destruct Bd as [X1 X2]; split; (apply (bnd_div_low 2 26); [lia|lia|assumption|exact SL])).
    assert (B2 : bnd2 lm asc 28 cr) by (destruct B1 as [X1 X2]; split; [exact (bnd_neg _ _ X2)|exact X1]).
    intros q x y Q Lx Ly. apply (bnd2_mono lm asc 394); [lia|]. apply (bnd2_add lm asc 393); [lia|exact Q|]. apply (bnd2_mono lm asc 32); [lia|]. unfold comb2.
    apply (bnd2_add lm asc 31); [lia| |]; (apply (bnd2_mul lm asc 28 3); [lia|assumption|apply int_bnd; [lia|assumption]]).
  Qed.
  Lemma two_lines (s : @vst AN) (ls : list (@line AN)) : bnd 38 (v_scale s : f64) -> bnd2 lm asc 550 (v_d s) -> page_nums P (v_page s) ->
    Forall (fun l => bnd2 lm asc 510 (lo l) /\ bnd2 lm asc 510 (lt_ l)) ls -> page_nums P (v_page (add_lines ls s)).
  Proof. intros S D K F. apply lines_keep; [exact S|exact D|exact K|]. intros l I. rewrite Forall_forall in F. exact (F l I). Qed.
  Lemma draw_dia_keeps fm ce a d0 r s : short_labels -> circle_ready s ce a d0 r -> page_nums P (v_page (draw_dia fm ce a d0 r s)).
  Proof.
    intros SH CR. destruct (mark_bnd _ _ _ _ _ CR) as (BA & BB & MK). pose proof (leader_bnd _ _ _ _ _ CR) as LD. cbv zeta in BA, BB, MK, LD. destruct CR as [S SL D K Bc Ba _ _]. unfold draw_dia. cbv zeta.
    assert (UP : forall q, bnd2 lm asc 393 q -> bnd2 lm asc 510 q) by (intros q; apply bnd2_mono; lia). assert (BA' := UP _ BA). assert (BB' := UP _ BB). assert (Ba' : bnd2 lm asc 510 a) by (apply (bnd2_mono lm asc 390); [lia|exact Ba]).
    match goal with |- context [if ?c then add_lines ?l1 s else add_lines ?l2 s] => set (s1 := if c then add_lines l1 s else add_lines l2 s); assert (K1 : page_nums P (v_page s1) /\ v_scale s1 = v_scale s /\ v_d s1 = v_d s) end.
    { unfold s1. match goal with |- context [if ?c then _ else _] => destruct c eqn:C end; (split; [|split; reflexivity]); (apply two_lines; [exact S|exact D|exact K|]).
      - specialize (LD eq_refl). apply Forall_cons; [split; assumption|]. apply Forall_cons; [split; assumption|apply Forall_nil].
      - apply Forall_cons; [split; assumption|]. apply Forall_cons; [split; assumption|apply Forall_nil]. }
    destruct K1 as (K1 & E1 & E2). clearbody s1.
    match goal with |- context [add_lines ?l s1] => set (s2 := add_lines l s1); assert (K2 : page_nums P (v_page s2)) end.
    { apply two_lines; [exact (eq_rect_r (fun x => bnd 38 x) S E1)|exact (eq_rect_r (fun x => bnd2 lm asc 550 x) D E2)|exact K1|]. apply Forall_cons; [split; [exact BA'|exact (MK _ (-6)%Z 2%Z BA ltac:(lia) ltac:(lia))]|]. apply Forall_cons; [split; [exact BA'|exact (MK _ (-6)%Z (-2)%Z BA ltac:(lia) ltac:(lia))]|]. apply Forall_cons; [split; [exact BB'|exact (MK _ 6%Z 2%Z BB ltac:(lia) ltac:(lia))]|]. apply Forall_cons; [split; [exact BB'|exact (MK _ 6%Z (-2)%Z BB ltac:(lia) ltac:(lia))]|]. apply Forall_nil. }
    apply text_keep; [exact (eq_rect_r (fun x => bnd 38 x) S E1)|exact (eq_rect_r (fun x => bnd2 lm asc 550 x) D E2)|exact K2|]. cbn [t_at]. split; [|apply Ba']. cbn [x2]. apply label_bnd; [exact SL|apply Ba|].
    match goal with |- context [length (?u ++ @pf_format _ _ ?f ?x)] => pose proof (SH f x) as L; rewrite (app_length u); assert (LU : (Z.of_nat (length u) <= 4)%Z) by (vm_compute; discriminate); generalize dependent (length u); generalize dependent (length (@pf_format _ _ f x)) end.
    intros m L n LU. change (2 ^ 61)%Z with 2305843009213693952%Z. change (2 ^ 60)%Z with 1152921504606846976%Z in L. lia.
  Qed.
  Lemma draw_rad_keeps fm ce a d0 r s : short_labels -> circle_ready s ce a d0 r -> page_nums P (v_page (draw_rad fm ce a d0 r s)).
  Proof.
    intros SH CR. destruct (mark_bnd _ _ _ _ _ CR) as (BA & BB & MK). pose proof (leader_bnd _ _ _ _ _ CR) as LD. cbv zeta in BA, BB, MK, LD. destruct CR as [S SL D K Bc Ba _ _]. unfold draw_rad. cbv zeta.
    assert (UP : forall q, bnd2 lm asc 393 q -> bnd2 lm asc 510 q) by (intros q; apply bnd2_mono; lia). assert (BA' := UP _ BA). assert (Ba' : bnd2 lm asc 510 a) by (apply (bnd2_mono lm asc 390); [lia|exact Ba]). assert (Bc' : bnd2 lm asc 510 ce) by (apply (bnd2_mono lm asc 390); [lia|exact Bc]).
    match goal with |- context [if ?c then add_lines ?l1 s else add_lines ?l2 s] => set (s1 := if c then add_lines l1 s else add_lines l2 s); assert (K1 : page_nums P (v_page s1) /\ v_scale s1 = v_scale s /\ v_d s1 = v_d s) end.
    { unfold s1. match goal with |- context [if ?c then _ else _] => destruct c eqn:C end; (split; [|split; reflexivity]); (apply two_lines; [exact S|exact D|exact K|]).
      - specialize (LD eq_refl). apply Forall_cons; [split; assumption|]. apply Forall_cons; [split; assumption|apply Forall_nil].
      - apply Forall_cons; [split; assumption|]. apply Forall_cons; [split; assumption|apply Forall_nil]. }
    destruct K1 as (K1 & E1 & E2). clearbody s1.
    match goal with |- context [add_lines ?l s1] => set (s2 := add_lines l s1); assert (K2 : page_nums P (v_page s2)) end.
    { apply two_lines; [exact (eq_rect_r (fun x => bnd 38 x) S E1)|exact (eq_rect_r (fun x => bnd2 lm asc 550 x) D E2)|exact K1|]. apply Forall_cons; [split; [exact BA'|exact (MK _ (-6)%Z 2%Z BA ltac:(lia) ltac:(lia))]|]. apply Forall_cons; [split; [exact BA'|exact (MK _ (-6)%Z (-2)%Z BA ltac:(lia) ltac:(lia))]|]. apply Forall_nil. }
    apply text_keep; [exact (eq_rect_r (fun x => bnd 38 x) S E1)|exact (eq_rect_r (fun x => bnd2 lm asc 550 x) D E2)|exact K2|]. cbn [t_at]. split; [|apply Ba']. cbn [x2]. apply label_bnd; [exact SL|apply Ba|].
    match goal with |- context [length (?u ++ @pf_format _ _ ?f ?x)] => pose proof (SH f x) as L; rewrite (app_length u); assert (LU : (Z.of_nat (length u) <= 4)%Z) by (vm_compute; discriminate); generalize dependent (length u); generalize dependent (length (@pf_format _ _ f x)) end.
    intros m L n LU. change (2 ^ 61)%Z with 2305843009213693952%Z. change (2 ^ 60)%Z with 1152921504606846976%Z in L. lia.
  Qed.
End Dims.
