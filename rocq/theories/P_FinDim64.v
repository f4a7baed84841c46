(** P_FinDim64.v - linear dimensions put only finite doubles on a page. *)
From Coq Require Import Reals Lra ZArith Lia.
From Flocq Require Import Core IEEE754.BinarySingleNaN.
From Verif Require Import Base Num NumReal NumF64 NumLaws Geo Stl StlRead Env Ast Lexer Parser Ps Draw Main GeoSpec DocSpec PsSpec FiniteSpec StlSpec EndSpec F64Spec LookSpec
  P_Base P_Meta P_Frame P_Dims P_Doc P_Script P_Script2 P_Script3 P_Script4 P_Order P_Part P_Index P_Hide P_Lines P_Geo1 P_Total P_Bound P_Float
  LangSpec Grammar P_Parser P_Parser2 P_Parser3 PrintSpec P_Print P_Lang P_Lang2 P_Ps P_Ps2 P_Value P_Finite P_Finite64 P_Lookup2 P_Err P_Err2 RealSpec.

Local Unset Implicit Arguments.
Local Open Scope R_scope.
#[local] Existing Instance v32. #[local] Existing Instance v64.

(** ** Numbers that are not below zero, infinity and NaN included *)
Definition upper (x : f64) : Prop := x = B754_nan \/ x = B754_infinity false \/ (fin x /\ 0 <= B2R x).
Lemma upper_abs x : upper (fabs x).
Proof.
  destruct x as [s|s| |s m e b]; [right; right|right; left; reflexivity|left; reflexivity|right; right].
  - split; [reflexivity|]. cbn. lra.
  - split; [reflexivity|]. unfold fabs. rewrite B2R_Babs. apply Rabs_pos.
Qed.
Lemma sf_inf (x : f64) : B2SF x = SpecFloat.S754_infinity false -> x = B754_infinity false.
Proof. destruct x as [s|s| |s m e b]; try discriminate. cbn. intro H. injection H as ->. reflexivity. Qed.
Lemma sign_upper (x : f64) : fin x -> 0 < B2R x -> Bsign x = false.
Proof.
  destruct x as [s|s| |s m e b]; intros F P; cbn in *; try lra; try discriminate F. destruct s; [|reflexivity]. exfalso.
  assert (N : F2R (Float radix2 (cond_Zopp true (Zpos m)) e) < 0) by (apply F2R_lt_0; reflexivity). cbn [cond_Zopp Z.opp] in *. lra.
Qed.
Lemma upper_div x s : upper x -> fin s -> 0 < B2R s -> upper (fdiv x s).
Proof.
  intros U FS PS. assert (NZ : B2R s <> 0) by lra. destruct U as [->|[->|[F P]]].
  - left. destruct s; reflexivity.
  - right. left. pose proof (sign_upper s FS PS) as G. destruct s as [b|b| |b m e k]; cbn in *; try lra; try discriminate FS. subst. reflexivity.
  - pose proof (Bdiv_correct 53 1024 prec64 emax64 mode_NE x s NZ) as C. destruct (Rlt_bool _ _).
    + destruct C as (C1 & C2 & _). right. right. split; [unfold fin, fdiv; rewrite C2; exact F|]. unfold fdiv. rewrite C1. apply rnd_pos. apply Rmult_le_pos; [exact P|]. apply Rlt_le, Rinv_0_lt_compat, PS.
    + destruct P as [P|P].
      * rewrite (sign_upper x F P), (sign_upper s FS PS) in C. right. left. apply sf_inf. exact C.
      * right. right. clear C. assert (Z : exists b, x = B754_zero b).
        { destruct x as [b|b| |b m e k]; try discriminate F; [eauto|]. exfalso. symmetry in P. cbn [B2R] in P. apply eq_0_F2R in P. destruct b; discriminate P. }
        destruct Z as [b ->]. destruct s as [c|c| |c m e k]; cbn in *; try lra; try discriminate FS. split; [reflexivity|]. cbn. lra.
Qed.
(** What is below a bounded number after doubling is bounded. *)
Lemma below_bnd k g r : (0 <= k < 1000)%Z -> upper g -> bnd k r -> flt (fmul g (fz_ 2)) r = true -> bnd k g.
Proof.
  intros K U [FR BR] L. destruct (int_val 2 ltac:(lia)) as [F2 V2]. destruct U as [->|[->|[F P]]].
  - discriminate L.
  - exfalso. unfold flt, Bltb in L. assert (Q : B2SF (fmul (B754_infinity false) (fz_ 2)) = SpecFloat.S754_infinity false) by (vm_compute; reflexivity). rewrite Q in L. destruct r as [b|b| |b m e j]; try destruct b; discriminate.
  - split; [exact F|]. rewrite Rabs_pos_eq by exact P. pose proof (Bmult_correct 53 1024 prec64 emax64 mode_NE g (fz_ 2)) as C. rewrite V2 in C. destruct (Rlt_bool _ _).
    + destruct C as (C1 & C2 & _). rewrite F, F2 in C2. unfold flt in L. rewrite Bltb_correct in L; [|exact C2|exact FR]. destruct (Rlt_bool_spec (B2R (fmul g (fz_ 2))) (B2R r)) as [L'|]; [|discriminate L].
      unfold fmul in L'. rewrite C1 in L'. apply Rnot_lt_le. intro G.
      assert (Q : bp (k + 1) <= rnd (B2R g * 2)).
      { replace (bp (k + 1)) with (rnd (bp (k + 1))). { apply round_le; [exact v64|apply valid_rnd_N|]. rewrite bp_S. lra. }
        apply round_generic; [apply valid_rnd_N|]. apply generic_format_bpow. unfold SpecFloat.fexp, SpecFloat.emin. lia. }
      rewrite bp_S in Q. pose proof (bp_pos k). apply Rabs_le_inv in BR. lra.
    + exfalso. destruct P as [P|P].
      * rewrite (sign_upper g F P) in C. assert (S2 : Bsign (fz_ 2) = false) by (vm_compute; reflexivity). rewrite S2 in C. unfold flt, Bltb, fmul in L. rewrite C in L.
        change (binary_overflow 53 1024 mode_NE (xorb false false)) with (SpecFloat.S754_infinity false) in L. destruct r as [b|b| |b m e j]; try destruct b; discriminate.
      * assert (Z : exists b, g = B754_zero b).
        { destruct g as [b|b| |b m e j]; try discriminate F; [eauto|]. exfalso. symmetry in P. cbn [B2R] in P. apply eq_0_F2R in P. destruct b; discriminate P. }
        destruct Z as [b ->]. assert (X : exists b', B2SF (fmul (B754_zero b) (fz_ 2)) = SpecFloat.S754_zero b') by (destruct b; eexists; vm_compute; reflexivity).
        destruct X as [b' X]. pose proof (eq_trans (eq_sym X) C) as Y. destruct (xorb _ _) in Y; discriminate Y.
Qed.
Lemma flt_positive (x : f64) : fin x -> flt (fz_ 0) x = true -> 0 < B2R x.
Proof. intros F H. unfold flt in H. rewrite Bltb_correct in H; [|reflexivity|exact F]. destruct (Rlt_bool_spec (B2R (fz_ 0)) (B2R x)) as [L|]; [|discriminate H]. exact L. Qed.
Lemma least (x : f64) : fin x -> 0 < B2R x -> 2 * tiny <= B2R x.
Proof.
  intros F P. assert (S : is_finite_strict x = true) by (destruct x; cbn in *; try lra; try discriminate F; reflexivity).
  pose proof (abs_B2R_ge_emin 53 1024 x S) as H. rewrite Rabs_pos_eq in H by lra. eapply Rle_trans; [|exact H]. unfold tiny. rewrite bpow_powerRZ. apply Req_le.
  change (SpecFloat.emin 53 1024) with (-1074)%Z. unfold powerRZ. change (Pos.to_nat 1074) with 1074%nat. replace (2 ^ 1075) with (2 * 2 ^ 1074) by reflexivity. rewrite Rinv_mult. change (IZR radix2) with 2.
  generalize (2 ^ 1074). intro z. lra.
Qed.
Section Dims.
  Context (lm : libm) (asc : bool).
  Notation AN := (F64 lm asc).
  Context {E : @Env AN}.
  Notation P := (fun x : @num AN => bnd 600 (x : f64)).
  Notation M128 := (metas_nums (A := AN) (fun x => bnd 128 (x : f64))).
  (** ** Unit vectors *)
  Lemma normalized_bnd k (p : @v3 AN) : (0 <= k < 480)%Z -> bnd3 lm asc k p -> bnd3 lm asc 2 (normalized3 p).
  Proof.
    intros L H. destruct (sqn_val lm asc k p ltac:(lia) H) as (BS & S0 & SE). cbv zeta in *. set (s := B2R (sqn3 p : f64)) in *.
    pose proof (coord_len (rv lm asc p)) as CL. pose proof (rlen_sq (rv lm asc p)) as RS. pose proof (rlen_pos (rv lm asc p)) as RP. set (n := rlen (rv lm asc p)) in *. rewrite <- RS in SE. pose proof tiny_pos as TP.
    assert (T1 : tiny <= / 1048576). { unfold tiny. apply Rinv_le_contravar; [lra|]. replace 1048576 with (2 ^ 20) by (cbn [pow]; ring). apply Rle_pow; [lra|]. lia. }
    assert (NN : 0 <= n * n) by nra. apply Rabs_le_inv in SE. change (- (/ 2251799813685248 * (n * n) + 8 * tiny) <= s - n * n <= / 2251799813685248 * (n * n) + 8 * tiny) in SE. change (0 <= s) in S0. destruct H as ((F1 & _) & (F2 & _) & (F3 & _)).
    unfold normalized3. match goal with |- context [if ?c then _ else _] => destruct c eqn:C end.
    - assert (SP : 0 < s) by (apply flt_positive; [apply BS|exact C]). assert (LE : 2 * tiny <= s) by exact (least _ (proj1 BS) SP).
      destruct (sqrt_val (sqn3 p : f64) (proj1 BS) S0) as (FN & VN). change (B2R (fsqrt (sqn3 p : f64)) = rnd (sqrt s)) in VN.
      set (q := sqrt s). assert (Q2 : q * q = s) by (apply sqrt_sqrt; lra). assert (Q0 : 0 < q) by (apply sqrt_lt_R0; exact SP).
      assert (NQ : n <= 9 / 4 * q) by (apply Rsqr_incr_0_var; [unfold Rsqr; nra|lra]).
      assert (T2 : 512 * tiny <= q). { apply Rsqr_incr_0_var; [|lra]. unfold Rsqr. assert (tiny * tiny <= / 1048576 * tiny) by (apply Rmult_le_compat_r; lra). lra. }
      pose proof (rnd_rel_pos q ltac:(lra)) as RQ. apply Rabs_le_inv in RQ. set (v := rnd q) in *. assert (V : B2R (fsqrt (sqn3 p : f64)) = v) by exact VN.
      assert (VB : n <= 4 * v) by lra. assert (VP : 0 < v) by lra.
      assert (X : forall x : f64, fin x -> Rabs (B2R x) <= n -> bnd 2 (fdiv x (fsqrt (sqn3 p : f64)))).
      { intros x F LX. apply div_val; [lia|exact F|rewrite V; lra|]. rewrite V. unfold Rdiv. rewrite Rabs_mult, (Rabs_pos_eq (/ v)) by (apply Rlt_le, Rinv_0_lt_compat, VP).
        change (bp 2) with 4. apply (Rmult_le_reg_r v); [exact VP|]. rewrite Rmult_assoc, Rinv_l by lra. lra. }
      destruct CL as (C1 & C2 & C3). split; [|split]; [exact (X _ F1 C1)|exact (X _ F2 C2)|exact (X _ F3 C3)].
    - assert (SZ : s <= 0). { apply Rnot_lt_le. intro SP. pose proof (flt_pos (sqn3 p : f64) (proj1 BS) SP) as Q. assert (Q' : flt (fz_ 0) (sqn3 p : f64) = false) by exact C. rewrite Q' in Q. discriminate Q. }
      assert (N1 : n <= 4) by nra. destruct CL as (C1 & C2 & C3). cbn [rv rx ry rz] in C1, C2, C3. unfold bnd3, bnd. change (bp 2) with 4.
      split; [|split]; (split; [assumption|]); (apply (Rle_trans _ n); [first [exact C1|exact C2|exact C3]|exact N1]).
  Qed.
  Lemma norm_bnd k (p : @v3 AN) : (0 <= k < 480)%Z -> bnd3 lm asc k p -> bnd (k + 1) (norm3 p : f64).
  Proof.
    intros L H. destruct (sqn_val lm asc k p ltac:(lia) H) as (BS & S0 & _). cbv zeta in *. destruct (sqrt_val (sqn3 p : f64) (proj1 BS) S0) as (F & V).
    split; [exact F|]. change (Rabs (B2R (fsqrt (sqn3 p : f64))) <= bp (k + 1)). assert (V' : B2R (fsqrt (sqn3 p : f64)) = rnd (sqrt (B2R (sqn3 p : f64)))) by exact V. rewrite V'.
    apply rnd_bound; [lia|]. rewrite Rabs_pos_eq by apply sqrt_pos. destruct BS as [_ B]. assert (B' : Rabs (B2R (sqn3 p : f64)) <= bp (2 * k + 2)) by exact B.
    rewrite <- (sqrt_Rsqr (bp (k + 1))) by (apply Rlt_le, bp_pos). apply sqrt_le_1_alt. unfold Rsqr, bp. rewrite <- bpow_plus. replace (k + 1 + (k + 1))%Z with (2 * k + 2)%Z by ring.
    eapply Rle_trans; [apply Rle_abs|exact B'].
  Qed.
  (** ** Scales that are positive *)
  Lemma scale_low a b : (0 < a <= 2 ^ 31)%Z -> (0 < b <= 2 ^ 31)%Z -> bp (-26) <= B2R (proj_scale (A := AN) (a, b) : f64).
  Proof.
    intros La Lb. pose proof (scale_close lm asc a b ltac:(lia) ltac:(lia) ltac:(lia)) as H. cbv zeta in H.
    assert (A1 : 1 <= IZR a) by (apply (IZR_le 1); lia). assert (B1 : 0 < IZR b) by (apply (IZR_lt 0); lia). assert (B2 : IZR b <= 2147483648) by (apply (IZR_le _ 2147483648); lia).
    assert (I : / 2147483648 <= / IZR b) by (apply Rinv_le_contravar; lra).
    set (x := 72 * (IZR a / IZR b)) in *. assert (X : 72 * / 2147483648 <= x) by (unfold x, Rdiv; nra). rewrite (Rabs_pos_eq x) in H by lra. apply Rabs_le_inv in H.
    change (bp (-23)) with (/ 8388608) in H. change (bp (-26)) with (/ 67108864). lra.
  Qed.
  Lemma bnd_div_low j k (x y : f64) : (0 <= k)%Z -> (0 <= j + k < 1000)%Z -> bnd j x -> bp (- k) <= B2R y -> bnd (j + k) (fdiv x y).
  Proof.
    intros K L [F B] Y. pose proof (bp_pos (- k)) as KP. apply div_val; [lia|exact F|lra|]. unfold Rdiv. rewrite Rabs_mult, (Rabs_pos_eq (/ B2R y)) by (apply Rlt_le, Rinv_0_lt_compat; lra).
    unfold bp in *. rewrite bpow_plus. apply Rmult_le_compat; [apply Rabs_pos|apply Rlt_le, Rinv_0_lt_compat; lra|exact B|]. rewrite <- (Rinv_inv (bpow radix2 k)), <- bpow_opp. apply Rinv_le_contravar; lra.
  Qed.
  Lemma neg3_bnd k (p : @v3 AN) : bnd3 lm asc k p -> bnd3 lm asc k (neg3 p).
  Proof. intros (H1 & H2 & H3). split; [|split]; apply bnd_neg; assumption. Qed.
  (** ** The drawing of a linear dimension *)
  Lemma lines_keep (s : @vst AN) (ls : list (@line AN)) : bnd 38 (v_scale s : f64) -> bnd2 lm asc 550 (v_d s) -> page_nums P (v_page s) ->
    (forall l, In l ls -> bnd2 lm asc 510 (lo l) /\ bnd2 lm asc 510 (lt_ l)) -> page_nums P (v_page (add_lines ls s)).
  Proof.
    intros S D K H. refine (pages_add lm asc (v_page s) _ (map (fun l => Line (place s (lo l)) (place s (lt_ l))) ls) [] _ _ _ K _ _); [reflexivity|reflexivity|cbn; rewrite app_nil_r; reflexivity| |intros ? []].
    assert (PL : forall p, bnd2 lm asc 510 p -> nums2 P (place s p)).
    { intros p B. assert (Q : bnd2 lm asc 551 (place s p)).
      { unfold place. apply (bnd2_add lm asc 550); [lia| |exact D]. apply (bnd2_mono lm asc 548); [lia|]. apply (bnd2_mul lm asc 510 38); [lia|exact B|exact S]. }
      destruct Q as [Q1 Q2]. split; [exact (bnd_mono 551 600 _ ltac:(lia) Q1)|exact (bnd_mono 551 600 _ ltac:(lia) Q2)]. }
    intros x I. apply in_map_iff in I. destruct I as (y & <- & I). destruct (H y I). split; apply PL; assumption.
  Qed.
  Lemma text_keep (s : @vst AN) (t : @Ps.text AN) : bnd 38 (v_scale s : f64) -> bnd2 lm asc 550 (v_d s) -> page_nums P (v_page s) ->
    bnd2 lm asc 510 (t_at t) -> page_nums P (v_page (add_text [t] s)).
  Proof.
    intros S D K B. refine (pages_add lm asc (v_page s) _ [] [Text (place s (t_at t)) (t_str t) (t_center t) (t_raw t)] _ _ _ K _ _); [cbn; rewrite app_nil_r; reflexivity|reflexivity|reflexivity|intros ? []|].
    intros x [<-|[]]. cbn [t_at]. assert (Q : bnd2 lm asc 551 (place s (t_at t))).
    { unfold place. apply (bnd2_add lm asc 550); [lia| |exact D]. apply (bnd2_mono lm asc 548); [lia|]. apply (bnd2_mul lm asc 510 38); [lia|exact B|exact S]. }
    destruct Q as [Q1 Q2]. split; [exact (bnd_mono 551 600 _ ltac:(lia) Q1)|exact (bnd_mono 551 600 _ ltac:(lia) Q2)].
  Qed.
  Lemma xy_bnd j k (p : @v3 AN) : (j <= k)%Z -> bnd3 lm asc j p -> bnd2 lm asc k (xy p).
  Proof. intros L (H1 & H2 & _). split; eapply bnd_mono; eassumption. Qed.
  Lemma draw_dim_keeps fm (a dir f t : @v3 AN) (s : @vst AN) : bnd 38 (v_scale s : f64) -> bp (-26) <= B2R (v_scale s : f64) -> bnd2 lm asc 550 (v_d s) -> page_nums P (v_page s) ->
    bnd3 lm asc 402 a -> bnd3 lm asc 2 dir -> bnd3 lm asc 402 f -> bnd3 lm asc 402 t -> page_nums P (v_page (draw_dim fm a dir f t s)).
  Proof.
    intros S SL D K Ba Bd Bf Bt. unfold draw_dim.
    pose proof (bnd3_sub lm asc 402 f a ltac:(lia) Bf Ba) as Bfa. pose proof (bnd3_sub lm asc 402 t a ltac:(lia) Bt Ba) as Bta. change (402 + 1)%Z with 403%Z in *.
    set (from_at := sub3 f a) in *. set (to_at := sub3 t a) in *.
    assert (AR : forall v, bnd3 lm asc 403 v -> bnd3 lm asc 410 (add3 a (mul3 dir (dot3 dir v)))).
    { intros v Bv. apply (bnd3_add lm asc 409); [lia|apply (bnd3_mono lm asc 402); [lia|exact Ba]|]. apply (bnd3_mul lm asc 2 407); [lia|exact Bd|]. apply (bnd_dot lm asc 2 403); [lia|exact Bd|exact Bv]. }
    pose proof (AR _ Bfa) as BAf. pose proof (AR _ Bta) as BAt. clear AR. set (af := add3 a (mul3 dir (dot3 dir from_at))) in *. set (at2 := add3 a (mul3 dir (dot3 dir to_at))) in *.
    pose proof (bnd3_sub lm asc 410 at2 af ltac:(lia) BAt BAf) as BL. change (410 + 1)%Z with 411%Z in BL. set (len := sub3 at2 af) in *. cbv zeta.
    pose proof (norm_bnd 411 len ltac:(lia) BL) as BN. change (411 + 1)%Z with 412%Z in BN. set (dv := norm3 len) in *. set (str := pf_format fm dv).
    assert (BA : bnd3 lm asc 28 (div3 (normalized3 (V3 (x3 len) (y3 len) nz)) (v_scale s))).
    { assert (B2 : bnd3 lm asc 2 (normalized3 (V3 (x3 len) (y3 len) nz))).
      { apply (normalized_bnd 411); [lia|]. destruct BL as (L1 & L2 & _). split; [exact L1|]. split; [exact L2|apply bnd_zero]. }
      destruct B2 as (N1 & N2 & N3). split; [|split]; (apply (bnd_div_low 2 26); [lia|lia|assumption|exact SL]). }
    set (ax := div3 (normalized3 (V3 (x3 len) (y3 len) nz)) (v_scale s)) in *.
    assert (BB : bnd3 lm asc 28 (V3 (- y3 ax)%num (x3 ax) nz)).
    { destruct BA as (A1 & A2 & _). split; [exact (bnd_neg _ _ A2)|]. split; [exact A1|apply bnd_zero]. }
    set (bx := V3 (- y3 ax)%num (x3 ax) nz) in *.
    match goal with |- context [(?g * n2 <? dv * v_scale s)%num] => set (gap := g) end.
    assert (UG : upper (gap : f64)).
    { apply upper_div; [|apply S|pose proof (bp_pos (-26)); lra]. unfold nmin. match goal with |- upper (if ?c then _ else _) => destruct c end; apply upper_abs. }
    assert (BI : (gap * n2 <? dv * v_scale s)%num = true -> bnd 450 (gap : f64)).
    { intro I. apply (below_bnd 450 (gap : f64) (fmul dv (v_scale s))); [lia|exact UG| |exact I]. apply (bnd_mul 412 38); [lia|exact BN|exact S]. }
    set (inside := (gap * n2 <? dv * v_scale s)%num) in *.
    assert (SG : forall c : bool, bnd 0 (if c then @n1 AN else @of_Z AN (-1))) by (intros []; [exact bnd_one|exact (bnd_int 0 (-1) ltac:(lia) ltac:(lia))]).
    assert (T1 : page_nums P (v_page (add_text [Text (xy a) str true false] s))) by (apply text_keep; [exact S|exact D|exact K|exact (xy_bnd 402 510 a ltac:(lia) Ba)]).
    set (s1 := add_text [Text (xy a) str true false] s) in *.
    assert (INT : forall k z, (0 <= k < 1024)%Z -> (Z.abs z <= 2 ^ k)%Z -> bnd k (of_Z (Arith := AN) z : f64)) by (intros; apply bnd_int; assumption).
    assert (T2 : page_nums P (v_page (if inside
      then add_lines [line3 af (sub3 a (mul3 ax gap)); line3 (add3 a (mul3 ax gap)) at2] s1
      else add_lines [line3 af (sub3 af (mul3 ax (of_Z 10))); line3 at2 (add3 at2 (mul3 ax (of_Z 10)))] s1))).
    { destruct inside eqn:IN.
      - specialize (BI eq_refl). assert (G : bnd3 lm asc 478 (mul3 ax gap)) by (apply (bnd3_mul lm asc 28 450); [lia|exact BA|exact BI]).
        assert (A' : bnd3 lm asc 478 a) by (apply (bnd3_mono lm asc 402); [lia|exact Ba]).
        pose proof (bnd3_sub lm asc 478 _ _ ltac:(lia) A' G) as G1. pose proof (bnd3_add lm asc 478 _ _ ltac:(lia) A' G) as G2.
        apply lines_keep; [exact S|exact D|exact T1|]. intros l [<-|[<-|[]]]; (split; [eapply xy_bnd; [|first [exact BAf|exact G2]]; lia|eapply xy_bnd; [|first [exact BAt|exact G1]]; lia]).
      - assert (G : bnd3 lm asc 410 (mul3 ax (of_Z 10))) by (apply (bnd3_mono lm asc 32); [lia|]; apply (bnd3_mul lm asc 28 4); [lia|exact BA|apply INT; lia]).
        pose proof (bnd3_sub lm asc 410 _ _ ltac:(lia) BAf G) as G1. pose proof (bnd3_add lm asc 410 _ _ ltac:(lia) BAt G) as G2.
        apply lines_keep; [exact S|exact D|exact T1|]. intros l [<-|[<-|[]]]; (split; [eapply xy_bnd; [|first [exact BAf|exact BAt]]; lia|eapply xy_bnd; [|first [exact G1|exact G2]]; lia]). }
    match goal with |- page_nums _ (v_page (add_lines _ ?s)) => set (s2 := s) in * end.
    assert (E2 : v_scale s2 = v_scale s /\ v_d s2 = v_d s) by (unfold s2, s1; destruct inside; split; reflexivity). destruct E2 as [E2a E2b].
    set (ap := if inside then ax else neg3 ax).
    assert (BP : bnd3 lm asc 28 ap) by (unfold ap; destruct inside; [exact BA|apply neg3_bnd, BA]).
    assert (CB : forall x y, (Z.abs x <= 8)%Z -> (Z.abs y <= 8)%Z -> bnd3 lm asc 410 (add3 (mul3 ap (of_Z x)) (mul3 bx (of_Z y)))).
    { intros x y Lx Ly. apply (bnd3_mono lm asc 32); [lia|]. apply (bnd3_add lm asc 31); [lia| |]; (apply (bnd3_mul lm asc 28 3); [lia|assumption|apply INT; [lia|change (2 ^ 3)%Z with 8%Z; assumption]]). }
    assert (EX : forall z (c : bool), (Z.abs z <= 8)%Z -> bnd3 lm asc 410 (mul3 (mul3 bx (of_Z z)) (if c then n1 else of_Z (-1)))).
    { intros z c Lz. apply (bnd3_mono lm asc 31); [lia|]. apply (bnd3_mul lm asc 31 0); [lia| |apply SG]. apply (bnd3_mul lm asc 28 3); [lia|exact BB|apply INT; [lia|exact Lz]]. }
    assert (F' : bnd3 lm asc 410 f) by (apply (bnd3_mono lm asc 402); [lia|exact Bf]). assert (TT : bnd3 lm asc 410 t) by (apply (bnd3_mono lm asc 402); [lia|exact Bt]).
    apply lines_keep; [rewrite E2a; exact S|rewrite E2b; exact D|exact T2|].
    assert (ADD : forall u v, bnd3 lm asc 410 u -> bnd3 lm asc 410 v -> bnd2 lm asc 510 (xy (add3 u v))).
    { intros u v Hu Hv. apply (xy_bnd 411); [lia|]. apply (bnd3_add lm asc 410); [lia|assumption..]. }
    assert (SUB : forall u v, bnd3 lm asc 410 u -> bnd3 lm asc 410 v -> bnd2 lm asc 510 (xy (sub3 u v))).
    { intros u v Hu Hv. apply (xy_bnd 411); [lia|]. apply (bnd3_sub lm asc 410); [lia|assumption..]. }
    intros l [<-|[<-|[<-|[<-|[<-|[<-|[]]]]]]]; cbn [line3 lo lt_].
    - split; [apply SUB; [exact BAf|apply EX; lia]|apply SUB; [exact F'|apply EX; lia]].
    - split; [apply SUB; [exact BAt|apply EX; lia]|apply SUB; [exact TT|apply EX; lia]].
    - split; [apply (xy_bnd 410); [lia|exact BAf]|apply ADD; [exact BAf|apply CB; lia]].
    - split; [apply (xy_bnd 410); [lia|exact BAf]|apply ADD; [exact BAf|apply CB; lia]].
    - split; [apply (xy_bnd 410); [lia|exact BAt]|apply ADD; [exact BAt|apply CB; lia]].
    - split; [apply (xy_bnd 410); [lia|exact BAt]|apply ADD; [exact BAt|apply CB; lia]].
  Qed.
  (** ** The values of points *)
  Lemma has_centre_funcs (p q : @point AN) : funcs p = funcs q -> has_centre p -> has_centre q.
  Proof.
    revert q. induction p as [v l|n p IH l]; intros [w k|m q k] H; cbn in *; try discriminate; [tauto|]. injection H as -> _ H. intros [C|C]; [left; exact C|right; exact (IH q H C)].
  Qed.
  Lemma near_bnd k (ps : list (@v3 AN)) t : Forall (bnd3 lm asc k) ps -> bnd3 lm asc k t -> bnd3 lm asc k (near_of ps t).
  Proof.
    intros F H. unfold near_of. match goal with |- bnd3 _ _ _ (if ?c then _ else _) => destruct c end; [exact H|].
    assert (G : forall u l st, Forall (bnd3 lm asc k) l -> bnd3 lm asc k (snd st) -> bnd3 lm asc k (snd (fold_left (near_step u) l st))).
    { intros u. induction l as [|p l IH]; intros [r0 ret] Fl K; [exact K|]. cbn [fold_left]. inversion Fl as [|? ? Hp Fl']; subst. apply IH; [exact Fl'|]. unfold near_step.
      match goal with |- bnd3 _ _ _ (snd (if ?c then _ else _)) => destruct c end; [|exact K]. cbn [snd]. destruct Hp as (H1 & H2 & _). split; [exact H1|]. split; [exact H2|apply bnd_zero]. }
    apply G; [exact F|]. split; [|split]; apply bnd_zero.
  Qed.
  Lemma invoke_bnd k ps (p : @point AN) : Forall (bnd3 lm asc k) ps -> bnd3 lm asc k (triple p) -> ~ has_centre p -> forall v, snd (invoke ps p) = Some v -> bnd3 lm asc k v.
  Proof.
    intro F. induction p as [v l|n q IH l]; intros K NC w H.
    - cbn in H. injection H as <-. exact K.
    - cbn [triple] in K. cbn [has_centre] in NC. specialize (IH K (fun X => NC (or_intror X))). cbn [invoke] in H. destruct (bytes_eqb n (B "near")) eqn:N.
      + destruct ps as [|x t] eqn:M; [discriminate H|]. rewrite <- M in *. destruct (invoke ps q) as [lg [u|]]; [|discriminate H]. cbn [snd] in *. injection H as <-.
        apply near_bnd; [exact F|]. exact (IH u eq_refl).
      + destruct (bytes_eqb n (B "center")) eqn:C; [|discriminate H]. apply bytes_eqb_eq in C. exfalso. apply NC. left. exact C.
  Qed.
  Lemma evaluates_bnd ps (r : @m3 AN) ml n v : Forall (bnd3 lm asc 402) ps -> unitm lm asc r -> M128 ml -> (forall x p, In x ml -> m_val x = MPoint p -> ~ has_centre p) ->
    evaluates ps r ml n v -> bnd3 lm asc 402 v.
  Proof.
    intros F U M NC (x & p & p' & I & _ & V & (T & FN & _) & H). refine (invoke_bnd 402 ps p' F _ (fun C => NC x p I V (has_centre_funcs _ _ FN C)) v H).
    refine (eq_rect_r (fun w => bnd3 lm asc 402 w) _ T). apply (bnd3_mono lm asc 130); [lia|]. apply (bnd_mulm lm asc 128 0); [lia| |exact U]. pose proof (M x I) as Q. assert (V0 : @m_val AN x = MPoint p) by exact V. rewrite V0 in Q. exact Q.
  Qed.
  (** ** Drawings *)
  Definition plain_dim (d : @dim AN) : Prop := d_kind d = KDim /\ M128 (d_meta d) /\ forall x p, In x (d_meta d) -> m_val x = MPoint p -> ~ has_centre p.
  Lemma dim_keeps d (s s' : @vst AN) d' : Forall (bnd3 lm asc 402) (v_points s) -> unitm lm asc (v_rot s) -> bnd 38 (v_scale s : f64) -> bp (-26) <= B2R (v_scale s : f64) -> bnd2 lm asc 550 (v_d s) ->
    plain_dim d -> visit_base_dim d s = Ret (s', d', true) -> page_nums P (v_page s) -> page_nums P (v_page s').
  Proof.
    intros F U S SL D (KD & M & NC) H K. pose proof (used_once _ _ H) as Q. unfold uses_once in Q. cbv zeta in Q. rewrite KD in Q. destruct Q as (fm & a & u & f & t & _ & Ea & Eu & Ef & Et & ->).
    assert (EV : forall n v, evaluates (v_points s) (v_rot s) (d_meta d) n v -> bnd3 lm asc 402 v) by (intros n v; exact (evaluates_bnd _ _ _ _ _ F U M NC)).
    apply draw_dim_keeps; [exact S|exact SL|exact D|exact K|exact (EV _ _ Ea)| |exact (EV _ _ Ef)|exact (EV _ _ Et)]. apply (normalized_bnd 402); [lia|exact (EV _ _ Eu)].
  Qed.
  Lemma dims_keep ds : (forall d, In d ds -> plain_dim d) -> forall (s s' : @vst AN) ds', Forall (bnd3 lm asc 402) (v_points s) -> unitm lm asc (v_rot s) -> bnd 38 (v_scale s : f64) ->
    bp (-26) <= B2R (v_scale s : f64) -> bnd2 lm asc 550 (v_d s) -> visit_dims ds s = Ret (s', ds', true) -> page_nums P (v_page s) -> page_nums P (v_page s').
  Proof.
    induction ds as [|d ds IH]; intros PD s s' ds' HP HR HS HL HD; cbn [visit_dims].
    - intro H. injection H as <- _. auto.
    - rewrite obind_ret. intros ([[s1 d1] ok1] & H1 & H) K. rewrite obind_ret in H. destruct H as ([[s2 t] ok2] & H2 & H). injection H as <- _ OK.
      assert (ok1 = true /\ ok2 = true) as [-> ->] by (destruct ok1, ok2; try discriminate OK; auto).
      assert (G : v_points s1 = v_points s /\ v_rot s1 = v_rot s /\ v_scale s1 = v_scale s /\ v_d s1 = v_d s).
      { assert (HV : visit_dims [d] s = Ret (s1, [d1], true)) by (cbn [visit_dims]; rewrite H1; reflexivity).
        destruct (visit_dims_spec _ _ HV) as ((p & dl & ->) & _). repeat split. }
      destruct G as (G1 & G2 & G3 & G4). refine (IH (fun d0 I => PD d0 (or_intror I)) s1 s2 t _ _ _ _ _ H2 _); try (rewrite ?G1, ?G2, ?G3, ?G4; assumption).
      exact (dim_keeps d s s1 d1 HP HR HS HL HD (PD _ (or_introl eq_refl)) H1 K).
  Qed.
  Lemma dims_draw_keeps64 st l n ml ds : M128 ml -> trig_sane lm -> (forall a b, asks_scale ml a b -> (0 < a <= 2 ^ 31)%Z /\ (0 < b <= 2 ^ 31)%Z) ->
    (forall f, model_of st n = Some f -> Forall (bndF lm asc 400) (facets f)) -> (forall d, In d ds -> plain_dim d) -> item_keeps P st (DDraw l n ml ds).
  Proof.
    intros M T SP MK PD s s' d' H K. cbn [visit_drawable] in H. rewrite obind_ret in H. destruct H as ([[s1 ds1] ok1] & H1 & H). injection H as <- _ ->.
    destruct (visit_draw_spec _ _ _ _ _ _ H1) as [[D _] _]. destruct (D eq_refl) as [[a b] file rot pl proj ls _ _ HS HM HV HP HR HL _ HD]. clear D.
    destruct (SP _ _ (scale_asks _ HS)) as (La & Lb). pose proof (scale_bnd lm asc a b ltac:(lia) ltac:(lia) ltac:(lia)) as SB. pose proof (scale_low a b La Lb) as SL.
    rewrite (rotated_culled _ _ _ HR) in *.
    assert (U : unitm lm asc rot).
    { apply (view_fine lm asc ml rot T (view_of_asks _ HV)). intros x v I _ V. pose proof (M x I) as Q. assert (V0 : @m_val AN x = MLoc v) by exact V. rewrite V0 in Q. destruct Q as [Q1 Q2]. split; [exact (bnd_mono 128 1000 _ ltac:(lia) Q1)|exact (bnd_mono 128 1000 _ ltac:(lia) Q2)]. }
    assert (FT : forall f, In f (facets file) -> facetP (bnd3 lm asc 402) (rotate_facet rot f)).
    { intros f I. pose proof (MK _ HM) as Q. rewrite Forall_forall in Q. destruct (Q f I) as (Q0 & Q1 & Q2). unfold facetP, rotate_facet. cbn [fe0 fe1 fe2].
      split; [|split]; (apply (bnd_mulm lm asc 400 0); [lia|assumption|exact U]). }
    assert (X : forall ev eu pu pv, bnd3 lm asc 402 (e1 ev) -> bnd3 lm asc 402 (e2 ev) -> bnd3 lm asc 402 (e1 eu) -> bnd3 lm asc 402 (e2 eu) -> cross_at ev eu = Some (pu, pv) -> bnd3 lm asc 404 pu /\ bnd3 lm asc 404 pv).
    { intros ev eu pu pv A1 A2 A3 A4 C. apply (cross_bnd lm asc 402 ev eu); [lia|split; assumption|split; assumption|exact C]. }
    destruct (rotate_P (bnd3 lm asc 402) (bnd3 lm asc 404) (fun v H => bnd3_mono lm asc 402 404 v ltac:(lia) H) X _ _ _ _ FT HR HL) as [KF KL].
    destruct (limits_bnd lm asc 402 proj KF) as [L1 L2]. pose proof (place_bnd lm asc _ _ M HP) as PB.
    set (off := sub2 pl (mul2 (div2 (add2 (lo (limits proj)) (lt_ (limits proj))) n2) (proj_scale (a, b)))).
    assert (OB : bnd2 lm asc 550 off).
    { apply (bnd2_mono lm asc 442); [lia|]. unfold off. apply (bnd2_sub lm asc 441); [lia|apply (bnd2_mono lm asc 136); [lia|exact PB]|]. apply (bnd2_mul lm asc 403 38); [lia| |exact SB]. apply bnd2_half; [lia|]. apply (bnd2_add lm asc 402); [lia|exact L1|exact L2]. }
    set (s2 := Vst (points proj) rot (proj_scale (a, b)) off (v_page s) (v_log s)).
    assert (K2 : page_nums P (v_page (draw_state (a, b) rot pl proj ls s))).
    { change (draw_state (a, b) rot pl proj ls s) with (add_lines ls s2). apply lines_keep; [exact SB|exact OB|exact K|].
      intros x I. rewrite Forall_forall in KL. destruct (KL x I) as (p & q & Bp & Bq & ->). cbn [lo lt_ line3]. split; (apply (xy_bnd 404); [lia|assumption]). }
    refine (dims_keep ds PD (draw_state (a, b) rot pl proj ls s) s1 ds1 _ U SB SL OB HD K2). exact (points_P (bnd3 lm asc 402) proj KF).
  Qed.
End Dims.
Theorem finite_dims (lm : libm) (asc : bool) (E : @Env (F64 lm asc)) fs src c r :
  (forall x, word_like (@fmt_num (F64 lm asc) E x)) -> one_line (@flag_name (F64 lm asc) E) -> one_line src -> one_line (@now (F64 lm asc) E) ->
  trig_sane lm -> (forall w x, @stof (F64 lm asc) E w = Some x -> bnd 128 (x : f64)) ->
  (forall d m t ls l p, @parses (F64 lm asc) E src c d -> In m (doc_models d) -> @resolves (F64 lm asc) E fs (mo_source m) t -> lines_in t ls -> In l ls -> @says (F64 lm asc) E l (EVertex p) -> bnd3 lm asc 400 p) ->
  @scales_positive (F64 lm asc) E src c ->
  (forall d pg l n ml ds dm, @parses (F64 lm asc) E src c d -> In pg (doc_pages d) -> In (DDraw l n ml ds) (pg_draws pg) -> In dm ds -> d_kind dm = KDim) ->
  (forall d p, @parses (F64 lm asc) E src c d -> says_point d p -> ~ has_centre p) ->
  (forall d pg t, @parses (F64 lm asc) E src c d -> In pg (doc_pages d) -> titled pg t -> (Z.of_nat (length t) < 2 ^ 60)%Z) ->
  @script_to_ps (F64 lm asc) E fs src c = Ret r -> r_ok r = true ->
  let finite := fun x : @num (F64 lm asc) => is_finite (x : f64) = true in
  exists d st lg ps, @parses (F64 lm asc) E src c d /\ @load_files (F64 lm asc) E fs (doc_models d) [] = Ret (st, lg, true) /\ Forall2 (@page_shows (F64 lm asc) E st) (doc_pages d) ps /\
    Forall (page_nums finite) ps /\ (raw_ok ps -> exists toks, ps_read (r_out r) = Some toks /\ @words_with (F64 lm asc) E finite toks).
Proof.
  intros NW N1 N2 N3 T SF MB SP KD NC TI H HO finite.
  destruct (whole_nums (E := E) (fun x : @num (F64 lm asc) => bnd 600 (x : f64)) finite (fun x B => proj1 B) (degrees_fin lm asc) (bnd_mono 3 600 _ ltac:(lia) (bnd_int 3 7 ltac:(lia) ltac:(lia)))
    fs src c r NW N1 N2 N3 H HO) as (d & st & lg & ps & H1 & H2 & H3 & H4 & H5).
  - intros d st lg pg HP HL Ipg. pose proof (parsed_nums (A := F64 lm asc) (E := E) (fun x => bnd 128 (x : f64)) (fun w x _ => SF w x) _ _ _ HP) as DN. destruct (DN pg Ipg) as [_ DI].
    destruct (load_files_nil_ok _ _ HL) as (_ & _ & HM & _). split; [|intros t Ht; apply header_bnd; exact (TI d pg t HP Ipg Ht)]. apply Forall_forall. intros [l n ml ds|l t ml] I.
    + pose proof (DI _ I) as [M1 M2]. apply dims_draw_keeps64; [exact M1|exact T| | |].
      * intros a b AS. destruct (SP d pg l n ml ds a b HP Ipg I AS) as [PA PB]. destruct AS as [_|x a b Ix Nx Vx]; [split; lia|].
        destruct (scale_words _ _ _ _ _ _ _ _ _ _ _ HP Ipg I Ix Vx) as (us & w1 & w2 & vs & u & v & _ & _ & Ta & _ & Tb).
        pose proof (to_int_bnd _ _ Ta). pose proof (to_int_bnd _ _ Tb). split; lia.
      * intros f Hf. destruct (HM _ _ Hf) as (m & t & lgm & Im & Rm & Sm & Q). refine (make_keeps (bnd3 lm asc 400) t f lgm _ Q). intros ls l0 p. eapply MB; eassumption.
      * intros dm Id. split; [exact (KD d pg l n ml ds dm HP Ipg I Id)|]. split; [exact (M2 dm Id)|]. intros x p Ix V. apply (NC d p HP). exists pg, l, n, ml, ds, dm, x. auto 8.
    + apply text_keeps64. exact (DI _ I).
  - exists d, st, lg, ps. repeat (split; [assumption|]). split; [|exact H5]. eapply Forall_impl; [|exact H4]. intros p (A1 & A2 & A3). split; [|split].
    + intros l I. destruct (A1 l I) as [[[B1 _] [B2 _]] [[B3 _] [B4 _]]]. repeat split; assumption.
    + intros a I. destruct (A2 a I) as ([[B1 _] [B2 _]] & [B3 _] & [B4 _] & [B5 _]). repeat split; assumption.
    + intros t I. destruct (A3 t I) as [[B1 _] [B2 _]]. split; assumption.
Qed.
