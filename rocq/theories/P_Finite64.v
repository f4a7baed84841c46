(** P_Finite64.v - pages without dimensions have only finite doubles on them. *)
From Coq Require Import Reals Lra ZArith Lia.
From Flocq Require Import Core IEEE754.BinarySingleNaN.
From Verif Require Import Base Num NumReal NumF64 NumLaws Geo Stl StlRead Env Ast Lexer Parser Ps Draw Main GeoSpec DocSpec PsSpec FiniteSpec StlSpec EndSpec F64Spec
  P_Base P_Meta P_Frame P_Dims P_Doc P_Script P_Script2 P_Script3 P_Script4 P_Order P_Part P_Index P_Hide P_Lines P_Geo1 P_Total P_Bound P_Float
  LangSpec Grammar P_Parser P_Parser2 P_Parser3 PrintSpec P_Print P_Lang P_Lang2 P_Ps P_Ps2 P_Value P_Finite.

Local Unset Implicit Arguments.
Local Open Scope R_scope.
#[local] Existing Instance v32. #[local] Existing Instance v64.

Lemma bnd_int k z : (0 <= k < 1024)%Z -> (Z.abs z <= 2 ^ k)%Z -> bnd k (fz_ z).
Proof.
  intros K L. unfold fz_, norm64. pose proof (binary_normalize_correct 53 1024 prec64 emax64 mode_NE z 0 false) as C. cbv zeta in C.
  assert (R1 : F2R (Float radix2 z 0) = IZR z) by (unfold F2R; simpl; ring). rewrite R1 in C.
  assert (RB : Rabs (rnd (IZR z)) <= bp k).
  { apply rnd_bound; [lia|]. rewrite <- abs_IZR. unfold bp. rewrite <- (IZR_Zpower radix2) by lia. apply IZR_le. exact L. }
  rewrite (bp_emax k) in C by (lia || exact RB). destruct C as (C1 & C2 & _). split; [exact C2|]. rewrite C1. exact RB.
Qed.
Lemma bnd_f32 k x : (0 <= k < 128)%Z -> bnd k x -> bnd k (f_to_f32 x).
Proof.
  intros K [F B]. assert (RB : Rabs (rnd32 (B2R x)) <= bp k).
  { apply (abs_round_le_generic radix2 fx32 (round_mode mode_NE)); [apply generic_format_bpow; unfold SpecFloat.fexp, SpecFloat.emin; lia|exact B]. }
  destruct (f32_val x F) as [F' V]; [eapply Rle_lt_trans; [exact RB|]; apply (bpow_lt radix2 k 128); lia|]. split; [exact F'|]. rewrite V. exact RB.
Qed.
Lemma bnd_div k x y : (0 <= k < 1024)%Z -> bnd k x -> 1 <= B2R y -> bnd k (fdiv x y).
Proof.
  intros K [F B] Y. assert (NZ : B2R y <> 0) by lra.
  assert (R : Rabs (rnd (B2R x / B2R y)) <= bp k).
  { apply rnd_bound; [lia|]. unfold Rdiv. rewrite Rabs_mult. assert (0 < / B2R y <= 1) by (split; [apply Rinv_0_lt_compat; lra|rewrite <- Rinv_1; apply Rinv_le_contravar; lra]).
    rewrite (Rabs_pos_eq (/ B2R y)) by lra. pose proof (Rabs_pos (B2R x)). nra. }
  pose proof (Bdiv_correct 53 1024 prec64 emax64 mode_NE x y NZ) as C. rewrite (bp_emax k) in C by (exact R || lia).
  destruct C as (C1 & C2 & _). split; [unfold fdiv; rewrite C2; exact F|]. unfold fdiv. rewrite C1. exact R.
Qed.
(** Small steps are lost beside large numbers. *)
Lemma bnd_absorb y : bnd 200 y -> bnd 200 (fsub y (fz_ 12)).
Proof.
  intros [F B]. destruct (int_val 12 ltac:(lia)) as [F12 V12].
  assert (R : Rabs (rnd (B2R y - B2R (fz_ 12))) <= bp 200).
  { rewrite V12. set (x := B2R y - 12). assert (X : Rabs x <= bp 200 + 12) by (unfold x; unfold Rabs in *; destruct (Rcase_abs (B2R y)), (Rcase_abs (B2R y - 12)); lra).
    assert (FM : generic_format radix2 fx64 (bp 200)) by (apply generic_format_bpow; unfold SpecFloat.fexp, SpecFloat.emin; lia).
    assert (FX : generic_format radix2 fx64 (Rabs (rnd x))) by (apply generic_format_abs, generic_format_round; apply valid_rnd_N || exact v64).
    destruct (Rle_or_lt (Rabs x) (bp 200)) as [L|G]; [apply rnd_bound; [lia|exact L]|].
    assert (N : Rabs (rnd x - x) <= 12).
    { assert (FS : forall g, generic_format radix2 fx64 g -> Rabs (rnd x - x) <= Rabs (g - x)).
      { intros g Fg. destruct (round_N_pt radix2 fx64 (fun z => negb (Z.even z)) x) as [_ H]. exact (H g Fg). }
      destruct (Rcase_abs x) as [S|S].
      - pose proof (FS _ (generic_format_opp _ _ _ FM)) as H. rewrite (Rabs_left x S) in *. rewrite (Rabs_pos_eq (- bp 200 - x)) in H by lra. lra.
      - pose proof (FS _ FM) as H. rewrite (Rabs_pos_eq x) in * by lra. rewrite (Rabs_left1 (bp 200 - x)) in H by lra. lra. }
    destruct (Rle_or_lt (Rabs (rnd x)) (bp 200)) as [L|L]; [exact L|exfalso].
    pose proof (succ_le_lt radix2 fx64 _ _ FM FX L) as S. rewrite succ_eq_pos in S by (apply bpow_ge_0). unfold bp in S. rewrite ulp_bpow in S.
    change (fx64 (200 + 1)) with 148%Z in S.
    assert (B148 : 100 <= bpow radix2 148). { apply Rle_trans with (bpow radix2 7); [change (bpow radix2 7) with 128; lra|apply bpow_le; lia]. }
    pose proof (Rabs_triang_inv (rnd x) x) as T. unfold bp in *. lra. }
  pose proof (Bminus_correct 53 1024 prec64 emax64 mode_NE y (fz_ 12) F F12) as C. rewrite (bp_emax 200) in C by (exact R || lia).
  destruct C as (C1 & C2 & _). split; [exact C2|]. unfold fsub. rewrite C1. exact R.
Qed.
Section Fin64.
  Context (lm : libm) (asc : bool).
  Notation AN := (F64 lm asc).
  Context {E : @Env AN}.
  Definition bnd2 (k : Z) (v : @v2 AN) : Prop := bnd k (x2 v : f64) /\ bnd k (y2 v : f64).
  Lemma bnd2_mono j k v : (j <= k)%Z -> bnd2 j v -> bnd2 k v.
  Proof. intros L [H1 H2]. split; [exact (bnd_mono j k _ L H1)|exact (bnd_mono j k _ L H2)]. Qed.
  Lemma bnd2_add k u v : (0 <= k < 1023)%Z -> bnd2 k u -> bnd2 k v -> bnd2 (k + 1) (add2 u v).
  Proof. intros L [A1 A2] [B1 B2]. split; (apply bnd_add; [lia|assumption..]). Qed.
  Lemma bnd2_sub k u v : (0 <= k < 1023)%Z -> bnd2 k u -> bnd2 k v -> bnd2 (k + 1) (sub2 u v).
  Proof. intros L [A1 A2] [B1 B2]. split; (apply bnd_sub; [lia|assumption..]). Qed.
  Lemma bnd2_mul j k u (x : @num AN) : (0 <= j + k < 1024)%Z -> bnd2 j u -> bnd k (x : f64) -> bnd2 (j + k) (mul2 u x).
  Proof. intros L [A1 A2] B. split; (apply bnd_mul; [lia|assumption..]). Qed.
  Lemma bnd2_half k u : (0 <= k < 1024)%Z -> bnd2 k u -> bnd2 k (div2 u n2).
  Proof. intros L [A1 A2]. destruct (int_val 2 ltac:(lia)) as [_ V]. split; (apply bnd_div; [lia|assumption|change (1 <= B2R (fz_ 2)); rewrite V; lra]). Qed.
  Lemma mid_bnd : bnd2 9 (page_mid (A := AN)).
  Proof. split; [exact (bnd_int 9 396 ltac:(lia) ltac:(lia))|exact (bnd_int 9 306 ltac:(lia) ltac:(lia))]. Qed.
  Lemma scale_bnd a b : (Z.abs a <= 2 ^ 31)%Z -> (Z.abs b <= 2 ^ 31)%Z -> b <> 0%Z -> bnd 38 (proj_scale (A := AN) (a, b) : f64).
  Proof.
    intros La Lb NB. destruct (scale_steps lm asc a b La Lb NB) as [F V]. split; [exact F|]. rewrite V.
    apply (abs_round_le_generic radix2 fx32 (round_mode mode_NE)); [apply generic_format_bpow; unfold SpecFloat.fexp, SpecFloat.emin; lia|]. apply rnd_bound; [lia|].
    assert (B1 : 1 <= Rabs (IZR b)) by (rewrite <- abs_IZR; apply (IZR_le 1); lia).
    assert (A1 : Rabs (IZR a) <= IZR (2 ^ 31)) by (rewrite <- abs_IZR; apply IZR_le; lia).
    rewrite Rabs_mult, (Rabs_pos_eq 72) by lra. unfold Rdiv. rewrite Rabs_mult, Rabs_inv.
    assert (I1 : 0 < / Rabs (IZR b) <= 1). { split; [apply Rinv_0_lt_compat; lra|]. rewrite <- Rinv_1. apply Rinv_le_contravar; lra. }
    change (bp 38) with (IZR (2 ^ 38)). pose proof (Rabs_pos (IZR a)). change (2 ^ 31)%Z with 2147483648%Z in A1. change (2 ^ 38)%Z with 274877906944%Z. nra.
  Qed.
  Lemma to_int_bnd (x : f64) z : f_to_int x = Some z -> (Z.abs z <= 2 ^ 31)%Z.
  Proof.
    unfold f_to_int. destruct x; try discriminate; [intro H; injection H as <-; cbn; lia|].
    cbv zeta. match goal with |- context [Btrunc ?x] => generalize (Btrunc x); intro w end.
    match goal with |- (if ?c then _ else _) = _ -> _ => destruct c eqn:C; [|discriminate] end. apply andb_true_iff in C. destruct C as [C1 C2].
    intro H. injection H as <-. apply Z.leb_le in C1. apply Z.leb_le in C2. change (2 ^ 31)%Z with 2147483648%Z. lia.
  Qed.
  (** ** Limits *)
  Lemma pick_bnd (c : bool) k (a b : f64) : bnd k a -> bnd k b -> bnd k (if c then a else b).
  Proof. destruct c; auto. Qed.
  Lemma limits_bnd k (s : @stl AN) : Forall (bndF lm asc k) (facets s) -> bnd2 k (lo (limits s)) /\ bnd2 k (lt_ (limits s)).
  Proof.
    intro H. unfold limits. destruct (facets s) as [|f0 fs0] eqn:F.
    { split; split; apply bnd_zero. }
    assert (K : Forall (bnd3 lm asc k) (flat_map fverts (f0 :: fs0))).
    { apply Forall_forall. intros v I. apply in_flat_map in I. destruct I as (f & If & Iv). rewrite Forall_forall in H. destruct (H f If) as (K0 & K1 & K2).
      unfold fverts in Iv. destruct Iv as [ <- |[ <- |[ <- |[]]]]; assumption. }
    assert (G : forall (l : list (@v3 AN)) (b : @v3 AN * @v3 AN), Forall (bnd3 lm asc k) l -> bnd3 lm asc k (fst b) -> bnd3 lm asc k (snd b) -> bnd3 lm asc k (fst (fold_left (@lim_step AN) l b)) /\ bnd3 lm asc k (snd (fold_left (@lim_step AN) l b))).
    { induction l as [|v l IH]; intros [mn mx] HL H1 H2; [split; assumption|]. inversion HL as [|? ? Hv Hl]; subst. cbn [fold_left]. apply IH; [exact Hl| |];
        destruct H1 as (A1 & A2 & A3), H2 as (B1 & B2 & B3), Hv as (C1 & C2 & C3); cbn [fst snd lim_step] in *; unfold bnd3; cbn [x3 y3 z3];
        (split; [|split]); try assumption; unfold nmin, nmax; match goal with |- context [if ?c then _ else _] => destruct c end; assumption. }
    assert (K0 : bnd3 lm asc k (fe0 f0)) by (inversion H as [|? ? Hf _]; subst; apply Hf).
    destruct (G _ (fe0 f0, fe0 f0) K K0 K0) as [GA GB].
    destruct (fold_left lim_step (flat_map fverts (f0 :: fs0)) (fe0 f0, fe0 f0)) as [mn mx]. cbn [fst snd] in *. unfold line3. cbn [lo lt_]. unfold xy.
    destruct GA as (G1 & G2 & _), GB as (G3 & G4 & _). split; split; cbn [x2 y2 x3 y3]; first [exact G1|exact G2|exact G3|exact G4].
  Qed.
  (** ** Items *)
  Notation P := (fun x : @num AN => bnd 600 (x : f64)).
  Notation M128 := (metas_nums (A := AN) (fun x => bnd 128 (x : f64))).
  Lemma place_bnd ml pl : M128 ml -> place_of ml = Some pl -> bnd2 136 pl.
  Proof.
    intros M. unfold place_of. destruct (arg "@" ml) as [x|] eqn:G.
    - destruct (arg_in _ _ G) as [HI _]. specialize (M x HI). unfold as_loc. destruct (m_val x) eqn:V; try discriminate.
      intro H. injection H as <-. apply (bnd2_add 135); [lia| |apply (bnd2_mono 9); [lia|exact mid_bnd]]. apply (bnd2_mul 128 7); [lia|exact M|exact (bnd_int 7 72 ltac:(lia) ltac:(lia))].
    - intro H. injection H as <-. split; apply bnd_zero.
  Qed.
  Lemma text_place_bnd ml pl : M128 ml -> text_place_of ml = Some pl -> bnd2 200 pl.
  Proof.
    intros M. unfold text_place_of. destruct (arg "@" ml) as [x|] eqn:G.
    - destruct (arg_in _ _ G) as [HI _]. specialize (M x HI). unfold as_loc. destruct (m_val x) eqn:V; try discriminate.
      intro H. injection H as <-. apply (bnd2_add 199); [lia| |apply (bnd2_mono 9); [lia|exact mid_bnd]]. apply (bnd2_mono 136); [lia|]. apply (bnd2_add 135); [lia|split; apply bnd_zero|].
      apply (bnd2_mul 128 7); [lia|exact M|exact (bnd_int 7 72 ltac:(lia) ltac:(lia))].
    - intro H. injection H as <-. apply (bnd2_add 199); [lia|split; apply bnd_zero|apply (bnd2_mono 9); [lia|exact mid_bnd]].
  Qed.
  Lemma text_lines_bnd ls : forall at_, bnd2 200 at_ -> Forall (fun t => nums2 P (t_at t)) (text_lines at_ ls).
  Proof.
    induction ls as [|w ls IH]; intros at_ K; cbn [text_lines]; [constructor|]. apply Forall_app. split.
    - destruct w; [constructor|constructor; [|constructor]]. destruct K as [K1 K2]. split; [exact (bnd_mono 200 600 _ ltac:(lia) K1)|exact (bnd_mono 200 600 _ ltac:(lia) K2)].
    - apply IH. split; [apply K|]. exact (bnd_absorb _ (proj2 K)).
  Qed.
  Lemma pages_add (p p' : @opage AN) ls ts : o_lines p' = o_lines p ++ ls -> o_arcs p' = o_arcs p -> o_text p' = o_text p ++ ts ->
    page_nums P p -> (forall l, In l ls -> nums2 P (lo l) /\ nums2 P (lt_ l)) -> (forall t, In t ts -> nums2 P (t_at t)) -> page_nums P p'.
  Proof.
    intros H1 H2 H3 (A1 & A2 & A3) B1 B3. unfold page_nums. rewrite H1, H2, H3.
    split; [|split]; [|exact A2|]; intros x I; apply in_app_or in I; destruct I as [I|I]; auto.
  Qed.
  Lemma text_keeps64 st l t ml : M128 ml -> item_keeps P st (DText l t ml).
  Proof.
    intros M s s' d' H K. cbn [visit_drawable] in H. rewrite obind_ret in H. destruct H as ([s1 ok1] & H1 & H). injection H as <- _ ->.
    destruct (visit_text_spec _ _ _ _ H1) as (_ & R). destruct (R eq_refl) as (pl & HP & ->). cbn [v_page].
    refine (pages_add (v_page s) _ [] (text_lines pl (split_on LF t)) _ _ _ K _ _); [reflexivity|cbn; rewrite app_nil_r; reflexivity|reflexivity|intros ? []|].
    apply Forall_forall, text_lines_bnd, (text_place_bnd _ _ M HP).
  Qed.
  Lemma draw_keeps64 st l n ml : M128 ml -> trig_sane lm -> (forall a b, asks_scale ml a b -> (Z.abs a <= 2 ^ 31)%Z /\ (Z.abs b <= 2 ^ 31)%Z /\ b <> 0%Z) ->
    (forall f, model_of st n = Some f -> Forall (bndF lm asc 500) (facets f)) -> item_keeps P st (DDraw l n ml []).
  Proof.
    intros M T SP MK s s' d' H K. cbn [visit_drawable] in H. rewrite obind_ret in H. destruct H as ([[s1 ds1] ok1] & H1 & H). injection H as <- _ ->.
    destruct (visit_draw_spec _ _ _ _ _ _ H1) as [[D _] _]. destruct (D eq_refl) as [[a b] file rot pl proj ls _ _ HS HM HV HP HR HL _ HD]. clear D.
    destruct (SP _ _ (scale_asks _ HS)) as (La & Lb & NB). pose proof (scale_bnd a b La Lb NB) as SB.
    rewrite (rotated_culled _ _ _ HR) in *.
    assert (U : unitm lm asc rot).
    { apply (view_fine lm asc ml rot T (view_of_asks _ HV)). intros x v I _ V. pose proof (M x I) as Q. assert (V0 : @m_val AN x = MLoc v) by exact V. rewrite V0 in Q. destruct Q as [Q1 Q2]. split; [exact (bnd_mono 128 1000 _ ltac:(lia) Q1)|exact (bnd_mono 128 1000 _ ltac:(lia) Q2)]. }
    assert (FT : forall f, In f (facets file) -> facetP (bnd3 lm asc 502) (rotate_facet rot f)).
    { intros f I. pose proof (MK _ HM) as Q. rewrite Forall_forall in Q. destruct (Q f I) as (Q0 & Q1 & Q2). unfold facetP, rotate_facet. cbn [fe0 fe1 fe2].
      split; [|split]; (apply (bnd_mulm lm asc 500 0); [lia|assumption|exact U]). }
    assert (X : forall ev eu pu pv, bnd3 lm asc 502 (e1 ev) -> bnd3 lm asc 502 (e2 ev) -> bnd3 lm asc 502 (e1 eu) -> bnd3 lm asc 502 (e2 eu) -> cross_at ev eu = Some (pu, pv) -> bnd3 lm asc 504 pu /\ bnd3 lm asc 504 pv).
    { intros ev eu pu pv A1 A2 A3 A4 C. apply (cross_bnd lm asc 502 ev eu); [lia|split; assumption|split; assumption|exact C]. }
    destruct (rotate_P (bnd3 lm asc 502) (bnd3 lm asc 504) (fun v H => bnd3_mono lm asc 502 504 v ltac:(lia) H) X _ _ _ _ FT HR HL) as [KF KL].
    destruct (limits_bnd 502 proj KF) as [L1 L2]. pose proof (place_bnd _ _ M HP) as PB.
    set (off := sub2 pl (mul2 (div2 (add2 (lo (limits proj)) (lt_ (limits proj))) n2) (proj_scale (a, b)))).
    assert (OB : bnd2 542 off).
    { unfold off. apply (bnd2_sub 541); [lia|apply (bnd2_mono 136); [lia|exact PB]|]. apply (bnd2_mul 503 38); [lia| |exact SB]. apply bnd2_half; [lia|]. apply (bnd2_add 502); [lia|exact L1|exact L2]. }
    cbn [visit_dims] in HD. injection HD as <- _.
    set (s2 := Vst (points proj) rot (proj_scale (a, b)) off (v_page s) (v_log s)).
    change (draw_state (a, b) rot pl proj ls s) with (add_lines ls s2).
    refine (pages_add (v_page s) _ (map (fun l0 => Line (place s2 (lo l0)) (place s2 (lt_ l0))) ls) [] _ _ _ K _ _);
      [reflexivity|reflexivity|cbn; rewrite app_nil_r; reflexivity| |intros ? []].
    assert (PL : forall p : @v3 AN, bnd3 lm asc 504 p -> nums2 P (place s2 (xy p))).
    { intros p (B1 & B2 & _). assert (Q : bnd2 543 (place s2 (xy p))).
      { unfold place, s2. cbn [v_scale v_d]. apply (bnd2_add 542); [lia| |exact OB]. apply (bnd2_mul 504 38); [lia|split; assumption|exact SB]. }
      destruct Q as [Q1 Q2]. split; [exact (bnd_mono 543 600 _ ltac:(lia) Q1)|exact (bnd_mono 543 600 _ ltac:(lia) Q2)]. }
    intros x I. apply in_map_iff in I. destruct I as (y & <- & I). rewrite Forall_forall in KL. destruct (KL y I) as (p & q & Bp & Bq & ->). cbn [lo lt_ line3]. split; apply PL; assumption.
  Qed.
  Lemma header_bnd t : (Z.of_nat (length t) < 2 ^ 60)%Z -> page_nums P (add_header opage_empty t).
  Proof.
    intro L. assert (TA : bnd 65 (text_at (A := AN) t : f64)).
    { unfold text_at. apply bnd_f32; [lia|]. apply (bnd_sub 64); [lia|apply (bnd_mono 10); [lia|exact (bnd_int 10 784 ltac:(lia) ltac:(lia))]|].
      apply (bnd_mul 64 0); [lia| |]. { apply (bnd_int 64); [lia|]. unfold kFontSize. lia. }
      split; [vm_compute; reflexivity|]. change (of_dec (Arith := AN) 6 (-1)) with (fdec 6 (-1)). rewrite <- SF2R_B2SF.
      replace (B2SF (fdec 6 (-1))) with (SpecFloat.S754_finite false 5404319552844595 (-53)) by (vm_compute; reflexivity). unfold SF2R, F2R, bp. simpl. rewrite Rabs_pos_eq by lra. lra. }
    assert (LB : bnd 66 (@to_f32 AN (@nsub AN (@text_at AN t) (@of_Z AN 3)) : f64)).
    { apply bnd_f32; [lia|]. apply (bnd_sub 65); [lia|exact TA|apply (bnd_mono 2); [lia|exact (bnd_int 2 3 ltac:(lia) ltac:(lia))]]. }
    assert (SM : forall z, (Z.abs z <= 1024)%Z -> bnd 600 (fz_ z)) by (intros z Z; apply (bnd_mono 10); [lia|apply bnd_int; [lia|exact Z]]).
    assert (TA' : bnd 600 (text_at (A := AN) t : f64)) by (apply (bnd_mono 65); [lia|exact TA]).
    assert (LB' : bnd 600 (@to_f32 AN (@nsub AN (@text_at AN t) (@of_Z AN 3)) : f64)) by (apply (bnd_mono 66); [lia|exact LB]).
    pose proof (SM 5%Z ltac:(lia)) as S5. pose proof (SM 8%Z ltac:(lia)) as S8. pose proof (SM 787%Z ltac:(lia)) as S787. pose proof (SM (kFontSize + 8)%Z ltac:(unfold kFontSize; lia)) as SH.
    split; [|split]; cbn [add_header opage_empty o_lines o_arcs o_text app].
    - intros l [<-|[<-|[]]]; cbn [lo lt_]; split; split; assumption.
    - intros a [].
    - intros x [<-|[]]. split; assumption.
  Qed.
  Lemma degrees_fin (a : f64) : bnd 600 a -> fin (@ndiv AN (@nmul AN a (of_Z 180)) Geo.PI : f64).
  Proof.
    intro B. apply (bnd_div 608); [lia| |].
    - apply (bnd_mul 600 8); [lia|exact B|exact (bnd_int 8 180 ltac:(lia) ltac:(lia))].
    - change (1 <= B2R (fdec 31415926535897932 (-16))). rewrite <- SF2R_B2SF, fdec_pi. unfold SF2R, F2R. simpl. lra.
  Qed.
End Fin64.
Theorem finite_doubles (lm : libm) (asc : bool) (E : @Env (F64 lm asc)) fs src c r :
  (forall x, word_like (@fmt_num (F64 lm asc) E x)) -> one_line (@flag_name (F64 lm asc) E) -> one_line src -> one_line (@now (F64 lm asc) E) ->
  trig_sane lm -> (forall w x, @stof (F64 lm asc) E w = Some x -> bnd 128 (x : f64)) ->
  (forall d m t ls l p, @parses (F64 lm asc) E src c d -> In m (doc_models d) -> @resolves (F64 lm asc) E fs (mo_source m) t -> lines_in t ls -> In l ls -> @says (F64 lm asc) E l (EVertex p) -> bnd3 lm asc 500 p) ->
  (forall d pg l n ml ds, @parses (F64 lm asc) E src c d -> In pg (doc_pages d) -> In (DDraw l n ml ds) (pg_draws pg) -> ds = [] /\ forall a, ~ asks_scale ml a 0) ->
  (forall d pg t, @parses (F64 lm asc) E src c d -> In pg (doc_pages d) -> titled pg t -> (Z.of_nat (length t) < 2 ^ 60)%Z) ->
  @script_to_ps (F64 lm asc) E fs src c = Ret r -> r_ok r = true ->
  let finite := fun x : @num (F64 lm asc) => is_finite (x : f64) = true in
  exists d st lg ps, @parses (F64 lm asc) E src c d /\ @load_files (F64 lm asc) E fs (doc_models d) [] = Ret (st, lg, true) /\ Forall2 (@page_shows (F64 lm asc) E st) (doc_pages d) ps /\
    Forall (page_nums finite) ps /\ (raw_ok ps -> exists toks, ps_read (r_out r) = Some toks /\ @words_with (F64 lm asc) E finite toks).
Proof.
  intros NW N1 N2 N3 T SF MB DR TI H HO finite.
  destruct (whole_nums (E := E) (fun x : @num (F64 lm asc) => bnd 600 (x : f64)) finite (fun x B => proj1 B) (degrees_fin lm asc) (bnd_mono 3 600 _ ltac:(lia) (bnd_int 3 7 ltac:(lia) ltac:(lia)))
    fs src c r NW N1 N2 N3 H HO) as (d & st & lg & ps & H1 & H2 & H3 & H4 & H5).
  - intros d st lg pg HP HL Ipg. pose proof (parsed_nums (A := F64 lm asc) (E := E) (fun x => bnd 128 (x : f64)) (fun w x _ => SF w x) _ _ _ HP) as DN. destruct (DN pg Ipg) as [_ DI].
    destruct (load_files_nil_ok _ _ HL) as (_ & _ & HM & _). split; [|intros t Ht; apply header_bnd; exact (TI d pg t HP Ipg Ht)]. apply Forall_forall. intros [l n ml ds|l t ml] I.
    + pose proof (DI _ I) as [M1 _]. destruct (DR d pg l n ml ds HP Ipg I) as [-> Z]. apply draw_keeps64; [exact M1|exact T| |].
      * intros a b AS. assert (NB : b <> 0%Z) by (intros ->; exact (Z a AS)). destruct AS as [_|x a b Ix Nx Vx]; [split; [lia|split; [lia|lia]]|].
        destruct (scale_words _ _ _ _ _ _ _ _ _ _ _ HP Ipg I Ix Vx) as (us & w1 & w2 & vs & u & v & _ & _ & Ta & _ & Tb).
        split; [exact (to_int_bnd _ _ Ta)|]. split; [exact (to_int_bnd _ _ Tb)|exact NB].
      * intros f Hf. destruct (HM _ _ Hf) as (m & t & lgm & Im & Rm & Sm & Q). refine (make_keeps (bnd3 lm asc 500) t f lgm _ Q). intros ls l0 p. eapply MB; eassumption.
    + apply text_keeps64. exact (DI _ I).
  - exists d, st, lg, ps. repeat (split; [assumption|]). split; [|exact H5]. eapply Forall_impl; [|exact H4]. intros p (A1 & A2 & A3). split; [|split].
    + intros l I. destruct (A1 l I) as [[[B1 _] [B2 _]] [[B3 _] [B4 _]]]. repeat split; assumption.
    + intros a I. destruct (A2 a I) as ([[B1 _] [B2 _]] & [B3 _] & [B4 _] & [B5 _]). repeat split; assumption.
    + intros t I. destruct (A3 t I) as [[B1 _] [B2 _]]. split; assumption.
Qed.
