(** P_FinDim3.v - conversions with dimensions of every kind put only finite doubles on the pages. *)
From Coq Require Import Reals Lra ZArith Lia.
From Flocq Require Import Core IEEE754.BinarySingleNaN.
From Verif Require Import Base Num NumReal NumF64 NumLaws Geo Stl StlRead Env Ast Lexer Parser Ps Draw Main GeoSpec DocSpec PsSpec FiniteSpec StlSpec EndSpec F64Spec LookSpec FinDimSpec
  P_Base P_Meta P_Frame P_Dims P_Doc P_Script P_Script2 P_Script3 P_Script4 P_Order P_Part P_Index P_Hide P_Lines P_Geo1 P_Total P_Bound P_Float
  LangSpec Grammar P_Parser P_Parser2 P_Parser3 PrintSpec P_Print P_Lang P_Lang2 P_Ps P_Ps2 P_Value P_Finite P_Finite64 P_Err P_Err2 P_FinDim64 P_FinDim2 RealSpec.

Local Unset Implicit Arguments.
Local Open Scope R_scope.
#[local] Existing Instance v32. #[local] Existing Instance v64.

Section Dims.
  Context (lm : libm) (asc : bool).
  Notation AN := (F64 lm asc).
  Context {E : @Env AN}.
  Notation P := (fun x : @num AN => bnd 600 (x : f64)).
  Notation M128 := (metas_nums (A := AN) (fun x => bnd 128 (x : f64))).
  Definition tame (c : @v2 AN * @num AN) : Prop := bnd2 lm asc 390 (fst c) /\ bnd 390 (snd c : f64).
  Lemma invoke_bnd2 ps (p : @point AN) : Forall (bnd3 lm asc 390) ps -> bnd3 lm asc 390 (triple p) -> (forall c, centre_fit ps p c -> tame c) -> forall v, snd (invoke ps p) = Some v -> bnd3 lm asc 390 v.
  Proof.
    intro F. induction p as [v l|n q IH l]; intros K NC w H.
    - cbn in H. injection H as <-. exact K.
    - cbn [triple] in K. specialize (IH K (fun c X => NC c (CF_in _ n q l c X))). cbn [invoke] in H. destruct (bytes_eqb n (B "near")) eqn:N.
      + destruct ps as [|x t] eqn:M; [discriminate H|]. rewrite <- M in *. destruct (invoke ps q) as [lg [u|]]; [|discriminate H]. cbn [snd] in *. injection H as <-.
        apply near_bnd; [exact F|]. exact (IH u eq_refl).
      + destruct (bytes_eqb n (B "center")) eqn:C; [|discriminate H]. apply bytes_eqb_eq in C. subst n. destruct (length ps <? 3)%nat; [discriminate H|].
        destruct (invoke ps q) as [lg [u|]] eqn:I; [|discriminate H]. destruct (fit_circle ps (xy u)) as [[ce r]|] eqn:FC; [|discriminate H]. cbn [snd] in H. injection H as <-.
        assert (T : tame (ce, r)) by (apply NC; apply (CF_here ps q l u); [rewrite I; reflexivity|exact FC]). destruct T as [[T1 T2] _]. split; [exact T1|]. split; [exact T2|apply bnd_zero].
  Qed.
  (** ** Dimensions *)
  Record tame_dim (ps : list (@v3 AN)) (r : @m3 AN) (d : @dim AN) : Prop := {
    td_meta : M128 (d_meta d); td_circ : forall c, circle_used ps r d c -> tame c;
    td_side : forall v, d_kind d = KAngle -> side_dir ps r (d_meta d) v -> big (x3 v) \/ big (y3 v) \/ big (z3 v);
    td_dir : forall v, d_kind d = KDia \/ d_kind d = KRad -> evaluates ps r (d_meta d) "dir" v -> big (x3 v) \/ big (y3 v) }.
  Lemma evaluates_bnd2 ps (r : @m3 AN) d n v : Forall (bnd3 lm asc 390) ps -> unitm lm asc r -> tame_dim ps r d -> evaluates ps r (d_meta d) n v -> bnd3 lm asc 390 v.
  Proof.
    intros F U TD (x & p & p' & I & _ & V & MB & H). refine (invoke_bnd2 ps p' F _ (fun c C => td_circ _ _ _ TD c (CU_point ps r d x p p' c I V MB C)) v H). destruct MB as (T & _).
    refine (eq_rect_r (fun w => bnd3 lm asc 390 w) _ T). apply (bnd3_mono lm asc 130); [lia|]. apply (bnd_mulm lm asc 128 0); [lia| |exact U]. pose proof (td_meta _ _ _ TD x I) as Q. assert (V0 : @m_val AN x = MPoint p) by exact V. rewrite V0 in Q. exact Q.
  Qed.
  Lemma tame_dim_keeps d (s s' : @vst AN) d' : bounded_atan2 lm -> short_labels lm asc -> Forall (bnd3 lm asc 390) (v_points s) -> unitm lm asc (v_rot s) -> bnd 38 (v_scale s : f64) -> bp (-26) <= B2R (v_scale s : f64) -> bnd2 lm asc 550 (v_d s) ->
    tame_dim (v_points s) (v_rot s) d -> visit_base_dim d s = Ret (s', d', true) -> page_nums P (v_page s) -> page_nums P (v_page s').
  Proof.
    intros AT SH F U S SL D TD H K. pose proof (used_once _ _ H) as Q. unfold uses_once in Q. cbv zeta in Q.
    assert (EV : forall n v, evaluates (v_points s) (v_rot s) (d_meta d) n v -> bnd3 lm asc 390 v) by (intros n v; exact (evaluates_bnd2 _ _ _ _ _ F U TD)).
    assert (XY : forall v, bnd3 lm asc 390 v -> bnd2 lm asc 390 (xy v)) by (intros v; apply xy_bnd; lia).
    destruct (d_kind d) eqn:KD.
    - destruct Q as (fm & a & p & f & t & _ & Ea & Ep & Sf & St & Q). pose proof (EV _ _ Ep) as Bp.
      assert (SU : forall kd kp g, kd = "from_dir"%string \/ kd = "to_dir"%string -> kp = "from_point"%string \/ kp = "to_point"%string -> side_used (v_points s) (v_rot s) (d_meta d) kd kp p g -> good lm asc (fst g) /\ bnd3 lm asc 390 (snd g)).
      { intros kd kp g Hd Hp [(v & Ev & ->)|(v & Ev & ->)]; cbn [fst snd].
        - split; [|exact Bp]. apply good_unit; [apply (bnd3_mono lm asc 390); [lia|exact (EV _ _ Ev)]|]. exact (td_side _ _ _ TD v KD (SD_dir _ _ _ _ _ Hd Ev)).
        - split; [|exact (EV _ _ Ev)]. apply good_unit; [apply (bnd3_sub lm asc 390); [lia|exact (EV _ _ Ev)|exact Bp]|]. exact (td_side _ _ _ TD _ KD (SD_point _ _ _ _ _ _ Hp Ev Ep)). }
      destruct (SU _ _ _ (or_introl eq_refl) (or_introl eq_refl) Sf) as [G1 B1]. destruct (SU _ _ _ (or_intror eq_refl) (or_intror eq_refl) St) as [G2 B2].
      exact (draw_angle_keeps lm asc _ _ _ _ _ _ _ _ s s' AT S SL D K (EV _ _ Ea) Bp B1 B2 G1 G2 Q).
    - destruct Q as (fm & a & dd & ct & ce & r & _ & Ea & Ed & Ec & FC & ->). destruct (td_circ _ _ _ TD (ce, r) (CU_dim _ _ _ ct _ (or_introl KD) Ec FC)) as [T1 T2].
      apply draw_dia_keeps; [exact SH|]. split; [exact S|exact SL|exact D|exact K|exact T1|exact (XY _ (EV _ _ Ea))| |exact T2]. apply good_flat; [exact (XY _ (EV _ _ Ed))|exact (td_dir _ _ _ TD dd (or_introl KD) Ed)].
    - destruct Q as (fm & a & u & f & t & _ & Ea & Eu & Ef & Et & ->). assert (UP : forall v, bnd3 lm asc 390 v -> bnd3 lm asc 402 v) by (intros v; apply bnd3_mono; lia).
      apply draw_dim_keeps; [exact S|exact SL|exact D|exact K|exact (UP _ (EV _ _ Ea))| |exact (UP _ (EV _ _ Ef))|exact (UP _ (EV _ _ Et))]. apply (normalized_bnd lm asc 390); [lia|exact (EV _ _ Eu)].
    - destruct Q as (fm & a & dd & ct & ce & r & _ & Ea & Ed & Ec & FC & ->). destruct (td_circ _ _ _ TD (ce, r) (CU_dim _ _ _ ct _ (or_intror KD) Ec FC)) as [T1 T2].
      apply draw_rad_keeps; [exact SH|]. split; [exact S|exact SL|exact D|exact K|exact T1|exact (XY _ (EV _ _ Ea))| |exact T2]. apply good_flat; [exact (XY _ (EV _ _ Ed))|exact (td_dir _ _ _ TD dd (or_intror KD) Ed)].
  Qed.
  Lemma tame_dims_keep ds ps r : bounded_atan2 lm -> short_labels lm asc -> (forall d, In d ds -> tame_dim ps r d) -> forall (s s' : @vst AN) ds', v_points s = ps -> v_rot s = r -> Forall (bnd3 lm asc 390) ps -> unitm lm asc r -> bnd 38 (v_scale s : f64) ->
    bp (-26) <= B2R (v_scale s : f64) -> bnd2 lm asc 550 (v_d s) -> visit_dims ds s = Ret (s', ds', true) -> page_nums P (v_page s) -> page_nums P (v_page s').
  Proof.
    intros AT SH. induction ds as [|d ds IH]; intros PD s s' ds' EP ER HP HR HS HL HD; cbn [visit_dims].
    - intro H. injection H as <- _. auto.
    - rewrite obind_ret. intros ([[s1 d1] ok1] & H1 & H) K. rewrite obind_ret in H. destruct H as ([[s2 t] ok2] & H2 & H). injection H as <- _ OK.
      assert (ok1 = true /\ ok2 = true) as [-> ->] by (destruct ok1, ok2; try discriminate OK; auto).
      assert (G : v_points s1 = v_points s /\ v_rot s1 = v_rot s /\ v_scale s1 = v_scale s /\ v_d s1 = v_d s).
      { assert (HV : visit_dims [d] s = Ret (s1, [d1], true)) by (cbn [visit_dims]; rewrite H1; reflexivity).
        destruct (visit_dims_spec _ _ HV) as ((p & dl & ->) & _). repeat split. }
      destruct G as (G1 & G2 & G3 & G4). refine (IH (fun d0 I => PD d0 (or_intror I)) s1 s2 t (eq_trans G1 EP) (eq_trans G2 ER) HP HR _ _ _ H2 _); try (rewrite ?G3, ?G4; assumption).
      refine (tame_dim_keeps d s s1 d1 AT SH _ _ HS HL HD _ H1 K); rewrite ?EP, ?ER; [exact HP|exact HR|]. exact (PD _ (or_introl eq_refl)).
  Qed.
  Lemma tame_draw_keeps st l n ml ds : M128 ml -> trig_sane lm -> bounded_atan2 lm -> short_labels lm asc -> (forall a b, asks_scale ml a b -> (0 < a <= 2 ^ 31)%Z /\ (0 < b <= 2 ^ 31)%Z) ->
    (forall f, model_of st n = Some f -> Forall (bndF lm asc 388) (facets f)) ->
    (forall f r p d, model_of st n = Some f -> asks_view ml r -> rotate f r = Ret p -> In d ds -> tame_dim (points (cull_back_face p)) r d) -> item_keeps P st (DDraw l n ml ds).
  Proof.
    intros M T AT SH SP MK PD s s' d' H K. cbn [visit_drawable] in H. rewrite obind_ret in H. destruct H as ([[s1 ds1] ok1] & H1 & H). injection H as <- _ ->.
    destruct (visit_draw_spec _ _ _ _ _ _ H1) as [[D _] _]. destruct (D eq_refl) as [[a b] file rot pl proj ls _ _ HS HM HV HP HR HL _ HD]. clear D.
    destruct (SP _ _ (scale_asks _ HS)) as (La & Lb). pose proof (scale_bnd lm asc a b ltac:(lia) ltac:(lia) ltac:(lia)) as SB. pose proof (scale_low lm asc a b La Lb) as SL.
    assert (PD2 : forall d, In d ds -> tame_dim (points proj) rot d).
    { intros d I. exact (eq_rect _ (fun x => tame_dim (points x) rot d) (PD file rot proj d HM (view_of_asks _ HV) HR I) _ (rotated_culled _ _ _ HR)). }
    rewrite (rotated_culled _ _ _ HR) in *.
    assert (U : unitm lm asc rot).
    { apply (view_fine lm asc ml rot T (view_of_asks _ HV)). intros x v I _ V. pose proof (M x I) as Q. assert (V0 : @m_val AN x = MLoc v) by exact V. rewrite V0 in Q. destruct Q as [Q1 Q2]. split; [exact (bnd_mono 128 1000 _ ltac:(lia) Q1)|exact (bnd_mono 128 1000 _ ltac:(lia) Q2)]. }
    assert (FT : forall f, In f (facets file) -> facetP (bnd3 lm asc 390) (rotate_facet rot f)).
    { intros f I. pose proof (MK _ HM) as Q. rewrite Forall_forall in Q. destruct (Q f I) as (Q0 & Q1 & Q2). unfold facetP, rotate_facet. cbn [fe0 fe1 fe2].
      split; [|split]; (apply (bnd_mulm lm asc 388 0); [lia|assumption|exact U]). }
    assert (X : forall ev eu pu pv, bnd3 lm asc 390 (e1 ev) -> bnd3 lm asc 390 (e2 ev) -> bnd3 lm asc 390 (e1 eu) -> bnd3 lm asc 390 (e2 eu) -> cross_at ev eu = Some (pu, pv) -> bnd3 lm asc 392 pu /\ bnd3 lm asc 392 pv).
    { intros ev eu pu pv A1 A2 A3 A4 C. apply (cross_bnd lm asc 390 ev eu); [lia|split; assumption|split; assumption|exact C]. }
    destruct (rotate_P (bnd3 lm asc 390) (bnd3 lm asc 392) (fun v H => bnd3_mono lm asc 390 392 v ltac:(lia) H) X _ _ _ _ FT HR HL) as [KF KL].
    destruct (limits_bnd lm asc 390 proj KF) as [L1 L2]. pose proof (place_bnd lm asc _ _ M HP) as PB.
    set (off := sub2 pl (mul2 (div2 (add2 (lo (limits proj)) (lt_ (limits proj))) n2) (proj_scale (a, b)))).
    assert (OB : bnd2 lm asc 550 off).
    { apply (bnd2_mono lm asc 430); [lia|]. unfold off. apply (bnd2_sub lm asc 429); [lia|apply (bnd2_mono lm asc 136); [lia|exact PB]|]. apply (bnd2_mul lm asc 391 38); [lia| |exact SB]. apply bnd2_half; [lia|]. apply (bnd2_add lm asc 390); [lia|exact L1|exact L2]. }
    set (s2 := Vst (points proj) rot (proj_scale (a, b)) off (v_page s) (v_log s)).
    assert (K2 : page_nums P (v_page (draw_state (a, b) rot pl proj ls s))).
    { change (draw_state (a, b) rot pl proj ls s) with (add_lines ls s2). apply lines_keep; [exact SB|exact OB|exact K|].
      intros x I. rewrite Forall_forall in KL. destruct (KL x I) as (p & q & Bp & Bq & ->). cbn [lo lt_ line3]. split; (apply (xy_bnd lm asc 392); [lia|assumption]). }
    refine (tame_dims_keep ds (points proj) rot AT SH PD2 (draw_state (a, b) rot pl proj ls s) s1 ds1 eq_refl eq_refl _ U SB SL OB HD K2). exact (points_P (bnd3 lm asc 390) proj KF).
  Qed.
End Dims.
Theorem finite_all (lm : libm) (asc : bool) (E : @Env (F64 lm asc)) fs src c r :
  (forall x, word_like (@fmt_num (F64 lm asc) E x)) -> one_line (@flag_name (F64 lm asc) E) -> one_line src -> one_line (@now (F64 lm asc) E) ->
  trig_sane lm -> (forall y x : f64, bnd 2 y -> bnd 2 x -> bnd 600 (l_atan2 lm y x)) -> (forall fm x, (Z.of_nat (length (@pf_format (F64 lm asc) E fm x)) < 2 ^ 60)%Z) ->
  (forall w x, @stof (F64 lm asc) E w = Some x -> bnd 128 (x : f64)) ->
  (forall d m t ls l p, @parses (F64 lm asc) E src c d -> In m (doc_models d) -> @resolves (F64 lm asc) E fs (mo_source m) t -> lines_in t ls -> In l ls -> @says (F64 lm asc) E l (EVertex p) -> bnd3 lm asc 388 p) ->
  @scales_positive (F64 lm asc) E src c ->
  (forall ps r dm ce rad, @shown_dim (F64 lm asc) E fs src c ps r dm -> @circle_used (F64 lm asc) ps r dm (ce, rad) -> bnd 390 (x2 ce : f64) /\ bnd 390 (y2 ce : f64) /\ bnd 390 (rad : f64)) ->
  (forall ps r dm v, @shown_dim (F64 lm asc) E fs src c ps r dm -> d_kind dm = KAngle -> @side_dir (F64 lm asc) ps r (d_meta dm) v -> big (x3 v) \/ big (y3 v) \/ big (z3 v)) ->
  (forall v, @circle_dir (F64 lm asc) E fs src c v -> big (x3 v) \/ big (y3 v)) ->
  (forall d pg t, @parses (F64 lm asc) E src c d -> In pg (doc_pages d) -> titled pg t -> (Z.of_nat (length t) < 2 ^ 60)%Z) ->
  @script_to_ps (F64 lm asc) E fs src c = Ret r -> r_ok r = true ->
  let finite := fun x : @num (F64 lm asc) => is_finite (x : f64) = true in
  exists d st lg ps, @parses (F64 lm asc) E src c d /\ @load_files (F64 lm asc) E fs (doc_models d) [] = Ret (st, lg, true) /\ Forall2 (@page_shows (F64 lm asc) E st) (doc_pages d) ps /\
    Forall (page_nums finite) ps /\ (raw_ok ps -> exists toks, ps_read (r_out r) = Some toks /\ @words_with (F64 lm asc) E finite toks).
Proof.
  intros NW N1 N2 N3 T AT SH SF MB SP CU SD CD TI H HO finite.
  destruct (whole_nums (E := E) (fun x : @num (F64 lm asc) => bnd 600 (x : f64)) finite (fun x B => proj1 B) (degrees_fin lm asc) (bnd_mono 3 600 _ ltac:(lia) (bnd_int 3 7 ltac:(lia) ltac:(lia)))
    fs src c r NW N1 N2 N3 H HO) as (d & st & lg & ps & H1 & H2 & H3 & H4 & H5).
  - intros d st lg pg HP HL Ipg. pose proof (parsed_nums (A := F64 lm asc) (E := E) (fun x => bnd 128 (x : f64)) (fun w x _ => SF w x) _ _ _ HP) as DN. destruct (DN pg Ipg) as [_ DI].
    destruct (load_files_nil_ok _ _ HL) as (_ & _ & HM & _). split; [|intros t Ht; apply header_bnd; exact (TI d pg t HP Ipg Ht)]. apply Forall_forall. intros [l n ml ds|l t ml] I.
    + pose proof (DI _ I) as [M1 M2]. apply tame_draw_keeps; [exact M1|exact T|exact AT|exact SH| | |].
      * intros a b AS. destruct (SP d pg l n ml ds a b HP Ipg I AS) as [PA PB]. destruct AS as [_|x a b Ix Nx Vx]; [split; lia|].
        destruct (scale_words _ _ _ _ _ _ _ _ _ _ _ HP Ipg I Ix Vx) as (us & w1 & w2 & vs & u & v & _ & _ & Ta & _ & Tb).
        pose proof (to_int_bnd _ _ Ta). pose proof (to_int_bnd _ _ Tb). split; lia.
      * intros f Hf. destruct (HM _ _ Hf) as (m & t & lgm & Im & Rm & Sm & Q). refine (make_keeps (bnd3 lm asc 388) t f lgm _ Q). intros ls l0 p. eapply MB; eassumption.
      * intros f r0 p dm Hf Hv Hr Id. destruct (HM _ _ Hf) as (m & t & lgm & Q1 & Q2 & Q3 & Q4).
        assert (DM : draws_model fs src c f r0 ds) by (exists d, pg, l, n, ml, m, t, lgm; auto 10).
        assert (SD0 : shown_dim fs src c (points (cull_back_face p)) r0 dm) by (exists f, ds, p; auto).
        split; [exact (M2 dm Id)| | |].
        -- intros [ce rad] C. destruct (CU _ _ _ _ _ SD0 C) as (A1 & A2 & A3). split; [split; assumption|assumption].
        -- intros v KD. exact (SD _ _ _ v SD0 KD).
        -- intros v KD EV. apply CD. exists f, r0, ds, dm, p. auto.
    + apply text_keeps64. exact (DI _ I).
  - exists d, st, lg, ps. repeat (split; [assumption|]). split; [|exact H5]. eapply Forall_impl; [|exact H4]. intros p (A1 & A2 & A3). split; [|split].
    + intros l I. destruct (A1 l I) as [[[B1 _] [B2 _]] [[B3 _] [B4 _]]]. repeat split; assumption.
    + intros a I. destruct (A2 a I) as ([[B1 _] [B2 _]] & [B3 _] & [B4 _] & [B5 _]). repeat split; assumption.
    + intros t I. destruct (A3 t I) as [[B1 _] [B2 _]]. split; assumption.
Qed.
