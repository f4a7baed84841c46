(** P_Finite2.v - in exact arithmetic the pages have only real numbers on them. *)
From Coq Require Import Reals Lra.
From Verif Require Import Base Num NumReal NumLaws Geo Stl StlRead Env Ast Lexer Parser Ps Draw Main GeoSpec DocSpec PsSpec FiniteSpec StlSpec
  RealSpec CircleSpec DimSpec MarkSpec
  P_Base P_Meta P_Frame P_Dims P_Doc P_Script P_Script2 P_Script3 P_Script4 P_Order P_Part P_Index P_Hide P_Lines P_Geo1 P_Total
  LangSpec Grammar P_Parser P_Parser2 P_Parser3 PrintSpec P_Print P_Lang P_Lang2 P_Ps P_Ps2 P_Real P_Span P_Value P_Value2 P_Mark P_Mark2 P_Mark3 P_Finite.

Local Unset Implicit Arguments.
Local Open Scope R_scope.

Definition known (v : @v3 XR) : Prop := exists p, v = emb p.
Definition known2 (v : @v2 XR) : Prop := exists p, v = CircleSpec.e2 p.
Lemma known_real v : nums3 real v -> known v.
Proof. destruct v as [x y z]. intros ((a & Ha) & (b & Hb) & (c & Hc)). cbn [x3 y3 z3] in *. subst. exists (P3 a b c). reflexivity. Qed.
Lemma known2_real v : nums2 real v <-> known2 v.
Proof.
  destruct v as [x y]. split.
  - intros ((a & Ha) & (b & Hb)). cbn [x2 y2] in *. subst. exists (a, b). reflexivity.
  - intros [[a b] Q]. injection Q as -> ->. split; eexists; reflexivity.
Qed.
Lemma real_fin r : real (Fin r). Proof. exists r. reflexivity. Qed.
#[local] Hint Resolve real_fin : core.
Lemma e2_real p : nums2 real (CircleSpec.e2 p). Proof. split; apply real_fin. Qed.
#[local] Hint Resolve e2_real : core.

Section Fin.
  #[local] Existing Instance XR.
  Context {E : @Env XR}.

  (** ** Models and views *)
  Lemma view_known ml r : metas_nums real ml -> view_of ml = Some r -> exists m, r = embm m.
  Proof.
    intros M. unfold view_of. destruct (arg "view" ml) as [x|] eqn:G.
    - destruct (arg_in _ _ G) as [HI _]. specialize (M x HI). unfold as_loc, as_str. destruct (m_val x) eqn:V; try discriminate.
      + intro H. destruct (named_rotation _ _ H) as (m & -> & _). exists m. reflexivity.
      + intro H. injection H as <-. apply known2_real in M. destruct M as [[a b] ->]. destruct (angle_rotation a b) as (m & Q & _). exists m. exact Q.
    - intro H. injection H as <-. destruct (named_rotation (B "Z+") (@mZP XR) eq_refl) as (m & -> & _). exists m. reflexivity.
  Qed.
  Lemma cross_known ev eu pu pv : known (Stl.e1 ev) -> known (Stl.e2 ev) -> known (Stl.e1 eu) -> known (Stl.e2 eu) -> cross_at ev eu = Some (pu, pv) -> known pu /\ known pv.
  Proof.
    destruct ev as [a b], eu as [c d]. cbn [Stl.e1 Stl.e2]. intros [a' ->] [b' ->] [c' ->] [d' ->] H. destruct (cross_some _ _ _ _ _ H) as (i & j & _ & _ & Q & _). injection Q as -> ->. split; eexists; reflexivity.
  Qed.
  Lemma model_known t f lg : (forall w x, @re2_double XR E w = Some x -> real x) -> stl_make t = Ret (Some f, lg) ->
    Forall (facetP known) (facets f).
  Proof.
    intros RD H. refine (make_keeps known t f lg _ H). intros ls l p _ _ S. inversion S as [| | |q HT|]; subst. destruct HT as (b & s1 & n1 & s2 & n2 & s3 & n3 & s4 & HT).
    apply known_real. repeat split; eapply RD; apply HT.
  Qed.
  Lemma turned_known f m : facetP known f -> facetP known (rotate_facet (embm m) f).
  Proof. intros ([a Ha] & [b Hb] & [c Hc]). unfold rotate_facet, facetP. cbn [fe0 fe1 fe2]. rewrite Ha, Hb, Hc. repeat split; eexists; apply mulm_emb. Qed.

  (** ** Limits *)
  Lemma nmin_real a b : real a -> real b -> real (nmin a b).
  Proof. intros H1 H2. unfold nmin. match goal with |- real (if ?c then _ else _) => destruct c end; assumption. Qed.
  Lemma nmax_real a b : real a -> real b -> real (nmax a b).
  Proof. intros H1 H2. unfold nmax. match goal with |- real (if ?c then _ else _) => destruct c end; assumption. Qed.
  Lemma known_nums v : known v -> nums3 real v.
  Proof. intros [p ->]. repeat split; apply real_fin. Qed.
  Lemma limits_known s : Forall (facetP known) (facets s) -> known2 (lo (limits s)) /\ known2 (lt_ (limits s)).
  Proof.
    intro H. unfold limits. destruct (facets s) as [|f0 fs0] eqn:F.
    { split; exists (0, 0); reflexivity. }
    assert (K : Forall (nums3 real) (flat_map fverts (f0 :: fs0))).
    { apply Forall_forall. intros v I. apply in_flat_map in I. destruct I as (f & If & Iv). rewrite Forall_forall in H. destruct (H f If) as (K0 & K1 & K2). apply known_nums.
      unfold fverts in Iv. destruct Iv as [ <- |[ <- |[ <- |[]]]]; assumption. }
    assert (G : forall l b, Forall (nums3 real) l -> nums3 real (fst b) -> nums3 real (snd b) -> nums3 real (fst (fold_left lim_step l b)) /\ nums3 real (snd (fold_left lim_step l b))).
    { induction l as [|v l IH]; intros [mn mx] HL H1 H2; [split; assumption|]. inversion HL as [|? ? Hv Hl]; subst. cbn [fold_left]. apply IH; [exact Hl| |];
        destruct H1 as (A1 & A2 & A3), H2 as (B1 & B2 & B3), Hv as (C1 & C2 & C3); cbn [fst snd lim_step] in *; repeat split; cbn [x3 y3 z3]; auto using nmin_real, nmax_real. }
    assert (K0 : nums3 real (fe0 f0)) by (inversion H as [|? ? Hf _]; subst; apply known_nums, Hf).
    destruct (G _ (fe0 f0, fe0 f0) K K0 K0) as [G1 G2].
    destruct (fold_left lim_step (flat_map fverts (f0 :: fs0)) (fe0 f0, fe0 f0)) as [mn mx]. cbn [fst snd] in *. unfold line3. cbn [lo lt_]. unfold xy.
    split; apply known2_real; split; cbn [x2 y2]; [apply G1|apply G1|apply G2|apply G2].
  Qed.

  (** ** Point expressions *)
  Lemma near_known ps t : known t -> known (near_of (map emb ps) t).
  Proof.
    intro H. unfold near_of. match goal with |- known (if ?c then _ else _) => destruct c end; [exact H|].
    assert (G : forall u l st, known (snd st) -> known (snd (fold_left (near_step u) (map emb l) st))).
    { intros u. induction l as [|p l IH]; intros [r0 ret] K; [exact K|]. cbn [map fold_left]. apply IH. unfold near_step. match goal with |- known (snd (if ?c then _ else _)) => destruct c end; [|exact K].
      cbn [snd]. exists (P3 (rx p) (ry p) 0). reflexivity. }
    apply G. exists rzero. reflexivity.
  Qed.
  Lemma invoke_known ps p : known (triple p) -> forall v, snd (invoke (map emb ps) p) = Some v -> known v.
  Proof.
    induction p as [v l|n q IH l]; intros K w H.
    - cbn in H. injection H as <-. exact K.
    - cbn [triple] in K. specialize (IH K). cbn [invoke] in H. destruct (bytes_eqb n (B "near")) eqn:N.
      + destruct (map emb ps) as [|x t] eqn:M; [discriminate H|]. rewrite <- M in *. clear M. destruct (invoke (map emb ps) q) as [lg [u|]]; [|discriminate H]. cbn [snd] in *. injection H as <-.
        apply near_known, IH. reflexivity.
      + destruct (bytes_eqb n (B "center")) eqn:C.
        * destruct (_ <? _)%nat; [discriminate H|]. destruct (invoke (map emb ps) q) as [lg [u|]] eqn:I; [|discriminate H]. cbn [snd] in IH. destruct (IH u eq_refl) as [u' ->].
          change (xy (emb u')) with (CircleSpec.e2 (flat2 u')) in H. destruct (fit_circle (map emb ps) (CircleSpec.e2 (flat2 u'))) as [[c rr]|] eqn:F; [|discriminate H]. cbn [snd] in H. injection H as <-.
          destruct (fit_measures _ _ _ F) as (c1 & rho & Q & _). injection Q as -> _. exists (P3 (fst c1) (snd c1) 0). reflexivity.
        * discriminate H.
  Qed.
  Lemma evaluates_known ps m ml n v : metas_nums real ml -> evaluates (map emb ps) (embm m) ml n v -> known v.
  Proof.
    intros M (x & p & p' & I & _ & V & (T & _) & H). eapply invoke_known; [|exact H]. rewrite T. specialize (M x I). rewrite V in M. cbn in M. apply known_real in M. destruct M as [q ->].
    eexists; apply mulm_emb.
  Qed.

  (** ** Dimensions *)
  Lemma page_nums_add (p p' : opage) ls ars ts : o_lines p' = o_lines p ++ ls -> o_arcs p' = o_arcs p ++ ars -> o_text p' = o_text p ++ ts ->
    page_nums real p -> page_nums real (OPage ls ars ts) -> page_nums real p'.
  Proof.
    intros H1 H2 H3 (A1 & A2 & A3) (B1 & B2 & B3). unfold page_nums. rewrite H1, H2, H3. cbn [o_lines o_arcs o_text] in *.
    split; [|split]; intros x I; apply in_app_or in I; destruct I as [I|I]; auto.
  Qed.
  Definition line_real (l : @line XR) : Prop := nums2 real (lo l) /\ nums2 real (lt_ l).
  Lemma seg_real p q : line_real (MarkSpec.seg p q). Proof. split; apply e2_real. Qed.
  #[local] Hint Resolve seg_real : core.
  Lemma page_nums_of ls ars ts : Forall line_real ls -> Forall (fun a => nums2 real (ac a) /\ real (ar a) /\ real (astart a) /\ real (aend a)) ars ->
    Forall (fun t => nums2 real (t_at t)) ts -> page_nums real (OPage ls ars ts).
  Proof. rewrite !Forall_forall. intros H1 H2 H3. split; [exact H1|]. split; [exact H2|exact H3]. Qed.

  Lemma dim_real ps m d s s' d' sc off : v_points s = map emb ps -> v_rot s = embm m -> v_scale s = (Fin sc : num) -> 0 < sc -> v_d s = CircleSpec.e2 off ->
    metas_nums real (d_meta d) ->
    (d_kind d = KDia \/ d_kind d = KRad -> forall v, evaluates (v_points s) (v_rot s) (d_meta d) "dir" v -> ~ (x3 v = Fin 0 /\ y3 v = Fin 0)) ->
    visit_base_dim d s = Ret (s', d', true) -> page_nums real (v_page s) -> page_nums real (v_page s').
  Proof.
    intros HP HR HS S HO M ND H K. pose proof (used_once _ _ H) as U. unfold uses_once in U. cbv zeta in U.
    assert (EV : forall n v, evaluates (v_points s) (v_rot s) (d_meta d) n v -> known v).
    { intros n v HE. rewrite HP, HR in HE. exact (evaluates_known _ _ _ _ _ M HE). }
    destruct (d_kind d) eqn:KD.
    - destruct U as (fm & a & p & f & t & _ & Ea & Ep & Sf & St & _). destruct (EV _ _ Ea) as [a' ->]. destruct (EV _ _ Ep) as [p' ->].
      assert (SS : forall kd kp g, side_used (v_points s) (v_rot s) (d_meta d) kd kp (emb p') g -> exists u su, side_seen s (d_meta d) kd kp p' u su).
      { intros kd kp g [(v & HE & _)|(v & HE & _)]; destruct (EV _ _ HE) as [v' ->]; [exists v', p'; left|exists (rsub v' p'), v'; right]; auto. }
      destruct (SS _ _ _ Sf) as (u & su & Su). destruct (SS _ _ _ St) as (w & sw & Sw).
      destruct (angle_marked d s s' d' sc off _ _ _ _ _ _ KD HS S HO Ea Ep Su Sw H) as (fm' & UU & VV & ls & ars & _ & _ & _ & Q1 & Q2 & Q3 & Q4).
      refine (page_nums_add _ _ _ _ _ Q1 Q2 Q3 K _). destruct Q4 as [Q4|Q4]; destruct Q4 as (_ & W & X & b & c & _ & _ & _ & _ & -> & ->);
        apply page_nums_of; unfold side_line, arc_barbs; repeat constructor; cbn; auto.
    - destruct U as (fm & a & u & c & ce & rr & _ & Ea & Eu & Ec & _). destruct (EV _ _ Ea) as [a' ->]. destruct (EV _ _ Eu) as [u' ->]. destruct (EV _ _ Ec) as [c' ->].
      assert (NZ : flat2 u' <> (0, 0)).
      { intro Z. apply (ND (or_introl eq_refl) _ Eu). unfold flat2 in Z. injection Z as Z1 Z2. cbn [emb x3 y3]. rewrite Z1, Z2. auto. }
      destruct (dia_marked d s s' d' sc off ps _ _ _ KD HS S HO HP Ea Eu Ec NZ H) as (fm' & ce' & rho & e & ls & _ & _ & _ & _ & Q1 & Q2 & Q3 & (X & _ & ->)).
      refine (page_nums_add _ _ _ [] _ Q1 _ Q3 K _); [rewrite app_nil_r; exact Q2|]. apply page_nums_of; unfold barbs; repeat constructor; cbn; auto.
    - destruct U as (fm & a & u & f & t & _ & Ea & Eu & Ef & Et & _). destruct (EV _ _ Ea) as [a' ->]. destruct (EV _ _ Eu) as [u' ->]. destruct (EV _ _ Ef) as [f' ->]. destruct (EV _ _ Et) as [t' ->].
      destruct (dim_marked d s s' d' sc off _ _ _ _ KD HS S HO Ea Eu Ef Et H) as (fm' & qf & qt & ls & _ & _ & _ & Q1 & Q2 & Q3 & Q4).
      refine (page_nums_add _ _ _ [] _ Q1 _ Q3 K _); [rewrite app_nil_r; exact Q2|]. destruct Q4 as (e & xf & xt & _ & X1 & X2 & Q4).
      assert (XR_ : forall A0 d0 F0 P0 x, extension A0 d0 F0 P0 x -> line_real x).
      { intros A0 d0 F0 P0 x HX. unfold extension in HX. repeat match type of HX with exists _, _ => destruct HX as [? HX] | _ /\ _ => destruct HX as [? HX] | _ \/ _ => destruct HX as [HX|HX] end; subst; auto. }
      destruct Q4 as [(g & _ & _ & ->)|(_ & ->)]; apply page_nums_of; unfold barbs; repeat constructor; cbn; auto; try (apply (XR_ _ _ _ _ _ X1)); try (apply (XR_ _ _ _ _ _ X2)).
    - destruct U as (fm & a & u & c & ce & rr & _ & Ea & Eu & Ec & _). destruct (EV _ _ Ea) as [a' ->]. destruct (EV _ _ Eu) as [u' ->]. destruct (EV _ _ Ec) as [c' ->].
      assert (NZ : flat2 u' <> (0, 0)).
      { intro Z. apply (ND (or_intror eq_refl) _ Eu). unfold flat2 in Z. injection Z as Z1 Z2. cbn [emb x3 y3]. rewrite Z1, Z2. auto. }
      destruct (rad_marked d s s' d' sc off ps _ _ _ KD HS S HO HP Ea Eu Ec NZ H) as (fm' & ce' & rho & e & ls & _ & _ & _ & _ & Q1 & Q2 & Q3 & (X & _ & ->)).
      refine (page_nums_add _ _ _ [] _ Q1 _ Q3 K _); [rewrite app_nil_r; exact Q2|]. apply page_nums_of; unfold barbs; repeat constructor; cbn; auto.
  Qed.
  Lemma dims_real ps m sc off ds : 0 < sc -> (forall d, In d ds -> metas_nums real (d_meta d)) ->
    (forall d v, In d ds -> d_kind d = KDia \/ d_kind d = KRad -> evaluates (map emb ps) (embm m) (d_meta d) "dir" v -> ~ (x3 v = Fin 0 /\ y3 v = Fin 0)) ->
    forall s s' ds', v_points s = map emb ps -> v_rot s = embm m -> v_scale s = (Fin sc : num) -> v_d s = CircleSpec.e2 off ->
    visit_dims ds s = Ret (s', ds', true) -> page_nums real (v_page s) -> page_nums real (v_page s').
  Proof.
    intros S. induction ds as [|d ds IH]; intros M ND s s' ds' HP HR HS HO; cbn [visit_dims].
    - intro H. injection H as <- _. auto.
    - rewrite obind_ret. intros ([[s1 d1] ok1] & H1 & H) K. rewrite obind_ret in H. destruct H as ([[s2 t] ok2] & H2 & H). injection H as <- _ OK.
      assert (ok1 = true /\ ok2 = true) as [-> ->] by (destruct ok1, ok2; try discriminate OK; auto).
      assert (G : v_points s1 = v_points s /\ v_rot s1 = v_rot s /\ v_scale s1 = v_scale s /\ v_d s1 = v_d s).
      { assert (HV : visit_dims [d] s = Ret (s1, [d1], true)) by (cbn [visit_dims]; rewrite H1; reflexivity).
        destruct (visit_dims_spec _ _ HV) as ((p & dl & ->) & _). repeat split. }
      destruct G as (G1 & G2 & G3 & G4). refine (IH _ _ s1 s2 t _ _ _ _ H2 _); try congruence.
      + intros d0 I. apply M. right. exact I.
      + intros d0 v I. apply ND. right. exact I.
      + refine (dim_real ps m d s s1 d1 sc off HP HR HS S HO (M _ (or_introl eq_refl)) _ H1 K). rewrite HP, HR. intros KD v. exact (ND d v (or_introl eq_refl) KD).
  Qed.

  (** ** Items and headers *)
  Lemma place_real ml pl : metas_nums real ml -> place_of ml = Some pl -> known2 pl.
  Proof.
    intros M. unfold place_of. destruct (arg "@" ml) as [x|] eqn:G.
    - destruct (arg_in _ _ G) as [HI _]. specialize (M x HI). unfold as_loc. destruct (m_val x) eqn:V; try discriminate. apply known2_real in M. destruct M as [[u0 v0] ->].
      intro H. injection H as <-. eexists (_, _). reflexivity.
    - intro H. injection H as <-. exists (0, 0). reflexivity.
  Qed.
  Lemma text_place_real ml pl : metas_nums real ml -> text_place_of ml = Some pl -> known2 pl.
  Proof.
    intros M. unfold text_place_of. destruct (arg "@" ml) as [x|] eqn:G.
    - destruct (arg_in _ _ G) as [HI _]. specialize (M x HI). unfold as_loc. destruct (m_val x) eqn:V; try discriminate. apply known2_real in M. destruct M as [[u0 v0] ->].
      intro H. injection H as <-. eexists (_, _). reflexivity.
    - intro H. injection H as <-. eexists (_, _). reflexivity.
  Qed.
  Lemma text_lines_real ls : forall at_, known2 at_ -> Forall (fun t => nums2 real (t_at t)) (text_lines at_ ls).
  Proof.
    induction ls as [|w ls IH]; intros at_ K; cbn [text_lines]; [constructor|]. apply Forall_app. split.
    - destruct w; repeat constructor; apply known2_real in K; apply K.
    - apply IH. destruct K as [[u v] ->]. exists (u, v + - (12)). reflexivity.
  Qed.
  Lemma text_keeps st l t ml : metas_nums real ml -> item_keeps real st (DText l t ml).
  Proof.
    intros M s s' d' H K. cbn [visit_drawable] in H. rewrite obind_ret in H. destruct H as ([s1 ok1] & H1 & H). injection H as <- _ ->.
    destruct (visit_text_spec _ _ _ _ H1) as (_ & R). destruct (R eq_refl) as (pl & HP & ->). cbn [v_page].
    refine (page_nums_add (v_page s) _ [] [] (text_lines pl (split_on LF t)) _ _ _ K _); [reflexivity|reflexivity|reflexivity|]. apply page_nums_of; [constructor|constructor|]. apply text_lines_real, (text_place_real _ _ M HP).
  Qed.
  Lemma scale_fin a b : (0 < a)%Z -> (0 < b)%Z -> exists sc, proj_scale (a, b) = (Fin sc : num) /\ 0 < sc.
  Proof.
    intros Ha Hb. apply IZR_lt in Ha. apply IZR_lt in Hb. exists (72 * IZR a / IZR b). split.
    - unfold proj_scale. change (xdiv (xmul (Fin 72) (Fin (IZR a))) (Fin (IZR b)) = Fin (72 * IZR a / IZR b)). unfold xdiv, xmul. destruct (reqb_spec (IZR b) 0) as [Z|_]; [lra|reflexivity].
    - apply Rdiv_lt_0_compat; lra.
  Qed.
  Lemma draw_keeps st l n ml ds : metas_nums real ml -> (forall d, In d ds -> metas_nums real (d_meta d)) ->
    (forall a b, asks_scale ml a b -> (0 < a /\ 0 < b)%Z) -> (forall f, model_of st n = Some f -> Forall (facetP known) (facets f)) ->
    (forall f r p dm v, model_of st n = Some f -> view_of ml = Some r -> rotate f r = Ret p -> In dm ds -> d_kind dm = KDia \/ d_kind dm = KRad ->
       evaluates (points (cull_back_face p)) r (d_meta dm) "dir" v -> ~ (x3 v = Fin 0 /\ y3 v = Fin 0)) ->
    item_keeps real st (DDraw l n ml ds).
  Proof.
    intros M MD SP MK ND s s' d' H K. cbn [visit_drawable] in H. rewrite obind_ret in H. destruct H as ([[s1 ds1] ok1] & H1 & H). injection H as <- _ ->.
    destruct (visit_draw_spec _ _ _ _ _ _ H1) as [[D _] _]. destruct (D eq_refl) as [[a b] file rot pl proj ls _ _ HS HM HV HP HR HL _ HD]. clear D.
    destruct (view_known _ _ M HV) as [m ->]. destruct (SP _ _ (scale_asks _ HS)) as [Ha Hb]. destruct (scale_fin a b Ha Hb) as (sc & HSC & SC).
    rewrite (rotated_culled _ _ _ HR) in *.
    assert (FT : forall f, In f (facets file) -> facetP known (rotate_facet (embm m) f)).
    { intros f I. apply turned_known. pose proof (MK _ HM) as Q. rewrite Forall_forall in Q. exact (Q f I). }
    destruct (rotate_P known known (fun v H => H) cross_known _ _ _ _ FT HR HL) as [KF KL].
    destruct (place_real _ _ M HP) as [pl' ->]. destruct (limits_known _ KF) as [[l1 L1] [l2 L2]].
    assert (KP : exists ps, points proj = map emb ps).
    { pose proof (points_P known proj KF) as Q. revert Q. generalize (points proj). intro l0. induction l0 as [|v l0 IH]; intro Q; [exists []; reflexivity|].
      inversion Q as [|? ? [q ->] Q']; subst. destruct (IH Q') as [qs ->]. exists (q :: qs). reflexivity. }
    destruct KP as [ps KP].
    assert (OFF : exists off, sub2 (CircleSpec.e2 pl') (mul2 (div2 (add2 (lo (limits proj)) (lt_ (limits proj))) n2) (proj_scale (a, b))) = CircleSpec.e2 off).
    { rewrite L1, L2, HSC. destruct pl' as [u v], l1 as [u1 v1], l2 as [u2 v2].
      exists (u - (u1 + u2) / 2 * sc, v - (v1 + v2) / 2 * sc). unfold sub2, mul2, div2, add2, CircleSpec.e2, emb2. cbn [x2 y2 fst snd]. f_equal.
      - change (xsub (Fin u) (xmul (xdiv (Fin (u1 + u2)) (Fin 2)) (Fin sc)) = Fin (u - (u1 + u2) / 2 * sc)). unfold xdiv. destruct (reqb_spec 2 0) as [Z|_]; [lra|reflexivity].
      - change (xsub (Fin v) (xmul (xdiv (Fin (v1 + v2)) (Fin 2)) (Fin sc)) = Fin (v - (v1 + v2) / 2 * sc)). unfold xdiv. destruct (reqb_spec 2 0) as [Z|_]; [lra|reflexivity]. }
    destruct OFF as [off OFF].
    refine (dims_real ps m sc off ds SC MD _ (draw_state (a, b) (embm m) (CircleSpec.e2 pl') proj ls s) s1 ds1 KP eq_refl HSC OFF HD _).
    - intros d0 v I KD HE. rewrite <- KP in HE. refine (ND file (embm m) proj d0 v HM HV HR I KD _). rewrite (rotated_culled _ _ _ HR). exact HE.
    - set (s2 := Vst (points proj) (embm m) (proj_scale (a, b)) (sub2 (CircleSpec.e2 pl') (mul2 (div2 (add2 (lo (limits proj)) (lt_ (limits proj))) n2) (proj_scale (a, b)))) (v_page s) (v_log s)).
      change (draw_state (a, b) (embm m) (CircleSpec.e2 pl') proj ls s) with (add_lines ls s2).
      refine (page_nums_add (v_page s) _ (map (fun l0 => Line (place s2 (lo l0)) (place s2 (lt_ l0))) ls) [] [] _ _ _ K _);
        [reflexivity|cbn; rewrite app_nil_r; reflexivity|cbn; rewrite app_nil_r; reflexivity|].
      apply page_nums_of; [|constructor|constructor]. apply Forall_forall. intros x I. apply in_map_iff in I. destruct I as (y & <- & I). rewrite Forall_forall in KL. destruct (KL y I) as (p & q & [p' ->] & [q' ->] & ->).
      unfold line_real. cbn [lo lt_ line3]. rewrite !(place_emb s2 sc off _ HSC OFF). split; apply e2_real.
  Qed.
  Lemma header_real t : page_nums real (add_header opage_empty t).
  Proof.
    unfold add_header. cbn [opage_empty o_lines o_arcs o_text app]. apply page_nums_of; repeat constructor; cbn; auto; apply real_fin.
  Qed.
End Fin.

Theorem only_finite (E : @Env XR) fs src c r : (forall x, word_like (@fmt_num XR E x)) -> one_line (@flag_name XR E) -> one_line src -> one_line (@now XR E) ->
  (forall w x, @re2_double XR E w = Some x -> real x) -> (forall w x, @stof XR E w = Some x -> real x) ->
  @scales_positive XR E src c -> (forall v, @circle_dir XR E fs src c v -> ~ (x3 v = Fin 0 /\ y3 v = Fin 0)) ->
  @script_to_ps XR E fs src c = Ret r -> r_ok r = true ->
  exists d st lg ps, @parses XR E src c d /\ @load_files XR E fs (doc_models d) [] = Ret (st, lg, true) /\ Forall2 (page_shows st) (doc_pages d) ps /\
    Forall (page_nums real) ps /\ (@raw_ok XR ps -> exists toks, ps_read (r_out r) = Some toks /\ @words_with XR E real toks).
Proof.
  intros NW N1 N2 N3 RD SF SP CD H HO. refine (whole_nums real real (fun x H => H) _ (real_fin 7) fs src c r NW N1 N2 N3 H HO _).
  { intros a [x ->]. unfold Geo.PI. set (k := 31415926535897932 * powerRZ 10 (-16)). exists (x * 180 / k).
    change (xdiv (xmul (Fin x) (Fin 180)) (Fin k) = Fin (x * 180 / k)). unfold xdiv, xmul. destruct (reqb_spec k 0) as [Z|_]; [|reflexivity]. exfalso.
    assert (0 < k) by (unfold k; apply Rmult_lt_0_compat; [lra|apply powerRZ_lt; lra]). lra. }
  intros d st lg pg HP HL Ipg. pose proof (parsed_nums real (fun w x _ => SF w x) _ _ _ HP) as DN. destruct (DN pg Ipg) as [_ DI].
  destruct (load_files_nil_ok _ _ HL) as (_ & _ & HM & _). split; [|intros; apply header_real]. apply Forall_forall. intros [l n ml ds|l t ml] I.
  - pose proof (DI _ I) as [M1 M2]. apply draw_keeps; [exact M1|exact M2| | |].
    + intros a b. exact (SP d pg l n ml ds a b HP Ipg I).
    + intros f Hf. destruct (HM _ _ Hf) as (m & t & lgm & _ & _ & _ & Q). exact (model_known _ _ _ RD Q).
    + intros f r0 p dm v Hf Hv Hr Id KD EV. apply CD. destruct (HM _ _ Hf) as (m & t & lgm & H1 & H2 & H3 & H4). exists f, r0, ds, dm, p. split; [|auto].
      exists d, pg, l, n, ml, m, t, lgm. repeat (split; [assumption|]). split; [apply view_of_asks; exact Hv|]. auto.
  - apply text_keeps. exact (DI _ I).
Qed.
