(** P_Exact.v - the drawn part of an edge, characterised exactly. *)
From Coq Require Import Reals Lra Psatz Nsatz Permutation Sorted.
From Verif Require Import Base Num NumReal NumLaws Geo Stl GeoSpec RealSpec HideSpec PictSpec P_Base P_Order P_Part P_Index P_Hide P_Lines P_Geo1 P_Real P_Span P_Span2.

Local Unset Implicit Arguments.
Local Open Scope R_scope.

Lemma behind_strict t p : proper t -> facing t -> behind_in (embf t) (emb p) = true -> exists w, over t p w /\ rz p < rz w.
Proof.
  intros P F H. apply behind_emb in H. destruct H as (B & C0 & C1 & C2). pose proof (area_pos t P F) as S.
  destruct (mix_turn t p ltac:(lra)) as [EX EY]. set (w := mix _ _ _ _) in *. exists w. split.
  - exists (turn (t1 t) (t2 t) p / area t), (turn (t2 t) (t0 t) p / area t), (turn (t0 t) (t1 t) p / area t).
    split; [apply div_pos; assumption|]. split; [apply div_pos; assumption|]. split; [apply div_pos; assumption|].
    split; [|split; [reflexivity|split; assumption]]. rewrite <- (turn_sum t p) at 1 2 3. field. rewrite turn_sum. lra.
  - assert (Q : rdot (tn t) w = tr t). { apply mix_plane; [exact P|]. rewrite <- (turn_sum t p) at 1 2 3. field. rewrite turn_sum. lra. }
    apply (behind_z t p w F Q EX EY). exact B.
Qed.
Lemma cross_det a b c d r : cross_at (Edge (emb a) (emb b)) (Edge (emb c) (emb d)) = Some r -> det2 a b c d <> 0.
Proof. intros H E. rewrite (cross_par a b c d E) in H. discriminate. Qed.
Lemma askew_det a b p q : askew a b p q <-> det2 a b p q <> 0.
Proof. reflexivity. Qed.
Lemma det_flip a b p q : det2 a b q p = - det2 a b p q. Proof. unfold det2. ring. Qed.
Lemma det_swap a b p q : det2 p q a b = - det2 a b p q. Proof. unfold det2. ring. Qed.
Lemma emb_inj p q : emb p = emb q -> p = q.
Proof. intro H. injection H as H1 H2 H3. apply pt_ext; assumption. Qed.
Lemma stop_unit t a b x : stop t a b x -> 0 <= x <= 1.
Proof. intros [[[-> | ->] _]|[H _]]; lra. Qed.
Lemma between_inj a b x y : a <> b -> between a b x = between a b y -> x = y.
Proof.
  intros NE E. destruct (Req_dec x y) as [|K]; [assumption|exfalso]. apply NE.
  pose proof (f_equal rx E) as Q1. pose proof (f_equal ry E) as Q2. pose proof (f_equal rz E) as Q3. rgeo.
  assert (Z : forall d, (x - y) * d = 0 -> d = 0) by (intros d Hd; destruct (Rmult_integral _ _ Hd); [lra|assumption]).
  apply pt_ext; [pose proof (Z (rx b - rx a))|pose proof (Z (ry b - ry a))|pose proof (Z (rz b - rz a))]; lra.
Qed.

Section Model.
  Context (ts : list tri) (m : @stl XR) (HI : index (map embf ts) = Ret m) (HP : Forall proper ts) (HF : Forall facing ts).
  Context (hbe : list (list (nat * @v3 XR))) (HB : tbl (unseen m) (hidden_by_list (edges m) (unseen m)) hbe).
  Context (v : nat) (a b : rpt) (hb : list (nat * @v3 XR)) (Nv : nth_error (edges m) v = Some (Edge (emb a) (emb b))) (Nb : nth_error hbe v = Some hb) (LV : (v < unseen m)%nat).
  Context (n : nat) (t : tri) (i0 i1 i2 : nat) (Nt : nth_error ts n = Some t) (Nf : nth_error (face_edge m) n = Some (i0, i1, i2)).
  Local Notation ev := (Edge (emb a) (emb b)).

  Lemma ne_ab : a <> b. Proof. exact (edge_ne ts m HI HP v a b Nv). Qed.
  Lemma tp : proper t. Proof. rewrite Forall_forall in HP. apply HP. eapply nth_error_In. exact Nt. Qed.
  Lemma tf : facing t. Proof. rewrite Forall_forall in HF. apply HF. eapply nth_error_In. exact Nt. Qed.

  Lemma crossed_det u p c d : crossed_by (edges m) (unseen m) v u p -> nth_error (edges m) u = Some (Edge (emb c) (emb d)) -> det2 a b c d <> 0.
  Proof.
    intros (ev & eu & N & Nu & NE & _ & H) Eu. rewrite Nv in N. injection N as <-. rewrite Eu in Nu. injection Nu as <-.
    destruct H as [(L & q & X & Z)|(L & q & X & Z)]; apply cross_det in X; [exact X|]. rewrite det_swap in X. lra.
  Qed.
  (** A recorded crossing with a side of the facet is a passing place, and the other way round. *)
  Lemma side_passes u e p q w : In (p, q) (tri_sides t) -> nth_error (edges m) u = Some e -> (e = Edge (emb p) (emb q) \/ e = Edge (emb q) (emb p)) ->
    imap_find u hb = Some w -> exists x, w = emb (between a b x) /\ passes t a b x.
  Proof.
    intros Hpq Nu E F. apply (hb_find m hbe HB v hb u w Nb) in F. destruct E as [-> | ->].
    - pose proof (crossed_det u w _ _ F Nu) as D.
      destruct (crossed_real m v u w _ _ _ _ F Nv Nu) as (i & j & I & J & -> & EX & EY & Z). exists j. split; [reflexivity|]. split; [exact J|].
      exists p, q, i. auto 10.
    - pose proof (crossed_det u w _ _ F Nu) as D.
      destruct (crossed_real m v u w _ _ _ _ F Nv Nu) as (i & j & I & J & -> & EX & EY & Z). exists j. split; [reflexivity|]. split; [exact J|].
      rewrite (between_rev p q i) in EX, EY, Z. exists p, q, (1 - i). rewrite det_flip in D. split; [exact Hpq|]. split; [intro Q; apply D; unfold det2; lra|]. split; [lra|]. auto.
  Qed.
  Lemma passes_side u e p q i x : In (p, q) (tri_sides t) -> nth_error (edges m) u = Some e -> (e = Edge (emb p) (emb q) \/ e = Edge (emb q) (emb p)) ->
    0 <= x <= 1 -> askew a b p q -> 0 <= i <= 1 -> rx (between p q i) = rx (between a b x) -> ry (between p q i) = ry (between a b x) -> rz (between a b x) <= rz (between p q i) ->
    imap_find u hb = Some (emb (between a b x)).
  Proof.
    intros Hpq Nu E X AS I EX EY Z. apply (hb_find m hbe HB v hb u _ Nb). change (det2 a b p q <> 0) in AS.
    assert (NE : v <> u).
    { intro Q. subst u. rewrite Nv in Nu. injection Nu as <-. apply AS. destruct E as [E|E]; injection E as Q1 Q2 _ Q4 Q5 _; unfold det2; rewrite Q1, Q2, Q4, Q5; ring. }
    destruct E as [-> | ->].
    - eapply crossed_here with (i := i); eassumption.
    - assert (RV : between q p (1 - i) = between p q i) by (rewrite (between_rev p q (1 - i)); f_equal; ring).
      eapply crossed_here with (i := 1 - i); try exact Nv; try exact Nu; try exact NE; try exact LV; try exact X; try rewrite RV; try assumption; try lra.
      intro Q. apply AS. change (det2 a b p q = 0). rewrite det_flip in Q. lra.
  Qed.
  Lemma pts_stop pts : hidden_points (embf t) (i0, i1, i2) ev hb = Ret pts ->
    (forall w d, In (w, d) pts -> exists x, w = emb (between a b x) /\ stop t a b x) /\ (forall x, stop t a b x -> exists d, In (emb (between a b x), d) pts).
  Proof.
    intro H. destruct (hidden_points_spec (embf t) (i0, i1, i2) ev hb) as (l & E & _ & X). rewrite H in E. injection E as <-. cbn [fst snd e1 e2] in X.
    destruct (model_fe ts m HI n t i0 i1 i2 Nt Nf) as ((e0 & E1 & E2) & (f0 & F1 & F2) & (g0 & G1 & G2)). split.
    - intros w d HIn. apply X in HIn. destruct HIn as [(B & -> & _)|[(B & -> & _)|(_ & HX)]].
      + exists 0. rewrite between_0. split; [reflexivity|]. left. split; [auto|]. rewrite between_0. apply behind_strict; [apply tp|apply tf|exact B].
      + exists 1. rewrite between_1. split; [reflexivity|]. left. split; [auto|]. rewrite between_1. apply behind_strict; [apply tp|apply tf|exact B].
      + assert (S : exists x, w = emb (between a b x) /\ passes t a b x); [|destruct S as (x & S1 & S2); exists x; split; [exact S1|right; exact S2]].
        destruct HX as [HX|[HX|HX]]; [eapply (side_passes i0 e0 (t0 t) (t1 t))|eapply (side_passes i1 f0 (t1 t) (t2 t))|eapply (side_passes i2 g0 (t2 t) (t0 t))]; try eassumption; simpl; auto.
    - intros x [(EX & w & OV & Z)|(U & p & q & i & Hpq & AS & I & QX & QY & Z)].
      + pose proof (over_behind t _ w tp tf OV Z) as B. destruct EX as [-> | ->].
        * exists nz. apply X. left. rewrite between_0 in *. auto.
        * eexists. apply X. right; left. rewrite between_1 in *. split; [exact B|]. split; reflexivity.
      + eexists. apply X. right; right. split; [reflexivity|]. pose proof Hpq as Hs. destruct Hpq as [Hpq|[Hpq|[Hpq|[]]]]; injection Hpq as <- <-.
        * left. eapply passes_side; try eassumption.
        * right; left. eapply passes_side; try eassumption.
        * right; right. eapply passes_side; try eassumption.
  Qed.
  Lemma own_edge : (v =? i0)%nat || (v =? i1)%nat || (v =? i2)%nat = true <-> own t a b.
  Proof.
    destruct (model_fe ts m HI n t i0 i1 i2 Nt Nf) as ((e0 & E1 & E2) & (f0 & F1 & F2) & (g0 & G1 & G2)).
    assert (ONE : forall u p q, In (p, q) (tri_sides t) -> (exists e, nth_error (edges m) u = Some e /\ (e = Edge (emb p) (emb q) \/ e = Edge (emb q) (emb p))) ->
      (v = u <-> (a = p /\ b = q) \/ (a = q /\ b = p))).
    { intros u p q Hpq (e & Nu & HE). split.
      - intros <-. rewrite Nv in Nu. injection Nu as <-. destruct HE as [E|E]; injection E as Q1 Q2 Q3 Q4 Q5 Q6; [left|right]; split; apply pt_ext; assumption.
      - intro AB. destruct (index_exact XR_ordered (map embf ts) (okf_embf ts)) as (m' & E & _ & U & _). rewrite HI in E. injection E as <-.
        assert (Hf : In (embf t) (map embf ts)) by (apply in_map; eapply nth_error_In; exact Nt).
        assert (Ho : In (emb p, emb q) (outline (embf t))).
        { destruct Hpq as [HQ|[HQ|[HQ|[]]]]; injection HQ as <- <-; simpl; auto. }
        destruct (U _ _ Hf Ho) as (i & HIf). assert (SM : forall z, same (emb z) (emb z)) by (intro z; repeat split; apply eq_fin; reflexivity).
        assert (v = i) by (apply HIf; eexists; split; [exact Nv|]; destruct AB as [[-> ->]|[-> ->]]; [left|right]; cbn [e1 e2 fst snd]; split; apply SM).
        assert (u = i) by (apply HIf; exists e; split; [exact Nu|]; destruct HE as [-> | ->]; [left|right]; cbn [e1 e2 fst snd]; split; apply SM).
        congruence. }
    rewrite !orb_true_iff, !Nat.eqb_eq. rewrite (ONE i0 (t0 t) (t1 t)), (ONE i1 (t1 t) (t2 t)), (ONE i2 (t2 t) (t0 t)) by (simpl; eauto).
    unfold own, tri_sides. simpl. split.
    - intros [[[[-> ->]|[-> ->]]|[[-> ->]|[-> ->]]]|[[-> ->]|[-> ->]]]; auto 8.
    - intros [[H|[H|[H|[]]]]|[H|[H|[H|[]]]]]; injection H as <- <-; auto 8.
  Qed.
  Lemma hides_span h : face_hides (embf t) (i0, i1, i2) v ev hb = Ret (Some h) ->
    exists st, h = seg a b st /\ unit_span st /\ fst st < snd st /\ forall x, hides t a b x <-> fst st <= x <= snd st.
  Proof.
    unfold face_hides. destruct (_ || _)%bool eqn:OW; [discriminate|]. intro H. apply obind_ret in H. destruct H as (pts & HPt & H).
    assert (NO : ~ own t a b) by (intro O; apply own_edge in O; congruence).
    destruct (pts_hidden ts m HI HP HF hbe HB v a b hb Nv Nb n t i0 i1 i2 Nt Nf pts HPt) as [_ G]. destruct (pts_stop pts HPt) as [P1 P2].
    destruct (span_full XR_ordered G) as (r & E & R & _). rewrite H in E. injection E as <-. destruct (R h eq_refl) as ((ST & (d1 & I1) & (d2 & I2) & BB) & NZ).
    destruct (P1 _ _ I1) as (s & S1 & S2). destruct (P1 _ _ I2) as (e & T1 & T2). destruct h as [h1 h2]. cbn [e1 e2] in *. subst h1 h2.
    pose proof (stop_unit _ _ _ _ S2) as US. pose proof (stop_unit _ _ _ _ T2) as UE.
    assert (LE : forall x y, 0 <= x -> 0 <= y -> (dist ev (emb (between a b x)) <=? dist ev (emb (between a b y)))%num = true -> x <= y) by (intros x y; apply (span_le ts m HI HP v a b Nv)).
    assert (SE : s <= e) by (apply LE; [lra|lra|exact ST]).
    assert (LT : s < e).
    { destruct SE as [|Q]; [assumption|exfalso]. subst e. rewrite sub_emb, sqn_emb in NZ. apply eq_fin_f in NZ. apply NZ. rgeo. ring. }
    exists (s, e). split; [reflexivity|]. split; [repeat split; simpl; lra|]. cbn [fst snd]. split; [exact LT|]. intro x. split.
    - intros (_ & u & w & UW & X & SU & SW). destruct (P2 u SU) as (du & Iu). destruct (P2 w SW) as (dw & Iw). apply stop_unit in SU, SW.
      assert (s <= u) by (apply LE; [lra|lra|exact (proj1 (BB _ _ Iu))]). assert (w <= e) by (apply LE; [lra|lra|exact (proj2 (BB _ _ Iw))]). lra.
    - intro X. split; [exact NO|]. exists s, e. auto.
  Qed.
  Lemma hides_none : face_hides (embf t) (i0, i1, i2) v ev hb = Ret None -> forall x, ~ hides t a b x.
  Proof.
    unfold face_hides. destruct (_ || _)%bool eqn:OW; [intros _ x [NO _]; apply NO, own_edge; exact OW|]. intro H. apply obind_ret in H. destruct H as (pts & HPt & H).
    destruct (pts_hidden ts m HI HP HF hbe HB v a b hb Nv Nb n t i0 i1 i2 Nt Nf pts HPt) as [_ G]. destruct (pts_stop pts HPt) as [P1 P2].
    assert (LE : forall x y, 0 <= x -> 0 <= y -> (dist ev (emb (between a b x)) <=? dist ev (emb (between a b y)))%num = true -> x <= y) by (intros x y; apply (span_le ts m HI HP v a b Nv)).
    destruct (span_full XR_ordered G) as (r & E & _ & RN). rewrite H in E. injection E as <-. intros x (_ & u & w & UW & X & SU & SW).
    destruct (P2 u SU) as (du & Iu). destruct (P2 w SW) as (dw & Iw). apply stop_unit in SU, SW.
    assert (NEQ : emb (between a b u) <> emb (between a b w)) by (intro Q; apply emb_inj in Q; apply (between_inj a b _ _ ne_ab) in Q; lra).
    destruct (RN eq_refl) as [LN|(h & HS & HN)].
    - destruct pts as [|p0 [|p1 pts]]; [destruct Iu| |simpl in LN; lia]. destruct Iu as [Iu|[]]. destruct Iw as [Iw|[]]. apply NEQ. congruence.
    - destruct HS as (_ & (d1 & I1) & (d2 & I2) & BB). destruct h as [h1 h2]. cbn [e1 e2] in *. destruct (P1 _ _ I1) as (s & -> & S2). destruct (P1 _ _ I2) as (e & -> & T2).
      apply stop_unit in S2, T2. assert (s <= u) by (apply LE; [lra|lra|exact (proj1 (BB _ _ Iu))]). assert (w <= e) by (apply LE; [lra|lra|exact (proj2 (BB _ _ Iw))]).
      rewrite sub_emb, sqn_emb in HN. apply eq_fin in HN. replace (rdot _ _) with ((s - e) * (s - e) * len2 a b) in HN by (unfold len2; rgeo; ring). pose proof (len2_pos a b ne_ab).
      assert (0 < (s - e) * (s - e)) by nra. assert (0 < (s - e) * (s - e) * len2 a b) by (apply Rmult_lt_0_compat; assumption). lra.
  Qed.
End Model.

(** ** All lines of a model *)
Lemma exact_real ts m : index (map embf ts) = Ret m -> Forall proper ts -> Forall facing ts ->
  exists ss, to_lines m = Ret (flat_map strokes ss) /\ map (fun s => Edge (emb (sa s)) (emb (sb s))) ss = firstn (unseen m) (edges m) /\
    forall s, In s ss -> leaves (fun x => exists t, In t ts /\ hides t (sa s) (sb s) x) s.
Proof.
  intros HI HP HF. destruct (index_range _ HI) as (FM & LU & LFE).
  assert (MF : length (face_edge m) = length (facets m)) by (rewrite LFE, FM; reflexivity).
  edestruct (@to_lines_total XR XR_ordered m) as [ls HL]; [apply eq_fin; reflexivity|exact LU|lia|eapply measured_real; eassumption|].
  destruct (to_lines_parts m ls HL) as (hbe & lss & HC & -> & LL & PARTS).
  destruct (edge_crosses_spec (edges m) (unseen m)) as (hbe' & HC' & HB). rewrite HC in HC'. injection HC' as <-.
  set (Q := fun s : strip => leaves (fun x => exists t, In t ts /\ hides t (sa s) (sb s) x) s).
  assert (EACH : forall v ps, nth_error lss v = Some ps -> exists s, ps = strokes s /\ nth_error (edges m) v = Some (Edge (emb (sa s)) (emb (sb s))) /\ Q s).
  { intros v ps N. destruct (PARTS v ps N) as (ev & hb & l & Nv & Nb & SP & G).
    assert (LV : (v < unseen m)%nat) by (rewrite <- LL; apply nth_error_Some; congruence).
    destruct (model_edge_ne ts m HI HP ev (nth_error_In _ _ Nv)) as (a & b & -> & NE).
    assert (FN : forall n f, nth_error (facets m) n = Some f -> exists t, nth_error ts n = Some t /\ f = embf t).
    { intros n f Nf. rewrite FM, nth_error_map in Nf. destruct (nth_error ts n) as [t|]; [|discriminate]. injection Nf as <-. eauto. }
    destruct (map_choice (seg a b) (fun st => unit_span st /\ fst st < snd st /\ exists t, In t ts /\ forall x, hides t a b x <-> fst st <= x <= snd st) (collect_some l)) as (sp & ESP & HSP).
    { rewrite Forall_forall. intros h Hh. destruct (spans_in m hb v _ l h SP Hh) as (n & f & [[i0 i1] i2] & Nf & Nfe & FH).
      destruct (FN n f Nf) as (t & Nt & ->).
      destruct (hides_span ts m HI HP HF hbe HB v a b hb Nv Nb LV n t i0 i1 i2 Nt Nfe h FH) as (st & -> & US & LT & CV). exists st. split; [reflexivity|]. split; [exact US|]. split; [exact LT|]. exists t. split; [eapply nth_error_In; exact Nt|exact CV]. }
    assert (US : Forall unit_span sp) by (eapply Forall_impl; [|exact HSP]; intros st Hst; exact (proj1 Hst)).
    assert (UL : Forall (fun st => fst st < snd st) sp) by (eapply Forall_impl; [|exact HSP]; intros st Hst; exact (proj1 (proj2 Hst))).
    destruct (gen_exact a b sp NE US) as (s & SA & SB & GE & (CH & CU & CL) & SPD). rewrite <- ESP in GE. rewrite GE in G. injection G as <-.
    assert (SPAN : forall t x, In t ts -> hides t a b x -> exists st, In st sp /\ fst st <= x <= snd st).
    { intros t x Ht Hh. apply In_nth_error in Ht. destruct Ht as [n Nt].
      assert (Nf : nth_error (facets m) n = Some (embf t)) by (rewrite FM; apply map_nth_error; exact Nt).
      destruct (nth_error (face_edge m) n) as [[[i0 i1] i2]|] eqn:Nfe.
      2:{ apply nth_error_None in Nfe. assert (n < length (facets m))%nat by (apply nth_error_Some; congruence). lia. }
      destruct (spans_all m hb v _ l n (embf t) (i0, i1, i2) SP Nf Nfe) as (rr & FH & INC). destruct rr as [h|].
      2:{ destruct (hides_none ts m HI HP HF hbe HB v a b hb Nv Nb LV n t i0 i1 i2 Nt Nfe FH x Hh). }
      destruct (hides_span ts m HI HP HF hbe HB v a b hb Nv Nb LV n t i0 i1 i2 Nt Nfe h FH) as (st & -> & (U1 & U2 & U3) & LT & CV).
      specialize (INC _ eq_refl). rewrite ESP in INC. apply in_map_iff in INC. destruct INC as (st' & ES & Hst'). exists st'. split; [exact Hst'|].
      unfold seg in ES. injection ES as F1 F2 F3 F4 F5 F6.
      assert (K1 : fst st' = fst st) by (apply (between_inj a b _ _ NE); apply pt_ext; rgeo; assumption).
      assert (K2 : snd st' = snd st) by (apply (between_inj a b _ _ NE); apply pt_ext; rgeo; assumption).
      rewrite K1, K2. apply CV. exact Hh. }
    exists s. rewrite SA, SB. split; [reflexivity|]. split; [exact Nv|]. unfold Q, leaves. rewrite SA, SB. split; [exact (SPD UL)|]. split.
    - intros x X NH. apply CU; [exact X|]. intros st Hst C. apply NH. rewrite Forall_forall in HSP. destruct (HSP _ Hst) as (_ & _ & t & Ht & CV). exists t. split; [exact Ht|]. apply CV. exact C.
    - intros i x Hi X (t & Ht & Hh). destruct (SPAN t x Ht Hh) as (st & Hst & C). exact (CL i x Hi X st Hst C). }
  assert (ALL : exists ss, lss = map strokes ss /\ map (fun s => Edge (emb (sa s)) (emb (sb s))) ss = firstn (unseen m) (edges m) /\ Forall Q ss).
  { rewrite <- LL in *. clear PARTS HL. assert (LE : (length lss <= length (edges m))%nat) by lia. clear - EACH LE. revert EACH LE. generalize (edges m).
    induction lss as [|ps lss IH]; intros es EACH LE; [exists []; repeat split; constructor|].
    destruct es as [|e es]; [simpl in LE; lia|].
    destruct (EACH 0%nat ps eq_refl) as (s & E1 & E2 & E3). simpl in E2. injection E2 as ->.
    destruct (IH es) as (ss & S1 & S2 & S3); [intros v p N; exact (EACH (S v) p N)|simpl in LE; lia|].
    exists (s :: ss). split; [simpl; rewrite E1, S1; reflexivity|]. split; [simpl; rewrite S2; reflexivity|]. constructor; assumption. }
  destruct ALL as (ss & -> & EE & QQ). exists ss. split; [rewrite HL, flat_map_concat_map; reflexivity|]. split; [exact EE|].
  rewrite Forall_forall in QQ. exact QQ.
Qed.
