(** P_Span2.v - which points of an edge a facet hides, in exact arithmetic. *)
From Coq Require Import Reals Lra Psatz Nsatz Permutation Sorted.
From Verif Require Import Base Num NumReal NumLaws Geo Stl GeoSpec RealSpec P_Base P_Order P_Part P_Index P_Hide P_Lines P_Geo1 P_Real P_Span.

Local Unset Implicit Arguments.
Local Open Scope R_scope.

Lemma same_emb p a : same p (emb a) -> p = emb a.
Proof.
  destruct p as [x y z]. intros (H1 & H2 & H3). cbn [x3 y3 z3 emb] in *.
  assert (G : forall (u : @num XR) r, neq u (Fin r : @num XR) = true -> u = Fin r).
  { intros u r H. destruct u as [s| | |]; simpl in H; try discriminate. apply reqb_iff in H. rewrite H. reflexivity. }
  unfold emb. rewrite (G _ _ H1), (G _ _ H2), (G _ _ H3). reflexivity.
Qed.
Lemma joins_emb e p q : joins e (emb p, emb q) -> e = Edge (emb p) (emb q) \/ e = Edge (emb q) (emb p).
Proof.
  destruct e as [x y]. intros [[H1 H2]|[H1 H2]]; cbn [e1 e2 fst snd] in *; rewrite (same_emb _ _ H1), (same_emb _ _ H2); auto.
Qed.
Definition sides (t : tri) : list (rpt * rpt) := [(t0 t, t1 t); (t1 t, t2 t); (t2 t, t0 t)].
Lemma sides_ne t p q : proper t -> In (p, q) (sides t) -> p <> q.
Proof.
  intros (_ & _ & _ & P & _) HI E. destruct HI as [H|[H|[H|[]]]]; injection H as <- <-; rewrite E in P; rgeo; lra.
Qed.
Lemma okf_embf ts : Forall okf (map embf ts).
Proof.
  rewrite Forall_forall. intros f Hf. apply in_map_iff in Hf. destruct Hf as (t & <- & _). unfold okf, corners.
  repeat constructor; cbn [x3 y3 z3 fe0 fe1 fe2 embf emb]; apply reqb_iff; reflexivity.
Qed.

Section Model.
  Context (ts : list tri) (m : @stl XR) (HI : index (map embf ts) = Ret m) (HP : Forall proper ts) (HF : Forall facing ts).

  Lemma model_facets : facets m = map embf ts.
  Proof. exact (proj1 (index_range _ HI)). Qed.
  Lemma model_edge e : In e (edges m) -> exists t p q, In t ts /\ In (p, q) (sides t) /\ (e = Edge (emb p) (emb q) \/ e = Edge (emb q) (emb p)).
  Proof.
    intro H. destruct (index_exact XR_ordered (map embf ts) (okf_embf ts)) as (m' & E & _ & _ & X & _). rewrite HI in E. injection E as <-.
    destruct (X e H) as (f & ab & Hf & Hab & J). apply in_map_iff in Hf. destruct Hf as (t & <- & Ht). exists t.
    destruct Hab as [<-|[<-|[<-|[]]]]; cbn [fe0 fe1 fe2 embf] in J; apply joins_emb in J; do 2 eexists; (split; [exact Ht|]); (split; [|exact J]); simpl; auto.
  Qed.
  Lemma model_edge_ne e : In e (edges m) -> exists a b, e = Edge (emb a) (emb b) /\ a <> b.
  Proof.
    intro H. destruct (model_edge e H) as (t & p & q & Ht & Hpq & [->| ->]); do 2 eexists; (split; [reflexivity|]); rewrite Forall_forall in HP; pose proof (sides_ne t p q (HP _ Ht) Hpq); auto.
  Qed.
  Lemma model_fe n t i j k : nth_error ts n = Some t -> nth_error (face_edge m) n = Some (i, j, k) ->
    (exists e, nth_error (edges m) i = Some e /\ (e = Edge (emb (t0 t)) (emb (t1 t)) \/ e = Edge (emb (t1 t)) (emb (t0 t)))) /\
    (exists e, nth_error (edges m) j = Some e /\ (e = Edge (emb (t1 t)) (emb (t2 t)) \/ e = Edge (emb (t2 t)) (emb (t1 t)))) /\
    (exists e, nth_error (edges m) k = Some e /\ (e = Edge (emb (t2 t)) (emb (t0 t)) \/ e = Edge (emb (t0 t)) (emb (t2 t)))).
  Proof.
    intros N N'. destruct (index_exact XR_ordered (map embf ts) (okf_embf ts)) as (m' & E & _ & _ & _ & _ & X & _). rewrite HI in E. injection E as <-.
    destruct (X n (embf t) i j k (map_nth_error embf _ _ N) N') as ((u & U1 & U2) & (w & W1 & W2) & (z & Z1 & Z2)). cbn [fe0 fe1 fe2 embf] in *.
    split; [|split]; eexists; (split; [eassumption|]); apply joins_emb; assumption.
  Qed.

  (** Crossings of two indexed edges. *)
  Lemma crossed_real v u p a b c d : crossed_by (edges m) (unseen m) v u p -> nth_error (edges m) v = Some (Edge (emb a) (emb b)) -> nth_error (edges m) u = Some (Edge (emb c) (emb d)) ->
    exists i j, 0 <= i <= 1 /\ 0 <= j <= 1 /\ p = emb (between a b j) /\ rx (between c d i) = rx (between a b j) /\ ry (between c d i) = ry (between a b j) /\ rz (between a b j) <= rz (between c d i).
  Proof.
    intros (ev & eu & Nv & Nu & NE & _ & H) Ev Eu. rewrite Ev in Nv. injection Nv as <-. rewrite Eu in Nu. injection Nu as <-.
    destruct H as [(L & q & X & Z)|(L & q & X & Z)].
    - apply cross_some in X. destruct X as (i & j & I & J & E & EX & EY). injection E as -> ->. exists i, j. apply le_fin in Z. auto 10.
    - apply cross_some in X. destruct X as (i & j & I & J & E & EX & EY). injection E as -> ->. exists j, i. apply le_fin in Z. auto 10.
  Qed.
  Lemma crossed_here v u a b c d i j : nth_error (edges m) v = Some (Edge (emb a) (emb b)) -> nth_error (edges m) u = Some (Edge (emb c) (emb d)) ->
    v <> u -> (v < unseen m)%nat -> det2 a b c d <> 0 -> 0 <= i <= 1 -> 0 <= j <= 1 ->
    rx (between c d i) = rx (between a b j) -> ry (between c d i) = ry (between a b j) -> rz (between a b j) <= rz (between c d i) ->
    crossed_by (edges m) (unseen m) v u (emb (between a b j)).
  Proof.
    intros Nv Nu NE LV D I J EX EY Z. exists (Edge (emb a) (emb b)), (Edge (emb c) (emb d)). split; [exact Nv|]. split; [exact Nu|]. split; [exact NE|]. split; [lia|].
    destruct (Nat.lt_ge_cases v u) as [L|L]; [left|right].
    - split; [exact L|]. exists (emb (between c d i)). split; [apply cross_here; assumption|apply le_fin; exact Z].
    - split; [lia|]. exists (emb (between c d i)). split; [apply cross_here; try assumption; try (symmetry; assumption)|apply le_fin; exact Z].
      intro E. apply D. unfold det2 in *. lra.
  Qed.

  Context (hbe : list (list (nat * @v3 XR))) (HB : tbl (unseen m) (hidden_by_list (edges m) (unseen m)) hbe).
  Lemma hb_find v hb u p : nth_error hbe v = Some hb -> (imap_find u hb = Some p <-> crossed_by (edges m) (unseen m) v u p).
  Proof. intro N. rewrite (imap_in _ _ _ (t_sorted HB _ N)), (t_in HB _ N). apply crossed_in. Qed.

  Section Edge.
    Context (v : nat) (a b : rpt) (hb : list (nat * @v3 XR)) (Nv : nth_error (edges m) v = Some (Edge (emb a) (emb b))) (Nb : nth_error hbe v = Some hb) (LV : (v < unseen m)%nat).
    Context (n : nat) (t : tri) (i0 i1 i2 : nat) (Nt : nth_error ts n = Some t) (Nf : nth_error (face_edge m) n = Some (i0, i1, i2)).
    Local Notation ev := (Edge (emb a) (emb b)).

    Lemma edge_ne : a <> b.
    Proof. destruct (model_edge_ne _ (nth_error_In _ _ Nv)) as (p & q & E & NE). injection E as E1 E2 E3 E4 E5 E6. assert (a = p) by (apply pt_ext; assumption). assert (b = q) by (apply pt_ext; assumption). subst. exact NE. Qed.
    Lemma t_proper : proper t. Proof. rewrite Forall_forall in HP. apply HP. eapply nth_error_In. exact Nt. Qed.
    Lemma t_facing : facing t. Proof. rewrite Forall_forall in HF. apply HF. eapply nth_error_In. exact Nt. Qed.

    Definition is_hidden (pd : @v3 XR * @num XR) : Prop := exists x, 0 <= x <= 1 /\ fst pd = emb (between a b x) /\ covered t (between a b x).
    Lemma side_hidden u e pq p : In pq (sides t) -> nth_error (edges m) u = Some e -> (e = Edge (emb (fst pq)) (emb (snd pq)) \/ e = Edge (emb (snd pq)) (emb (fst pq))) ->
      imap_find u hb = Some p -> exists x, 0 <= x <= 1 /\ p = emb (between a b x) /\ covered t (between a b x).
    Proof.
      intros Hpq Nu E F. apply (hb_find v hb u p Nb) in F. destruct E as [-> | ->].
      - destruct (crossed_real v u p _ _ _ _ F Nv Nu) as (i & j & I & J & -> & EX & EY & Z). exists j. split; [exact J|]. split; [reflexivity|].
        eapply side_covered; [exact Hpq|exact I|reflexivity|exact EX|exact EY|exact Z].
      - destruct (crossed_real v u p _ _ _ _ F Nv Nu) as (i & j & I & J & -> & EX & EY & Z). exists j. split; [exact J|]. split; [reflexivity|].
        rewrite (between_rev (fst pq) (snd pq) i) in EX, EY, Z. eapply side_covered with (i := 1 - i); [exact Hpq|lra|reflexivity|exact EX|exact EY|exact Z].
    Qed.
    Lemma pts_hidden pts : hidden_points (embf t) (i0, i1, i2) ev hb = Ret pts -> Forall is_hidden pts /\ Forall (good ev) pts.
    Proof.
      intro H. destruct (hidden_points_spec (embf t) (i0, i1, i2) ev hb) as (l & E & _ & X). rewrite H in E. injection E as <-. cbn [fst snd e1 e2] in X.
      destruct (model_fe n t i0 i1 i2 Nt Nf) as ((e0 & E1 & E2) & (f0 & F1 & F2) & (g0 & G1 & G2)).
      assert (Z : forall x, dist ev (emb (between a b x)) = Fin (x * x * len2 a b)) by (intro x; apply dist_at).
      assert (OK : forall r, ok (Fin r : @num XR)) by (intro r; apply eq_fin; reflexivity).
      assert (EQ : forall r, eqv nlt (Fin r : @num XR) (Fin r)) by (intro r; split; apply lt_fin_f; lra).
      assert (D : forall p d, In (p, d) pts -> is_hidden (p, d) /\ d = dist ev p).
      { intros p d HIn. apply X in HIn. destruct HIn as [(B & -> & ->)|[(B & -> & ->)|(-> & HX)]].
        - split; [exists 0; cbn [fst]; rewrite between_0; split; [lra|]; split; [reflexivity|]; apply behind_covered; [apply t_proper|apply t_facing|exact B]|].
          transitivity (dist ev (emb (between a b 0))); [|rewrite between_0; reflexivity]. rewrite Z. change (nz : @num XR) with (Fin 0). f_equal. ring.
        - split; [exists 1; cbn [fst]; rewrite between_1; split; [lra|]; split; [reflexivity|]; apply behind_covered; [apply t_proper|apply t_facing|exact B]|reflexivity].
        - split; [|reflexivity]. unfold is_hidden. cbn [fst]. destruct HX as [HX|[HX|HX]].
          + eapply side_hidden with (pq := (t0 t, t1 t)); [simpl; auto|exact E1|exact E2|exact HX].
          + eapply side_hidden with (pq := (t1 t, t2 t)); [simpl; auto|exact F1|exact F2|exact HX].
          + eapply side_hidden with (pq := (t2 t, t0 t)); [simpl; auto|exact G1|exact G2|exact HX]. }
      split; rewrite Forall_forall; intros [p d] HIn; destruct (D p d HIn) as [IH ->]; [exact IH|].
      destruct IH as (x & _ & E & _). cbn [fst] in E. subst p. unfold good. cbn [fst snd]. rewrite Z. auto.
    Qed.
    Lemma span_le x y : 0 <= x -> 0 <= y -> (dist ev (emb (between a b x)) <=? dist ev (emb (between a b y)))%num = true -> x <= y.
    Proof.
      intros X Y H. unfold dist in H. cbn [e1] in H. rewrite !dist_at in H. apply le_fin in H. destruct (Rle_lt_dec x y) as [|C]; [assumption|exfalso].
      apply (sq_lt (len2 a b) y x (len2_pos a b edge_ne) Y X) in C. lra.
    Qed.
    (** The span a facet hides consists of covered points. *)
    Lemma hides_covered h : face_hides (embf t) (i0, i1, i2) v ev hb = Ret (Some h) ->
      exists st, h = seg a b st /\ unit_span st /\ forall x, fst st <= x <= snd st -> covered t (between a b x).
    Proof.
      unfold face_hides. destruct (_ || _)%bool; [discriminate|]. intro H. apply obind_ret in H. destruct H as (pts & HPt & H).
      destruct (pts_hidden pts HPt) as [IH G]. destruct (span_good XR_ordered G) as (r & E & R). rewrite H in E. injection E as <-. destruct (R h eq_refl) as (ST & (d1 & I1) & (d2 & I2) & _).
      rewrite Forall_forall in IH. destruct (IH _ I1) as (s & S1 & S2 & S3). destruct (IH _ I2) as (e & T1 & T2 & T3). cbn [fst] in *.
      exists (s, e). destruct h as [h1 h2]. cbn [e1 e2 fst snd] in *. unfold straight in ST. cbn [e1 e2] in ST. subst h1 h2.
      assert (LE : s <= e) by (apply span_le; [lra|lra|exact ST]). split; [reflexivity|]. split; [repeat split; simpl; lra|].
      intros x X. destruct (Req_dec s e) as [Q|Q].
      - replace x with s by lra. exact S3.
      - replace (between a b x) with (between (between a b s) (between a b e) ((x - s) / (e - s))).
        + apply covered_convex; [|exact S3|exact T3]. split; [apply div_pos; lra|]. apply (Rmult_le_reg_r (e - s)); [lra|]. unfold Rdiv. rewrite Rmult_assoc, Rinv_l by lra. lra.
        + rewrite between_mid. f_equal. field. lra.
    Qed.

    (** Walking from a point inside the projected triangle towards parameter e. *)
    Lemma turn_affine p q x e k : turn p q (between a b (x + k * (e - x))) = turn p q (between a b x) + k * (turn p q (between a b e) - turn p q (between a b x)).
    Proof. unfold turn. rgeo. ring. Qed.
    Lemma exit3 (f g h : R) (f' g' h' : R) : 0 < f -> 0 < g -> 0 < h ->
      exists k, 0 < k <= 1 /\ 0 <= f + k * (f' - f) /\ 0 <= g + k * (g' - g) /\ 0 <= h + k * (h' - h) /\
        (k = 1 \/ f + k * (f' - f) = 0 \/ g + k * (g' - g) = 0 \/ h + k * (h' - h) = 0).
    Proof.
      intros F G H.
      assert (ROOT : forall y y', 0 < y -> exists k, 0 < k <= 1 /\ (forall l, 0 <= l <= k -> 0 <= y + l * (y' - y)) /\ (k = 1 \/ y + k * (y' - y) = 0)).
      { intros y y' Y. destruct (Rle_lt_dec 0 y') as [P|P].
        - exists 1. split; [lra|]. split; [|left; reflexivity]. intros l L. nra.
        - assert (K : 0 < y / (y - y')) by (apply Rdiv_lt_0_compat; lra). exists (y / (y - y')).
          assert (Q : y / (y - y') * (y - y') = y) by (field; lra). split; [split; [exact K|]|].
          + apply (Rmult_le_reg_r (y - y')); [lra|]. rewrite Q. lra.
          + split; [|right; nra]. intros l L. assert (l * (y - y') <= y / (y - y') * (y - y')) by (apply Rmult_le_compat_r; lra). nra. }
      destruct (ROOT f f' F) as (k1 & K1 & A1 & B1). destruct (ROOT g g' G) as (k2 & K2 & A2 & B2). destruct (ROOT h h' H) as (k3 & K3 & A3 & B3).
      destruct (Rle_lt_dec k1 k2) as [L1|L1].
      - destruct (Rle_lt_dec k1 k3) as [L2|L2].
        + exists k1. split; [lra|]; split; [apply A1; lra|]; split; [apply A2; lra|]; split; [apply A3; lra|tauto].
        + exists k3. split; [lra|]; split; [apply A1; lra|]; split; [apply A2; lra|]; split; [apply A3; lra|tauto].
      - destruct (Rle_lt_dec k2 k3) as [L2|L2].
        + exists k2. split; [lra|]; split; [apply A1; lra|]; split; [apply A2; lra|]; split; [apply A3; lra|tauto].
        + exists k3. split; [lra|]; split; [apply A1; lra|]; split; [apply A2; lra|]; split; [apply A3; lra|tauto].
    Qed.

    Context (NPr : lies_before t a b).

    Lemma side_recorded u e pq x y : In pq (sides t) -> nth_error (edges m) u = Some e -> (e = Edge (emb (fst pq)) (emb (snd pq)) \/ e = Edge (emb (snd pq)) (emb (fst pq))) ->
      0 <= y <= 1 -> 0 < turn (fst pq) (snd pq) (between a b x) -> turn (fst pq) (snd pq) (between a b y) = 0 ->
      (exists i, 0 <= i <= 1 /\ rx (between (fst pq) (snd pq) i) = rx (between a b y) /\ ry (between (fst pq) (snd pq) i) = ry (between a b y)) ->
      imap_find u hb = Some (emb (between a b y)).
    Proof.
      intros Hpq Nu E Y TX TY (i & I & EX & EY). destruct pq as [p q]. cbn [fst snd] in *. apply (hb_find v hb u _ Nb).
      assert (TA : forall z, turn p q (between a b z) = turn p q a + z * (turn p q b - turn p q a)) by (intro z; unfold turn; rgeo; ring).
      assert (DD : det2 a b p q <> 0).
      { intro Q. rewrite TA in TX, TY. assert (W : turn p q b - turn p q a = det2 a b p q) by (unfold turn, det2; rgeo; ring). rewrite Q in W. rewrite W in TX, TY. lra. }
      assert (NE : v <> u).
      { intro Q. subst u. rewrite Nv in Nu. injection Nu as <-.
        assert (Z : turn p q a = 0 /\ turn p q b = 0).
        { destruct E as [E|E]; injection E as Q1 Q2 _ Q4 Q5 _; unfold turn; rewrite Q1, Q2, Q4, Q5; split; ring. }
        rewrite TA in TX. destruct Z as [Z1 Z2]. rewrite Z1, Z2 in TX. lra. }
      assert (Z : rz (between a b y) <= rz (between p q i)).
      { apply NPr; [exact Y|]. destruct Hpq as [H|[H|[H|[]]]]; injection H as <- <-.
        - exists (1 - i), i, 0. repeat split; try lra; try assumption. apply pt_ext; rgeo; ring.
        - exists 0, (1 - i), i. repeat split; try lra; try assumption. apply pt_ext; rgeo; ring.
        - exists i, 0, (1 - i). repeat split; try lra; try assumption. apply pt_ext; rgeo; ring. }
      destruct E as [-> | ->].
      - eapply crossed_here with (i := i); eassumption.
      - assert (RV : between q p (1 - i) = between p q i) by (rewrite (between_rev p q (1 - i)); f_equal; ring).
        eapply crossed_here with (i := 1 - i); try exact Nv; try exact Nu; try exact NE; try exact LV; try exact Y; try rewrite RV; try assumption; try lra.
        intro Q. apply DD. unfold det2 in *. lra.
    Qed.
    (** A point of the closed projected triangle on the line of a side is on that side. *)
    Lemma on_side p : 0 <= turn (t0 t) (t1 t) p -> 0 <= turn (t1 t) (t2 t) p -> 0 <= turn (t2 t) (t0 t) p ->
      (turn (t0 t) (t1 t) p = 0 -> exists i, 0 <= i <= 1 /\ rx (between (t0 t) (t1 t) i) = rx p /\ ry (between (t0 t) (t1 t) i) = ry p) /\
      (turn (t1 t) (t2 t) p = 0 -> exists i, 0 <= i <= 1 /\ rx (between (t1 t) (t2 t) i) = rx p /\ ry (between (t1 t) (t2 t) i) = ry p) /\
      (turn (t2 t) (t0 t) p = 0 -> exists i, 0 <= i <= 1 /\ rx (between (t2 t) (t0 t) i) = rx p /\ ry (between (t2 t) (t0 t) i) = ry p).
    Proof.
      intros C0 C1 C2. pose proof (area_pos t t_proper t_facing) as S. destruct (mix_turn t p ltac:(lra)) as [EX EY]. pose proof (turn_sum t p) as SUM.
      assert (FR : forall x, 0 <= x <= area t -> 0 <= x / area t <= 1).
      { intros x X. split; [apply div_pos; lra|]. apply (Rmult_le_reg_r (area t)); [lra|]. unfold Rdiv. rewrite Rmult_assoc, Rinv_l by lra. lra. }
      assert (AD : forall x y, x + y = area t -> x / area t = 1 - y / area t) by (intros x y XY; rewrite <- XY; field; lra).
      split; [|split]; intro Z.
      - exists (turn (t2 t) (t0 t) p / area t). split; [apply FR; lra|]. rewrite <- EX, <- EY. rewrite Z, (AD (turn (t1 t) (t2 t) p) (turn (t2 t) (t0 t) p)) by lra. unfold mix. rgeo. split; field; lra.
      - exists (turn (t0 t) (t1 t) p / area t). split; [apply FR; lra|]. rewrite <- EX, <- EY. rewrite Z, (AD (turn (t2 t) (t0 t) p) (turn (t0 t) (t1 t) p)) by lra. unfold mix. rgeo. split; field; lra.
      - exists (turn (t1 t) (t2 t) p / area t). split; [apply FR; lra|]. rewrite <- EX, <- EY. rewrite Z, (AD (turn (t0 t) (t1 t) p) (turn (t1 t) (t2 t) p)) by lra. unfold mix. rgeo. split; field; lra.
    Qed.
    Lemma closed_over p : 0 <= turn (t0 t) (t1 t) p -> 0 <= turn (t1 t) (t2 t) p -> 0 <= turn (t2 t) (t0 t) p -> exists w, over t p w.
    Proof.
      intros C0 C1 C2. pose proof (area_pos t t_proper t_facing) as S. destruct (mix_turn t p ltac:(lra)) as [EX EY]. eexists.
      exists (turn (t1 t) (t2 t) p / area t), (turn (t2 t) (t0 t) p / area t), (turn (t0 t) (t1 t) p / area t).
      split; [apply div_pos; assumption|]. split; [apply div_pos; assumption|]. split; [apply div_pos; assumption|]. split; [|split; [reflexivity|split; assumption]].
      rewrite <- (turn_sum t p) at 1 2 3. field. rewrite turn_sum. lra.
    Qed.

    Lemma open_within p : 0 < turn (t0 t) (t1 t) p -> 0 < turn (t1 t) (t2 t) p -> 0 < turn (t2 t) (t0 t) p -> within t p.
    Proof.
      intros C0 C1 C2. pose proof (area_pos t t_proper t_facing) as S. destruct (mix_turn t p ltac:(lra)) as [EX EY].
      exists (turn (t1 t) (t2 t) p / area t), (turn (t2 t) (t0 t) p / area t), (turn (t0 t) (t1 t) p / area t).
      split; [apply Rdiv_lt_0_compat; lra|]. split; [apply Rdiv_lt_0_compat; lra|]. split; [apply Rdiv_lt_0_compat; lra|].
      split; [rewrite <- (turn_sum t p) at 1 2 3; field; rewrite turn_sum; lra|]. eexists. split; [reflexivity|]. split; assumption.
    Qed.

    Lemma reach pts x e : hidden_points (embf t) (i0, i1, i2) ev hb = Ret pts -> 0 <= x <= 1 -> (e = 0 \/ e = 1) ->
      0 < turn (t0 t) (t1 t) (between a b x) -> 0 < turn (t1 t) (t2 t) (between a b x) -> 0 < turn (t2 t) (t0 t) (between a b x) ->
      exists k d, 0 < k <= 1 /\ In (emb (between a b (x + k * (e - x))), d) pts.
    Proof.
      intros H X Ee T0 T1 T2. destruct (hidden_points_spec (embf t) (i0, i1, i2) ev hb) as (l & E & _ & Q). rewrite H in E. injection E as <-. cbn [fst snd e1 e2] in Q.
      destruct (model_fe n t i0 i1 i2 Nt Nf) as ((e0 & E1 & E2) & (f0 & F1 & F2) & (g0 & G1 & G2)).
      destruct (exit3 _ _ _ (turn (t0 t) (t1 t) (between a b e)) (turn (t1 t) (t2 t) (between a b e)) (turn (t2 t) (t0 t) (between a b e)) T0 T1 T2) as (k & K & C0 & C1 & C2 & Z).
      rewrite <- !turn_affine in *. set (y := x + k * (e - x)) in *. assert (Y : 0 <= y <= 1) by (unfold y; destruct Ee as [-> | ->]; nra).
      destruct (on_side (between a b y) C0 C1 C2) as (S0 & S1 & S2).
      assert (Z' : turn (t0 t) (t1 t) (between a b y) = 0 \/ turn (t1 t) (t2 t) (between a b y) = 0 \/ turn (t2 t) (t0 t) (between a b y) = 0 \/
        k = 1 /\ 0 < turn (t0 t) (t1 t) (between a b y) /\ 0 < turn (t1 t) (t2 t) (between a b y) /\ 0 < turn (t2 t) (t0 t) (between a b y)).
      { destruct Z as [Z|[Z|[Z|Z]]]; [|auto..]. destruct C0 as [C0|C0]; [|auto]. destruct C1 as [C1|C1]; [|auto]. destruct C2 as [C2|C2]; [|auto]. auto 10. }
      clear Z. destruct Z' as [Z|[Z|[Z|(Z & C0' & C1' & C2')]]].
      4:{ assert (YE : y = e) by (unfold y; rewrite Z; ring). assert (B : behind_in (embf t) (emb (between a b y)) = true).
        { destruct (closed_over _ C0 C1 C2) as [w Hw]. apply (over_behind t _ w t_proper t_facing Hw). apply (NPr y w Y Hw). apply open_within; assumption. }
        exists k. rewrite YE in B. destruct Ee as [-> | ->].
        + exists nz. split; [exact K|]. apply Q. left. fold y. rewrite YE. rewrite between_0 in *. auto.
        + eexists. split; [exact K|]. apply Q. right; left. fold y. rewrite YE. rewrite between_1 in *. split; [exact B|]. split; reflexivity. }
      - exists k. eexists. split; [exact K|]. apply Q. right; right. split; [reflexivity|]. left.
        eapply (side_recorded i0 e0 (t0 t, t1 t) x y); [simpl; auto|exact E1|exact E2|exact Y|exact T0|exact Z|exact (S0 Z)].
      - exists k. eexists. split; [exact K|]. apply Q. right; right. split; [reflexivity|]. right; left.
        eapply (side_recorded i1 f0 (t1 t, t2 t) x y); [simpl; auto|exact F1|exact F2|exact Y|exact T1|exact Z|exact (S1 Z)].
      - exists k. eexists. split; [exact K|]. apply Q. right; right. split; [reflexivity|]. right; right.
        eapply (side_recorded i2 g0 (t2 t, t0 t) x y); [simpl; auto|exact G1|exact G2|exact Y|exact T2|exact Z|exact (S2 Z)].
    Qed.

    Lemma hides_within x : 0 <= x <= 1 -> within t (between a b x) -> exists st, face_hides (embf t) (i0, i1, i2) v ev hb = Ret (Some (seg a b st)) /\ unit_span st /\
      fst st <= x <= snd st /\ fst st < snd st /\ (fst st < x \/ x = 0) /\ (x < snd st \/ x = 1).
    Proof.
      intros X (ca & cb & cc & A0 & B0 & C0 & SUM & w & W & EX & EY). pose proof (area_pos t t_proper t_facing) as S. subst w.
      destruct (turn_mix t ca cb cc _ SUM EX EY) as (T0 & T1 & T2).
      assert (P0 : 0 < turn (t0 t) (t1 t) (between a b x)) by (rewrite T0; apply Rmult_lt_0_compat; assumption).
      assert (P1 : 0 < turn (t1 t) (t2 t) (between a b x)) by (rewrite T1; apply Rmult_lt_0_compat; assumption).
      assert (P2 : 0 < turn (t2 t) (t0 t) (between a b x)) by (rewrite T2; apply Rmult_lt_0_compat; assumption).
      destruct (hidden_points_spec (embf t) (i0, i1, i2) ev hb) as (pts & HPt & _).
      destruct (reach pts x 0 HPt X (or_introl eq_refl) P0 P1 P2) as (k & d & K & IK). destruct (reach pts x 1 HPt X (or_intror eq_refl) P0 P1 P2) as (l & d' & L & IL).
      set (y := x + k * (0 - x)) in *. set (z := x + l * (1 - x)) in *.
      assert (Y : 0 <= y <= x /\ (y < x \/ x = 0)) by (unfold y; split; [nra|]; destruct (Req_dec x 0); [right; assumption|left; nra]).
      assert (Z : x <= z <= 1 /\ (x < z \/ x = 1)) by (unfold z; split; [nra|]; destruct (Req_dec x 1); [right; assumption|left; nra]).
      assert (YZ : y < z) by lra.
      destruct (pts_hidden pts HPt) as [IH G]. destruct (span_full XR_ordered G) as (r & E & RS & RN). rewrite Forall_forall in IH.
      assert (SP : forall h, spans ev pts h -> exists s1 s2, h = seg a b (s1, s2) /\ 0 <= s1 /\ s2 <= 1 /\ s1 <= y /\ z <= s2).
      { intros [h1 h2] (_ & (d1 & I1) & (d2 & I2) & BB). cbn [e1 e2] in *. destruct (IH _ I1) as (s1 & S1 & S2 & _). destruct (IH _ I2) as (s2 & U1 & U2 & _). cbn [fst] in *. subst h1 h2.
        exists s1, s2. split; [reflexivity|]. split; [lra|]. split; [lra|]. split; [apply span_le; [lra|lra|exact (proj1 (BB _ _ IK))]|apply span_le; [lra|lra|exact (proj2 (BB _ _ IL))]]. }
      assert (NOT : face_hides (embf t) (i0, i1, i2) v ev hb = Ret r).
      { unfold face_hides. assert (OWN : forall u e p q, In (p, q) (sides t) -> nth_error (edges m) u = Some e -> (e = Edge (emb p) (emb q) \/ e = Edge (emb q) (emb p)) -> (v =? u)%nat = false).
        { intros u e p q Hpq Nu Q. apply Nat.eqb_neq. intro VU. subst u. rewrite Nv in Nu. injection Nu as <-.
          assert (TA : turn p q (between a b x) = turn p q a + x * (turn p q b - turn p q a)) by (unfold turn; rgeo; ring).
          assert (ZZ : turn p q a = 0 /\ turn p q b = 0) by (destruct Q as [Q|Q]; injection Q as Q1 Q2 _ Q4 Q5 _; unfold turn; rewrite Q1, Q2, Q4, Q5; split; ring).
          destruct ZZ as [Z1 Z2]. rewrite Z1, Z2 in TA. destruct Hpq as [HQ|[HQ|[HQ|[]]]]; injection HQ as <- <-; lra. }
        destruct (model_fe n t i0 i1 i2 Nt Nf) as ((e0 & E1 & E2) & (f0 & F1 & F2) & (g0 & G1 & G2)).
        rewrite (OWN i0 e0 (t0 t) (t1 t)), (OWN i1 f0 (t1 t) (t2 t)), (OWN i2 g0 (t2 t) (t0 t)) by (simpl; auto). cbn [orb]. rewrite HPt. cbn [obind]. exact E. }
      destruct r as [h|].
      - destruct (SP h (proj1 (RS h eq_refl))) as (s1 & s2 & -> & B1 & B2 & B3 & B4). exists (s1, s2). split; [exact NOT|]. cbn [fst snd].
        split; [repeat split; simpl; lra|]. repeat split; lra.
      - exfalso. destruct (RN eq_refl) as [LN|(h & HS & HN)].
        + destruct pts as [|p0 [|p1 pts]]; [destruct IK| |simpl in LN; lia]. destruct IK as [IK|[]]. destruct IL as [IL|[]].
          rewrite IK in IL. injection IL as Q1 Q2 Q3 _. assert (between a b y = between a b z) by (apply pt_ext; assumption).
          assert (DD : dist ev (emb (between a b y)) = dist ev (emb (between a b z))) by congruence.
          assert (z <= y) by (apply span_le; [lra|lra|]; rewrite DD; unfold dist; cbn [e1]; rewrite dist_at; apply le_fin; lra). lra.
        + destruct (SP h HS) as (s1 & s2 & -> & B1 & B2 & B3 & B4). unfold seg in HN. cbn [e1 e2 fst snd] in HN. rewrite sub_emb, sqn_emb in HN. apply eq_fin in HN.
          replace (rdot _ _) with ((s1 - s2) * (s1 - s2) * len2 a b) in HN by (unfold len2; rgeo; ring). pose proof (len2_pos a b edge_ne). assert (0 < (s1 - s2) * (s1 - s2)) by nra.
          assert (0 < (s1 - s2) * (s1 - s2) * len2 a b) by (apply Rmult_lt_0_compat; assumption). lra.
    Qed.
  End Edge.
End Model.

(** ** Views of a model with proper facets *)
Lemma view_real s ts r : facets s = map embf ts -> Forall proper ts -> rotation r ->
  exists m ts', rotate s (embm r) = Ret m /\ index (map embf ts') = Ret m /\ facets m = map embf ts' /\
    Permutation ts' (filter facingb (map (turned r) ts)) /\ Forall proper ts' /\ Forall facing ts'.
Proof.
  intros HS HP HR. unfold rotate. rewrite HS, map_map.
  rewrite (map_ext (fun x => rotate_facet (embm r) (embf x)) (fun x => embf (turned r x))) by (intro; apply rotate_embf).
  rewrite <- (map_map (turned r) embf). set (l := map (turned r) ts).
  pose proof (proj1 (cull_exact (map embf l))) as PC.
  assert (FE : filter front (map embf l) = map embf (filter facingb l)).
  { clear. induction l as [|t l IH]; [reflexivity|]. cbn [map filter]. rewrite IH. assert (E : front (embf t) = facingb t).
    { unfold front. cbn [fnorm embf z3 emb]. change (nz : @num XR) with (Fin 0). unfold facingb. cbn [nle XR]. rewrite xle_fin. destruct (rleb_spec (rz (tn t)) 0), (Rlt_dec 0 (rz (tn t))); simpl; try reflexivity; lra. }
    rewrite E. destruct (facingb t); reflexivity. }
  rewrite FE in PC. apply Permutation_map_inv in PC. destruct PC as (ts' & E & PT). rewrite E.
  destruct (index_spec XR_ordered (fs := map embf ts')) as (m & HI & IX).
  { eapply Forall_impl; [apply okf_okF|apply okf_embf]. }
  assert (IN : forall t, In t ts' -> proper t /\ facing t).
  { intros t Ht. apply (Permutation_in _ (Permutation_sym PT)) in Ht. apply filter_In in Ht. destruct Ht as [Ht F]. unfold l in Ht. apply in_map_iff in Ht. destruct Ht as (u & <- & Hu).
    rewrite Forall_forall in HP. split; [apply rot_proper; [exact HR|apply HP; exact Hu]|]. unfold facingb in F. destruct (Rlt_dec 0 (rz (tn (turned r u)))) as [L|L]; [exact L|discriminate]. }
  exists m, ts'. split; [exact HI|]. split; [exact HI|]. split; [exact (ix_facets IX)|]. split; [apply Permutation_sym; exact PT|].
  split; rewrite Forall_forall; intros t Ht; apply IN; exact Ht.
Qed.

(** ** All lines of a model *)
Lemma measured_real ts m : index (map embf ts) = Ret m -> Forall proper ts -> measured m.
Proof.
  intros HI HP v ev L N. destruct (model_edge_ne ts m HI HP ev (nth_error_In _ _ N)) as (a & b & -> & NE). unfold dist. cbn [e1 e2].
  assert (OK : forall p, ok (sqn3 (sub3 (emb a) (emb p)))) by (intro p; rewrite sub_emb, sqn_emb; apply eq_fin; reflexivity).
  split; [apply OK|]. split; [|split; [apply OK|]].
  - rewrite sub_emb, sqn_emb. change (nz : @num XR) with (Fin 0). replace (rdot _ _) with 0 by (rgeo; ring). split; apply lt_fin_f; lra.
  - intros u p HIn. apply crossed_in in HIn. pose proof HIn as HC. destruct HIn as (ev & eu & _ & Nu & _).
    destruct (model_edge_ne ts m HI HP eu (nth_error_In _ _ Nu)) as (c & d & -> & _).
    destruct (crossed_real m v u p a b c d HC N Nu) as (i & j & _ & _ & -> & _). apply OK.
Qed.
Lemma lines_real ts m : index (map embf ts) = Ret m -> Forall proper ts -> Forall facing ts ->
  exists ss, to_lines m = Ret (flat_map strokes ss) /\ map (fun s => Edge (emb (sa s)) (emb (sb s))) ss = firstn (unseen m) (edges m) /\
    forall s, In s ss -> chain 0 (shown s) /\
      (forall x, 0 <= x <= 1 -> drawn s x \/ exists t, In t ts /\ covered t (between (sa s) (sb s) x)) /\
      (forall t x, In t ts -> lies_before t (sa s) (sb s) -> 0 <= x <= 1 -> within t (between (sa s) (sb s) x) -> ~ drawn s x).
Proof.
  intros HI HP HF. destruct (index_range _ HI) as (FM & LU & LFE).
  assert (MF : length (face_edge m) = length (facets m)) by (rewrite LFE, FM; reflexivity).
  edestruct (@to_lines_total XR XR_ordered m) as [ls HL]; [apply eq_fin; reflexivity|exact LU|lia|eapply measured_real; eassumption|].
  destruct (to_lines_parts m ls HL) as (hbe & lss & HC & -> & LL & PARTS).
  destruct (edge_crosses_spec (edges m) (unseen m)) as (hbe' & HC' & HB). rewrite HC in HC'. injection HC' as <-.
  set (Q := fun s : strip => chain 0 (shown s) /\
      (forall x, 0 <= x <= 1 -> drawn s x \/ exists t, In t ts /\ covered t (between (sa s) (sb s) x)) /\
      (forall t x, In t ts -> lies_before t (sa s) (sb s) -> 0 <= x <= 1 -> within t (between (sa s) (sb s) x) -> ~ drawn s x)).
  assert (EACH : forall v ps, nth_error lss v = Some ps -> exists s, ps = strokes s /\ nth_error (edges m) v = Some (Edge (emb (sa s)) (emb (sb s))) /\ Q s).
  { intros v ps N. destruct (PARTS v ps N) as (ev & hb & l & Nv & Nb & SP & G).
    assert (LV : (v < unseen m)%nat) by (rewrite <- LL; apply nth_error_Some; congruence).
    destruct (model_edge_ne ts m HI HP ev (nth_error_In _ _ Nv)) as (a & b & -> & NE).
    assert (FN : forall n f, nth_error (facets m) n = Some f -> exists t, nth_error ts n = Some t /\ f = embf t).
    { intros n f Nf. rewrite FM, nth_error_map in Nf. destruct (nth_error ts n) as [t|]; [|discriminate]. injection Nf as <-. eauto. }
    destruct (map_choice (seg a b) (fun st => unit_span st /\ exists t, In t ts /\ forall x, fst st <= x <= snd st -> covered t (between a b x)) (collect_some l)) as (sp & ESP & HSP).
    { rewrite Forall_forall. intros h Hh. destruct (spans_in m hb v _ l h SP Hh) as (n & f & [[i0 i1] i2] & Nf & Nfe & FH).
      destruct (FN n f Nf) as (t & Nt & ->).
      destruct (hides_covered ts m HI HP HF hbe HB v a b hb Nv Nb n t i0 i1 i2 Nt Nfe h FH) as (st & -> & US & CV). exists st. split; [reflexivity|]. split; [exact US|]. exists t. split; [eapply nth_error_In; exact Nt|exact CV]. }
    assert (US : Forall unit_span sp) by (eapply Forall_impl; [|exact HSP]; intros st Hst; exact (proj1 Hst)).
    destruct (gen_exact a b sp NE US) as (s & SA & SB & GE & (CH & CU & CL) & _). rewrite <- ESP in GE. rewrite GE in G. injection G as <-.
    exists s. rewrite SA, SB. split; [reflexivity|]. split; [exact Nv|]. unfold Q. rewrite SA, SB. split; [exact CH|]. split.
    - intros x X. destruct (Exists_dec (fun st => fst st <= x <= snd st) sp) as [YES|NO].
      { intro st. destruct (Rle_dec (fst st) x); [destruct (Rle_dec x (snd st))|]; [left; lra|right; lra|right; lra]. }
      + right. apply Exists_exists in YES. destruct YES as (st & Hst & IN). rewrite Forall_forall in HSP. destruct (HSP _ Hst) as (_ & t & Ht & CV). eauto.
      + left. apply CU; [exact X|]. intros i Hi C. apply NO. apply Exists_exists. eauto.
    - intros t x Ht NP X W (i & Hi & IX). apply In_nth_error in Ht. destruct Ht as [n Nt].
      assert (Nf : nth_error (facets m) n = Some (embf t)) by (rewrite FM; apply map_nth_error; exact Nt).
      destruct (nth_error (face_edge m) n) as [[[i0 i1] i2]|] eqn:Nfe.
      2:{ apply nth_error_None in Nfe. assert (n < length (facets m))%nat by (apply nth_error_Some; congruence). lia. }
      destruct (hides_within ts m HI HP HF hbe HB v a b hb Nv Nb LV n t i0 i1 i2 Nt Nfe NP x X W) as (st & FH & (U1 & U2 & U3) & IN & LT & LO & HI').
      destruct (spans_all m hb v _ l n (embf t) (i0, i1, i2) SP Nf Nfe) as (rr & FH' & INC). rewrite FH in FH'. injection FH' as <-.
      specialize (INC _ eq_refl). rewrite ESP in INC. apply in_map_iff in INC. destruct INC as (st' & ES & Hst').
      assert (E12 : fst st' = fst st /\ snd st' = snd st).
      { pose proof (f_equal (fun e => dist (Edge (emb a) (emb b)) (e1 e)) ES) as D1. pose proof (f_equal (fun e => dist (Edge (emb a) (emb b)) (e2 e)) ES) as D2.
        unfold dist, seg in D1, D2. cbn [e1 e2] in D1, D2. rewrite !dist_at in D1, D2. injection D1 as D1. injection D2 as D2.
        rewrite Forall_forall in US. destruct (US _ Hst') as (V1 & V2 & V3). pose proof (len2_pos a b NE) as LP.
        assert (G : forall u w, 0 <= u -> 0 <= w -> u * u * len2 a b = w * w * len2 a b -> u = w).
        { intros u w U W' E. destruct (Rtotal_order u w) as [C|[C|C]]; [|exact C|]; apply (sq_lt _ _ _ LP) in C; lra. }
        split; apply G; lra. }
      destruct E12 as [E1 E2]. pose proof (chain_low 0 (shown s) i CH Hi) as (I1 & I2 & I3).
      set (lo := Rmax (fst i) (fst st)). set (hi := Rmin (snd i) (snd st)).
      assert (LH : lo < hi) by (unfold lo, hi, Rmax, Rmin; destruct (Rle_dec (fst i) (fst st)), (Rle_dec (snd i) (snd st)); lra).
      assert (LO1 : fst i <= lo /\ fst st <= lo) by (unfold lo; split; [apply Rmax_l|apply Rmax_r]). assert (HI1 : hi <= snd i /\ hi <= snd st) by (unfold hi; split; [apply Rmin_l|apply Rmin_r]).
      apply (CL i ((lo + hi) / 2) Hi ltac:(lra) st' Hst'). lra. }
  assert (ALL : exists ss, lss = map strokes ss /\ map (fun s => Edge (emb (sa s)) (emb (sb s))) ss = firstn (unseen m) (edges m) /\ Forall Q ss).
  { rewrite <- LL in *. clear PARTS HL. assert (LE : (length lss <= length (edges m))%nat) by lia. clear - EACH LE. revert EACH LE. generalize (edges m).
    induction lss as [|ps lss IH]; intros es EACH LE; [exists []; repeat split; constructor|].
    destruct es as [|e es]; [simpl in LE; lia|].
    destruct (EACH 0%nat ps eq_refl) as (s & E1 & E2 & E3). simpl in E2. injection E2 as ->.
    destruct (IH es) as (ss & S1 & S2 & S3); [intros v p N; exact (EACH (S v) p N)|simpl in LE; lia|].
    exists (s :: ss). split; [simpl; rewrite E1, S1; reflexivity|]. split; [simpl; rewrite S2; reflexivity|]. constructor; assumption. }
  destruct ALL as (ss & -> & EE & QQ). exists ss. split; [rewrite HL, flat_map_concat_map; reflexivity|]. split; [exact EE|].
  rewrite Forall_forall in QQ. exact QQ.
Qed.
Lemma view_lines s ts r : facets s = map embf ts -> Forall proper ts -> rotation r ->
  exists m ss, rotate s (embm r) = Ret m /\ to_lines m = Ret (flat_map strokes ss) /\ map (fun st => Edge (emb (sa st)) (emb (sb st))) ss = firstn (unseen m) (edges m) /\
    forall st, In st ss -> chain 0 (shown st) /\
      (forall x, 0 <= x <= 1 -> drawn st x \/ exists t, In t ts /\ facing (turned r t) /\ covered (turned r t) (between (sa st) (sb st) x)) /\
      (forall t x, In t ts -> facing (turned r t) -> lies_before (turned r t) (sa st) (sb st) -> 0 <= x <= 1 -> within (turned r t) (between (sa st) (sb st) x) -> ~ drawn st x).
Proof.
  intros HS HP HR. destruct (view_real s ts r HS HP HR) as (m & ts' & H1 & H2 & H3 & H4 & H5 & H6).
  destruct (lines_real ts' m H2 H5 H6) as (ss & L1 & L2 & L3). exists m, ss. split; [exact H1|]. split; [exact L1|]. split; [exact L2|].
  assert (B : forall t, facingb t = true <-> facing t) by (intro t; unfold facingb, facing; destruct (Rlt_dec 0 (rz (tn t))); split; try discriminate; try tauto; intro; contradiction).
  intros st Hst. destruct (L3 st Hst) as (C & C1 & C2). split; [exact C|]. split.
  - intros x X. destruct (C1 x X) as [D|(t & Ht & CV)]; [left; exact D|right]. rewrite Forall_forall in H6. pose proof (H6 _ Ht) as FT.
    apply (Permutation_in _ H4) in Ht. apply filter_In in Ht. destruct Ht as [Ht _]. apply in_map_iff in Ht. destruct Ht as (u & <- & Hu). eauto.
  - intros t x Ht FT SB X W. apply (C2 (turned r t) x); try assumption. apply (Permutation_in _ (Permutation_sym H4)). apply filter_In. split; [apply in_map; exact Ht|]. apply B. exact FT.
Qed.
