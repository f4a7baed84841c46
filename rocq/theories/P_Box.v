(** P_Box.v - a drawing stays in its box. *)
From Coq Require Import Reals Lra Permutation.
From Verif Require Import Base Num NumLaws NumReal Geo Stl GeoSpec HideSpec Env Ast Ps Draw DocSpec P_Base P_Meta P_Dims P_Doc P_Script2 P_Script3 P_Script4 P_Lang2 P_Geo1 P_Real
  DimSpec P_Value P_Total P_Centre P_Span P_Span2 P_Exact P_Pict P_Move P_Move2 RealSpec PictSpec BoxSpec.

Local Unset Implicit Arguments.
Local Open Scope R_scope.

Lemma own_corner t a b : own t a b -> corner t a /\ corner t b.
Proof. unfold own, tri_sides, corner. simpl. intros [[H|[H|[H|[]]]]|[H|[H|[H|[]]]]]; injection H as <- <-; auto. Qed.
Lemma lines_inside f ts r m : facets f = map embf ts -> Forall proper ts -> rotation r -> rotate f (embm r) = Ret m ->
  exists vs ls, facets m = map embf vs /\ Permutation vs (seen r ts) /\ to_lines m = Ret ls /\
    forall l, In l ls -> exists t a b x y, In t vs /\ corner t a /\ corner t b /\ 0 <= x <= 1 /\ 0 <= y <= 1 /\ l = line3 (emb (between a b x)) (emb (between a b y)).
Proof.
  intros HF HP HR HM. destruct (view_real f ts r HF HP HR) as (m' & vs & H1 & H2 & H3 & H4 & H5 & H6). rewrite HM in H1. injection H1 as <-.
  destruct (exact_real vs m H2 H5 H6) as (ss & L1 & L2 & L3). exists vs, (flat_map strokes ss). split; [exact H3|]. split; [exact H4|]. split; [exact L1|].
  intros l Hl. apply in_flat_map in Hl. destruct Hl as (st & Hst & Hl). unfold strokes in Hl. apply in_map_iff in Hl. destruct Hl as (i & <- & Hi).
  assert (IE : In (Edge (emb (sa st)) (emb (sb st))) (edges m)).
  { rewrite <- (firstn_skipn (unseen m)), <- L2. apply in_or_app. left. apply (in_map (fun s => Edge (emb (sa s)) (emb (sb s)))). exact Hst. }
  apply (edge_listed vs m H2 H5) in IE. destruct IE as (_ & t & Ht & O). destruct (own_corner t _ _ O) as [O1 O2].
  assert (SP : spaced 0 (shown st)) by apply (L3 st Hst). destruct (spaced_low _ _ _ SP Hi) as (A1 & A2 & A3).
  exists t, (sa st), (sb st), (fst i), (snd i). repeat split; try assumption; lra.
Qed.
Lemma put_rect sc tx ty x0 x1 y0 y1 w h px py : x0 <= px <= x1 -> y0 <= py <= y1 -> x1 - x0 <= w -> y1 - y0 <= h ->
  in_box2 tx ty (Rabs sc * w) (Rabs sc * h) (put (Fin sc : @num XR) (emb2 (tx - sc * ((x0 + x1) / 2)) (ty - sc * ((y0 + y1) / 2))) (emb2 px py)).
Proof.
  intros X Y W H. exists (sc * (px - (x0 + x1) / 2) + tx), (sc * (py - (y0 + y1) / 2) + ty). split; [|split].
  - unfold put, add2, mul2, emb2. cbn [x2 y2 nmul nadd XR xmul xadd]. f_equal; match goal with |- Fin ?u = Fin ?v => assert (KK : u = v) by ring; rewrite KK; reflexivity end.
  - replace (sc * (px - (x0 + x1) / 2) + tx - tx) with (sc * (px - (x0 + x1) / 2)) by ring. rewrite Rabs_mult. unfold Rdiv at 2. rewrite Rmult_assoc.
    apply Rmult_le_compat_l; [apply Rabs_pos|]. apply Rabs_le. lra.
  - replace (sc * (py - (y0 + y1) / 2) + ty - ty) with (sc * (py - (y0 + y1) / 2)) by ring. rewrite Rabs_mult. unfold Rdiv at 2. rewrite Rmult_assoc.
    apply Rmult_le_compat_l; [apply Rabs_pos|]. apply Rabs_le. lra.
Qed.
Theorem in_its_box (E : @Env XR) st l n ml ds s s1 ds1 f ts r a b tx ty w h : visit_draw st l n ml ds s = Ret (s1, ds1, true) ->
  smap_find bytes_ltb n st = Some (Some f) -> facets f = map embf ts -> Forall proper ts -> asks_view ml (embm r) -> rotation r ->
  asks_scale ml a b -> b <> 0%Z -> asks_place ml tx ty -> sized (seen r ts) w h ->
  exists proj ls ls' q, shows st n ml proj ls /\ length ls' = length ls /\ v_page s1 = plus_page (v_page s) (plus_page (OPage ls' [] []) q) /\
    (ds = [] -> q = OPage [] [] []) /\
    forall x, In x ls' -> let k := Rabs (72 * (IZR a / IZR b)) in in_box2 tx ty (k * w) (k * h) (lo x) /\ in_box2 tx ty (k * w) (k * h) (lt_ x).
Proof.
  intros V M HF HP AV HR AS NB AP SZ. destruct (visit_draw_spec _ _ _ _ _ _ V) as [[K _] _]. destruct (K eq_refl) as [[a' b'] file rot pl proj ls ND ON HS HM HV HPL HRO HL _ HD].
  unfold model_of in HM. rewrite M in HM. injection HM as <-. rewrite (asks_view_of ml _ ND AV) in HV. injection HV as <-.
  apply scale_asks in HS. destruct (one_scale ml a b a' b' ND AS HS) as [<- <-]. pose proof (place_asks ml tx ty pl ND AP HPL) as ->.
  pose proof (rotated_culled _ _ _ HRO) as CU. rewrite CU in HL, HD.
  destruct (dims_put (points proj) (embm r) (proj_scale (a, b)) ds) as [q Hq].
  assert (D : dadds (proj_scale (a, b)) (draw_state (a, b) (embm r) (emb2 tx ty) proj ls s) s1 q) by (refine (Hq _ _ _ _ HD); repeat split).
  unfold draw_state in HD, D. cbv zeta in HD, D. match type of D with dadds _ (add_lines _ ?x) _ _ => pose proof (dl x ls (eq_refl : v_scale x = proj_scale (a, b))) as D0 end.
  pose proof (dadds_trans D0 D) as D1.
  assert (SC : proj_scale (a, b) = (Fin (72 * (IZR a / IZR b)) : @num XR)) by (exact (scale_fin a b NB)).
  set (off := sub2 (emb2 tx ty) (mul2 (div2 (add2 (lo (limits proj)) (lt_ (limits proj))) n2) (proj_scale (a, b)))) in *.
  exists proj, ls, (map (fun x => Line (put (proj_scale (a, b)) off (lo x)) (put (proj_scale (a, b)) off (lt_ x))) ls).
  exists (match ds with [] => OPage [] [] [] | _ => put_page (proj_scale (a, b)) off q end).
  split; [exists f, (embm r), proj; rewrite CU; auto|]. split; [apply map_length|]. split.
  { destruct ds as [|d0 ds].
    - cbn [visit_dims] in HD. injection HD as <- _. unfold plus_page. cbn [o_lines o_arcs o_text]. rewrite !app_nil_r. reflexivity.
    - rewrite D1. unfold plus_page, put_page. cbn. rewrite map_app. reflexivity. }
  split; [intros ->; reflexivity|]. cbv zeta. intros x Hx. apply in_map_iff in Hx. destruct Hx as (y & <- & Hy). cbn [lo lt_].
  destruct (lines_inside f ts r proj HF HP HR HRO) as (vs & ls0 & F1 & F2 & F3 & F4). rewrite HL in F3. injection F3 as <-.
  destruct (F4 y Hy) as (t & p & q' & u & v & Ht & C1 & C2 & U & W & ->).
  destruct (bounds_exist proj vs F1) as (x0 & x1 & y0 & y1 & BD); [intro Z; rewrite Z in Ht; destruct Ht|].
  assert (OF : off = emb2 (tx - 72 * (IZR a / IZR b) * ((x0 + x1) / 2)) (ty - 72 * (IZR a / IZR b) * ((y0 + y1) / 2))).
  { unfold off. rewrite SC, (bounds_limits _ _ _ _ _ BD). generalize (72 * (IZR a / IZR b)). intro k. unfold add2, mul2, sub2, div2, emb2. cbn [lo lt_ x2 y2]. unfold n2.
    cbn [of_Z nmul nadd nsub ndiv XR xmul xadd xsub xneg xdiv]. destruct (reqb_spec 2 0) as [Z|_]; [lra|]. cbn [xmul xadd xneg].
    f_equal; match goal with |- Fin ?u = Fin ?v => assert (KK : u = v) by field; rewrite KK; reflexivity end. }
  rewrite OF, SC. destruct BD as (B & (p0 & I0 & E0) & (p1 & I1 & E1) & (p2 & I2 & E2) & (p3 & I3 & E3)).
  assert (CO : forall z, In (emb z) (vertices proj) -> exists t, In t (seen r ts) /\ corner t z).
  { intros z Hz. apply (vertices_emb proj vs _ F1) in Hz. destruct Hz as (t' & z' & T' & CZ & EZ). assert (z = z') by (injection EZ as Q1 Q2 Q3; apply pt_ext; assumption). subst z'.
    exists t'. split; [exact (Permutation_in _ F2 T')|exact CZ]. }
  destruct (CO _ I0) as (u0 & J0 & K0). destruct (CO _ I1) as (u1 & J1 & K1). destruct (CO _ I2) as (u2 & J2 & K2). destruct (CO _ I3) as (u3 & J3 & K3).
  destruct (SZ _ _ _ _ J0 J1 K0 K1) as [SX _]. destruct (SZ _ _ _ _ J2 J3 K2 K3) as [_ SY]. rewrite E0, E1 in SX. rewrite E2, E3 in SY.
  assert (IV : forall z, corner t z -> x0 <= rx z <= x1 /\ y0 <= ry z <= y1).
  { intros z Hz. destruct (B (emb z)) as (z' & EZ & BX & BY); [apply (vertices_emb proj vs _ F1); exists t, z; auto|].
    assert (z = z') by (injection EZ as Q1 Q2 Q3; apply pt_ext; assumption). subst z'. auto. }
  destruct (IV p C1) as [X1 Y1]. destruct (IV q' C2) as [X2 Y2].
  split; apply put_rect; try assumption; unfold between; rgeo; nra.
Qed.
