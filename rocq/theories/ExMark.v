(** ExMark.v - concrete cases for the marks of dimensions. *)
From Coq Require Import Reals Lra Permutation.
From Verif Require Import Base Num NumReal NumLaws Geo Stl RealSpec Env Ast Ps Draw DocSpec CircleSpec P_Circle P_Circle2 P_Circle4 DimSpec MarkSpec P_Real P_Dims P_Value P_Value2 P_Mark P_Mark2 P_Mark3 ExReal ExDim.

Local Unset Implicit Arguments.
Local Open Scope R_scope.
Local Existing Instance XR.

(** Coordinates are evaluated to themselves, turned by the view. *)
Lemma coord_evaluates {E : @Env XR} ps r ml n p : coordinate ml n p -> evaluates ps (embm r) ml n (emb (rmul p r)).
Proof.
  intros (x & l & I & Q & V). exists x, (PVal (emb p) l), (PVal (emb (rmul p r)) l). split; [exact I|]. split; [exact Q|]. split; [exact V|].
  split; [repeat split; cbn [triple]; rewrite <- mulm_emb; reflexivity|reflexivity].
Qed.
Lemma co_evaluates {E : @Env XR} ps r ml n x y z q : In (co n x y z) ml -> rmul (P3 x y z) r = q -> evaluates ps (embm r) ml n (emb q).
Proof. intros I <-. apply coord_evaluates, co_coordinate, I. Qed.

(** ** dim: seen from the side and shown at 2:1 *)
Definition mark_state : @vst XR := Vst (map emb ex_ring) (embm ex_quarter) (Fin 2 : num) (emb2 100 50) opage_empty [].
Lemma dim_mark_case (E : @Env XR) : let ev := evaluates (v_points mark_state) (v_rot mark_state) (d_meta ex_dim) in
  d_kind ex_dim = KDim /\ v_scale mark_state = (Fin 2 : num) /\ v_d mark_state = e2 (100, 50) /\
  ev "at"%string (emb (P3 (-1) 1 0)) /\ ev "dir"%string (emb (P3 (-4) 3 0)) /\ ev "from"%string (emb (P3 0 0 0)) /\ ev "to"%string (emb (P3 0 10 7)) /\
  exists s' d', visit_base_dim ex_dim mark_state = Ret (s', d', true).
Proof.
  cbv zeta. split; [reflexivity|]. split; [reflexivity|]. split; [reflexivity|].
  split; [eapply co_evaluates; [cbn; auto|apply pt_ext; unfold rmul, ex_quarter; cbn [rx ry rz r0 r1 r2]; lra]|].
  split; [eapply co_evaluates; [cbn; auto|apply pt_ext; unfold rmul, ex_quarter; cbn [rx ry rz r0 r1 r2]; lra]|].
  split; [eapply co_evaluates; [cbn; auto|apply pt_ext; unfold rmul, ex_quarter; cbn [rx ry rz r0 r1 r2]; lra]|].
  split; [eapply co_evaluates; [cbn; auto 6|apply pt_ext; unfold rmul, ex_quarter; cbn [rx ry rz r0 r1 r2]; lra]|].
  apply (dim_succeeds ex_dim mark_state ex_quarter (P3 1 1 0) (P3 3 4 0) (P3 0 0 0) (P3 10 0 7)); try reflexivity; try (apply co_coordinate; cbn; tauto).
  - exact quarter_rotation.
  - cbn. repeat constructor; cbn; intuition discriminate.
  - intros x I. cbn in I |- *. intuition (subst; cbn; auto).
  - unfold rzero. intro H. apply (f_equal rx) in H. cbn [rx] in H. lra.
Qed.
(** An upright extension line: from the point (3,4) to the line through (0,0) along x. *)
Lemma upright_case : foot (P3 0 0 0) (P3 2 0 0) (P3 3 4 9) (P3 3 0 0) /\ foot (P3 0 0 0) (P3 2 0 0) (P3 5 1 0) (P3 5 0 0) /\ unit2 (1, 0) /\
  shown_at 2 (100, 50) (P3 5 0 0) = go (shown_at 2 (100, 50) (P3 3 0 0)) 4 (1, 0) /\
  extension (shown_at 2 (100, 50) (P3 0 0 0)) (1, 0) (shown_at 2 (100, 50) (P3 3 0 0)) (shown_at 2 (100, 50) (P3 3 4 9)) (seg (106, 46) (106, 56)).
Proof.
  split; [split; [exists (3 / 2); apply pt_ext; unfold radd, rscale; cbn [rx ry rz]; lra|unfold rdot, rsub; cbn [rx ry rz]; lra]|].
  split; [split; [exists (5 / 2); apply pt_ext; unfold radd, rscale; cbn [rx ry rz]; lra|unfold rdot, rsub; cbn [rx ry rz]; lra]|].
  split; [unfold unit2, dot; cbn [fst snd]; lra|]. split; [unfold shown_at, go; cbn [rx ry fst snd]; f_equal; lra|].
  exists 1. split; [left; split; [unfold dot, diff, left_of, shown_at; cbn [rx ry fst snd]; lra|reflexivity]|].
  unfold seg. f_equal; f_equal; unfold go, left_of, shown_at; cbn [rx ry fst snd]; f_equal; lra.
Qed.

(** ** dia and rad *)
Lemma ring_measured c rho : measured ex_ring (0, 0) c rho -> c = (0, 0) /\ rho = 5.
Proof.
  intros (k & c0 & rho0 & CL & _ & P & G & BC). pose proof (ring_picked k CL) as I.
  assert (G1 : gap2 (5, 0) c0 = rho0 * rho0) by (apply G, I; cbn; unfold flat2; cbn; auto).
  assert (G2 : gap2 (3, 4) c0 = rho0 * rho0) by (apply G, I; cbn; unfold flat2; cbn; auto).
  assert (G3 : gap2 (-5, 0) c0 = rho0 * rho0) by (apply G, I; cbn; unfold flat2; cbn; auto). unfold gap2 in G1, G2, G3. destruct c0 as [x y]. cbn [fst snd] in *.
  assert (x = 0) by lra. subst x. assert (y = 0) by lra. subst y. assert (rho0 = 5) by nra. subst rho0.
  assert (RG : forall p, In p (map flat2 ex_ring) -> gap2 p (0, 0) = 5 * 5) by (intros p J; cbn in J; unfold flat2 in J; cbn [rx ry] in J; destruct J as [<-|[<-|[<-|[]]]]; unfold gap2; cbn [fst snd]; lra).
  assert (NC : near_circle (map flat2 ex_ring) (0, 0) 5 = map flat2 ex_ring).
  { unfold near_circle. assert (F : forall l, (forall p, In p l -> gap2 p (0, 0) = 5 * 5) -> filter (in_ring (5 * (9 / 10)) (5 * (11 / 10)) (0, 0)) l = l).
    { induction l as [|p l IH]; intro H; [reflexivity|]. cbn [filter]. unfold in_ring at 1. unfold dist. rewrite (H p (or_introl eq_refl)), sqrt_square by lra.
      rewrite (proj2 (rltb_iff _ _)) by lra. rewrite (proj2 (rltb_iff _ _)) by lra. cbn [andb]. f_equal. apply IH. intros q J. apply H. right. exact J. }
    apply F, RG. }
  rewrite NC in BC. destruct (best_unique _ _ _ (0, 0) 5 BC) as [Q1 Q2]; [|split; congruence].
  apply circle_best; [|lra|exact RG]. exists (5, 0), (3, 4), (-5, 0). repeat split; try (cbn; unfold flat2; cbn; auto; fail). unfold corner. cbn [fst snd]. lra.
Qed.
Definition circ_metas (at_ dir : rpt) : list (@meta XR) := [co "at" (rx at_) (ry at_) (rz at_); co "dir" (rx dir) (ry dir) (rz dir); co "center" 0 0 9].
Lemma id_mul p : rmul p ex_id = p.
Proof. destruct p as [x y z]. unfold rmul, ex_id. cbn [rx ry rz r0 r1 r2]. f_equal; ring. Qed.
Lemma circ_case (E : @Env XR) k a u : k = KDia \/ k = KRad -> exists s' d', visit_base_dim (Dim k (Loc [] 0) (circ_metas a u)) ring_state = Ret (s', d', true).
Proof.
  assert (G : NoDup (map m_name (circ_metas a u)) /\ P_Dims.only P_Dims.circ_keys (circ_metas a u) /\ P_Dims.circ_args (v_points ring_state) (v_rot ring_state) (circ_metas a u) <> None).
  { assert (N : NoDup (map m_name (circ_metas a u))) by (cbn; repeat constructor; cbn; intuition discriminate). split; [exact N|]. split.
    - intros n I. cbn in I. destruct I as [<-|[<-|[<-|[]]]]; [exists "at"%string|exists "dir"%string|exists "center"%string]; (split; [cbn; auto|reflexivity]).
    - unfold P_Dims.circ_args. change (v_rot ring_state) with (embm ex_id).
      rewrite (coord_arg _ ex_id _ "at" (P3 (rx a) (ry a) (rz a)) N), (coord_arg _ ex_id _ "dir" (P3 (rx u) (ry u) (rz u)) N), (coord_arg _ ex_id _ "center" (P3 0 0 9) N) by (apply co_coordinate; cbn; tauto).
      unfold P_Dims.fmt_arg. rewrite (arg_absent "fmt") by (unfold has; cbn; intuition discriminate). change (length (v_points ring_state) <? 3)%nat with false. cbv iota.
      rewrite !id_mul. change (xy (emb (P3 0 0 9))) with (e2 (0, 0)).
      destruct ring_fits as (c & rho & F). change (v_points ring_state) with (map emb ex_ring). rewrite F. discriminate. }
  assert (Z : eqm (v_rot ring_state) zerom = false) by (apply rotation_nonzero, ex_rotation). set (d := Dim k (Loc [] 0) (circ_metas a u)).
  assert (GD : NoDup (map m_name (d_meta d)) /\ P_Dims.only P_Dims.circ_keys (d_meta d) /\ P_Dims.circ_args (v_points ring_state) (v_rot ring_state) (d_meta d) <> None) by exact G.
  intros [K|K]; unfold visit_base_dim; change (d_kind d) with k; rewrite K.
  - unfold visit_dia. destruct (P_Dims.visit_circ_spec "dia" draw_dia d ring_state Z) as (s' & ml & ok & H1 & H2 & _). rewrite H1. cbn [obind]. rewrite (proj2 H2 GD). eauto.
  - unfold visit_rad. destruct (P_Dims.visit_circ_spec "rad" draw_rad d ring_state Z) as (s' & ml & ok & H1 & H2 & _). rewrite H1. cbn [obind]. rewrite (proj2 H2 GD). eauto.
Qed.
Lemma circ_mark_case (E : @Env XR) k a u : k = KDia \/ k = KRad -> let ev := evaluates (v_points ring_state) (v_rot ring_state) (circ_metas a u) in
  v_scale ring_state = (Fin 1 : num) /\ v_d ring_state = e2 (0, 0) /\ v_points ring_state = map emb ex_ring /\
  ev "at"%string (emb a) /\ ev "dir"%string (emb u) /\ ev "center"%string (emb (P3 0 0 9)) /\
  exists s' d', visit_base_dim (Dim k (Loc [] 0) (circ_metas a u)) ring_state = Ret (s', d', true).
Proof.
  intro K. cbv zeta. split; [reflexivity|]. split; [reflexivity|]. split; [reflexivity|]. change (v_rot ring_state) with (embm ex_id).
  split; [eapply co_evaluates; [cbn; auto|rewrite id_mul; destruct a; reflexivity]|].
  split; [eapply co_evaluates; [cbn; auto|rewrite id_mul; destruct u; reflexivity]|].
  split; [eapply co_evaluates; [cbn; auto|apply id_mul]|]. apply circ_case, K.
Qed.
(** A label inside the circle: the leader ends below the label and not at the arrow head on the rim. *)
Lemma leader_short (E : @Env XR) : exists d s s' d' c rho e, d_kind d = KDia /\ visit_base_dim d s = Ret (s', d', true) /\
  v_scale s = (Fin 1 : num) /\ v_d s = e2 (0, 0) /\ v_page s = opage_empty /\ evaluates (v_points s) (v_rot s) (d_meta d) "at" (emb (P3 3 3 0)) /\
  measured ex_ring (0, 0) c rho /\ unit2 e /\ dia_marks c (3, 3) e 1 rho (o_lines (v_page s')) /\
  forall p q, In (seg p q) (firstn 2 (o_lines (v_page s'))) -> ~ on_seg p q (go c rho e).
Proof.
  pose proof (circ_mark_case E KDia (P3 3 3 0) (P3 1 0 0) (or_introl eq_refl)) as (H1 & H2 & H3 & H4 & H5 & H6 & s' & d' & H).
  exists (Dim KDia (Loc [] 0) (circ_metas (P3 3 3 0) (P3 1 0 0))), ring_state, s', d', (0, 0), 5, (1, 0).
  assert (U : flat2 (P3 1 0 0) <> (0, 0)) by (unfold flat2; cbn [rx ry]; intro Q; injection Q as Q; lra).
  destruct (dia_marked (Dim KDia (Loc [] 0) (circ_metas (P3 3 3 0) (P3 1 0 0))) ring_state s' d' 1 (0, 0) ex_ring _ _ _ eq_refl H1 ltac:(lra) H2 H3 H4 H5 H6 U H)
    as (fm & c & rho & e & ls & _ & M & UE & (k & K & KE) & T1 & _ & _ & DM). change (flat2 (P3 0 0 9)) with (0, 0) in M. pose proof M as M0. apply ring_measured in M. destruct M as [-> ->].
  cbn [app o_lines v_page ring_state opage_empty] in T1. unfold flat2, go in KE. cbn [rx ry fst snd] in KE. injection KE as K1 K2.
  assert (E2 : snd e = 0) by nra. assert (E1 : fst e = 1) by (unfold unit2, dot in UE; rewrite E2 in UE; assert (0 < fst e) by nra; nra).
  assert (e = (1, 0)) by (destruct e; cbn [fst snd] in *; congruence). subst e. rewrite T1.
  assert (C0 : go (0, 0) 1 (0, 0) = (0, 0)) by (unfold go; cbn [fst snd]; f_equal; ring). assert (A0 : shown_at 1 (0, 0) (P3 3 3 0) = (3, 3)) by (unfold shown_at; cbn [rx ry fst snd]; f_equal; ring).
  rewrite C0, A0, Rmult_1_r in DM. split; [reflexivity|]. split; [exact H|]. split; [exact H1|]. split; [exact H2|]. split; [reflexivity|]. split; [exact H4|]. split; [exact M0|].
  split; [exact UE|]. split; [exact DM|]. destruct DM as (X & BX & ->). assert (X = (3, 0)).
  { destruct BX as [R|l L _ _ _ _].
    - exfalso. destruct R as [(l & [[_ L]|[L _]] & LE)|[[R _]|[_ R]]]; cbn [fst snd] in *; lra.
    - destruct L as [[_ L]|[L _]]; cbn [fst snd] in *; [|lra]. unfold go. cbn [fst snd]. f_equal; lra. }
  subst X. cbn [app firstn]. intros p q [Q|[Q|[]]] (t & T0 & QT); unfold seg, e2, emb2 in Q; injection Q as Q1 Q2 Q3 Q4; destruct p as [p1 p2], q as [q1 q2]; unfold go, diff in *; cbn [fst snd] in *; injection QT as QT _; nra.
Qed.
Lemma rad_level : forall l, level (0, 0) (6, 6) (3 / 5, 4 / 5) l -> 1 < l -> 5 <= l.
Proof. intros l [[_ H]|[_ H]] _; cbn [fst snd] in H; lra. Qed.

(** ** angle *)
Lemma angle_mark_case (E : @Env XR) : let ev := evaluates (v_points mark_state) (v_rot mark_state) (d_meta ex_angle) in
  d_kind ex_angle = KAngle /\ v_scale mark_state = (Fin 2 : num) /\ v_d mark_state = e2 (100, 50) /\
  ev "at"%string (emb (P3 (-1) 1 0)) /\ ev "apex"%string (emb (P3 0 0 0)) /\
  side_seen mark_state (d_meta ex_angle) "from_dir" "from_point" (P3 0 0 0) (P3 0 1 0) (P3 0 0 0) /\
  side_seen mark_state (d_meta ex_angle) "to_dir" "to_point" (P3 0 0 0) (P3 (-2) 0 2) (P3 0 0 0) /\
  exists s' d', visit_base_dim ex_angle mark_state = Ret (s', d', true).
Proof.
  cbv zeta. split; [reflexivity|]. split; [reflexivity|]. split; [reflexivity|].
  split; [eapply co_evaluates; [cbn; auto|apply pt_ext; unfold rmul, ex_quarter; cbn [rx ry rz r0 r1 r2]; lra]|].
  split; [eapply co_evaluates; [cbn; auto|apply pt_ext; unfold rmul, ex_quarter; cbn [rx ry rz r0 r1 r2]; lra]|].
  split; [left; split; [eapply co_evaluates; [cbn; auto|apply pt_ext; unfold rmul, ex_quarter; cbn [rx ry rz r0 r1 r2]; lra]|reflexivity]|].
  split; [left; split; [eapply co_evaluates; [cbn; auto 6|apply pt_ext; unfold rmul, ex_quarter; cbn [rx ry rz r0 r1 r2]; lra]|reflexivity]|].
  apply (angle_succeeds ex_angle mark_state ex_quarter (P3 1 1 0) (P3 0 0 0) (P3 1 0 0) (P3 0 2 2)); try reflexivity; try (apply co_coordinate; cbn; tauto).
  - exact quarter_rotation.
  - cbn. repeat constructor; cbn; intuition discriminate.
  - intros x I. cbn in I |- *. intuition (subst; cbn; auto).
  - unfold rcross, rmul, ex_quarter. cbn [rx ry rz r0 r1 r2]. lra.
Qed.
(** A side that leaves the page: its arrow head is inside the arc. *)
Lemma tip_inside (E : @Env XR) : exists d s s' d' P rad a b l1 l2 l3 l4 T x y, d_kind d = KAngle /\ visit_base_dim d s = Ret (s', d', true) /\ v_page s = opage_empty /\
  v_scale s = (Fin 2 : num) /\
  o_arcs (v_page s') = [Arc (e2 P) (Fin rad : num) a b] /\ o_lines (v_page s') = [l1; l2; l3; l4; seg T x; seg T y] /\ gap2 T P <> rad * rad.
Proof.
  pose proof (angle_mark_case E) as (H1 & H2 & H3 & H4 & H5 & H6 & H7 & s' & d' & H).
  destruct (angle_marked ex_angle mark_state s' d' 2 (100, 50) _ _ _ _ _ _ H1 H2 ltac:(lra) H3 H4 H5 H6 H7 H) as (fm & U & V & ls & ars & _ & (U1 & ku & KU & EU) & (V1 & kv & KV & EV) & T1 & T2 & _ & MK).
  cbn [app o_lines o_arcs v_page mark_state opage_empty] in T1, T2.
  assert (F : far_from (P3 (-1) 1 0) (P3 0 0 0) * 2 <> 0).
  { unfold far_from. assert (0 < sqrt (rdot (rsub (P3 (-1) 1 0) (P3 0 0 0)) (rsub (P3 (-1) 1 0) (P3 0 0 0)))) by (apply sqrt_lt_R0; unfold rdot, rsub; cbn [rx ry rz]; lra). lra. }
  assert (RV : rx V * rx V = / 2 /\ ry V = 0).
  { destruct V as [x y z]. unfold rdot in V1. unfold rscale in EV. cbn [rx ry rz] in *. injection EV as E1 E2 E3. assert (y = 0) by nra. subst y. assert (z = - x) by (apply (Rmult_eq_reg_l kv); lra). subst z. split; [lra|reflexivity]. }
  assert (RU : rx U = 0 /\ 0 < ry U).
  { destruct U as [x y z]. unfold rdot in U1. unfold rscale in EU. cbn [rx ry rz] in *. injection EU as E1 E2 E3. split; [nra|]. apply (Rmult_lt_reg_l ku); lra. }
  assert (RX : rx V < 0) by (apply (f_equal rx) in EV; unfold rscale in EV; cbn [rx] in EV; apply (Rmult_lt_reg_l kv); lra).
  destruct RV as [RV1 RV2], RU as [RU1 RU2].
  destruct MK as [MK|(TL & _)].
  2:{ exfalso. unfold turns_left, flat2 in TL. cbn [fst snd] in TL. rewrite RU1, RV2 in TL. nra. }
  destruct MK as (TL & W & X & a & b & _ & _ & _ & _ & -> & ->). unfold arc_barbs in T1. cbn [app] in T1.
  do 15 eexists. split; [exact H1|]. split; [exact H|]. split; [reflexivity|]. split; [exact H2|]. split; [exact T2|]. split; [exact T1|].
  set (rad := far_from _ _ * 2) in *. set (P := shown_at _ _ _). unfold gap2, go, flat2. cbn [fst snd]. rewrite RV2. intro Q. apply F.
  assert (rad * rad * (rx V * rx V) = rad * rad) by lra. rewrite RV1 in H0. nra.
Qed.
(** Both sides parallel to the page. *)
Lemma flat_case : exists ls ars, angle_marks (10, 10) (10, 10) (10, 10) (P3 1 0 0) (P3 0 1 0) 20 ls ars.
Proof.
  do 2 eexists. split; [unfold turns_left, flat2; cbn [fst snd rx ry]; lra|]. exists (P3 0 1 0), (P3 1 0 0), 0, (Rtrigo1.PI / 2). pose proof PI_RGT_0 as P0.
  split; [split; [unfold rdot; cbn [rx ry rz]; lra|split; [unfold rdot; cbn [rx ry rz]; lra|exists 0, 1; split; [lra|apply pt_ext; unfold radd, rscale; cbn [rx ry rz]; lra]]]|].
  split; [split; [unfold rdot; cbn [rx ry rz]; lra|split; [unfold rdot; cbn [rx ry rz]; lra|exists 0, 1; split; [lra|apply pt_ext; unfold radd, rscale; cbn [rx ry rz]; lra]]]|].
  split; [split; [lra|exists 1; split; [lra|rewrite cos_0, sin_0; unfold flat2; cbn [rx ry]; f_equal; lra]]|].
  split; [split; [lra|exists 1; split; [lra|rewrite cos_PI2, sin_PI2; unfold flat2; cbn [rx ry]; f_equal; lra]]|].
  split; reflexivity.
Qed.
