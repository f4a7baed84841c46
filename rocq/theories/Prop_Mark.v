(** Prop_Mark.v - the properties of the marks that dimensions leave on the page. *)
From Coq Require Import Reals.
From Verif Require Import Base Num NumReal Geo Stl RealSpec Env Ast Ps Draw DocSpec CircleSpec DimSpec MarkSpec P_Mark P_Mark2 P_Mark3 ExReal ExDim ExMark.

Local Open Scope R_scope.
(** ** C66 *)
Theorem C66_where_a_dim_is_drawn : forall (E : @Env XR) d s s' d' sc off a u f t,
  d_kind d = KDim -> v_scale s = (Fin sc : @num XR) -> 0 < sc -> v_d s = e2 off ->
  evaluates (v_points s) (v_rot s) (d_meta d) "at" (emb a) -> evaluates (v_points s) (v_rot s) (d_meta d) "dir" (emb u) ->
  evaluates (v_points s) (v_rot s) (d_meta d) "from" (emb f) -> evaluates (v_points s) (v_rot s) (d_meta d) "to" (emb t) ->
  visit_base_dim d s = Ret (s', d', true) ->
  exists fm qf qt ls, format_of (d_meta d) "%.3f" fm /\ foot a u f qf /\ foot a u t qt /\
    o_lines (v_page s') = o_lines (v_page s) ++ ls /\ o_arcs (v_page s') = o_arcs (v_page s) /\
    o_text (v_page s') = o_text (v_page s) ++ [Text (e2 (shown_at sc off a)) (pf_format fm (Fin (along u f t) : @num XR)) true false] /\
    dim_marks (shown_at sc off a) (shown_at sc off qf) (shown_at sc off qt) (shown_at sc off f) (shown_at sc off t)
      (length (pf_format fm (Fin (along u f t) : @num XR))) (along u f t * sc) ls.
Proof. exact @dim_marked. Qed.
Print Assumptions C66_where_a_dim_is_drawn.
Theorem C66_extension_lines_are_upright : forall sc off a u f t qf qt d l, 0 < sc -> rz u = 0 -> foot a u f qf -> foot a u t qt ->
  unit2 d -> (exists k, 0 < k /\ shown_at sc off qt = go (shown_at sc off qf) k d) ->
  extension (shown_at sc off a) d (shown_at sc off qf) (shown_at sc off f) l ->
  exists m sg, 0 <= m /\ (sg = 1 \/ sg = -1) /\ shown_at sc off f = go (shown_at sc off qf) (m * sg) (left_of d) /\
    l = seg (go (shown_at sc off qf) (-4 * sg) (left_of d)) (go (shown_at sc off qf) ((m - 2) * sg) (left_of d)).
Proof. exact extension_upright. Qed.
Print Assumptions C66_extension_lines_are_upright.
Example C66_example : forall E : @Env XR, let ev := evaluates (v_points mark_state) (v_rot mark_state) (d_meta ex_dim) in
  d_kind ex_dim = KDim /\ v_scale mark_state = (Fin 2 : @num XR) /\ v_d mark_state = e2 (100, 50) /\
  ev "at"%string (emb (P3 (-1) 1 0)) /\ ev "dir"%string (emb (P3 (-4) 3 0)) /\ ev "from"%string (emb (P3 0 0 0)) /\ ev "to"%string (emb (P3 0 10 7)) /\
  exists s' d', visit_base_dim ex_dim mark_state = Ret (s', d', true).
Proof. exact dim_mark_case. Qed.
Example C66_upright : foot (P3 0 0 0) (P3 2 0 0) (P3 3 4 9) (P3 3 0 0) /\ foot (P3 0 0 0) (P3 2 0 0) (P3 5 1 0) (P3 5 0 0) /\ unit2 (1, 0) /\
  shown_at 2 (100, 50) (P3 5 0 0) = go (shown_at 2 (100, 50) (P3 3 0 0)) 4 (1, 0) /\
  extension (shown_at 2 (100, 50) (P3 0 0 0)) (1, 0) (shown_at 2 (100, 50) (P3 3 0 0)) (shown_at 2 (100, 50) (P3 3 4 9)) (seg (106, 46) (106, 56)).
Proof. exact upright_case. Qed.

(** ** C67: the marks; the leader reaches the rim, false if the label is inside the circle *)
Theorem C67_where_a_dia_is_drawn : forall (E : @Env XR) d s s' d' sc off ps a u c,
  d_kind d = KDia -> v_scale s = (Fin sc : @num XR) -> 0 < sc -> v_d s = e2 off -> v_points s = map emb ps ->
  evaluates (v_points s) (v_rot s) (d_meta d) "at" (emb a) -> evaluates (v_points s) (v_rot s) (d_meta d) "dir" (emb u) ->
  evaluates (v_points s) (v_rot s) (d_meta d) "center" (emb c) ->
  flat2 u <> (0, 0) -> visit_base_dim d s = Ret (s', d', true) ->
  exists fm ce rho e ls, format_of (d_meta d) "%.3f" fm /\ measured ps (flat2 c) ce rho /\ unit2 e /\ (exists k, 0 < k /\ flat2 u = go (0, 0) k e) /\
    let txt := B "\351" ++ pf_format fm (Fin (2 * rho) : @num XR) in
    o_lines (v_page s') = o_lines (v_page s) ++ ls /\ o_arcs (v_page s') = o_arcs (v_page s) /\
    o_text (v_page s') = o_text (v_page s) ++ [Text (e2 (go (shown_at sc off a) (8 * (3 / 10) * (INR (length txt) - 2)) (1, 0))) txt true true] /\
    dia_marks (go off sc ce) (shown_at sc off a) e sc (rho * sc) ls.
Proof. exact @dia_marked. Qed.
Print Assumptions C67_where_a_dia_is_drawn.
Theorem C67_where_a_rad_is_drawn : forall (E : @Env XR) d s s' d' sc off ps a u c,
  d_kind d = KRad -> v_scale s = (Fin sc : @num XR) -> 0 < sc -> v_d s = e2 off -> v_points s = map emb ps ->
  evaluates (v_points s) (v_rot s) (d_meta d) "at" (emb a) -> evaluates (v_points s) (v_rot s) (d_meta d) "dir" (emb u) ->
  evaluates (v_points s) (v_rot s) (d_meta d) "center" (emb c) ->
  flat2 u <> (0, 0) -> visit_base_dim d s = Ret (s', d', true) ->
  exists fm ce rho e ls, format_of (d_meta d) "%.3f" fm /\ measured ps (flat2 c) ce rho /\ unit2 e /\ (exists k, 0 < k /\ flat2 u = go (0, 0) k e) /\
    let txt := B "R" ++ pf_format fm (Fin rho : @num XR) in
    o_lines (v_page s') = o_lines (v_page s) ++ ls /\ o_arcs (v_page s') = o_arcs (v_page s) /\
    o_text (v_page s') = o_text (v_page s) ++ [Text (e2 (go (shown_at sc off a) (8 * (3 / 10) * (INR (length txt) + 2)) (1, 0))) txt true false] /\
    rad_marks (go off sc ce) (shown_at sc off a) e sc (rho * sc) ls.
Proof. exact @rad_marked. Qed.
Print Assumptions C67_where_a_rad_is_drawn.
Theorem C67_leader_reaches_the_rim_refuted : forall E : @Env XR, exists d s s' d' c rho e, d_kind d = KDia /\ visit_base_dim d s = Ret (s', d', true) /\
  v_scale s = (Fin 1 : @num XR) /\ v_d s = e2 (0, 0) /\ v_page s = opage_empty /\ evaluates (v_points s) (v_rot s) (d_meta d) "at" (emb (P3 3 3 0)) /\
  measured ex_ring (0, 0) c rho /\ unit2 e /\ dia_marks c (3, 3) e 1 rho (o_lines (v_page s')) /\
  forall p q, In (seg p q) (firstn 2 (o_lines (v_page s'))) -> ~ on_seg p q (go c rho e).
Proof. exact leader_short. Qed.
Print Assumptions C67_leader_reaches_the_rim_refuted.
Theorem C67_dia_leader_reaches_the_rim_partial : forall C A d sc rho ls, dia_marks C A d sc rho ls -> 0 < rho ->
  (forall l, level C A d l -> sc < l -> rho <= l) -> exists p q rest, ls = seg p q :: rest /\ on_seg p q (go C rho d) /\ on_seg p q (go C (- rho) d).
Proof. exact dia_reaches. Qed.
Print Assumptions C67_dia_leader_reaches_the_rim_partial.
Theorem C67_rad_leader_reaches_the_rim_partial : forall C A d sc rho ls, rad_marks C A d sc rho ls -> 0 < rho ->
  (forall l, level C A d l -> sc < l -> rho <= l) -> exists q rest, ls = seg C q :: rest /\ on_seg C q (go C rho d).
Proof. exact rad_reaches. Qed.
Print Assumptions C67_rad_leader_reaches_the_rim_partial.
Example C67_example : forall (E : @Env XR) k a u, k = KDia \/ k = KRad -> let ev := evaluates (v_points ring_state) (v_rot ring_state) (circ_metas a u) in
  v_scale ring_state = (Fin 1 : @num XR) /\ v_d ring_state = e2 (0, 0) /\ v_points ring_state = map emb ex_ring /\
  ev "at"%string (emb a) /\ ev "dir"%string (emb u) /\ ev "center"%string (emb (P3 0 0 9)) /\
  exists s' d', visit_base_dim (Dim k (Loc [] 0) (circ_metas a u)) ring_state = Ret (s', d', true).
Proof. exact circ_mark_case. Qed.
Example C67_outside : forall l, level (0, 0) (6, 6) (3 / 5, 4 / 5) l -> 1 < l -> 5 <= l.
Proof. exact rad_level. Qed.

(** ** C68: the marks; the arrow heads end the arc, false for sides that leave the page *)
Theorem C68_where_an_angle_is_drawn : forall (E : @Env XR) d s s' d' sc off a p u su v sv,
  d_kind d = KAngle -> v_scale s = (Fin sc : @num XR) -> 0 < sc -> v_d s = e2 off ->
  evaluates (v_points s) (v_rot s) (d_meta d) "at" (emb a) -> evaluates (v_points s) (v_rot s) (d_meta d) "apex" (emb p) ->
  side_seen s (d_meta d) "from_dir" "from_point" p u su -> side_seen s (d_meta d) "to_dir" "to_point" p v sv ->
  visit_base_dim d s = Ret (s', d', true) ->
  exists fm U V ls ars, format_of (d_meta d) "%.1f" fm /\ direction u U /\ direction v V /\
    o_lines (v_page s') = o_lines (v_page s) ++ ls /\ o_arcs (v_page s') = o_arcs (v_page s) ++ ars /\
    o_text (v_page s') = o_text (v_page s) ++ [Text (e2 (shown_at sc off a)) (pf_format fm (Fin (degrees u v) : @num XR) ++ B " deg") true false] /\
    (angle_marks (shown_at sc off p) (shown_at sc off su) (shown_at sc off sv) U V (far_from a p * sc) ls ars \/
     angle_marks (shown_at sc off p) (shown_at sc off sv) (shown_at sc off su) V U (far_from a p * sc) ls ars).
Proof. exact @angle_marked. Qed.
Print Assumptions C68_where_an_angle_is_drawn.
Theorem C68_arrow_heads_end_the_arc_refuted : forall E : @Env XR, exists d s s' d' P rad a b l1 l2 l3 l4 T x y,
  d_kind d = KAngle /\ visit_base_dim d s = Ret (s', d', true) /\ v_page s = opage_empty /\ v_scale s = (Fin 2 : @num XR) /\
  o_arcs (v_page s') = [Arc (e2 P) (Fin rad : @num XR) a b] /\ o_lines (v_page s') = [l1; l2; l3; l4; seg T x; seg T y] /\ gap2 T P <> rad * rad.
Proof. exact tip_inside. Qed.
Print Assumptions C68_arrow_heads_end_the_arc_refuted.
Theorem C68_arrow_heads_end_the_arc_partial : forall P SU SV U V rad ls ars,
  angle_marks P SU SV U V rad ls ars -> rdot U U = 1 -> rdot V V = 1 -> rz U = 0 -> rz V = 0 ->
  exists a b, ars = [Arc (e2 P) (Fin rad : @num XR) (Fin a : @num XR) (Fin b : @num XR)] /\
    let A := go P rad (rim a) in let B := go P rad (rim b) in
    ls = [seg (go SU 2 (rim a)) (go P (rad + 4) (rim a)); seg (go SV 2 (rim b)) (go P (rad + 4) (rim b));
          seg A (go (go A 2 (rim a)) 6 (left_of (rim a))); seg A (go (go A (-2) (rim a)) 6 (left_of (rim a)));
          seg B (go (go B 2 (rim b)) (-6) (left_of (rim b))); seg B (go (go B (-2) (rim b)) (-6) (left_of (rim b)))].
Proof. exact angle_flat. Qed.
Print Assumptions C68_arrow_heads_end_the_arc_partial.
Example C68_example : forall E : @Env XR, let ev := evaluates (v_points mark_state) (v_rot mark_state) (d_meta ex_angle) in
  d_kind ex_angle = KAngle /\ v_scale mark_state = (Fin 2 : @num XR) /\ v_d mark_state = e2 (100, 50) /\
  ev "at"%string (emb (P3 (-1) 1 0)) /\ ev "apex"%string (emb (P3 0 0 0)) /\
  side_seen mark_state (d_meta ex_angle) "from_dir" "from_point" (P3 0 0 0) (P3 0 1 0) (P3 0 0 0) /\
  side_seen mark_state (d_meta ex_angle) "to_dir" "to_point" (P3 0 0 0) (P3 (-2) 0 2) (P3 0 0 0) /\
  exists s' d', visit_base_dim ex_angle mark_state = Ret (s', d', true).
Proof. exact angle_mark_case. Qed.
Example C68_flat : exists ls ars, angle_marks (10, 10) (10, 10) (10, 10) (P3 1 0 0) (P3 0 1 0) 20 ls ars.
Proof. exact flat_case. Qed.
