(** Prop_Dim.v - the properties of points, circles, dimensions and placement. *)
From Coq Require Import Reals Permutation.
From Flocq Require Import IEEE754.BinarySingleNaN.
From Verif Require Import Base Num NumReal NumF64 NumLaws Geo Stl GeoSpec RealSpec Env Ast Ps Draw DocSpec F64Spec EnvEx ExGeo ExReal ExLang
  PickSpec P_Pick P_Near CircleSpec P_Circle P_Circle2 P_Circle4 P_Circle5 DimSpec P_Value P_Value2 P_Centre ExDim.

Local Open Scope R_scope.
(** ** C21 *)
Theorem C21_place_is_the_centre : forall (E : @Env XR) st l n ml ds s s1 ds1 a b tx ty,
  visit_draw st l n ml ds s = Ret (s1, ds1, true) -> asks_scale ml a b -> b <> 0%Z -> asks_place ml tx ty ->
  exists proj ls q off, shows st n ml proj ls /\
    v_page s1 = plus_page (v_page s) (put_page (Fin (72 * (IZR a / IZR b)) : @num XR) off (plus_page (OPage ls [] []) q)) /\
    forall x0 x1 y0 y1, bounds (vertices proj) x0 x1 y0 y1 ->
      put (Fin (72 * (IZR a / IZR b)) : @num XR) off (emb2 ((x0 + x1) / 2) ((y0 + y1) / 2)) = emb2 tx ty.
Proof. exact @centred. Qed.
Print Assumptions C21_place_is_the_centre.
Example C21_example : exists (E : @Env XR) st s1, visit_draw st (Loc [] 0) (B "m") placed_metas [] vst_init = Ret (s1, [], true) /\ asks_scale placed_metas 3 2 /\
  asks_place placed_metas (72 * 1 + 396) (72 * -2 + 306).
Proof. exact placed_example. Qed.
Example C21_bounds : bounds [emb (P3 0 0 1); emb (P3 4 0 2); emb (P3 0 3 0)] 0 4 0 3.
Proof. exact ex_bounds. Qed.

(** ** C32: false when every vertex is farther than DBL_MAX (squared); holds otherwise *)
Theorem C32_near_is_nearest_refuted : exists (A : Arith) m t, ordered A /\ Forall comparable (vertices m) /\ comparable t /\ points m <> [] /\
  near_of (points m) t <> t /\ forall v, In v (points m) -> V3 (x3 v) (y3 v) nz <> near_of (points m) t.
Proof.
  exact (ex_intro _ ExA (ex_intro _ far_model (ex_intro _ (pt 0 1 0) (conj (F64_ordered _ _)
    (conj (proj1 far_refutes) (conj (proj1 (proj2 far_refutes)) (conj (proj1 (proj2 (proj2 far_refutes))) (conj far_not_target (proj2 (proj2 (proj2 (proj2 far_refutes)))))))))))).
Qed.
Print Assumptions C32_near_is_nearest_refuted.
Theorem C32_near_of_a_vertex : forall (A : Arith), ordered A -> forall m t, Forall comparable (vertices m) -> comparable t ->
  (exists v, In v (vertices m) /\ GeoSpec.same t v) -> near_of (points m) t = t.
Proof. exact @near_vertex. Qed.
Print Assumptions C32_near_of_a_vertex.
Theorem C32_near_is_nearest_partial : forall (A : Arith), ordered A -> forall m t, ok dbl_max -> Forall comparable (vertices m) -> comparable t ->
  (forall v, In v (vertices m) -> ~ GeoSpec.same t v) ->
  (forall v, In v (points m) -> ok (page_dist t v)) -> (exists v, In v (points m) /\ nlt (page_dist t v) dbl_max = true) ->
  nearest (points m) t (near_of (points m) t).
Proof. exact @near_other. Qed.
Print Assumptions C32_near_is_nearest_partial.
Theorem C32_near_fails_only_then : forall (A : Arith) ps q l, snd (invoke ps (PFunc (B "near") q l)) = None <-> ps = [] \/ snd (invoke ps q) = None.
Proof. exact @near_fails. Qed.
Print Assumptions C32_near_fails_only_then.
Theorem C32_near_uses_its_argument : forall (A : Arith) ps q l lg r, invoke ps (PFunc (B "near") q l) = (lg, Some r) ->
  exists t, invoke ps q = (lg, Some t) /\ r = near_of ps t.
Proof. exact @near_gives. Qed.
Print Assumptions C32_near_uses_its_argument.
Example C32_example : Forall comparable (vertices ex_model) /\ comparable ex_target /\ (forall v, In v (vertices ex_model) -> ~ GeoSpec.same ex_target v) /\
  (forall v, In v (points ex_model) -> ok (page_dist ex_target v)) /\ (exists v, In v (points ex_model) /\ nlt (page_dist ex_target v) dbl_max = true).
Proof. exact near_example. Qed.

(** ** C33: false for lists whose first points are nearer; holds for lists sorted far to near *)
Theorem C33_closest_returns_count_points_refuted : exists (A : Arith) ps count to, ordered A /\ Forall (fun q => ok (sq_dist q to)) ps /\ (1 <= count)%Z /\
  length (closest ps count to) <> Nat.min (Z.to_nat count) (length ps).
Proof. exact few_refutes. Qed.
Print Assumptions C33_closest_returns_count_points_refuted.
Theorem C33_closest_returns_count_points_partial : forall (A : Arith), ordered A -> forall to ps count, (1 <= count)%Z -> Forall (fun q => ok (sq_dist q to)) ps ->
  (forall pre q post, ps = pre ++ q :: post -> forall p, In p pre -> ~ closer to p q /\ ~ coincides to q p) ->
  length (closest ps count to) = Nat.min (Z.to_nat count) (length ps).
Proof. exact @closest_count. Qed.
Print Assumptions C33_closest_returns_count_points_partial.
(** The exact number of points, when none coincide: points farther than the first one given are never kept. *)
Theorem C33_number_of_points_partial : forall (A : Arith), ordered A -> forall to p0 ps count, (1 <= count)%Z -> Forall (fun q => ok (sq_dist q to)) (p0 :: ps) ->
  (forall pre q post, p0 :: ps = pre ++ q :: post -> forall p, In p pre -> ~ coincides to q p) ->
  length (closest (p0 :: ps) count to) = Nat.min (Z.to_nat count) (length (filter (not_farther to p0) (p0 :: ps))).
Proof. exact @closest_exact. Qed.
Print Assumptions C33_number_of_points_partial.
Example C33_number_example : Forall (fun q => ok (sq_dist q (q2 0 0))) [q2 2 0; q2 1 0; q2 3 0] /\
  (forall pre q post, [q2 2 0; q2 1 0; q2 3 0] = pre ++ q :: post -> forall p, In p pre -> ~ coincides (q2 0 0) q p) /\
  length (filter (not_farther (q2 0 0) (q2 2 0)) [q2 2 0; q2 1 0; q2 3 0]) = 2%nat /\ length (closest [q2 2 0; q2 1 0; q2 3 0] 3 (q2 0 0)) = 2%nat.
Proof. exact number_case. Qed.
Example C33_example : (1 <= 2)%Z /\ Forall (fun q => ok (sq_dist q (q2 0 0))) [q2 2 0; q2 1 0] /\
  (forall pre q post, [q2 2 0; q2 1 0] = pre ++ q :: post -> forall p, In p pre -> ~ closer (q2 0 0) p q /\ ~ coincides (q2 0 0) q p).
Proof. exact closest_all. Qed.

(** ** C34 *)
Theorem C34_closest_never_prefers_a_farther_point : forall (A : Arith), ordered A -> forall to ps count, Forall (fun q => ok (sq_dist q to)) ps ->
  (Z.of_nat (length (closest ps count to)) <= Z.max 0 count)%Z /\ by_distance to (closest ps count to) /\
  exists sel, marks ps sel /\ Permutation (closest ps count to) (selected sel) /\
    forall pre q post, sel = pre ++ (q, false) :: post ->
      (count < 1)%Z \/ (forall p, In p (closest ps count to) -> ~ closer to q p) \/ exists p, In p (map fst pre) /\ coincides to q p.
Proof. exact @closest_picks. Qed.
Print Assumptions C34_closest_never_prefers_a_farther_point.
Example C34_example : Forall (fun q => ok (sq_dist q (q2 0 0))) [q2 2 0; q2 1 0] /\ length (closest [q2 1 0; q2 2 0] 2 (q2 0 0)) = 1%nat.
Proof. exact (conj (proj1 (proj2 closest_all)) closest_few). Qed.

(** ** C35 *)
Theorem C35_between_is_the_open_ring : forall l mn mx c, 0 <= mn -> mn <= mx ->
  @Ast.between XR (map e2 l) (Fin mn : @num XR) (Fin mx : @num XR) (e2 c) = map e2 (filter (in_ring mn mx c) l).
Proof. exact between_fin. Qed.
Print Assumptions C35_between_is_the_open_ring.
Theorem C35_in_ring_means_strictly_between : forall mn mx c p, in_ring mn mx c p = true <-> mn < dist p c < mx.
Proof. exact ring_iff. Qed.
Print Assumptions C35_in_ring_means_strictly_between.
Example C35_example : filter (in_ring 4 5 (0, 0)) [(5, 0); (3, 3); (0, 4)] = [(3, 3)] /\ filter (in_ring 4 6 (0, 0)) ex_circle = ex_circle.
Proof. exact ring_example. Qed.

(** ** C36 *)
Theorem C36_fit_is_exact_on_circles : forall l c rho, spread l -> 0 <= rho -> (forall p, In p l -> dist p c = rho) ->
  @find_circle XR (map e2 l) = Some (e2 c, Fin rho : @num XR).
Proof. exact fit_circle_exact. Qed.
Print Assumptions C36_fit_is_exact_on_circles.
Theorem C36_few_points_fail : forall (A : Arith) l, (length l < 3)%nat -> find_circle l = None.
Proof. exact fit_few. Qed.
Print Assumptions C36_few_points_fail.
Theorem C36_fit_is_the_least_squares_circle : forall l, spread l ->
  exists c rho, @find_circle XR (map e2 l) = Some (e2 c, Fin rho : @num XR) /\ best_circle l c rho.
Proof. exact fit_best. Qed.
Print Assumptions C36_fit_is_the_least_squares_circle.
Example C36_example : spread ex_circle /\ 0 <= 5 /\ forall p, In p ex_circle -> dist p (0, 0) = 5.
Proof. exact ex_circle_ok. Qed.

(** ** C37 *)
Theorem C37_fit_follows_translation : forall d l, spread l -> exists c rho, @find_circle XR (map e2 l) = Some (e2 c, Fin rho : @num XR) /\
  @find_circle XR (map e2 (map (shift d) l)) = Some (e2 (shift d c), Fin rho : @num XR).
Proof. exact fit_shift. Qed.
Print Assumptions C37_fit_follows_translation.
Theorem C37_fit_follows_scaling : forall k l, 0 < k -> spread l -> exists c rho, @find_circle XR (map e2 l) = Some (e2 c, Fin rho : @num XR) /\
  @find_circle XR (map e2 (map (stretch k) l)) = Some (e2 (stretch k c), Fin (k * rho) : @num XR).
Proof. exact fit_stretch. Qed.
Print Assumptions C37_fit_follows_scaling.
Theorem C37_fit_follows_every_rigid_motion : forall g l, rigid g -> spread l -> exists c rho, @find_circle XR (map e2 l) = Some (e2 c, Fin rho : @num XR) /\
  @find_circle XR (map e2 (map g l)) = Some (e2 (g c), Fin rho : @num XR).
Proof. exact fit_rigid. Qed.
Print Assumptions C37_fit_follows_every_rigid_motion.
Example C37_example : spread ex_circle /\ rigid (fun p => (snd p, fst p)).
Proof. exact (conj (proj1 ex_circle_ok) ex_rigid). Qed.

(** ** C38 *)
Theorem C38_dia_and_rad_need_a_finite_first_fit : forall lm asc (E : @Env (F64 lm asc)) (d : @dim (F64 lm asc)) s s' d', d_kind d = KDia \/ d_kind d = KRad ->
  @visit_base_dim (F64 lm asc) E d s = Ret (s', d', true) ->
  exists t c rad, evaluates (v_points s) (v_rot s) (d_meta d) "center" t /\ find_circle (closest (map xy (v_points s)) 3 (xy t)) = Some (c, rad) /\ fin rad.
Proof. exact drawn_first_fit. Qed.
Print Assumptions C38_dia_and_rad_need_a_finite_first_fit.
Theorem C38_center_needs_a_finite_first_fit : forall lm asc ps q l v, snd (@invoke (F64 lm asc) ps (PFunc (B "center") q l)) = Some v ->
  exists t c rad, snd (invoke ps q) = Some t /\ find_circle (closest (map xy ps) 3 (xy t)) = Some (c, rad) /\ fin rad.
Proof. exact center_first_fit. Qed.
Print Assumptions C38_center_needs_a_finite_first_fit.
Theorem C38_vertices_on_a_line_are_rejected : forall ps t, exists k, @closest XR (map xy (map emb ps)) 3 (e2 t) = map e2 k /\
  ((~ spread k /\ @fit_circle XR (map emb ps) (e2 t) = None) \/
   (spread k /\ exists c0 rho0 c rho, 0 < rho0 /\ (forall p, In p k -> gap2 p c0 = rho0 * rho0) /\
      @fit_circle XR (map emb ps) (e2 t) = Some (e2 c, Fin rho : @num XR) /\ best_circle (near_circle (map flat2 ps) c0 rho0) c rho)).
Proof. exact fit_two. Qed.
Print Assumptions C38_vertices_on_a_line_are_rejected.
Example C38_example : match find_circle (closest (map xy [pt 0 0 0; pt 1 0 0; pt 2 0 0; pt 3 0 0]) 3 (q2 5 0)) with Some (_, r) => is_finite (r : f64) | None => true end = false /\
  match fit_circle [pt 0 0 0; pt 1 0 0; pt 2 0 0; pt 3 0 0] (q2 5 0) with None => true | _ => false end = true /\
  match fit_circle [pt 5 0 0; pt 3 4 0; pt (-5) 0 0; pt 0 (-5) 0] (q2 0 0) with None => false | _ => true end = true.
Proof. exact line_rejected. Qed.

(** ** C39 *)
Theorem C39_dim_prints_the_length_along_its_direction : forall (E : @Env XR) d s s' d' r a u f t,
  d_kind d = KDim -> v_rot s = embm r -> rotation r ->
  coordinate (d_meta d) "at" a -> coordinate (d_meta d) "dir" u -> coordinate (d_meta d) "from" f -> coordinate (d_meta d) "to" t ->
  visit_base_dim d s = Ret (s', d', true) ->
  u <> rzero /\ exists fm pos, format_of (d_meta d) "%.3f" fm /\
    o_text (v_page s') = o_text (v_page s) ++ [Text pos (pf_format fm (Fin (along u f t) : @num XR)) true false].
Proof. exact @dim_value. Qed.
Print Assumptions C39_dim_prints_the_length_along_its_direction.
Example C39_example : (forall E : @Env XR, exists s' d', visit_base_dim ex_dim ex_state = Ret (s', d', true)) /\
  coordinate (d_meta ex_dim) "at" (P3 1 1 0) /\ coordinate (d_meta ex_dim) "dir" (P3 3 4 0) /\ coordinate (d_meta ex_dim) "from" (P3 0 0 0) /\
  coordinate (d_meta ex_dim) "to" (P3 10 0 7) /\ along (P3 3 4 0) (P3 0 0 0) (P3 10 0 7) = 6 /\ rotation ex_quarter.
Proof. exact dim_case. Qed.

(** ** C40 *)
Theorem C40_angle_prints_the_angle_between_its_sides : forall (E : @Env XR) d s s' d' r ap u v,
  d_kind d = KAngle -> v_rot s = embm r -> rotation r -> coordinate (d_meta d) "apex" ap ->
  side_dir (d_meta d) "from_dir" "from_point" ap u -> side_dir (d_meta d) "to_dir" "to_point" ap v ->
  visit_base_dim d s = Ret (s', d', true) ->
  rz (rcross (rmul u r) (rmul v r)) <> 0 /\ exists fm pos, format_of (d_meta d) "%.1f" fm /\
    o_text (v_page s') = o_text (v_page s) ++ [Text pos (pf_format fm (Fin (degrees u v) : @num XR) ++ B " deg") true false].
Proof. exact @angle_value. Qed.
Print Assumptions C40_angle_prints_the_angle_between_its_sides.
Theorem C40_exchanging_the_sides_changes_nothing : forall u v, degrees u v = degrees v u.
Proof. exact degrees_sym. Qed.
Print Assumptions C40_exchanging_the_sides_changes_nothing.
Example C40_example : (forall E : @Env XR, exists s' d', visit_base_dim ex_angle ex_state = Ret (s', d', true)) /\
  coordinate (d_meta ex_angle) "apex" (P3 0 0 0) /\ side_dir (d_meta ex_angle) "from_dir" "from_point" (P3 0 0 0) (P3 1 0 0) /\
  side_dir (d_meta ex_angle) "to_dir" "to_point" (P3 0 0 0) (P3 0 2 2).
Proof. exact (conj angle_example ex_angle_args). Qed.

(** ** C65 *)
Theorem C65_dia_prints_twice_the_radius : forall (E : @Env XR) d s s' d' r ps c,
  d_kind d = KDia -> v_rot s = embm r -> rotation r -> v_points s = map emb ps -> coordinate (d_meta d) "center" c ->
  visit_base_dim d s = Ret (s', d', true) ->
  exists ce rho fm pos, measured ps (flat2 (rmul c r)) ce rho /\ format_of (d_meta d) "%.3f" fm /\
    o_text (v_page s') = o_text (v_page s) ++ [Text pos (B "\351" ++ pf_format fm (Fin (2 * rho) : @num XR)) true true].
Proof. exact @dia_value. Qed.
Print Assumptions C65_dia_prints_twice_the_radius.
Theorem C65_rad_prints_the_radius : forall (E : @Env XR) d s s' d' r ps c,
  d_kind d = KRad -> v_rot s = embm r -> rotation r -> v_points s = map emb ps -> coordinate (d_meta d) "center" c ->
  visit_base_dim d s = Ret (s', d', true) ->
  exists ce rho fm pos, measured ps (flat2 (rmul c r)) ce rho /\ format_of (d_meta d) "%.3f" fm /\
    o_text (v_page s') = o_text (v_page s) ++ [Text pos (B "R" ++ pf_format fm (Fin rho : @num XR)) true false].
Proof. exact @rad_value. Qed.
Print Assumptions C65_rad_prints_the_radius.
Theorem C65_center_is_the_centre : forall ps q l t v, snd (@invoke XR (map emb ps) q) = Some (emb t) ->
  snd (@invoke XR (map emb ps) (PFunc (B "center") q l)) = Some v ->
  exists c rho, measured ps (flat2 t) c rho /\ v = emb (P3 (fst c) (snd c) 0).
Proof. exact @center_value. Qed.
Print Assumptions C65_center_is_the_centre.
Example C65_example : forall E : @Env XR, (exists s' d', visit_base_dim ex_dia ring_state = Ret (s', d', true)) /\ exists s' d', visit_base_dim ex_rad ring_state = Ret (s', d', true).
Proof. exact circ_example. Qed.
