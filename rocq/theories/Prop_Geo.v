(** Prop_Geo.v - the properties of models, views and line generation.
    Theorems over [F64 lm asc] hold for IEEE binary64 with any libm and either
    association of Eigen's three term sums; theorems over [XR] are about exact
    real arithmetic (with infinities and NaN). *)
From Coq Require Import Reals Permutation.
From Flocq Require Import IEEE754.BinarySingleNaN.
From Verif Require Import Base Num NumReal NumF64 NumLaws Geo Stl Ast GeoSpec F64Spec EnvEx ExGeo
  P_Order P_Index P_Geo1 P_Bound RealSpec P_Real P_Span P_Span2 ExReal.

(** ** C19 *)
Theorem C19_culling_keeps_exactly_the_front_facets : forall (A : Arith) (l : list facet),
  Permutation (cull_facets l) (filter front l) /\ cull_facets (cull_facets l) = cull_facets l.
Proof. exact @cull_exact. Qed.
Print Assumptions C19_culling_keeps_exactly_the_front_facets.
Example C19_example : cull_facets (ex_back :: ex_sq) <> ex_back :: ex_sq /\ length (cull_facets (ex_back :: ex_sq)) = 2.
Proof. exact ex_cull. Qed.

(** ** C20 *)
Theorem C20_limits_is_the_tight_box : forall (A : Arith), ordered A -> forall s : stl, Forall comparable (vertices s) ->
  (facets s = [] -> limits s = Line (V2 nz nz) (V2 nz nz)) /\
  (facets s <> [] -> (forall v, In v (vertices s) -> in_box (lo (limits s)) (lt_ (limits s)) v) /\
    (exists v, In v (vertices s) /\ x3 v = x2 (lo (limits s))) /\ (exists v, In v (vertices s) /\ y3 v = y2 (lo (limits s))) /\
    (exists v, In v (vertices s) /\ x3 v = x2 (lt_ (limits s))) /\ (exists v, In v (vertices s) /\ y3 v = y2 (lt_ (limits s)))).
Proof. exact @limits_tight. Qed.
Print Assumptions C20_limits_is_the_tight_box.
Example C20_example : ordered (F64 ex_libm true) /\ ordered XR /\ facets (Stl ex_sq [] [] 0) <> [] /\ Forall comparable (vertices (Stl ex_sq [] [] 0)).
Proof. exact (conj (F64_ordered _ _) (conj XR_ordered (conj (proj1 ex_sq_limits) (proj1 (proj2 ex_sq_limits))))). Qed.

(** ** C22 *)
Theorem C22_points_is_the_vertex_set : forall (A : Arith), ordered A -> forall s : stl, Forall comparable (vertices s) ->
  (forall q, In q (points s) -> In q (vertices s)) /\ (forall p, In p (vertices s) -> exists q, In q (points s) /\ same p q) /\
  (forall pre p mid q post, points s = pre ++ p :: mid ++ q :: post -> order p q = true /\ ~ same p q).
Proof. exact @points_exact. Qed.
Print Assumptions C22_points_is_the_vertex_set.
Example C22_example : Forall comparable (vertices (Stl ex_sq [] [] 0)) /\ length (points (Stl ex_sq [] [] 0)) = 4.
Proof. exact (proj2 ex_sq_limits). Qed.

(** ** C23, C24 *)
Theorem C23_every_side_is_indexed_once : forall (A : Arith), ordered A -> forall fs : list facet, Forall (fun f => Forall comparable (corners f)) fs ->
  exists m, index fs = Ret m /\ facets m = fs /\
    (forall f ab, In f fs -> In ab (outline f) -> exists i, forall j, (exists e, nth_error (edges m) j = Some e /\ joins e ab) <-> j = i) /\
    (forall e, In e (edges m) -> exists f ab, In f fs /\ In ab (outline f) /\ joins e ab) /\
    length (face_edge m) = length fs /\
    (forall n f a b c, nth_error fs n = Some f -> nth_error (face_edge m) n = Some (a, b, c) ->
      (exists e, nth_error (edges m) a = Some e /\ joins e (fe0 f, fe1 f)) /\ (exists e, nth_error (edges m) b = Some e /\ joins e (fe1 f, fe2 f)) /\
      (exists e, nth_error (edges m) c = Some e /\ joins e (fe2 f, fe0 f))) /\
    unseen m <= length (edges m) /\
    (forall k e, nth_error (edges m) k = Some e -> (k < unseen m <-> ~ smooth_edge fs e)).
Proof. exact @index_exact. Qed.
Print Assumptions C23_every_side_is_indexed_once.
Example C23_example : Forall (fun f => Forall comparable (corners f)) ex_sq.
Proof. exact ex_sq_ok. Qed.
Theorem C24_smooth_edges_are_suppressed : forall (A : Arith), ordered A -> forall (fs : list facet) m,
  Forall (fun f => Forall comparable (corners f)) fs -> index fs = Ret m ->
  unseen m <= length (edges m) /\ forall k e, nth_error (edges m) k = Some e -> (k < unseen m <-> ~ smooth_edge fs e).
Proof. exact @index_smooth. Qed.
Print Assumptions C24_smooth_edges_are_suppressed.
(** The two triangles of a square: five edges, the diagonal is suppressed. *)
Example C24_example : match index ex_sq with Ret m => (length (edges m) =? 5) && (unseen m =? 4) | Abort _ => false end = true.
Proof. exact ex_sq_index. Qed.

(** ** C25 *)
Theorem C25_crossings_are_recorded_once : forall (A : Arith) (es : list edge) un,
  exists hb, edge_crosses es un = Ret hb /\ length hb = un /\
    forall v m, nth_error hb v = Some m -> NoDup (map fst m) /\ forall u p, In (u, p) m <-> crossed_by es un v u p.
Proof. exact @crosses_total. Qed.
Print Assumptions C25_crossings_are_recorded_once.
Example C25_example : match edge_crosses [Edge (pt 0 0 0) (pt 2 2 0); Edge (pt 0 2 1) (pt 2 0 1)] 2 with
  | Ret [[(1, p)]; []] => feq (x3 p) (fz_ 1) && feq (y3 p) (fz_ 1) && feq (z3 p) (fz_ 0) | _ => false end = true.
Proof. exact ex_cross. Qed.

(** ** C26 *)
Theorem C26_at_most_five_hidden_points : forall (A : Arith) f fe (ev : edge) hb,
  exists l, hidden_points f fe ev hb = Ret l /\ length l <= 5.
Proof. exact @five_points. Qed.
Print Assumptions C26_at_most_five_hidden_points.
Theorem C26_indices_stay_in_range : forall (A : Arith) (fs : list facet),
  (forall e, index fs = Abort e <-> e = AUB "std::map without a strict weak ordering" /\ ~ strict_weak_order (fun x => exists f k, In f fs /\ x = side f k) edge_order) /\
  (forall m e, index fs = Ret m -> to_lines m = Abort e ->
     e = ACheck "Points out of order" \/ e = ACheck "Hidden section reversed" \/ e = AUB "std::sort without a strict weak ordering").
Proof. exact @range_aborts. Qed.
Print Assumptions C26_indices_stay_in_range.
Example C26_example : match hidden_points (hd ex_back ex_sq) (0, 1, 2) (Edge (pt 0 0 (-1)) (pt 1 1 (-1))) [(0, pt 0 0 (-1)); (1, pt 1 1 (-1)); (2, pt 1 1 (-1))] with
  | Ret l => length l =? 5 | Abort _ => false end = true.
Proof. exact ex_five. Qed.

(** ** C27 *)
Theorem C27_line_generation_never_aborts : forall lm asc (s : @stl (F64 lm asc)) m,
  Forall (bndF lm asc 500) (facets s) -> unitm lm asc m -> exists r ls, rotate s m = Ret r /\ to_lines r = Ret ls.
Proof. exact rotate_lines_500. Qed.
Print Assumptions C27_line_generation_never_aborts.
Example C27_example : Forall (bndF ex_libm true 500) ex_sq /\ unitm ex_libm true (@mZP ExA) /\
  match rotate (Stl ex_sq [] [] 0) mZP with
  | Ret r => match to_lines r with Ret ls => length ls =? 4 | Abort _ => false end
  | Abort _ => false end = true.
Proof. exact (conj ex_sq_bnd (conj ex_ZP_unit ex_sq_lines)). Qed.

(** ** C31 *)
Theorem C31_comparisons_are_strict_weak_orders : forall (A : Arith), ordered A ->
  strict_weak_order (@comparable A) order /\ strict_weak_order (fun e : edge => comparable (e1 e) /\ comparable (e2 e)) edge_order /\
  strict_weak_order (fun l : line => (ok (x2 (lo l)) /\ ok (y2 (lo l))) /\ ok (x2 (lt_ l)) /\ ok (y2 (lt_ l))) line_lt /\
  forall p q : v3, comparable p -> comparable q -> (order p q = false /\ order q p = false <-> same p q).
Proof. exact @orders. Qed.
Print Assumptions C31_comparisons_are_strict_weak_orders.
Theorem C31_doubles_are_ordered : forall lm asc, ordered (F64 lm asc) /\ forall x : f64, @ok (F64 lm asc) x <-> is_nan x = false.
Proof. exact doubles_ordered. Qed.
Print Assumptions C31_doubles_are_ordered.
(** Signed zeros are equivalent, infinities are ordered. *)
Example C31_example : flt (B754_infinity true) (B754_zero true) = true /\ flt (B754_zero true) (B754_zero false) = false /\
  flt (B754_zero false) (B754_zero true) = false /\ flt (B754_zero false) (B754_infinity false) = true.
Proof. repeat split; reflexivity. Qed.

(** ** C61 *)
Theorem C61_rotation_gives_no_nan : forall lm asc (v : @v3 (F64 lm asc)) m, fin3 lm asc v -> unitm lm asc m -> comparable (mulm v m).
Proof. exact mulm_notnan. Qed.
Print Assumptions C61_rotation_gives_no_nan.
Theorem C61_finite_models_can_be_rotated : forall lm asc (s : @stl (F64 lm asc)) m, unitm lm asc m -> Forall (finF lm asc) (facets s) ->
  exists r, rotate s m = Ret r /\ Forall (fun f => Forall comparable (corners f)) (facets r).
Proof. exact rotate_comparable. Qed.
Print Assumptions C61_finite_models_can_be_rotated.
Theorem C61_views_have_entries_up_to_one : forall lm asc,
  (forall n m, @matrix_by_name (F64 lm asc) n = Some m -> unitm lm asc m) /\
  (trig_bounded lm -> forall a : @v2 (F64 lm asc), bnd 1000 (x2 a) -> bnd 1000 (y2 a) -> unitm lm asc (@matrix_by_ang (F64 lm asc) a)).
Proof. exact views_unit. Qed.
Print Assumptions C61_views_have_entries_up_to_one.
Example C61_example : fin3 ex_libm true (pt 3 4 5) /\ @matrix_by_name ExA (B "X+") = Some mXP /\ unitm ex_libm true (@mXP ExA).
Proof. exact ex_view. Qed.

(** ** C16 *)
Theorem C16_facet_normal_and_plane : forall n p0 p1 p2 : rpt, rcross (rsub p1 p0) (rsub p2 p0) <> rzero ->
  exists t, mk_facet (emb n) (emb p0) (emb p1) (emb p2) = embf t /\ proper t /\ (0 <= rdot n (tn t))%R /\
    t1 t = p1 /\ ((t0 t = p0 /\ t2 t = p2) \/ (t0 t = p2 /\ t2 t = p0)).
Proof. exact facet_real. Qed.
Print Assumptions C16_facet_normal_and_plane.
Example C16_example : rcross (rsub (P3 4 0 1) (P3 0 0 1)) (rsub (P3 0 4 1) (P3 0 0 1)) <> rzero.
Proof. exact ex_noncollinear. Qed.

(** ** C17 *)
Theorem C17_named_views_are_rotations : forall (n : bytes) (m : m3), @matrix_by_name XR n = Some m -> exists r, m = embm r /\ rotation r.
Proof. exact named_rotation. Qed.
Print Assumptions C17_named_views_are_rotations.
Theorem C17_angle_views_are_rotations : forall a b : R, exists r, @matrix_by_ang XR (emb2 a b) = embm r /\ rotation r.
Proof. exact angle_rotation. Qed.
Print Assumptions C17_angle_views_are_rotations.
Example C17_example : Forall (fun n => exists m, @matrix_by_name XR n = Some m) [B "X+"; B "X-"; B "Y+"; B "Y-"; B "Z+"; B "Z-"] /\
  rotation (RM (P3 0 1 0) (P3 (-1) 0 0) (P3 0 0 1)).
Proof. split; [repeat constructor; eexists; reflexivity|exact ex_quarter]. Qed.

(** ** C18 *)
Theorem C18_rotating_keeps_facets_proper : forall (s : @stl XR) (ts : list tri) (r : rmat), facets s = map embf ts -> Forall proper ts -> rotation r ->
  exists m ts', rotate s (embm r) = Ret m /\ index (map embf ts') = Ret m /\ facets m = map embf ts' /\
    Permutation ts' (filter facingb (map (turned r) ts)) /\ Forall proper ts' /\ Forall facing ts'.
Proof. exact view_real. Qed.
Print Assumptions C18_rotating_keeps_facets_proper.
Example C18_example : facets (@Stl XR (map embf ex_tris) [] [] 0) = map embf ex_tris /\ Forall proper ex_tris /\ rotation ex_id.
Proof. exact (conj eq_refl (conj ex_proper ex_rotation)). Qed.

(** ** C28: sp are the hidden parameter intervals. *)
Theorem C28_lines_are_the_edge_minus_its_hidden_spans : forall (a b : rpt) (sp : list (R * R)), a <> b ->
  Forall (fun i => (0 <= fst i /\ fst i <= snd i /\ snd i <= 1)%R) sp ->
  exists st, sa st = a /\ sb st = b /\
    (do! hs <- sort_hides (Edge (emb a) (emb b)) (map (fun i => Edge (emb (between a b (fst i))) (emb (between a b (snd i)))) sp);
     gen_edge kMinLineLen (Edge (emb a) (emb b)) hs) = Ret (strokes st) /\
    chain 0 (shown st) /\
    (forall x, (0 <= x <= 1)%R -> (forall i, In i sp -> ~ (fst i <= x <= snd i)%R) -> drawn st x) /\
    (forall i x, In i (shown st) -> (fst i < x < snd i)%R -> forall j, In j sp -> ~ (fst j <= x <= snd j)%R).
Proof. exact gen_real. Qed.
Print Assumptions C28_lines_are_the_edge_minus_its_hidden_spans.
Example C28_example : P3 0 0 0 <> P3 4 0 0 /\ Forall (fun i => (0 <= fst i /\ fst i <= snd i /\ snd i <= 1)%R) [(1/2, 3/4)%R; (0, 1/4)%R; (1/2, 5/8)%R].
Proof. exact ex_spans. Qed.

(** ** C29 *)
Theorem C29_only_covered_points_are_erased : forall (s : @stl XR) (ts : list tri) (r : rmat), facets s = map embf ts -> Forall proper ts -> rotation r ->
  exists m ss, rotate s (embm r) = Ret m /\ to_lines m = Ret (flat_map strokes ss) /\
    map (fun st => Edge (emb (sa st)) (emb (sb st))) ss = firstn (unseen m) (edges m) /\
    forall st x, In st ss -> (0 <= x <= 1)%R ->
      drawn st x \/ exists t, In t ts /\ facing (turned r t) /\ covered (turned r t) (between (sa st) (sb st) x).
Proof.
  exact (fun s ts r H1 H2 H3 => match view_lines s ts r H1 H2 H3 with ex_intro _ m (ex_intro _ ss (conj A (conj B (conj C D)))) =>
    ex_intro _ m (ex_intro _ ss (conj A (conj B (conj C (fun st x I X => proj1 (proj2 (D st I)) x X))))) end).
Qed.
Print Assumptions C29_only_covered_points_are_erased.
Example C29_example : Forall proper ex_tris /\ rotation ex_id /\ covered (turned ex_id ex_big) (between (P3 1 1 0) (P3 2 1 0) (1 / 2)).
Proof. exact (conj ex_proper (conj ex_rotation (proj2 (proj2 ex_behind)))). Qed.

(** ** C30 *)
Theorem C30_everything_behind_a_facet_is_erased : forall (s : @stl XR) (ts : list tri) (r : rmat), facets s = map embf ts -> Forall proper ts -> rotation r ->
  exists m ss, rotate s (embm r) = Ret m /\ to_lines m = Ret (flat_map strokes ss) /\
    map (fun st => Edge (emb (sa st)) (emb (sb st))) ss = firstn (unseen m) (edges m) /\
    forall st, In st ss -> chain 0 (shown st) /\
      forall t x, In t ts -> facing (turned r t) -> lies_before (turned r t) (sa st) (sb st) -> (0 <= x <= 1)%R ->
        within (turned r t) (between (sa st) (sb st) x) -> ~ drawn st x.
Proof.
  exact (fun s ts r H1 H2 H3 => match view_lines s ts r H1 H2 H3 with ex_intro _ m (ex_intro _ ss (conj A (conj B (conj C D)))) =>
    ex_intro _ m (ex_intro _ ss (conj A (conj B (conj C (fun st I => conj (proj1 (D st I)) (proj2 (proj2 (D st I)))))))) end).
Qed.
Print Assumptions C30_everything_behind_a_facet_is_erased.
Example C30_example : Forall proper ex_tris /\ Forall facing (map (turned ex_id) ex_tris) /\
  lies_before (turned ex_id ex_big) (P3 1 1 0) (P3 2 1 0) /\ within (turned ex_id ex_big) (between (P3 1 1 0) (P3 2 1 0) (1 / 2)).
Proof. exact (conj ex_proper (conj ex_facing (conj (proj1 ex_behind) (proj1 (proj2 ex_behind))))). Qed.
