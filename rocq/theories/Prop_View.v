(** Prop_View.v - the properties of single views: their size, their axes, their scale. *)
From Coq Require Import Reals Permutation.
From Flocq Require Import Core BinarySingleNaN.
From Verif Require Import Base Num NumReal NumF64 Geo Stl GeoSpec RealSpec Env Ast Ps Draw DocSpec DimSpec F64Spec BoxSpec ViewSpec P_Bound P_Float P_Box P_Named P_Named2 EnvEx ExReal ExPict ExView RealSpec PictSpec.

Local Open Scope R_scope.
(** ** C77 *)
Theorem C77_drawings_stay_in_their_box : forall (E : @Env XR) st l n ml ds s s1 ds1 f ts r a b tx ty w h, visit_draw st l n ml ds s = Ret (s1, ds1, true) ->
  smap_find bytes_ltb n st = Some (Some f) -> facets f = map embf ts -> Forall proper ts -> asks_view ml (embm r) -> rotation r ->
  asks_scale ml a b -> b <> 0%Z -> asks_place ml tx ty -> sized (seen r ts) w h ->
  exists proj ls ls' q, shows st n ml proj ls /\ length ls' = length ls /\ v_page s1 = plus_page (v_page s) (plus_page (OPage ls' [] []) q) /\
    (ds = [] -> q = OPage [] [] []) /\
    forall x, In x ls' -> let k := Rabs (72 * (IZR a / IZR b)) in in_box2 tx ty (k * w) (k * h) (lo x) /\ in_box2 tx ty (k * w) (k * h) (lt_ x).
Proof. exact in_its_box. Qed.
Print Assumptions C77_drawings_stay_in_their_box.
Example C77_example : forall E : @Env XR, let st := [(B "m", Some (Stl (map embf ex_tris) [] [] 0))] in
  (exists s1, visit_draw st (Loc [] 0) (B "m") (at_scale 1 2) [] vst_init = Ret (s1, [], true)) /\
  asks_view (at_scale 1 2) (embm ex_id) /\ asks_scale (at_scale 1 2) 1 2 /\ asks_place (at_scale 1 2) (72 * 1 + 396) (72 * -2 + 306).
Proof. exact ex_boxed. Qed.
Example C77_example_size : sized (seen ex_id ex_tris) 4 4 /\ Forall proper ex_tris /\ rotation ex_id.
Proof. exact (conj ex_sized (conj ex_proper ex_rotation)). Qed.

(** ** C78 *)
Theorem C78_named_views_turn_exactly : forall (lm : libm) (asc : bool) n (m : @m3 (F64 lm asc)) (v : @v3 (F64 lm asc)), @matrix_by_name (F64 lm asc) n = Some m -> fin3 lm asc v ->
  fin3 lm asc (mulm v m) /\ look n (value3 v) = Some (value3 (mulm v m)).
Proof. exact named_exact. Qed.
Print Assumptions C78_named_views_turn_exactly.
Theorem C78_named_views_show_their_side : forall (lm : libm) (asc : bool) (E : @Env (F64 lm asc)) st l n ml ds s s1 ds1 f x v,
  visit_draw st l n ml ds s = Ret (s1, ds1, true) -> smap_find bytes_ltb n st = Some (Some f) ->
  In x ml -> m_name x = B "view" -> m_val x = MStr v -> Forall (fun f => fin3 lm asc (fnorm f) /\ finF lm asc f) (facets f) ->
  exists proj ls q (sc : @num (F64 lm asc)) off, shows st n ml proj ls /\ v_page s1 = plus_page (v_page s) (put_page sc off (plus_page (OPage ls [] []) q)) /\
    Permutation (map (fun f => map Some (value_facet f)) (facets proj)) (map (fun f => looks v (value_facet f)) (filter (fun f => turned_to v (value3 (fnorm f))) (facets f))).
Proof. exact named_drawing. Qed.
Print Assumptions C78_named_views_show_their_side.
Theorem C78_opposite_views_share_the_facets : forall (lm : libm) (asc : bool) n n' (m m' : @m3 (F64 lm asc)) (s p p' : @stl (F64 lm asc)), opposite n n' ->
  @matrix_by_name (F64 lm asc) n = Some m -> @matrix_by_name (F64 lm asc) n' = Some m' ->
  Forall (fun f => fin3 lm asc (fnorm f)) (facets s) -> rotate s m = Ret p -> rotate s m' = Ret p' ->
  (length (facets p) + length (facets p') + length (filter (fun f => edge_on n (value3 (fnorm f))) (facets s)) = length (facets s))%nat.
Proof. exact opposite_views. Qed.
Print Assumptions C78_opposite_views_share_the_facets.
Example C78_example : (exists s1, visit_draw [(B "m", Some side_model)] (Loc [] 0) (B "m") side_metas [] vst_init = Ret (s1, [], true)) /\
  In (Meta (B "view") (MStr (B "X+")) (Loc [] 0)) side_metas /\ asks_scale side_metas 3 2.
Proof. exact side_draw. Qed.
Example C78_example_model : Forall (fun f => fin3 ex_libm true (fnorm f) /\ finF ex_libm true f) (facets side_model).
Proof. exact side_finite. Qed.
Example C78_example_opposite : opposite (B "X+") (B "X-") /\ (exists p, rotate side_model (@mXP ExA) = Ret p) /\ (exists p, rotate side_model (@mXN ExA) = Ret p).
Proof. exact (conj (or_introl (conj eq_refl eq_refl)) side_rotates). Qed.

(** ** C79 *)
Theorem C79_angles_spin_then_tilt : forall (E : @Env XR) ml x a b, In x ml -> m_name x = B "view" -> m_val x = MLoc (emb2 a b) ->
  exists r, rotation r /\ asks_view ml (embm r) /\ forall p, rmul p r = tilt (degrees b) (spin (degrees a) p).
Proof. exact angle_turn. Qed.
Print Assumptions C79_angles_spin_then_tilt.
(** With angles in quarter turns these are the named views. *)
Example C79_example : forall p, tilt 0 (spin 0 p) = p /\ look (B "Z+") p = Some (tilt 0 (spin 0 p)) /\ look (B "Y-") p = Some (tilt (Rtrigo1.PI / 2) (spin 0 p)) /\
  look (B "X+") p = Some (tilt (Rtrigo1.PI / 2) (spin (- (Rtrigo1.PI / 2)) p)) /\ look (B "X-") p = Some (tilt (Rtrigo1.PI / 2) (spin (Rtrigo1.PI / 2) p)) /\
  look (B "Y+") p = Some (tilt (Rtrigo1.PI / 2) (spin Rtrigo1.PI p)) /\ look (B "Z-") p = Some (tilt Rtrigo1.PI (spin 0 p)).
Proof. exact flat_view. Qed.

(** ** C57: the scale in the single precision arithmetic the program uses *)
Theorem C57_scale_in_floats_partial : forall (lm : libm) (asc : bool) (E : @Env (F64 lm asc)) st l n ml ds s s1 ds1 a b, visit_draw st l n ml ds s = Ret (s1, ds1, true) -> asks_scale ml a b ->
  (Z.abs a <= 2 ^ 31)%Z -> (Z.abs b <= 2 ^ 31)%Z -> b <> 0%Z ->
  exists proj ls q (sc : f64) off, shows st n ml proj ls /\ v_page s1 = plus_page (v_page s) (put_page (sc : @num (F64 lm asc)) off (plus_page (OPage ls [] []) q)) /\
    is_finite sc = true /\ Rabs (B2R sc - 72 * (IZR a / IZR b)) <= bpow radix2 (-23) * Rabs (72 * (IZR a / IZR b)) /\
    (generic_format radix2 (FLT_exp (-149) 24) (72 * (IZR a / IZR b)) -> B2R sc = 72 * (IZR a / IZR b)).
Proof. exact float_scale. Qed.
Print Assumptions C57_scale_in_floats_partial.
