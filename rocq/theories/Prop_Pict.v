(** Prop_Pict.v - the properties of the whole picture of a model. *)
From Coq Require Import Reals Permutation.
From Verif Require Import Base Num NumLaws NumReal Geo Stl GeoSpec RealSpec HideSpec Env Ast Ps Draw DocSpec DimSpec P_Base P_Pict P_Move P_Move2 SortSpec P_Sort ExSort ExReal ExPict RealSpec PictSpec.

Local Open Scope R_scope.
(** ** C73 *)
Theorem C73_the_picture_is_exact : forall (s : @stl XR) (ts : list tri) (r : rmat), facets s = map embf ts -> Forall proper ts -> rotation r ->
  (forall a b, ~ crowded (seen r ts) a b) ->
  exists m ss, rotate s (embm r) = Ret m /\ to_lines m = Ret (flat_map strokes ss) /\ picture (seen r ts) ss.
Proof. exact view_picture. Qed.
Print Assumptions C73_the_picture_is_exact.
Theorem C73_there_is_one_picture : forall vs ss ss', picture vs ss -> picture vs ss' -> Permutation ss ss'.
Proof. exact picture_unique. Qed.
Print Assumptions C73_there_is_one_picture.
Example C73_example : Forall proper ex_tris /\ rotation ex_id /\ (forall a b, ~ crowded (seen ex_id ex_tris) a b) /\ seen ex_id ex_tris = ex_tris /\
  outlined ex_tris (P3 1 1 0) (P3 2 1 0) /\ forall x, 0 <= x <= 1 -> hides ex_big (P3 1 1 0) (P3 2 1 0) x.
Proof. exact (conj ex_proper (conj ex_rotation (conj ex_uncrowded (conj ex_seen ex_under)))). Qed.

(** ** C74: false of edges that pierce a facet; holds of the others *)
Theorem C74_nothing_behind_a_facet_is_drawn_refuted : exists (s : @stl XR) (ts : list tri) (r : rmat) m ss,
  facets s = map embf ts /\ Forall proper ts /\ rotation r /\ (forall a b, ~ crowded (seen r ts) a b) /\
  rotate s (embm r) = Ret m /\ to_lines m = Ret (flat_map strokes ss) /\ picture (seen r ts) ss /\
  exists st t x, In st ss /\ In t (seen r ts) /\ 0 <= x <= 1 /\ behind t (between (sa st) (sb st) x) /\ drawn st x.
Proof. exact pierced. Qed.
Print Assumptions C74_nothing_behind_a_facet_is_drawn_refuted.
(** Missing: edges that meet the inside of the facet. *)
Theorem C74_nothing_behind_a_facet_is_drawn_partial : forall (s : @stl XR) (ts : list tri) (r : rmat), facets s = map embf ts -> Forall proper ts -> rotation r ->
  exists m ss, rotate s (embm r) = Ret m /\ to_lines m = Ret (flat_map strokes ss) /\
    map (fun st => Edge (emb (sa st)) (emb (sb st))) ss = firstn (unseen m) (edges m) /\
    forall st, In st ss -> chain 0 (shown st) /\
      forall t x, In t ts -> facing (turned r t) -> ~ meets (turned r t) (sa st) (sb st) -> 0 <= x <= 1 ->
        behind (turned r t) (between (sa st) (sb st) x) -> ~ drawn st x.
Proof. exact view_clear. Qed.
Print Assumptions C74_nothing_behind_a_facet_is_drawn_partial.
Example C74_example : Forall proper ex_tris /\ rotation ex_id /\ ~ meets (turned ex_id ex_big) (P3 1 1 0) (P3 2 1 0) /\
  behind (turned ex_id ex_big) (between (P3 1 1 0) (P3 2 1 0) (1 / 2)).
Proof. exact (conj ex_proper (conj ex_rotation ex_clear)). Qed.

(** ** C75 *)
Theorem C75_facet_order_does_not_matter : forall (s s' : @stl XR) (ts ts' : list tri) (r : rmat), facets s = map embf ts -> facets s' = map embf ts' ->
  Permutation ts ts' -> Forall proper ts -> rotation r -> (forall a b, ~ crowded (seen r ts) a b) ->
  exists m m' ls ls', rotate s (embm r) = Ret m /\ rotate s' (embm r) = Ret m' /\ to_lines m = Ret ls /\ to_lines m' = Ret ls' /\ Permutation ls ls'.
Proof. exact view_order. Qed.
Print Assumptions C75_facet_order_does_not_matter.
Example C75_example : Permutation ex_tris [ex_low; ex_big] /\ Forall proper ex_tris /\ rotation ex_id /\ (forall a b, ~ crowded (seen ex_id ex_tris) a b).
Proof. exact (conj (perm_swap _ _ _) (conj ex_proper (conj ex_rotation ex_uncrowded))). Qed.
(** Where three visible facets share a side the order does matter. *)
Theorem C75_order_matters_where_three_facets_meet : exists (A : Arith) (fs fs' : list (@facet A)) m m' ls ls', ordered A /\ Permutation fs fs' /\
  rotate (Stl fs [] [] 0) mZP = Ret m /\ rotate (Stl fs' [] [] 0) mZP = Ret m' /\ to_lines m = Ret ls /\ to_lines m' = Ret ls' /\ length ls <> length ls'.
Proof. exact fin_order. Qed.
Print Assumptions C75_order_matters_where_three_facets_meet.

(** ** C76 *)
Theorem C76_views_move_with_the_model : forall (s s' : @stl XR) (ts : list tri) (r : rmat) (k : R) (d : rpt), facets s = map embf ts ->
  facets s' = map embf (map (moved_tri k d) ts) -> Forall proper ts -> rotation r -> 0 < k -> (forall a b, ~ crowded (seen r ts) a b) ->
  exists m m' ls ls', rotate s (embm r) = Ret m /\ rotate s' (embm r) = Ret m' /\ to_lines m = Ret ls /\ to_lines m' = Ret ls' /\
    Permutation ls' (map (moved_line k (rx (rmul d r)) (ry (rmul d r))) ls).
Proof. exact view_moved. Qed.
Print Assumptions C76_views_move_with_the_model.
Theorem C76_position_and_unit_do_not_matter : forall (E : @Env XR) st st' l l' n n' ml ml' s s' s1 s1' d1 d1' f f' ts r k d a b a' b' tx ty,
  visit_draw st l n ml [] s = Ret (s1, d1, true) -> visit_draw st' l' n' ml' [] s' = Ret (s1', d1', true) ->
  smap_find bytes_ltb n st = Some (Some f) -> smap_find bytes_ltb n' st' = Some (Some f') ->
  facets f = map embf ts -> facets f' = map embf (map (moved_tri k d) ts) -> Forall proper ts ->
  asks_view ml (embm r) -> asks_view ml' (embm r) -> rotation r -> (forall p q, ~ crowded (seen r ts) p q) ->
  asks_scale ml a b -> asks_scale ml' a' b' -> b <> 0%Z -> b' <> 0%Z -> 0 < k -> k * (IZR a' / IZR b') = IZR a / IZR b ->
  asks_place ml tx ty -> asks_place ml' tx ty ->
  exists ls ls', v_page s1 = plus_page (v_page s) (OPage ls [] []) /\ v_page s1' = plus_page (v_page s') (OPage ls' [] []) /\ Permutation ls ls'.
Proof. exact same_drawing. Qed.
Print Assumptions C76_position_and_unit_do_not_matter.
Example C76_example : forall E : @Env XR, let st ts := [(B "m", Some (Stl (map embf ts) [] [] 0))] in
  (exists s1, visit_draw (st ex_tris) (Loc [] 0) (B "m") (at_scale 1 1) [] vst_init = Ret (s1, [], true)) /\
  (exists s1, visit_draw (st ex_moved) (Loc [] 0) (B "m") (at_scale 1 2) [] vst_init = Ret (s1, [], true)) /\
  asks_view (at_scale 1 1) (embm ex_id) /\ asks_view (at_scale 1 2) (embm ex_id) /\ asks_scale (at_scale 1 1) 1 1 /\ asks_scale (at_scale 1 2) 1 2 /\ 2 * (IZR 1 / IZR 2) = IZR 1 / IZR 1 /\
  asks_place (at_scale 1 1) (72 * 1 + 396) (72 * -2 + 306) /\ asks_place (at_scale 1 2) (72 * 1 + 396) (72 * -2 + 306).
Proof. exact ex_two_sizes. Qed.

(** ** C90 *)
Theorem C90_ties_in_sorting_do_not_matter : forall (srt : sorter) (s : @stl XR) (ts : list tri) (r : rmat), facets s = map embf ts -> Forall proper ts -> rotation r ->
  exists m ls, rotate s (embm r) = Ret m /\ to_lines m = Ret ls /\ to_lines_by srt m = Ret ls.
Proof. exact views_any. Qed.
Print Assumptions C90_ties_in_sorting_do_not_matter.
(** [to_lines_by] is [to_lines] with another implementation of std::sort
    ([by_model] in P_Sort.v). *)
Example C90_example : Forall proper ex_tris /\ rotation ex_id /\
  srun backwards (fun a b : nat * nat => Nat.ltb (fst a) (fst b)) [(1, 1); (1, 2); (0, 3)]%nat <> srun stable (fun a b => Nat.ltb (fst a) (fst b)) [(1, 1); (1, 2); (0, 3)]%nat.
Proof. exact (conj ex_proper (conj ex_rotation backwards_differs)). Qed.
