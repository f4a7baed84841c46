(** Prop_Err.v - the properties of labels in doubles. *)
From Coq Require Import Reals ZArith.
From Flocq Require Import Core IEEE754.BinarySingleNaN.
From Verif Require Import Base Num NumF64 Geo Stl Env Ast Ps Draw F64Spec DocSpec DimSpec TextSpec P_Err4 P_Err5 P_Follow ExText ExErr ExFollow ErrSpec ViewSpec FollowSpec RealSpec.

Local Open Scope R_scope.

(** ** C88: rounding does not show in the lengths of dims *)
Theorem C88_dim_labels_in_doubles : forall (lm : libm) (asc : bool) (E : @Env (F64 lm asc)), std64 lm asc E -> trig_close lm ->
  forall (d : @dim (F64 lm asc)) s s' d' k a u f t p n q, d_kind d = KDim -> a_view lm asc (v_rot s) -> (-300 <= k <= 300)%Z ->
  is_point lm asc s d "at" a -> is_point lm asc s d "dir" u -> is_point lm asc s d "from" f -> is_point lm asc s d "to" t ->
  bnd3 lm asc k a -> bnd3 lm asc k f -> bnd3 lm asc k t -> bnd3 lm asc 200 u -> bp (-200) <= sqrt (rdot (val3 lm asc u) (val3 lm asc u)) ->
  visit_base_dim d s = Ret (s', d', true) -> format64 lm asc (d_meta d) 3 p n q ->
  exists w pos, o_text (v_page s') = o_text (v_page s) ++ [Text pos (p ++ w ++ q) true false] /\
    decimal_within n (bp (k - 33)) (along (val3 lm asc u) (val3 lm asc f) (val3 lm asc t)) w.
Proof. exact (fun lm asc E STD T d s s' d' k a u f t p n q K => dim_label64 lm asc E STD d s s' d' k a u f t p n q K T). Qed.
Print Assumptions C88_dim_labels_in_doubles.
Example C88_example : forall asc, std64 good_libm asc (Text64 good_libm asc) /\ trig_close good_libm /\ a_view good_libm asc mZP /\
  forall (s : @vst (F64 good_libm asc)), v_rot s = mZP ->
  (exists s' d', visit_base_dim (E := Text64 good_libm asc) (dim_case good_libm asc) s = Ret (s', d', true)) /\
  (let t3 := tpl good_libm asc in let at_ := is_point good_libm asc s (dim_case good_libm asc) in
   at_ "at"%string (t3 1 1 0)%Z /\ at_ "dir"%string (t3 1 1 0)%Z /\ at_ "from"%string (t3 0 0 0)%Z /\ at_ "to"%string (t3 3 4 5)%Z /\
   bnd3 good_libm asc 3 (t3 1 1 0)%Z /\ bnd3 good_libm asc 3 (t3 0 0 0)%Z /\ bnd3 good_libm asc 3 (t3 3 4 5)%Z /\ bnd3 good_libm asc 200 (t3 1 1 0)%Z /\
   bp (-200) <= sqrt (rdot (val3 good_libm asc (t3 1 1 0)%Z) (val3 good_libm asc (t3 1 1 0)%Z))) /\
  format64 good_libm asc (d_meta (dim_case good_libm asc)) 3 [] 3 [] /\ format64 good_libm asc (with_fmt good_libm asc (dim_case good_libm asc)) 3 (B "about ") 4 (B " mm").
Proof.
  intro asc. split; [apply text64_std|]. split; [exact good_trig|]. split; [exact (view_z good_libm asc)|]. intros s V. split; [exact (dim_case_ok good_libm asc (Text64 good_libm asc) s V)|].
  pose proof (dim_case_meets good_libm asc s V) as H. destruct (case_format good_libm asc) as (F1 & _ & F3). cbv zeta. auto.
Qed.

(** ** C89: angles in doubles *)
Theorem C89_angle_labels_in_doubles_partial : forall (lm : libm) (asc : bool) (E : @Env (F64 lm asc)), std64 lm asc E -> trig_close lm -> acos_close lm ->
  forall (d : @dim (F64 lm asc)) s s' d' k m ap u v p n q, d_kind d = KAngle -> a_view lm asc (v_rot s) -> (-280 <= k <= 280)%Z -> (0 <= m <= 14)%Z ->
  is_point lm asc s d "apex" ap -> bnd3 lm asc k ap -> side64 lm asc s d k "from_dir" "from_point" ap u -> side64 lm asc s d k "to_dir" "to_point" ap v ->
  Rabs (cosine u v) <= 1 - bp (-2 * m) ->
  visit_base_dim d s = Ret (s', d', true) -> format64 lm asc (d_meta d) 1 p n q ->
  exists w pos, o_text (v_page s') = o_text (v_page s) ++ [Text pos ((p ++ w ++ q) ++ B " deg") true false] /\ decimal_within n (bp (m - 24)) (angle_between u v) w.
Proof. exact (fun lm asc E STD T AC d s s' d' k m ap u v p n q K => angle_label64 lm asc E STD d s s' d' k m ap u v p n q K T AC). Qed.
Print Assumptions C89_angle_labels_in_doubles_partial.
(** Sides in the same direction can pass the test for them and are labelled with a NaN. *)
Theorem C89_parallel_sides_refuted : forall (lm : libm) (asc : bool) (E : @Env (F64 lm asc)), (forall x, 1 < B2R x -> l_acos lm x = B754_nan) ->
  exists d : @dim (F64 lm asc), d_kind d = KAngle /\ (exists u v, written lm asc d "from_dir" u /\ written lm asc d "to_dir" v /\ val3 lm asc v = rscale 10 (val3 lm asc u)) /\
  forall s, v_rot s = mZP -> exists s' d' pos, visit_base_dim d s = Ret (s', d', true) /\
    o_text (v_page s') = o_text (v_page s) ++ [Text pos (pf_format (B "%.1f") (B754_nan : @num (F64 lm asc)) ++ B " deg") true false].
Proof.
  intros lm asc E AC. exists (nan_case lm asc). split; [reflexivity|]. split; [exact (nan_sides lm asc)|]. intros s V. exact (nan_label lm asc E s AC V).
Qed.
Print Assumptions C89_parallel_sides_refuted.
Example C89_example : forall asc, std64 good_libm asc (Text64 good_libm asc) /\ trig_close good_libm /\ acos_close good_libm /\ (forall x, 1 < B2R x -> l_acos good_libm x = B754_nan) /\
  forall (s : @vst (F64 good_libm asc)), v_rot s = mZP ->
  (exists s' d', visit_base_dim (E := Text64 good_libm asc) (angle_case good_libm asc) s = Ret (s', d', true)) /\
  is_point good_libm asc s (angle_case good_libm asc) "apex" (tpl good_libm asc 1 1 0) /\
  side64 good_libm asc s (angle_case good_libm asc) 3 "from_dir" "from_point" (tpl good_libm asc 1 1 0) (P3 1 0 0) /\
  side64 good_libm asc s (angle_case good_libm asc) 3 "to_dir" "to_point" (tpl good_libm asc 1 1 0) (P3 1 2 0) /\
  Rabs (cosine (P3 1 0 0) (P3 1 2 0)) <= 1 - bp (-2 * 1) /\ format64 good_libm asc (d_meta (angle_case good_libm asc)) 1 [] 1 [].
Proof.
  intro asc. split; [apply text64_std|]. split; [exact good_trig|]. split; [exact good_acos|]. split; [exact good_nan|]. intros s V. split; [exact (angle_case_ok good_libm asc (Text64 good_libm asc) s V)|].
  destruct (angle_case_meets good_libm asc s V) as (H1 & _ & H3 & H4 & H5). destruct (case_format good_libm asc) as (_ & F2 & _). auto 7.
Qed.

(** ** C91: points are seen where they are *)
Theorem C91_views_in_doubles : forall (lm : libm) (asc : bool) k m see (p : @v3 (F64 lm asc)), trig_close lm -> sees lm asc m see -> (-900 <= k < 900)%Z -> bnd3 lm asc k p ->
  within3 lm asc (bp (k - 43)) (mulm p m) (see (val3 lm asc p)).
Proof. exact seen_close. Qed.
Print Assumptions C91_views_in_doubles.
Example C91_example : trig_close good_libm /\ forall asc, sees good_libm asc mZP (fun p => p) /\
  sees good_libm asc (matrix_by_ang (A := F64 good_libm asc) (two_angles good_libm asc)) (fun p => tilt (- (Rtrigo1.PI / 4)) (spin (Rtrigo1.PI / 6) p)).
Proof. exact (conj good_trig follow_sees). Qed.

(** ** C92: lines follow the sides of facets *)
Theorem C92_lines_follow_the_sides : forall (lm : libm) (asc : bool) k m see (s p : @stl (F64 lm asc)) ls, trig_close lm -> sees lm asc m see -> (-700 <= k <= 500)%Z ->
  Forall (bndF lm asc k) (facets s) -> rotate s m = Ret p -> to_lines p = Ret ls ->
  forall l, In l ls -> exists f, In f (facets s) /\ In (rotate_facet m f) (facets p) /\ follows lm asc (bp (k - 41)) see f l.
Proof. exact lines_follow. Qed.
Print Assumptions C92_lines_follow_the_sides.
Example C92_example : forall asc, Forall (bndF good_libm asc 3) (facets (follow_model good_libm asc)) /\
  exists p ls, rotate (A := F64 good_libm asc) (follow_model good_libm asc) mZP = Ret p /\ to_lines p = Ret ls /\ length ls = 7%nat.
Proof. exact (fun asc => conj (follow_small asc) (follow_runs asc)). Qed.
