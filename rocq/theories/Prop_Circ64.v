(** Prop_Circ64.v - the properties of circles in doubles. *)
From Coq Require Import Reals ZArith List.
From Flocq Require Import Core IEEE754.BinarySingleNaN.
From Verif Require Import Base Num NumF64 Geo Stl Env Ast Ps Draw F64Spec DocSpec DimSpec TextSpec CircleSpec CircSpec P_Ring64 P_CircLabel ExText ExErr ExCirc64 ErrSpec RealSpec.
Import ListNotations.

Local Open Scope R_scope.

(** ** C101: rounding does not show in the measured circles *)
(** FindCircle, with the sums in any order: points that are exactly on a circle of radius 25
    and less than 8000 from the origin, and a radius that is more than a tenth smaller. *)
Theorem C101_found_radius_refuted : forall (lm : libm) (asc : bool), exists ps : list (@v2 (F64 lm asc)),
  length ps = 20%nat /\ (forall p, In p ps -> finite2 p /\ gap2 (val2 p) (5000, 5000) = 25 * 25) /\ best_circle (map val2 ps) (5000, 5000) 25 /\
  forall c rad, fits_any ps c rad -> is_finite (rad : f64) = true /\ B2R (rad : f64) <= 249 / 10.
Proof. exact far_circle. Qed.
Print Assumptions C101_found_radius_refuted.
(** The label of such a circle is off by the same amount. *)
Theorem C101_rad_label_refuted : forall (lm : libm) (asc : bool) (E : @Env (F64 lm asc)), std64 lm asc E ->
  exists (d : @dim (F64 lm asc)) (ps : list (@v3 (F64 lm asc))), d_kind d = KRad /\ length ps = 20%nat /\ (forall p, In p ps -> finite2 (xy p) /\ gap2 (val2 (xy p)) (5000, 5000) = 25 * 25) /\
  forall s, v_rot s = mZP -> v_points s = ps -> exists s' d' w pos q, visit_base_dim d s = Ret (s', d', true) /\
    o_text (v_page s') = o_text (v_page s) ++ [Text pos (B "R" ++ w) true false] /\ fixed 3 w q /\ q < 2491 / 100.
Proof. exact far_rad. Qed.
Print Assumptions C101_rad_label_refuted.
(** FindCircle is close to the circle that fits best, as far as the points fix it. *)
Theorem C101_fit_is_close_partial : forall (lm : libm) (asc : bool) k m d (ps : list (@v2 (F64 lm asc))) c rad c0 rho,
  Forall finite2 ps -> fixes k m d (map val2 ps) c0 rho -> fits_any ps c rad ->
  close (bp (k + m + d - 46)) (x2 c : f64) (fst c0) /\ close (bp (k + m + d - 46)) (y2 c : f64) (snd c0) /\ close (bp (2 * k + m + d - 42) / rho) (rad : f64) rho.
Proof. exact fit_within. Qed.
Print Assumptions C101_fit_is_close_partial.
(** The same for both fits of a dimension or a centre. *)
Theorem C101_measured_circle_partial : forall (lm : libm) (asc : bool) k d1 k' m d (ps : list (@v3 (F64 lm asc))) t c rad c1 rho1 c0 rho,
  Forall (fun p => finite2 (xy p)) ps -> (forall p, In p ps -> Rabs (fst (val2 (xy p))) <= bp k /\ Rabs (snd (val2 (xy p))) <= bp k) ->
  fixes k 2 d1 (map val2 (closest (map xy ps) 3 t)) c1 rho1 -> bp (2 * k + d1 - 33) <= rho1 * rho1 -> apart (map val2 (map xy ps)) c1 rho1 ->
  fixes k' m d (near_circle (map val2 (map xy ps)) c1 rho1) c0 rho -> fit_any ps t c rad ->
  close (bp (k' + m + d - 46)) (x2 c : f64) (fst c0) /\ close (bp (k' + m + d - 46)) (y2 c : f64) (snd c0) /\ close (bp (2 * k' + m + d - 42) / rho) (rad : f64) rho.
Proof. exact measured_within. Qed.
Print Assumptions C101_measured_circle_partial.
(** What the model computes is one of the orders. *)
Theorem C101_the_order_of_the_model : forall (A : Arith) ps t c rad,
  (@find_circle A ps = Some (c, rad) -> fits_any ps c rad) /\ forall pts, @fit_circle A pts t = Some (c, rad) -> fit_any pts t c rad.
Proof. exact (fun A ps t c rad => conj (find_any ps c rad) (fun pts => fit_is_any pts t c rad)). Qed.
Print Assumptions C101_the_order_of_the_model.
Theorem C101_rad_labels_partial : forall (lm : libm) (asc : bool) (E : @Env (F64 lm asc)), std64 lm asc E ->
  forall (d : @dim (F64 lm asc)) s s' d' t k d1 k' m dd c1 rho1 c0 rho p n q, d_kind d = KRad -> evaluates (v_points s) (v_rot s) (d_meta d) "center" t ->
  Forall (fun p => finite2 (xy p)) (v_points s) -> (forall p, In p (v_points s) -> Rabs (fst (val2 (xy p))) <= bp k /\ Rabs (snd (val2 (xy p))) <= bp k) ->
  fixes k 2 d1 (map val2 (closest (map xy (v_points s)) 3 (xy t))) c1 rho1 -> bp (2 * k + d1 - 33) <= rho1 * rho1 -> apart (map val2 (map xy (v_points s))) c1 rho1 ->
  fixes k' m dd (near_circle (map val2 (map xy (v_points s))) c1 rho1) c0 rho ->
  visit_base_dim d s = Ret (s', d', true) -> format64 lm asc (d_meta d) 3 p n q ->
  exists w pos, o_text (v_page s') = o_text (v_page s) ++ [Text pos (B "R" ++ p ++ w ++ q) true false] /\ decimal_within n (bp (2 * k' + m + dd - 42) / rho) rho w.
Proof. exact rad_label64. Qed.
Print Assumptions C101_rad_labels_partial.
Theorem C101_dia_labels_partial : forall (lm : libm) (asc : bool) (E : @Env (F64 lm asc)), std64 lm asc E ->
  forall (d : @dim (F64 lm asc)) s s' d' t k d1 k' m dd c1 rho1 c0 rho p n q, d_kind d = KDia -> evaluates (v_points s) (v_rot s) (d_meta d) "center" t ->
  Forall (fun p => finite2 (xy p)) (v_points s) -> (forall p, In p (v_points s) -> Rabs (fst (val2 (xy p))) <= bp k /\ Rabs (snd (val2 (xy p))) <= bp k) ->
  fixes k 2 d1 (map val2 (closest (map xy (v_points s)) 3 (xy t))) c1 rho1 -> bp (2 * k + d1 - 33) <= rho1 * rho1 -> apart (map val2 (map xy (v_points s))) c1 rho1 ->
  fixes k' m dd (near_circle (map val2 (map xy (v_points s))) c1 rho1) c0 rho ->
  visit_base_dim d s = Ret (s', d', true) -> format64 lm asc (d_meta d) 3 p n q ->
  exists w pos, o_text (v_page s') = o_text (v_page s) ++ [Text pos (B "\351" ++ p ++ w ++ q) true true] /\ decimal_within n (2 * (bp (2 * k' + m + dd - 42) / rho)) (2 * rho) w.
Proof. exact dia_label64. Qed.
Print Assumptions C101_dia_labels_partial.
(** Twelve points of a circle of radius 5 about the origin and two other points: the second
    fit is within 2^-28 of that circle. *)
Example C101_example : forall asc, std64 good_libm asc (Text64 good_libm asc) /\
  (let ps := map (at3 good_libm asc) close_by in let t := mulm (tpl good_libm asc 5 0 0) mZP : @v3 (F64 good_libm asc) in
   Forall (fun p => finite2 (xy p)) ps /\ (forall p, In p ps -> Rabs (fst (val2 (xy p))) <= bp 3 /\ Rabs (snd (val2 (xy p))) <= bp 3) /\
   fixes 3 2 13 (map val2 (closest (map xy ps) 3 (xy t))) (0, 0) 5 /\ bp (2 * 3 + 13 - 33) <= 5 * 5 /\ apart (map val2 (map xy ps)) (0, 0) 5 /\
   fixes 3 4 6 (near_circle (map val2 (map xy ps)) (0, 0) 5) (0, 0) 5 /\
   (exists c rad, fit_circle ps (xy t) = Some (c, rad)) /\
   forall k, k = KRad \/ k = KDia -> d_kind (circ_case good_libm asc k 5 0) = k /\ format64 good_libm asc (d_meta (circ_case good_libm asc k 5 0)) 3 [] 3 [] /\
   forall s, v_rot s = mZP -> v_points s = ps -> evaluates (v_points s) (v_rot s) (d_meta (circ_case good_libm asc k 5 0)) "center" t /\
     exists s' d', visit_base_dim (E := Text64 good_libm asc) (circ_case good_libm asc k 5 0) s = Ret (s', d', true)).
Proof. intro asc. split; [apply text64_std|]. exact (near_all good_libm asc (Text64 good_libm asc)). Qed.
