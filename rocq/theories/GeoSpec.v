(** GeoSpec.v - the vocabulary of the properties about models and views, written
    without the helper functions of the model. *)
From Coq Require Import Permutation.
From Verif Require Import Base Num Geo Stl NumLaws.

(** A strict weak order on the values satisfying P. *)
Definition strict_weak_order {K} (P : K -> Prop) (lt : K -> K -> bool) : Prop :=
  (forall x, P x -> lt x x = false) /\
  (forall x y, P x -> P y -> lt x y = true -> lt y x = false) /\
  (forall x y z, P x -> P y -> P z -> lt x y = true -> lt y z = true -> lt x z = true) /\
  (forall x y z, P x -> P y -> P z -> lt x y = false -> lt y x = false -> lt y z = false -> lt z y = false -> lt x z = false /\ lt z x = false).

Section Spec.
  Context {A : Arith}.
  Local Open Scope num_scope.

  (** Numerically equal coordinates. *)
  Definition same (p q : v3) : Prop := (x3 p =? x3 q) = true /\ (y3 p =? y3 q) = true /\ (z3 p =? z3 q) = true.
  (** No coordinate is NaN. *)
  Definition comparable (p : v3) : Prop := ok (x3 p) /\ ok (y3 p) /\ ok (z3 p).
  Definition corners (f : facet) : list v3 := [fe0 f; fe1 f; fe2 f].
  Definition vertices (s : stl) : list v3 := flat_map corners (facets s).

  (** A facet whose normal has a z that is not <= 0. *)
  Definition front (f : facet) : bool := negb (z3 (fnorm f) <=? nz).

  (** The box with corners a, b contains v / has v on each of its sides. *)
  Definition in_box (a b : v2) (v : v3) : Prop :=
    (x2 a <=? x3 v) = true /\ (x3 v <=? x2 b) = true /\ (y2 a <=? y3 v) = true /\ (y3 v <=? y2 b) = true.

  (** The three sides of a facet as pairs of end points. *)
  Definition outline (f : facet) : list (v3 * v3) := [(fe0 f, fe1 f); (fe1 f, fe2 f); (fe2 f, fe0 f)].
  (** The edge joins these two points, in either direction. *)
  Definition joins (e : edge) (ab : v3 * v3) : Prop :=
    (same (e1 e) (fst ab) /\ same (e2 e) (snd ab)) \/ (same (e1 e) (snd ab) /\ same (e2 e) (fst ab)).
  (** Facet number n has the edge as a side. *)
  Definition has_side (fs : list facet) (e : edge) (n : nat) : Prop :=
    exists f ab, nth_error fs n = Some f /\ In ab (outline f) /\ joins e ab.
  (** The first and the last facet with this side. *)
  Definition first_facet (fs : list facet) (e : edge) (n : nat) : Prop := has_side fs e n /\ forall m, has_side fs e m -> n <= m.
  Definition last_facet (fs : list facet) (e : edge) (n : nat) : Prop := has_side fs e n /\ forall m, has_side fs e m -> m <= n.
  (** They differ and the surface hardly bends between them. *)
  Definition smooth_edge (fs : list facet) (e : edge) : Prop :=
    exists a b fa fb, first_facet fs e a /\ last_facet fs e b /\ a <> b /\ nth_error fs a = Some fa /\ nth_error fs b = Some fb /\
      (dot3 (fnorm fa) (fnorm fb) <? of_dec 98 (-2)) = false.

  (** Crossing number u of edge v: the place where the projections meet, on
      edge v, is not in front of the place on edge u. At least one of the two is
      a candidate for drawing. *)
  Definition crossed_by (es : list edge) (un v u : nat) (p : v3) : Prop :=
    exists ev eu, nth_error es v = Some ev /\ nth_error es u = Some eu /\ v <> u /\ min v u < un /\
      ((v < u /\ exists q, cross_at ev eu = Some (q, p) /\ (z3 p <=? z3 q) = true) \/
       (u < v /\ exists q, cross_at eu ev = Some (p, q) /\ (z3 p <=? z3 q) = true)).
End Spec.
