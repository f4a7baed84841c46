(** HideSpec.v - exactly which part of an edge a facet hides, in plain real
    geometry. Nothing here refers to the model's edge tables or sorting. *)
From Coq Require Import Reals List.
From Verif Require Import RealSpec.
Import ListNotations.

Local Unset Implicit Arguments.
Local Open Scope R_scope.

(** The three sides of a triangle. *)
Definition tri_sides (t : tri) : list (rpt * rpt) := [(t0 t, t1 t); (t1 t, t2 t); (t2 t, t0 t)].
(** The segment a..b is one of them, in either direction. *)
Definition own (t : tri) (a b : rpt) : Prop := In (a, b) (tri_sides t) \/ In (b, a) (tri_sides t).
(** The projections of a..b and p..q along z are not parallel. *)
Definition askew (a b p q : rpt) : Prop := (rx q - rx p) * (ry b - ry a) - (rx b - rx a) * (ry q - ry p) <> 0.
(** At parameter x the segment a..b has one of its ends, strictly behind the triangle. *)
Definition ends_behind (t : tri) (a b : rpt) (x : R) : Prop :=
  (x = 0 \/ x = 1) /\ exists w, over t (between a b x) w /\ rz (between a b x) < rz w.
(** At parameter x the projection of a..b crosses that of a side of the
    triangle, and there the segment is not in front of the side. *)
Definition passes (t : tri) (a b : rpt) (x : R) : Prop :=
  0 <= x <= 1 /\ exists p q i, In (p, q) (tri_sides t) /\ askew a b p q /\ 0 <= i <= 1 /\
    rx (between p q i) = rx (between a b x) /\ ry (between p q i) = ry (between a b x) /\ rz (between a b x) <= rz (between p q i).
Definition stop (t : tri) (a b : rpt) (x : R) : Prop := ends_behind t a b x \/ passes t a b x.
(** The triangle hides what is between the first and the last of these places,
    unless the segment is one of its own sides. *)
Definition hides (t : tri) (a b : rpt) (x : R) : Prop :=
  ~ own t a b /\ exists u v, u < v /\ u <= x <= v /\ stop t a b u /\ stop t a b v.

(** Non-empty intervals in increasing order from u on and up to 1, with gaps
    between them. *)
Fixpoint spaced (u : R) (l : list (R * R)) : Prop :=
  match l with
  | nil => u <= 1
  | cons (x, y) l' => u <= x /\ x < y /\ match l' with nil => True | cons (x', _) _ => y < x' end /\ spaced y l'
  end.
