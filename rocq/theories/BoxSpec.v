(** BoxSpec.v - the size of a view and boxes on the page, in plain real geometry. *)
From Coq Require Import Reals List.
From Verif Require Import Base Num NumReal Geo RealSpec DimSpec.

Local Unset Implicit Arguments.
Local Open Scope R_scope.

Definition corner (t : tri) (p : rpt) : Prop := p = t0 t \/ p = t1 t \/ p = t2 t.
(** Seen along z, no two corners of the triangles are more than w apart in x and more than h in y. *)
Definition sized (vs : list tri) (w h : R) : Prop :=
  forall t u p q, In t vs -> In u vs -> corner t p -> corner u q -> rx q - rx p <= w /\ ry q - ry p <= h.
(** A point of the box with the given centre, width and height. *)
Definition in_box2 (cx cy w h : R) (v : @v2 XR) : Prop := exists x y, v = emb2 x y /\ Rabs (x - cx) <= w / 2 /\ Rabs (y - cy) <= h / 2.
