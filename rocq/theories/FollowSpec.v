(** FollowSpec.v - specification: how close the lines of a drawing are to the sides of the facets. *)
From Coq Require Import Reals ZArith List.
From Flocq Require Import Core IEEE754.BinarySingleNaN.
From Verif Require Import Base Num NumF64 Geo Stl Ast F64Spec ErrSpec ViewSpec RealSpec.
Import ListNotations.

Local Unset Implicit Arguments.
Local Open Scope R_scope.

(** An angle in degrees, with the true value of pi. *)
Definition radians (d : R) : R := d * Rtrigo1.PI / 180.
(** The point at the fraction t of the way from p to q. *)
Definition on_the_way (t : R) (p q : rpt) : rpt := P3 (rx p + t * (rx q - rx p)) (ry p + t * (ry q - ry p)) (rz p + t * (rz q - rz p)).
Section Follow.
  Context (lm : libm) (asc : bool).
  Notation AN := (F64 lm asc).
  (** The matrix is that of a view in which a point is seen where [see] says, exactly: one of the
      named views, or a turn and a tilt by two angles of at most 1024 degrees. *)
  Definition sees (m : @m3 AN) (see : rpt -> rpt) : Prop :=
    (exists n, matrix_by_name (A := AN) n = Some m /\ forall p, look n p = Some (see p)) \/
    (exists a : @v2 AN, bnd 10 (x2 a : f64) /\ bnd 10 (y2 a : f64) /\ m = matrix_by_ang (A := AN) a /\
      forall p, see p = tilt (radians (B2R (y2 a : f64))) (spin (radians (B2R (x2 a : f64))) p)).
  Definition within3 (e : R) (p : @v3 AN) (q : rpt) : Prop := close e (x3 p : f64) (rx q) /\ close e (y3 p : f64) (ry q) /\ close e (z3 p : f64) (rz q).
  (** On the page. *)
  Definition within2 (e : R) (p : @v2 AN) (q : rpt) : Prop := close e (x2 p : f64) (rx q) /\ close e (y2 p : f64) (ry q).
  Definition side_of (f : @facet AN) (c d : @v3 AN) : Prop := In (c, d) [(fe0 f, fe1 f); (fe1 f, fe2 f); (fe2 f, fe0 f)].
  (** Both ends of the line are within e of points of the same side of the facet, as they are seen. *)
  Definition follows (e : R) (see : rpt -> rpt) (f : @facet AN) (l : @line AN) : Prop :=
    exists c d t u, side_of f c d /\ 0 <= t <= 1 /\ 0 <= u <= 1 /\
      within2 e (lo l) (see (on_the_way t (val3 lm asc c) (val3 lm asc d))) /\
      within2 e (lt_ l) (see (on_the_way u (val3 lm asc c) (val3 lm asc d))).
End Follow.
