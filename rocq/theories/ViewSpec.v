(** ViewSpec.v - the named views, in plain real geometry. *)
From Coq Require Import Reals List.
From Flocq Require Import IEEE754.BinarySingleNaN.
From Verif Require Import Base Num NumReal NumF64 Geo Stl RealSpec.

Local Unset Implicit Arguments.
Local Open Scope R_scope.

(** Page right, page up and towards the viewer, for each named view.  The axis in
    the name points at the viewer; z is up in the four side views. *)
Definition look (n : bytes) (p : rpt) : option rpt :=
  if bytes_eqb n (B "X+") then Some (P3 (ry p) (rz p) (rx p))
  else if bytes_eqb n (B "X-") then Some (P3 (- ry p) (rz p) (- rx p))
  else if bytes_eqb n (B "Y+") then Some (P3 (- rx p) (rz p) (ry p))
  else if bytes_eqb n (B "Y-") then Some (P3 (rx p) (rz p) (- ry p))
  else if bytes_eqb n (B "Z+") then Some (P3 (rx p) (ry p) (rz p))
  else if bytes_eqb n (B "Z-") then Some (P3 (rx p) (- ry p) (- rz p))
  else None.
Definition opposite (n n' : bytes) : Prop :=
  (n = B "X+" /\ n' = B "X-") \/ (n = B "Y+" /\ n' = B "Y-") \/ (n = B "Z+" /\ n' = B "Z-").
(** How far a direction points at the viewer. *)
Definition toward (n : bytes) (p : rpt) : R := match look n p with Some q => rz q | None => 0 end.
Definition turned_to (n : bytes) (p : rpt) : bool := if Rlt_dec 0 (toward n p) then true else false.
Definition edge_on (n : bytes) (p : rpt) : bool := if Req_EM_T (toward n p) 0 then true else false.

(** The real values of a vector of doubles. *)
Definition value3 {lm asc} (v : @v3 (F64 lm asc)) : rpt := P3 (B2R (x3 v : f64)) (B2R (y3 v : f64)) (B2R (z3 v : f64)).
(** A facet's normal and corners as real points, and how a named view shows them. *)
Definition value_facet {lm asc} (f : @facet (F64 lm asc)) : list rpt := map value3 [fnorm f; fe0 f; fe1 f; fe2 f].
Definition looks (n : bytes) (ps : list rpt) : list (option rpt) := map (look n) ps.
(** Turn about the z axis (counterclockwise seen from above) and tilt about the x axis (what was above comes to the front edge of the page). *)
Definition spin (a : R) (p : rpt) : rpt := P3 (rx p * cos a - ry p * sin a) (rx p * sin a + ry p * cos a) (rz p).
Definition tilt (b : R) (p : rpt) : rpt := P3 (rx p) (ry p * cos b + rz p * sin b) (rz p * cos b - ry p * sin b).
(** Degrees as an angle, with the value of pi the program uses (geo.h:37). *)
Definition degrees (d : R) : R := d * (31415926535897932 * powerRZ 10 (-16)) / 180.
