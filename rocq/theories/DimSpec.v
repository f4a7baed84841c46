(** DimSpec.v - specification: the numbers that dimensions print. *)
From Coq Require Import Reals.
From Verif Require Import Base Num NumReal Geo Stl RealSpec Env Ast Ps Draw DocSpec CircleSpec.

Local Unset Implicit Arguments.
Local Open Scope R_scope.

(** Property n is the coordinate triple p. *)
Definition coordinate (ml : list (@meta XR)) (n : string) (p : rpt) : Prop :=
  exists x l, In x ml /\ m_name x = B n /\ m_val x = MPoint (PVal (emb p) l).
(** Property n is not given. *)
Definition absent (ml : list (@meta XR)) (n : string) : Prop := ~ has ml n.
(** The format: property fmt, or else the default. *)
Definition format_of (ml : list (@meta XR)) (dflt : string) (fm : bytes) : Prop :=
  (exists x, In x ml /\ m_name x = B "fmt" /\ m_val x = MStr fm) \/ (absent ml "fmt" /\ fm = B dflt).
(** A side of an angle with this apex: its direction, or the direction to a point. *)
Definition side_dir (ml : list (@meta XR)) (kd kp : string) (apex u : rpt) : Prop :=
  coordinate ml kd u \/ exists p, coordinate ml kp p /\ u = rsub p apex.

(** Length of the part of the way from f to t that goes along u. *)
Definition along (u f t : rpt) : R := Rabs (rdot (rsub t f) u) / sqrt (rdot u u).
(** The angle between two directions, in degrees, with the program's 3.1415926535897932. *)
Definition degrees (u v : rpt) : R :=
  acos (rdot u v / (sqrt (rdot u u) * sqrt (rdot v v))) * 180 / (31415926535897932 / 10000000000000000).

(** Where a draw puts the centre of its drawing: the place of @, in inches from
    the middle of the page, or the page origin; in points. *)
Definition asks_place (ml : list (@meta XR)) (tx ty : R) : Prop :=
  (exists x a b, In x ml /\ m_name x = B "@" /\ m_val x = MLoc (emb2 a b) /\ tx = 72 * a + 396 /\ ty = 72 * b + 306) \/
  (absent ml "@" /\ tx = 0 /\ ty = 0).
(** [x0,x1]x[y0,y1] is the bounding box of the projections of these points. *)
Definition bounds (vs : list (@v3 XR)) (x0 x1 y0 y1 : R) : Prop :=
  (forall v, In v vs -> exists p, v = emb p /\ x0 <= rx p <= x1 /\ y0 <= ry p <= y1) /\
  (exists p, In (emb p) vs /\ rx p = x0) /\ (exists p, In (emb p) vs /\ rx p = x1) /\
  (exists p, In (emb p) vs /\ ry p = y0) /\ (exists p, In (emb p) vs /\ ry p = y1).

(** c, rho: the circle that the program measures at t in the view showing ps. *)
Definition measured (ps : list rpt) (t c : pt2) (rho : R) : Prop :=
  exists k c0 rho0, @closest XR (map e2 (map flat2 ps)) 3 (e2 t) = map e2 k /\ spread k /\ 0 < rho0 /\
    (forall p, In p k -> gap2 p c0 = rho0 * rho0) /\ best_circle (near_circle (map flat2 ps) c0 rho0) c rho.
