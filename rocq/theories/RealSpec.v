(** RealSpec.v - plain real geometry, and what it means for model values in exact
    arithmetic to be given points, matrices and facets. *)
From Coq Require Import Reals.
From Verif Require Import Base Num NumReal Geo Stl.

Local Unset Implicit Arguments.
Local Open Scope R_scope.

Record rpt := P3 { rx : R; ry : R; rz : R }.
Definition radd (a b : rpt) := P3 (rx a + rx b) (ry a + ry b) (rz a + rz b).
Definition rsub (a b : rpt) := P3 (rx a - rx b) (ry a - ry b) (rz a - rz b).
Definition rscale (k : R) (a : rpt) := P3 (k * rx a) (k * ry a) (k * rz a).
Definition rdot (a b : rpt) : R := rx a * rx b + ry a * ry b + rz a * rz b.
Definition rcross (a b : rpt) : rpt :=
  P3 (ry a * rz b - rz a * ry b) (rz a * rx b - rx a * rz b) (rx a * ry b - ry a * rx b).
Definition rzero : rpt := P3 0 0 0.
(** The point at parameter t on the segment from a to b. *)
Definition between (a b : rpt) (t : R) : rpt := radd a (rscale t (rsub b a)).

(** Matrices by rows; a row vector times a matrix. *)
Record rmat := RM { r0 : rpt; r1 : rpt; r2 : rpt }.
Definition rmul (v : rpt) (m : rmat) : rpt :=
  P3 (rx v * rx (r0 m) + ry v * rx (r1 m) + rz v * rx (r2 m))
     (rx v * ry (r0 m) + ry v * ry (r1 m) + rz v * ry (r2 m))
     (rx v * rz (r0 m) + ry v * rz (r1 m) + rz v * rz (r2 m)).
(** A proper rotation: keeps dot products (hence lengths and angles) and does
    not mirror, that is it commutes with the cross product. *)
Definition rotation (m : rmat) : Prop :=
  (forall v w, rdot (rmul v m) (rmul w m) = rdot v w) /\
  (forall v w, rcross (rmul v m) (rmul w m) = rmul (rcross v w) m).

(** Model values that are given real values. *)
Definition emb (p : rpt) : @v3 XR := V3 (Fin (rx p) : @num XR) (Fin (ry p) : @num XR) (Fin (rz p) : @num XR).
Definition embm (m : rmat) : @m3 XR := M3 (emb (r0 m)) (emb (r1 m)) (emb (r2 m)).
Definition emb2 (x y : R) : @v2 XR := V2 (Fin x : @num XR) (Fin y : @num XR).

(** A triangle with its unit normal and plane offset. *)
Record tri := T3 { tn : rpt; t0 : rpt; t1 : rpt; t2 : rpt; tr : R }.
Definition embf (t : tri) : @facet XR := Facet (emb (tn t)) (emb (t0 t)) (emb (t1 t)) (emb (t2 t)) (Fin (tr t) : @num XR).
(** The normal is a unit vector orthogonal to the triangle, the vertices turn
    counter-clockwise around it and the offset is that of each vertex. *)
Definition proper (t : tri) : Prop :=
  rdot (tn t) (tn t) = 1 /\ rdot (tn t) (rsub (t1 t) (t0 t)) = 0 /\ rdot (tn t) (rsub (t2 t) (t0 t)) = 0 /\
  0 < rdot (tn t) (rcross (rsub (t1 t) (t0 t)) (rsub (t2 t) (t0 t))) /\
  rdot (tn t) (t0 t) = tr t /\ rdot (tn t) (t1 t) = tr t /\ rdot (tn t) (t2 t) = tr t.
(** The triangle seen in another view; its plane offset is the same. *)
Definition turned (m : rmat) (t : tri) : tri := T3 (rmul (tn t) m) (rmul (t0 t) m) (rmul (t1 t) m) (rmul (t2 t) m) (tr t).

(** ** Seeing along z *)
(** w is a point of the (closed) triangle on the sight line through q. *)
Definition over (t : tri) (q w : rpt) : Prop :=
  exists a b c, 0 <= a /\ 0 <= b /\ 0 <= c /\ a + b + c = 1 /\ w = radd (rscale a (t0 t)) (radd (rscale b (t1 t)) (rscale c (t2 t))) /\
    rx w = rx q /\ ry w = ry q.
(** The triangle has a point on the sight line that is not behind q. *)
Definition covered (t : tri) (q : rpt) : Prop := exists w, over t q w /\ rz q <= rz w.
(** The sight line through q meets the inside of the triangle. *)
Definition within (t : tri) (q : rpt) : Prop :=
  exists a b c, 0 < a /\ 0 < b /\ 0 < c /\ a + b + c = 1 /\ exists w, w = radd (rscale a (t0 t)) (radd (rscale b (t1 t)) (rscale c (t2 t))) /\
    rx w = rx q /\ ry w = ry q.
(** Turned to the viewer. *)
Definition facing (t : tri) : Prop := 0 < rz (tn t).
Definition facingb (t : tri) : bool := if Rlt_dec 0 (rz (tn t)) then true else false.
(** Where the triangle meets a sight line through the segment a..b, it is not
    behind the segment, and where its inside does, it is strictly in front. The
    segment may touch the triangle along its sides. *)
Definition lies_before (t : tri) (a b : rpt) : Prop :=
  forall x w, 0 <= x <= 1 -> over t (between a b x) w ->
    rz (between a b x) <= rz w /\ (within t (between a b x) -> rz (between a b x) < rz w).

(** The parts of the edge a..b that are drawn, as parameter intervals. *)
Record strip := Strip { sa : rpt; sb : rpt; shown : list (R * R) }.
Definition strokes (s : strip) : list (@line XR) :=
  map (fun i => line3 (emb (between (sa s) (sb s) (fst i))) (emb (between (sa s) (sb s) (snd i)))) (shown s).
(** Non-empty intervals in increasing order, from u on and up to 1. *)
Fixpoint chain (u : R) (l : list (R * R)) : Prop :=
  match l with
  | nil => u <= 1
  | cons (x, y) l' => u <= x /\ x < y /\ chain y l'
  end.
Definition drawn (s : strip) (t : R) : Prop := exists i, In i (shown s) /\ fst i <= t <= snd i.
