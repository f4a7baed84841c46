(** PictSpec.v - the complete picture of a model in plain real geometry. *)
From Coq Require Import Reals List Permutation.
From Verif Require Import Base Num NumReal Geo Stl RealSpec HideSpec.
Import ListNotations.

Local Unset Implicit Arguments.
Local Open Scope R_scope.

(** ** The picture of a list of facets turned to the viewer *)
(** Points in lexicographic order. *)
Definition before (a b : rpt) : Prop := rx a < rx b \/ rx a = rx b /\ (ry a < ry b \/ ry a = ry b /\ rz a < rz b).
(** The segment is a common side of two of the facets (list entries) and the
    surface hardly bends there: the normals are less than 11.5 degrees apart. *)
Definition smooth (vs : list tri) (a b : rpt) : Prop :=
  exists t u rest, Permutation vs (t :: u :: rest) /\ own t a b /\ own u a b /\ 98 / 100 <= rdot (tn t) (tn u).
(** The segment is a side of three of them. *)
Definition crowded (vs : list tri) (a b : rpt) : Prop :=
  exists t u w rest, Permutation vs (t :: u :: w :: rest) /\ own t a b /\ own u a b /\ own w a b.
(** A segment to be drawn, as far as it is not hidden. *)
Definition outlined (vs : list tri) (a b : rpt) : Prop := before a b /\ (exists t, In t vs /\ own t a b) /\ ~ smooth vs a b.
(** Only what the predicate leaves over is drawn of the segment, and all of it
    (end points of a drawn interval may be end points of hidden ones). *)
Definition leaves (hid : R -> Prop) (s : strip) : Prop :=
  spaced 0 (shown s) /\ (forall x, 0 <= x <= 1 -> ~ hid x -> drawn s x) /\ (forall i x, In i (shown s) -> fst i < x < snd i -> ~ hid x).
Definition picture (vs : list tri) (ss : list strip) : Prop :=
  NoDup (map (fun s => (sa s, sb s)) ss) /\
  (forall a b, In (a, b) (map (fun s => (sa s, sb s)) ss) <-> outlined vs a b) /\
  (forall s, In s ss -> leaves (fun x => exists t, In t vs /\ hides t (sa s) (sb s) x) s).
(** The facets of a model that a view shows. *)
Definition seen (r : rmat) (ts : list tri) : list tri := filter facingb (map (turned r) ts).

(** ** Behind the inside of a facet *)
(** w is a point of the triangle that is not on its sides. *)
Definition inside (t : tri) (w : rpt) : Prop :=
  exists a b c, 0 < a /\ 0 < b /\ 0 < c /\ a + b + c = 1 /\ w = radd (rscale a (t0 t)) (radd (rscale b (t1 t)) (rscale c (t2 t))).
(** The segment pierces or touches the inside. *)
Definition meets (t : tri) (a b : rpt) : Prop := exists x, 0 <= x <= 1 /\ inside t (between a b x).
(** Seen along z, q is strictly behind a point inside the triangle. *)
Definition behind (t : tri) (q : rpt) : Prop := exists w, inside t w /\ rx w = rx q /\ ry w = ry q /\ rz q < rz w.

(** ** The same model elsewhere and in another size *)
Definition moved (k : R) (d p : rpt) : rpt := radd (rscale k p) d.
Definition moved_tri (k : R) (d : rpt) (t : tri) : tri :=
  T3 (tn t) (moved k d (t0 t)) (moved k d (t1 t)) (moved k d (t2 t)) (k * tr t + rdot (tn t) d).
Definition moved_line (k dx dy : R) (l : @line XR) : @line XR :=
  let f (v : @v2 XR) := V2 (@nadd XR (@nmul XR (Fin k) (x2 v)) (Fin dx)) (@nadd XR (@nmul XR (Fin k) (y2 v)) (Fin dy)) in
  Line (f (lo l)) (f (lt_ l)).
