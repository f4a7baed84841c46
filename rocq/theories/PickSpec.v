(** PickSpec.v - specification: selecting points by distance. *)
From Coq Require Import Sorting.Sorted Permutation.
From Verif Require Import Base Num.

Local Unset Implicit Arguments.
Section Pick.
  Context {A : Arith}.
  Local Open Scope num_scope.
  (** The computed squared distance. *)
  Definition sq_dist (p q : v2) : num := (x2 p - x2 q) * (x2 p - x2 q) + (y2 p - y2 q) * (y2 p - y2 q).
  (** p is strictly closer to [to] than q; p and q are equally far. *)
  Definition closer (to p q : v2) : Prop := (sq_dist p to <? sq_dist q to) = true.
  Definition as_far (to p q : v2) : Prop := ~ closer to p q /\ ~ closer to q p.
  (** q is within a tenth of its distance from p, and equally far. *)
  Definition coincides (to q p : v2) : Prop := as_far to q p /\ (sq_dist q p <? sq_dist q to * of_dec 1 (-2)) = true.
  (** The points of ps, each marked as selected or not. *)
  Definition marks (ps : list v2) (sel : list (v2 * bool)) : Prop := map fst sel = ps.
  Definition selected (sel : list (v2 * bool)) : list v2 := map fst (filter snd sel).
  Definition by_distance (to : v2) (l : list v2) : Prop := StronglySorted (fun p q => ~ closer to q p) l.
  Definition not_farther (to p q : v2) : bool := negb (sq_dist p to <? sq_dist q to).
End Pick.

(** Choosing the nearest vertex in the page plane. *)
Section Near.
  Context {A : Arith}.
  Local Open Scope num_scope.
  (** The computed squared distance between the projections of two points. *)
  Definition page_dist (p q : v3) : num :=
    sum3 ((x3 p - x3 q) * (x3 p - x3 q)) ((y3 p - y3 q) * (y3 p - y3 q)) ((nz - nz) * (nz - nz)).
  (** r is the projection of a point of ps, and none is nearer to t. *)
  Definition nearest (ps : list v3) (t r : v3) : Prop :=
    exists v, In v ps /\ r = V3 (x3 v) (y3 v) nz /\ forall w, In w ps -> (page_dist t w <? page_dist t v) = false.
End Near.
