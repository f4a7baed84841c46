(** CircleSpec.v - plain plane geometry: circles through and near points. *)
From Coq Require Import Reals.
From Verif Require Import Base Num NumReal RealSpec.

Local Unset Implicit Arguments.
Local Open Scope R_scope.

(** Points of the plane, and their values in exact arithmetic. *)
Definition pt2 : Type := (R * R)%type.
Definition e2 (p : pt2) : @v2 XR := emb2 (fst p) (snd p).
Definition flat2 (p : rpt) : pt2 := (rx p, ry p).
(** Squared distance and distance. *)
Definition gap2 (p q : pt2) : R := (fst p - fst q) * (fst p - fst q) + (snd p - snd q) * (snd p - snd q).
Definition dist (p q : pt2) : R := sqrt (gap2 p q).
(** Three points are not on one line. *)
Definition corner (p q r : pt2) : Prop :=
  (fst q - fst p) * (snd r - snd p) - (snd q - snd p) * (fst r - fst p) <> 0.
(** Not all points are on one line. *)
Definition spread (ps : list pt2) : Prop := exists p q r, In p ps /\ In q ps /\ In r ps /\ corner p q r.

Definition total (f : pt2 -> R) (ps : list pt2) : R := fold_right (fun p a => f p + a) 0 ps.
(** How badly the circle around c whose squared radius is s misses the points. *)
Definition misfit (ps : list pt2) (c : pt2) (s : R) : R :=
  total (fun p => (gap2 p c - s) * (gap2 p c - s)) ps.
(** The circle around c with radius rho fits the points better than all others. *)
Definition best_circle (ps : list pt2) (c : pt2) (rho : R) : Prop :=
  0 <= rho /\ forall c' s', misfit ps c (rho * rho) <= misfit ps c' s' /\
    (misfit ps c' s' = misfit ps c (rho * rho) -> c' = c /\ s' = rho * rho).

(** p is strictly between the circles of radius mn and mx around c. *)
Definition in_ring (mn mx : R) (c p : pt2) : bool := rltb mn (dist p c) && rltb (dist p c) mx.
(** The points within a tenth of the circle with radius rho around c. *)
Definition near_circle (l : list pt2) (c : pt2) (rho : R) : list pt2 := filter (in_ring (rho * (9 / 10)) (rho * (11 / 10)) c) l.

(** Moving and stretching the plane. *)
Definition shift (d p : pt2) : pt2 := (fst p + fst d, snd p + snd d).
Definition stretch (k : R) (p : pt2) : pt2 := (k * fst p, k * snd p).
(** A map of the plane onto itself that keeps distances. *)
Definition rigid (g : pt2 -> pt2) : Prop := (forall p q, gap2 (g p) (g q) = gap2 p q) /\ forall q, exists p, g p = q.
