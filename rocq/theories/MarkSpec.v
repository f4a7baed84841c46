(** MarkSpec.v - specification: where on the page the marks of a dimension are. *)
From Coq Require Import Reals.
From Verif Require Import Base Num NumReal Geo Stl RealSpec Env Ast Ps Draw DocSpec CircleSpec.

Local Unset Implicit Arguments.
Local Open Scope R_scope.

(** ** Page points, in points (1/72 inch) *)
(** Where the draw with scale sc and offset off shows p. *)
Definition shown_at (sc : R) (off : pt2) (p : rpt) : pt2 := (rx p * sc + fst off, ry p * sc + snd off).
Definition seg (p q : pt2) : @line XR := Line (e2 p) (e2 q).
(** k points from p along d. *)
Definition go (p : pt2) (k : R) (d : pt2) : pt2 := (fst p + k * fst d, snd p + k * snd d).
Definition dot (a b : pt2) : R := fst a * fst b + snd a * snd b.
Definition diff (a b : pt2) : pt2 := (fst a - fst b, snd a - snd b).
(** A quarter turn to the left. *)
Definition left_of (d : pt2) : pt2 := (- snd d, fst d).
Definition unit2 (d : pt2) : Prop := dot d d = 1.
(** d is the direction from p to q, zero if they are the same. *)
Definition heading (p q d : pt2) : Prop := (p = q /\ d = (0, 0)) \/ (unit2 d /\ exists k, 0 < k /\ q = go p k d).
(** q is the foot of the perpendicular from p to the line through a along u. *)
Definition foot (a u p q : rpt) : Prop := (exists k, q = radd a (rscale k u)) /\ rdot (rsub p q) u = 0.

(** The two lines of an arrow head with its tip at p: from the tip to k points
    along d and 2 points to either side. *)
Definition barbs (p : pt2) (k : R) (d : pt2) : list (@line XR) :=
  [seg p (go (go p k d) 2 (left_of d)); seg p (go (go p k d) (-2) (left_of d))].

(** ** dim.  A is the label, F and T the ends of the measured length on the
    dimension line, Pf and Pt the measured points. *)
(** The half size of the box for a label of n characters. *)
Definition half_width (n : nat) : R := 8 * (3 / 10) * INR n + 1.
Definition half_height : R := 8 * (333 / 1000) + 1.
(** Going g points from the middle of a w by h box (half sizes) along d leads to its border. *)
Definition to_border (w h : R) (d : pt2) (g : R) : Prop :=
  0 <= g /\ g * Rabs (fst d) <= w /\ g * Rabs (snd d) <= h /\ (g * Rabs (fst d) = w \/ g * Rabs (snd d) = h).
(** 1 if p is to the left of the line through a along d, otherwise -1. *)
Definition sided (a d p : pt2) (sg : R) : Prop :=
  (0 < dot (diff p a) (left_of d) /\ sg = 1) \/ (dot (diff p a) (left_of d) <= 0 /\ sg = -1).
(** From 4 points beyond the dimension line to 2 points before the measured point. *)
Definition extension (A d F Pf : pt2) (l : @line XR) : Prop :=
  exists sg, sided A d Pf sg /\ l = seg (go F (-4 * sg) (left_of d)) (go Pf (-2 * sg) (left_of d)).
Definition dim_marks (A F T Pf Pt : pt2) (n : nat) (len : R) (ls : list (@line XR)) : Prop :=
  exists d xf xt, heading F T d /\ extension A d F Pf xf /\ extension A d T Pt xt /\
    ((exists g, to_border (half_width n) half_height d g /\ 2 * g < len /\
        ls = [seg F (go A (- g) d); seg (go A g d) T] ++ [xf; xt] ++ barbs F 6 d ++ barbs T (-6) d) \/
     ((forall g, to_border (half_width n) half_height d g -> len <= 2 * g) /\
        ls = [seg F (go F (-10) d); seg T (go T 10 d)] ++ [xf; xt] ++ barbs F (-6) d ++ barbs T 6 d)).

(** ** dia and rad.  The leader goes along the direction d of the circle around
    C, up to its rim (at distance rho) or to the first place level with the
    label A: straight above or below it, or beside it. *)
Definition level (C A d : pt2) (l : R) : Prop :=
  (fst d <> 0 /\ l * fst d = fst A - fst C) \/ (snd d <> 0 /\ l * snd d = snd A - snd C).
Inductive bend (C A d : pt2) (sc rho : R) : pt2 -> Prop :=
| Bend_rim : (exists l, level C A d l /\ l <= sc) \/ (fst d = 0 /\ fst A <= fst C) \/ (snd d = 0 /\ snd A < snd C) ->
    bend C A d sc rho (go C rho d)
| Bend_label l : level C A d l -> sc < l -> (forall l', level C A d l' -> l <= l') ->
    (fst d = 0 -> fst C < fst A) -> (snd d = 0 -> snd C <= snd A) -> bend C A d sc rho (go C l d).
Definition dia_marks (C A d : pt2) (sc rho : R) (ls : list (@line XR)) : Prop :=
  exists X, bend C A d sc rho X /\
    ls = [seg (go C (- rho) d) X; seg X A] ++ barbs (go C rho d) (-6) d ++ barbs (go C (- rho) d) 6 d.
Definition rad_marks (C A d : pt2) (sc rho : R) (ls : list (@line XR)) : Prop :=
  exists X, bend C A d sc rho X /\ ls = [seg C X; seg X A] ++ barbs (go C rho d) (-6) d.
(** q is on the segment from p to r *)
Definition on_seg (p r q : pt2) : Prop := exists k, 0 <= k <= 1 /\ q = go p k (diff r p).

(** ** angle.  From the direction U turning left by less than half a turn to V,
    both of length 1, around P, at distance rad. *)
Definition turns_left (u v : pt2) : Prop := 0 < fst u * snd v - snd u * fst v.
(** The direction at angle a. *)
Definition rim (a : R) : pt2 := (cos a, sin a).
(** The angle of a direction, as a number of radians up to half a turn. *)
Definition has_angle (d : pt2) (th : R) : Prop := - Rtrigo1.PI < th <= Rtrigo1.PI /\ exists k, 0 < k /\ d = (k * cos th, k * sin th).
(** The direction square to U in the plane of U and V, on V's side. *)
Definition square_to (U V W : rpt) : Prop :=
  rdot W W = 1 /\ rdot W U = 0 /\ exists x y, 0 < y /\ W = radd (rscale x U) (rscale y V).
(** One side: a line from 2 points after the start S to 4 points beyond the arc. *)
Definition side_line (P S : pt2) (U : rpt) (rad : R) : @line XR := seg (go S 2 (flat2 U)) (go P (rad + 4) (flat2 U)).
(** An arrow head at T, 6 points long towards the inside of the angle. *)
Definition arc_barbs (T : pt2) (U W : rpt) : list (@line XR) :=
  [seg T (go (go T 2 (flat2 U)) 6 (flat2 W)); seg T (go (go T (-2) (flat2 U)) 6 (flat2 W))].
Definition angle_marks (P SU SV : pt2) (U V : rpt) (rad : R) (ls : list (@line XR)) (ars : list (@arc XR)) : Prop :=
  turns_left (flat2 U) (flat2 V) /\ exists W X a b, square_to U V W /\ square_to V U X /\ has_angle (flat2 U) a /\ has_angle (flat2 V) b /\
    ls = [side_line P SU U rad; side_line P SV V rad] ++ arc_barbs (go P rad (flat2 U)) U W ++ arc_barbs (go P rad (flat2 V)) V X /\
    ars = [Arc (e2 P) (Fin rad : @num XR) (Fin a : @num XR) (Fin b : @num XR)].
(** A side of an angle with this apex, given by its direction (and then it
    starts at the apex) or by a point on it (where it then starts). *)
Definition side_seen {E : @Env XR} (s : @vst XR) (ml : list (@meta XR)) (kd kp : string) (apex u start : rpt) : Prop :=
  (evaluates (v_points s) (v_rot s) ml kd (emb u) /\ start = apex) \/
  (evaluates (v_points s) (v_rot s) ml kp (emb start) /\ u = rsub start apex).
(** The direction of u. *)
Definition direction (u U : rpt) : Prop := rdot U U = 1 /\ exists k, 0 < k /\ u = rscale k U.
(** Distance of two points. *)
Definition far_from (p q : rpt) : R := sqrt (rdot (rsub p q) (rsub p q)).
