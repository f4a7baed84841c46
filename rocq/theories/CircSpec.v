(** CircSpec.v - sums in any order, and how well points fix a circle. *)
From Coq Require Import Reals ZArith List Permutation.
From Flocq Require Import Core IEEE754.BinarySingleNaN.
From Verif Require Import Base Num NumReal NumF64 Geo Ast F64Spec RealSpec CircleSpec.
Import ListNotations.

Local Unset Implicit Arguments.

Section AnyOrder.
  Context {A : Arith}.
  (** x is a sum of these numbers, taken in some order. *)
  Inductive sum_of : list num -> num -> Prop :=
  | so_nil : sum_of [] nz
  | so_one x : sum_of [x] x
  | so_add l1 l2 x y : sum_of l1 x -> sum_of l2 y -> sum_of (l1 ++ l2) (nadd x y)
  | so_perm l l' x : Permutation l l' -> sum_of l x -> sum_of l' x.
  (** Entry (f, g) of Xt * X. *)
  Definition entry (ps : list v2) (f g : v3 -> num) (x : num) : Prop := sum_of (map (fun p => nmul (f (fc_row p)) (g (fc_row p))) ps) x.
  Definition gram_any (ps : list v2) (g : m3) : Prop :=
    (entry ps x3 x3 (x3 (row0 g)) /\ entry ps x3 y3 (y3 (row0 g)) /\ entry ps x3 z3 (z3 (row0 g))) /\
    (entry ps y3 x3 (x3 (row1 g)) /\ entry ps y3 y3 (y3 (row1 g)) /\ entry ps y3 z3 (z3 (row1 g))) /\
    (entry ps z3 x3 (x3 (row2 g)) /\ entry ps z3 y3 (y3 (row2 g)) /\ entry ps z3 z3 (z3 (row2 g))).
  Definition comp_any (ps : list v2) (r : v3) (x : num) : Prop := sum_of (map (fun p => nmul (dot3 r (fc_row p)) (fc_y p)) ps) x.
  (** center.cc:37-65 with the sums of both products in whatever order Eigen takes them. *)
  Definition fits_any (ps : list v2) (c : v2) (rad : num) : Prop :=
    (3 <= length ps)%nat /\ exists g z, gram_any ps g /\ comp_any ps (row0 (inv3 g)) (x2 c) /\ comp_any ps (row1 (inv3 g)) (y2 c) /\ comp_any ps (row2 (inv3 g)) z /\
      rad = nsqrt (nadd (nadd z (nmul (x2 c) (x2 c))) (nmul (y2 c) (y2 c))).
  (** ast.cc:134-151 and stl-to-ps.cc:273-296: the circle through the three points that are
      closest to t, then the circle that fits the points within a tenth of it. *)
  Definition fit_any (ps : point_set) (t c : v2) (rad : num) : Prop :=
    exists c1 r1, fits_any (closest (map xy ps) 3 t) c1 r1 /\
      fits_any (Ast.between (map xy ps) (nmul r1 (nsub n1 (of_dec 1 (-1)))) (nmul r1 (nadd n1 (of_dec 1 (-1)))) c1) c rad.
End AnyOrder.

Local Open Scope R_scope.
(** The area of a triangle. *)
Definition area (p q r : pt2) : R := ((fst q - fst p) * (snd r - snd p) - (snd q - snd p) * (fst r - fst p)) / 2.
(** The sum of the squared areas of all triangles with these corners. *)
Fixpoint areas2 (p q : pt2) (l : list pt2) : R := match l with [] => 0 | r :: l => area p q r * area p q r + areas2 p q l end.
Fixpoint areas1 (p : pt2) (l : list pt2) : R := match l with [] => 0 | q :: l => areas2 p q l + areas1 p l end.
Fixpoint areas (l : list pt2) : R := match l with [] => 0 | p :: l => areas1 p l + areas l end.

(** c, rho: the circle that fits the points best.  There are at most 2^m points; they and the
    centre are within 2^k of the origin in both coordinates; their triangles are so large
    that they fix the circle to d binary digits less than the doubles have. *)
Definition fixes (k m d : Z) (l : list pt2) (c : pt2) (rho : R) : Prop :=
  (-80 <= k <= 80)%Z /\ (2 <= m <= 40)%Z /\ (0 <= d)%Z /\ (m + d <= 44)%Z /\ (Z.of_nat (length l) <= 2 ^ m)%Z /\
  (forall p, In p (c :: l) -> Rabs (fst p) <= bp k /\ Rabs (snd p) <= bp k) /\
  bp (4 * k - 2) * bp (3 * m - d) <= areas l /\ best_circle l c rho /\ bp (2 * k + m + d - 41) <= rho * rho.
(** The point that two doubles stand for. *)
Definition finite2 {lm asc} (p : @v2 (F64 lm asc)) : Prop := fin (x2 p : f64) /\ fin (y2 p : f64).
Definition val2 {lm asc} (p : @v2 (F64 lm asc)) : pt2 := (B2R (x2 p : f64), B2R (y2 p : f64)).
(** No point is between a sixteenth and an eighth of the radius off the circle. *)
Definition apart (l : list pt2) (c : pt2) (rho : R) : Prop :=
  forall p, In p l -> Rabs (dist p c - rho) <= rho / 16 \/ rho / 8 <= Rabs (dist p c - rho).
