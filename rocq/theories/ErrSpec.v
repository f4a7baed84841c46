(** ErrSpec.v - specification: how far a result in doubles may be from the exact one. *)
From Coq Require Import Reals ZArith.
From Flocq Require Import Core IEEE754.BinarySingleNaN.
From Verif Require Import Base Num NumF64 Geo Stl Env Ast Draw F64Spec DocSpec RealSpec DimSpec TextSpec.

Local Unset Implicit Arguments.
Local Open Scope R_scope.

Section Err.
  Context (lm : libm) (asc : bool).
  Notation AN := (F64 lm asc).
  (** The point that three finite doubles stand for. *)
  Definition val3 (p : @v3 AN) : rpt := P3 (B2R (x3 p : f64)) (B2R (y3 p : f64)) (B2R (z3 p : f64)).
  (** x is finite and within e of r. *)
  Definition close (e : R) (x : f64) (r : R) : Prop := fin x /\ Rabs (B2R x - r) <= e.
  (** sine and cosine are at most one and within 2^-53 of the real functions. *)
  Definition trig_close : Prop := forall x, fin x ->
    bnd 0 (l_sin lm x) /\ bnd 0 (l_cos lm x) /\ close (bp (-53)) (l_sin lm x) (sin (B2R x)) /\ close (bp (-53)) (l_cos lm x) (cos (B2R x)).
  (** The matrix of a named view or of two angles. *)
  Definition a_view (m : @m3 AN) : Prop := (exists n, matrix_by_name (A := AN) n = Some m) \/ (exists a : @v2 AN, bnd 1000 (x2 a : f64) /\ bnd 1000 (y2 a : f64) /\ m = matrix_by_ang (A := AN) a).
  (** Property n of the dimension is what the view shows of the point p: p itself was
      written, or a function such as near() found the vertex p. *)
  Definition is_point (s : @vst AN) (d : @dim AN) (n : string) (p : @v3 AN) : Prop :=
    evaluates (v_points s) (v_rot s) (d_meta d) n (mulm p (v_rot s)).
  Definition written (d : @dim AN) (n : string) (p : @v3 AN) : Prop := exists x l, In x (d_meta d) /\ m_name x = B n /\ m_val x = MPoint (PVal p l).
  (** acos of a number in [-1, 1] is within 2^-50. *)
  Definition acos_close : Prop := forall x, fin x -> Rabs (B2R x) <= 1 -> close (bp (-50)) (l_acos lm x) (acos (B2R x)).
  (** A side of an angle: a direction that is not extremely long or short, or the way from
      the apex to a point that is not extremely close to it. *)
  Definition side64 (s : @vst AN) (d : @dim AN) (k : Z) (kd kp : string) (ap : @v3 AN) (u : rpt) : Prop :=
    (exists v, is_point s d kd v /\ bnd3 lm asc 200 v /\ u = val3 v /\ bp (-200) <= sqrt (rdot u u)) \/
    (exists p, is_point s d kp p /\ bnd3 lm asc k p /\ u = rsub (val3 p) (val3 ap) /\ bp (k - 10) <= sqrt (rdot u u)).
  (** The format writes a, the value with n decimals, b; n0 decimals without a format. *)
  Definition format64 (ml : list (@meta AN)) (n0 : nat) (a : bytes) (n : nat) (b : bytes) : Prop :=
    (~ has ml "fmt" /\ a = [] /\ n = n0 /\ b = []) \/
    (exists x p, In x ml /\ m_name x = B "fmt" /\ m_val x = MStr (a ++ (B "%." ++ p ++ B "f") ++ b) /\ spells p n /\ (n <= 100)%nat /\ ~ In "%"%char a /\ ~ In "%"%char b).
End Err.
Definition cosine (u v : rpt) : R := rdot u v / (sqrt (rdot u u) * sqrt (rdot v v)).
Definition angle_between (u v : rpt) : R := acos (cosine u v) * 180 / Rtrigo1.PI.
(** w has n decimals and is within e of r, besides the rounding to n decimals. *)
Definition decimal_within (n : nat) (e r : R) (w : bytes) : Prop := exists q, fixed n w q /\ Rabs (q - r) <= / 2 * ten (- Z.of_nat n) + e.
