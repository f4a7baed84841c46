(** Num.v - the arithmetic the program uses, as a record of operations.

    The C++ code computes with double (and float).  Every modelled function is
    written against this record, so a theorem that quantifies over [Arith] holds
    for IEEE arithmetic with any rounding, NaN and infinities, and a theorem
    about ideal geometry uses the instance over extended reals. *)
From Verif Require Import Base.

Class Arith := {
  num : Type;
  of_Z : Z -> num;               (* int -> double *)
  of_dec : Z -> Z -> num;        (* the decimal literal m * 10^e *)
  nadd : num -> num -> num;
  nsub : num -> num -> num;
  nmul : num -> num -> num;
  ndiv : num -> num -> num;
  nneg : num -> num;
  nabs : num -> num;             (* std::abs *)
  nsqrt : num -> num;            (* std::sqrt *)
  nlt : num -> num -> bool;      (* <, false on NaN *)
  nle : num -> num -> bool;      (* <=, false on NaN *)
  neq : num -> num -> bool;      (* ==, false on NaN *)
  sum3 : num -> num -> num -> num; (* Eigen's sum of three coefficients; its
                                      association depends on the build *)
  to_f32 : num -> num;           (* double -> float -> double *)
  to_int : num -> option Z;      (* float -> int; None: out of range, undefined *)
  dbl_max : num;                 (* std::numeric_limits<double>::max() *)
  nsin : num -> num;
  ncos : num -> num;
  nacos : num -> num;
  natan2 : num -> num -> num;
  nsorter : sorter;              (* std::sort, see Base.v *)
}.

Declare Scope num_scope.
Delimit Scope num_scope with num.
Bind Scope num_scope with num.
Infix "+" := nadd : num_scope.
Infix "-" := nsub : num_scope.
Infix "*" := nmul : num_scope.
Infix "/" := ndiv : num_scope.
Notation "- x" := (nneg x) : num_scope.
Infix "<?" := nlt : num_scope.
Infix "<=?" := nle : num_scope.
Infix "=?" := neq : num_scope.

Section Vec.
  Context {A : Arith}.
  Local Open Scope num_scope.

  Definition nz : num := of_Z 0.
  Definition n1 : num := of_Z 1.

  (** a > b, a >= b, a != b in C++. *)
  Definition ngt (a b : num) : bool := b <? a.
  Definition nge (a b : num) : bool := b <=? a.
  Definition nne (a b : num) : bool := negb (a =? b).

  (** std::min(a,b) returns b if b < a, else a; std::max(a,b) returns b if a < b. *)
  Definition nmin (a b : num) : num := if b <? a then b else a.
  Definition nmax (a b : num) : num := if a <? b then b else a.

  (** Eigen::RowVector2d, Eigen::RowVector3d, Eigen::Matrix3d (by rows). *)
  Record v2 := V2 { x2 : num; y2 : num }.
  Record v3 := V3 { x3 : num; y3 : num; z3 : num }.
  Record m3 := M3 { row0 : v3; row1 : v3; row2 : v3 }.

  Definition add3 (a b : v3) : v3 := V3 (x3 a + x3 b) (y3 a + y3 b) (z3 a + z3 b).
  Definition sub3 (a b : v3) : v3 := V3 (x3 a - x3 b) (y3 a - y3 b) (z3 a - z3 b).
  Definition mul3 (a : v3) (s : num) : v3 := V3 (x3 a * s) (y3 a * s) (z3 a * s).
  Definition div3 (a : v3) (s : num) : v3 := V3 (x3 a / s) (y3 a / s) (z3 a / s).
  Definition neg3 (a : v3) : v3 := V3 (- x3 a) (- y3 a) (- z3 a).
  Definition dot3 (a b : v3) : num := sum3 (x3 a * x3 b) (y3 a * y3 b) (z3 a * z3 b).
  Definition sqn3 (a : v3) : num := dot3 a a.            (* squaredNorm *)
  Definition norm3 (a : v3) : num := nsqrt (sqn3 a).     (* norm *)
  (** Eigen normalized(): divides by the norm only if squaredNorm() > 0. *)
  Definition normalized3 (a : v3) : v3 :=
    let z := sqn3 a in if nz <? z then div3 a (nsqrt z) else a.
  Definition cross3 (a b : v3) : v3 :=
    V3 (y3 a * z3 b - z3 a * y3 b) (z3 a * x3 b - x3 a * z3 b) (x3 a * y3 b - y3 a * x3 b).
  Definition eq3 (a b : v3) : bool := (x3 a =? x3 b) && (y3 a =? y3 b) && (z3 a =? z3 b).
  Definition zero3 : v3 := V3 nz nz nz.                  (* geo::point::zero *)

  (** Row vector times matrix. *)
  Definition mulm (v : v3) (m : m3) : v3 :=
    V3 (sum3 (x3 v * x3 (row0 m)) (y3 v * x3 (row1 m)) (z3 v * x3 (row2 m)))
       (sum3 (x3 v * y3 (row0 m)) (y3 v * y3 (row1 m)) (z3 v * y3 (row2 m)))
       (sum3 (x3 v * z3 (row0 m)) (y3 v * z3 (row1 m)) (z3 v * z3 (row2 m))).
  Definition eqm (a b : m3) : bool :=
    eq3 (row0 a) (row0 b) && eq3 (row1 a) (row1 b) && eq3 (row2 a) (row2 b).
  Definition zerom : m3 := M3 zero3 zero3 zero3.   (* EIGEN_INITIALIZE_MATRICES_BY_ZERO *)

  Definition add2 (a b : v2) : v2 := V2 (x2 a + x2 b) (y2 a + y2 b).
  Definition sub2 (a b : v2) : v2 := V2 (x2 a - x2 b) (y2 a - y2 b).
  Definition mul2 (a : v2) (s : num) : v2 := V2 (x2 a * s) (y2 a * s).
  Definition div2 (a : v2) (s : num) : v2 := V2 (x2 a / s) (y2 a / s).
  Definition dot2 (a b : v2) : num := x2 a * x2 b + y2 a * y2 b.
  Definition sqn2 (a : v2) : num := dot2 a a.
  Definition normalized2 (a : v2) : v2 :=
    let z := sqn2 a in if nz <? z then div2 a (nsqrt z) else a.
  Definition eq2 (a b : v2) : bool := (x2 a =? x2 b) && (y2 a =? y2 b).
  Definition xy (a : v3) : v2 := V2 (x3 a) (y3 a).
End Vec.
