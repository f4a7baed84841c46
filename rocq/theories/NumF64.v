(** NumF64.v - IEEE 754 binary64 arithmetic from Flocq.

    Parameters: [lm] is an arbitrary libm (sin, cos, acos, atan2 are not
    correctly rounded in C++), [assoc] says how the build associates Eigen's sum
    of three products.  Contraction into fused multiply-add is not modelled. *)
From Coq Require Import ZArith Lia SpecFloat.
From Flocq Require Import Core IEEE754.BinarySingleNaN.
From Verif Require Import Base Num.

Definition f64 := binary_float 53 1024.
Definition f32 := binary_float 24 128.

Lemma prec64 : Prec_gt_0 53. Proof. reflexivity. Qed.
Lemma emax64 : Prec_lt_emax 53 1024. Proof. reflexivity. Qed.
Lemma prec32 : Prec_gt_0 24. Proof. reflexivity. Qed.
Lemma emax32 : Prec_lt_emax 24 128. Proof. reflexivity. Qed.

(** m * 2^e rounded to nearest even *)
Definition norm64 (m e : Z) : f64 := binary_normalize 53 1024 prec64 emax64 mode_NE m e false.
Definition norm32 (m e : Z) : f32 := binary_normalize 24 128 prec32 emax32 mode_NE m e false.

Definition fz_ (z : Z) : f64 := norm64 z 0.
(** The decimal literal m * 10^e, correctly rounded: the quotient is taken to
    more than 60 bits with a sticky last bit. *)
Definition fdec (m e : Z) : f64 :=
  if (0 <=? e)%Z then norm64 (m * 10 ^ e) 0
  else
    let k := (64 + 4 * - e)%Z in
    let d := (10 ^ (- e))%Z in
    let q := ((Z.abs m * 2 ^ k) / d)%Z in
    let r := ((Z.abs m * 2 ^ k) mod d)%Z in
    let v := norm64 (2 * q + (if (r =? 0)%Z then 0 else 1)) (- k - 1) in
    if (m <? 0)%Z then Bopp v else v.

Definition fadd : f64 -> f64 -> f64 := Bplus (prec_gt_0_ := prec64) (prec_lt_emax_ := emax64) mode_NE.
Definition fsub : f64 -> f64 -> f64 := Bminus (prec_gt_0_ := prec64) (prec_lt_emax_ := emax64) mode_NE.
Definition fmul : f64 -> f64 -> f64 := Bmult (prec_gt_0_ := prec64) (prec_lt_emax_ := emax64) mode_NE.
Definition fdiv : f64 -> f64 -> f64 := Bdiv (prec_gt_0_ := prec64) (prec_lt_emax_ := emax64) mode_NE.
Definition fsqrt : f64 -> f64 := Bsqrt (prec_gt_0_ := prec64) (prec_lt_emax_ := emax64) mode_NE.
Definition fneg : f64 -> f64 := Bopp.
Definition fabs : f64 -> f64 := Babs.
Definition flt : f64 -> f64 -> bool := Bltb.
Definition fle : f64 -> f64 -> bool := Bleb.
Definition feq : f64 -> f64 -> bool := Beqb.

(** double -> float -> double *)
Definition f_to_f32 (x : f64) : f64 :=
  match x with
  | B754_finite s m e _ =>
      match norm32 (cond_Zopp s (Zpos m)) e with
      | B754_finite s' m' e' _ => norm64 (cond_Zopp s' (Zpos m')) e'
      | B754_zero _ => B754_zero s
      | B754_infinity s' => B754_infinity s'
      | B754_nan => B754_nan
      end
  | _ => x
  end.
Definition f_to_int (x : f64) : option Z :=
  match x with
  | B754_zero _ => Some 0%Z
  | B754_finite _ _ _ _ =>
      let z := Btrunc x in
      if ((-2147483648 <=? z) && (z <=? 2147483647))%Z then Some z else None
  | _ => None
  end.
Definition f_max : f64 := @Bmax_float 53 1024 prec64 emax64.

(** The libraries the program is linked with, as far as IEEE 754 leaves them
    open, and the implementation of std::sort. *)
Record libm := Libm { l_sin : f64 -> f64; l_cos : f64 -> f64; l_acos : f64 -> f64; l_atan2 : f64 -> f64 -> f64; l_sort : sorter }.

Definition F64 (lm : libm) (assoc : bool) : Arith := {|
  num := f64;
  of_Z := fz_; of_dec := fdec;
  nadd := fadd; nsub := fsub; nmul := fmul; ndiv := fdiv; nneg := fneg;
  nabs := fabs; nsqrt := fsqrt; nlt := flt; nle := fle; neq := feq;
  sum3 a b c := if assoc then fadd (fadd a b) c else fadd a (fadd b c);
  to_f32 := f_to_f32; to_int := f_to_int; dbl_max := f_max;
  nsin := l_sin lm; ncos := l_cos lm; nacos := l_acos lm; natan2 := l_atan2 lm;
  nsorter := l_sort lm
|}.

(** The literal 0.1 is 0x1.999999999999ap-4. *)
Example fdec_tenth : B2SF (fdec 1 (-1)) = S754_finite false 7205759403792794 (-56).
Proof. vm_compute. reflexivity. Qed.
(** PI = 3.1415926535897932 is 0x1.921fb54442d18p+1. *)
Example fdec_pi : B2SF (fdec 31415926535897932 (-16)) = S754_finite false 7074237752028440 (-51).
Proof. vm_compute. reflexivity. Qed.
Example f32_tenth : B2SF (f_to_f32 (fdec 1 (-1))) = S754_finite false 7205759511166976 (-56).
Proof. vm_compute. reflexivity. Qed.
