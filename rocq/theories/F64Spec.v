(** F64Spec.v - bounded and finite doubles, points, facets and matrices. *)
From Coq Require Import Reals ZArith.
From Flocq Require Import Core IEEE754.BinarySingleNaN.
From Verif Require Import Base Num NumF64 Geo Stl.

Local Unset Implicit Arguments.
Definition bp (k : Z) : R := bpow radix2 k.
(** finite and of magnitude at most 2^k *)
Definition bnd (k : Z) (x : f64) : Prop := is_finite x = true /\ (Rabs (B2R x) <= bp k)%R.
Definition fin (x : f64) : Prop := is_finite x = true.

Section Bounded.
  Context (lm : libm) (asc : bool).
  #[local] Instance AF : Arith := F64 lm asc.
  Definition bnd3 (k : Z) (p : v3) : Prop := bnd k (x3 p) /\ bnd k (y3 p) /\ bnd k (z3 p).
  Definition bndm (k : Z) (m : m3) : Prop := bnd3 k (row0 m) /\ bnd3 k (row1 m) /\ bnd3 k (row2 m).
  Definition bndF (k : Z) (f : facet) : Prop := bnd3 k (fe0 f) /\ bnd3 k (fe1 f) /\ bnd3 k (fe2 f).
  Definition fin3 (p : v3) : Prop := fin (x3 p) /\ fin (y3 p) /\ fin (z3 p).
  Definition finF (f : facet) : Prop := fin3 (fe0 f) /\ fin3 (fe1 f) /\ fin3 (fe2 f).
  (** entries in [-1, 1] *)
  Definition unitm (m : m3) : Prop := bndm 0 m.
  (** sine and cosine of a finite number lie in [-1, 1] *)
  Definition trig_bounded : Prop := forall x, fin x -> bnd 0 (l_sin lm x) /\ bnd 0 (l_cos lm x).
End Bounded.
