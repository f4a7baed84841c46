(** NumReal.v - exact arithmetic: the reals with +inf, -inf and NaN.

    Division by zero and overflow-free infinities behave as in IEEE 754, except
    that there is one zero: x/0 is +inf for x > 0 and -inf for x < 0.  A result
    that is a real number is therefore never an artefact of a totalised
    operation. *)
From Coq Require Import Reals Lra.
From Flocq Require Import Core.Raux.
From Verif Require P_Base.
From Verif Require Import Base Num.

Inductive xr := Fin (r : R) | PInf | NInf | NaN.

Local Open Scope R_scope.

Definition rltb (a b : R) : bool := if Rlt_dec a b then true else false.
Definition rleb (a b : R) : bool := if Rle_dec a b then true else false.
Definition reqb (a b : R) : bool := if Req_EM_T a b then true else false.

Definition xneg (a : xr) : xr :=
  match a with Fin r => Fin (- r) | PInf => NInf | NInf => PInf | NaN => NaN end.
Definition xadd (a b : xr) : xr :=
  match a, b with
  | NaN, _ | _, NaN => NaN
  | Fin r, Fin s => Fin (r + s)
  | PInf, NInf | NInf, PInf => NaN
  | PInf, _ | _, PInf => PInf
  | NInf, _ | _, NInf => NInf
  end.
Definition xsub (a b : xr) : xr := xadd a (xneg b).
(** inf * r *)
Definition xsgn (r : R) (neg : bool) : xr :=
  if rltb 0 r then (if neg then NInf else PInf)
  else if rltb r 0 then (if neg then PInf else NInf) else NaN.
Definition xmul (a b : xr) : xr :=
  match a, b with
  | NaN, _ | _, NaN => NaN
  | Fin r, Fin s => Fin (r * s)
  | Fin r, PInf | PInf, Fin r => xsgn r false
  | Fin r, NInf | NInf, Fin r => xsgn r true
  | PInf, PInf | NInf, NInf => PInf
  | PInf, NInf | NInf, PInf => NInf
  end.
Definition xdiv (a b : xr) : xr :=
  match a, b with
  | NaN, _ | _, NaN => NaN
  | Fin r, Fin s => if reqb s 0 then xsgn r false else Fin (r / s)
  | Fin _, _ => Fin 0
  | PInf, Fin s => if rltb s 0 then NInf else PInf
  | NInf, Fin s => if rltb s 0 then PInf else NInf
  | _, _ => NaN
  end.
Definition xabs (a : xr) : xr :=
  match a with Fin r => Fin (Rabs r) | NaN => NaN | _ => PInf end.
Definition xsqrt (a : xr) : xr :=
  match a with
  | Fin r => if rltb r 0 then NaN else Fin (sqrt r)
  | PInf => PInf
  | _ => NaN
  end.
Definition xlt (a b : xr) : bool :=
  match a, b with
  | NaN, _ | _, NaN => false
  | Fin r, Fin s => rltb r s
  | NInf, NInf => false
  | NInf, _ => true
  | _, NInf => false
  | PInf, _ => false
  | _, PInf => true
  end.
Definition xeq (a b : xr) : bool :=
  match a, b with
  | Fin r, Fin s => reqb r s
  | PInf, PInf => true
  | NInf, NInf => true
  | _, _ => false
  end.
Definition xle (a b : xr) : bool := xlt a b || xeq a b.

(** float to int: truncation, undefined outside the range of int. *)
Definition xto_int (a : xr) : option Z :=
  match a with
  | Fin r => if rltb (-2147483649) r && rltb r 2147483648 then Some (Ztrunc r) else None
  | _ => None
  end.

Definition ratan2 (y x : R) : R :=
  if rltb 0 x then atan (y / x)
  else if rltb x 0 then (if rltb y 0 then atan (y / x) - PI else atan (y / x) + PI)
  else if rltb 0 y then PI / 2
  else if rltb y 0 then - (PI / 2) else 0.
Definition xatan2 (y x : xr) : xr :=
  match y, x with
  | NaN, _ | _, NaN => NaN
  | Fin b, Fin a => Fin (ratan2 b a)
  | Fin _, PInf => Fin 0
  | Fin b, NInf => Fin (if rltb b 0 then - PI else PI)
  | PInf, Fin _ => Fin (PI / 2)
  | NInf, Fin _ => Fin (- (PI / 2))
  | PInf, PInf => Fin (PI / 4)
  | PInf, NInf => Fin (3 * PI / 4)
  | NInf, PInf => Fin (- (PI / 4))
  | NInf, NInf => Fin (- (3 * PI / 4))
  end.
Definition xfun (f : R -> R) (a : xr) : xr := match a with Fin r => Fin (f r) | _ => NaN end.
Definition xacos (a : xr) : xr :=
  match a with Fin r => if rleb (-1) r && rleb r 1 then Fin (acos r) else NaN | _ => NaN end.

(** The exact instance.  Rounding to float is the identity. *)
Definition XR : Arith := {|
  num := xr;
  of_Z z := Fin (IZR z);
  of_dec m e := Fin (IZR m * powerRZ 10 e);
  nadd := xadd; nsub := xsub; nmul := xmul; ndiv := xdiv; nneg := xneg;
  nabs := xabs; nsqrt := xsqrt;
  nlt := xlt; nle := xle; neq := xeq;
  sum3 a b c := xadd (xadd a b) c;
  to_f32 a := a;
  to_int := xto_int;
  dbl_max := Fin ((2 ^ 53 - 1) * 2 ^ 971);
  nsin := xfun sin; ncos := xfun cos; nacos := xacos; natan2 := xatan2;
  nsorter := P_Base.stable
|}.

(** ** Boolean comparisons. *)
Lemma rltb_spec a b : reflect (a < b) (rltb a b).
Proof. unfold rltb. destruct (Rlt_dec a b); constructor; assumption. Qed.
Lemma rleb_spec a b : reflect (a <= b) (rleb a b).
Proof. unfold rleb. destruct (Rle_dec a b); constructor; assumption. Qed.
Lemma reqb_spec a b : reflect (a = b) (reqb a b).
Proof. unfold reqb. destruct (Req_EM_T a b); constructor; assumption. Qed.
Lemma rltb_iff a b : rltb a b = true <-> a < b.
Proof. destruct (rltb_spec a b); split; try discriminate; tauto. Qed.
Lemma rltb_false a b : rltb a b = false <-> b <= a.
Proof. destruct (rltb_spec a b); split; try discriminate; try lra; reflexivity. Qed.
Lemma reqb_iff a b : reqb a b = true <-> a = b.
Proof. destruct (reqb_spec a b); split; try discriminate; tauto. Qed.
Lemma xle_fin a b : xle (Fin a) (Fin b) = rleb a b.
Proof.
  unfold xle; simpl. destruct (rltb_spec a b), (reqb_spec a b), (rleb_spec a b); simpl; try reflexivity; lra.
Qed.
