(** ExFollow.v - cases for views in doubles. *)
From Coq Require Import Reals Lra ZArith Lia.
From Flocq Require Import Core IEEE754.BinarySingleNaN.
From Verif Require Import Base Num NumReal NumF64 NumLaws Geo Stl Ast F64Spec P_Base P_Bound P_Err P_Err3 ExErr ErrSpec ViewSpec FollowSpec RealSpec.

Local Unset Implicit Arguments.
Local Open Scope R_scope.
Section Case.
  Context (lm : libm) (asc : bool).
  #[local] Instance AX : Arith := F64 lm asc.
  (** Two triangles seen from above, one partly over the other. *)
  Definition follow_model : stl := Stl [Facet (tpl lm asc 0 0 1) (tpl lm asc 0 0 0) (tpl lm asc 4 0 0) (tpl lm asc 0 4 0) (fz_ 0);
    Facet (tpl lm asc 0 0 1) (tpl lm asc 1 1 2) (tpl lm asc 5 1 2) (tpl lm asc 1 5 2) (fz_ 0)] [] [] 0.
  Definition two_angles : @v2 AX := V2 (fz_ 30) (fz_ (-45)).
End Case.
Definition follow_lines (asc : bool) : nat := match rotate (A := F64 good_libm asc) (follow_model good_libm asc) mZP with
  | Ret p => match to_lines (A := F64 good_libm asc) p with Ret ls => length ls | _ => 0%nat end | _ => 0%nat end.
Lemma follow_count asc : follow_lines asc = 7%nat.
Proof. destruct asc; vm_compute; reflexivity. Qed.
Lemma follow_runs asc : exists p ls, rotate (A := F64 good_libm asc) (follow_model good_libm asc) mZP = Ret p /\ to_lines p = Ret ls /\ length ls = 7%nat.
Proof.
  pose proof (follow_count asc) as H. unfold follow_lines in H. destruct (rotate (A := F64 good_libm asc) (follow_model good_libm asc) mZP) as [p|e]; [|discriminate H].
  destruct (to_lines p) as [ls|e] eqn:L; [|discriminate H]. exists p, ls. auto.
Qed.
Lemma follow_small asc : Forall (bndF good_libm asc 3) (facets (follow_model good_libm asc)).
Proof.
  assert (Z : forall z, (Z.abs z <= 2 ^ 3)%Z -> bnd 3 (fz_ z)) by (intros z H; refine (proj1 (apx_int 3 z _ H _)); lia).
  assert (T : forall a b c, (Z.abs a <= 2 ^ 3)%Z -> (Z.abs b <= 2 ^ 3)%Z -> (Z.abs c <= 2 ^ 3)%Z -> bnd3 good_libm asc 3 (tpl good_libm asc a b c)) by (intros; split; [|split]; apply Z; assumption).
  constructor; [|constructor; [|constructor]]; (split; [|split]); apply T; lia.
Qed.
Lemma follow_sees asc : sees good_libm asc mZP (fun p => p) /\
  sees good_libm asc (matrix_by_ang (A := F64 good_libm asc) (two_angles good_libm asc)) (fun p => tilt (- (Rtrigo1.PI / 4)) (spin (Rtrigo1.PI / 6) p)).
Proof.
  split.
  - left. exists (B "Z+"). split; [reflexivity|]. intros [x y z]. reflexivity.
  - right. exists (two_angles good_libm asc). assert (Z : forall z, (Z.abs z <= 2 ^ 10)%Z -> bnd 10 (fz_ z)) by (intros z H; refine (proj1 (apx_int 10 z _ H _)); lia).
    split; [apply Z; lia|]. split; [apply Z; lia|]. split; [reflexivity|]. intro p. unfold two_angles. cbn [x2 y2]. rewrite !fz_val by lia. unfold radians. f_equal; [|f_equal]; field.
Qed.
