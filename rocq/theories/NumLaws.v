(** NumLaws.v - the comparisons of both arithmetics are total preorders on
    values that are not NaN. *)
From Coq Require Import Reals Lra.
From Flocq Require Import Core IEEE754.BinarySingleNaN.
From Verif Require Import Base Num NumReal NumF64.

Section Laws.
  Context {A : Arith}.
  Local Open Scope num_scope.
  (** Not NaN. *)
  Definition ok (x : num) : Prop := (x =? x) = true.
  Definition ok3 (p : v3) : Prop := ok (x3 p) /\ ok (y3 p) /\ ok (z3 p).
  Definition ok2 (p : v2) : Prop := ok (x2 p) /\ ok (y2 p).

  Record ordered := {
    ord_irr : forall x, (x <? x) = false;
    ord_nan_l : forall x y, (x <? y) = true -> ok x;
    ord_nan_r : forall x y, (x <? y) = true -> ok y;
    ord_tr : forall x y z, (x <? y) = true -> (y <? z) = true -> (x <? z) = true;
    ord_neg : forall x y z, ok y -> (x <? z) = true -> (x <? y) = true \/ (y <? z) = true;
    ord_eq : forall x y, ok x -> ok y -> (x =? y) = negb (x <? y) && negb (y <? x);
    ord_le : forall x y, ok x -> ok y -> (x <=? y) = negb (y <? x);
    ord_le_ok : forall x y, (x <=? y) = true -> ok x /\ ok y;
    ord_eq_ok : forall x y, (x =? y) = true -> ok x /\ ok y
  }.
End Laws.
Arguments ordered A : clear implicits.

Local Open Scope R_scope.

Ltac rcases :=
  repeat match goal with
  | |- context [rltb ?a ?b] => destruct (rltb_spec a b)
  | H : context [rltb ?a ?b] |- _ => destruct (rltb_spec a b)
  | |- context [rleb ?a ?b] => destruct (rleb_spec a b)
  | H : context [rleb ?a ?b] |- _ => destruct (rleb_spec a b)
  | |- context [reqb ?a ?b] => destruct (reqb_spec a b)
  | H : context [reqb ?a ?b] |- _ => destruct (reqb_spec a b)
  end.

Ltac xcases :=
  repeat match goal with x : xr |- _ => destruct x end;
  simpl in *; unfold xle in *; simpl in *; rcases; simpl in *;
  intros; try discriminate; try reflexivity; try (split; reflexivity);
  try (left; reflexivity); try (right; reflexivity); exfalso; lra.

Lemma XR_ordered : ordered XR.
Proof.
  constructor; unfold ok; simpl.
  - intros x; xcases.
  - intros x y; xcases.
  - intros x y; xcases.
  - intros x y z; xcases.
  - intros x y z; xcases.
  - intros x y; xcases.
  - intros x y; xcases.
  - intros x y; xcases.
  - intros x y; xcases.
Qed.

(** ** binary64 compares like the extended reals. *)
Definition key (x : f64) : xr :=
  match x with
  | B754_nan => NaN
  | B754_infinity false => PInf
  | B754_infinity true => NInf
  | _ => Fin (B2R x)
  end.

Lemma flt_key x y : flt x y = xlt (key x) (key y).
Proof.
  unfold flt. destruct x as [sx|[]| |sx mx ex Hx], y as [sy|[]| |sy my ey Hy]; try reflexivity;
    try (destruct sx; reflexivity); try (destruct sy; reflexivity); try (destruct sx, sy; reflexivity).
  all: unfold key, xlt;
    match goal with |- Bltb ?a ?b = _ => rewrite (Bltb_correct _ _ a b) by reflexivity end;
    unfold rltb; match goal with |- Rlt_bool ?a ?b = _ =>
      destruct (Rlt_bool_spec a b), (Rlt_dec a b); try reflexivity; exfalso; lra end.
Qed.
Lemma feq_key x y : feq x y = xeq (key x) (key y).
Proof.
  unfold feq. destruct x as [sx|[]| |sx mx ex Hx], y as [sy|[]| |sy my ey Hy]; try reflexivity;
    try (destruct sx; reflexivity); try (destruct sy; reflexivity); try (destruct sx, sy; reflexivity).
  all: unfold key, xeq;
    match goal with |- Beqb ?a ?b = _ => rewrite (Beqb_correct _ _ a b) by reflexivity end;
    unfold reqb; match goal with |- Req_bool ?a ?b = _ =>
      destruct (Req_bool_spec a b), (Req_EM_T a b); try reflexivity; exfalso; lra end.
Qed.
Lemma fle_key x y : fle x y = xle (key x) (key y).
Proof.
  unfold fle. destruct x as [sx|[]| |sx mx ex Hx], y as [sy|[]| |sy my ey Hy]; try reflexivity;
    try (destruct sx; reflexivity); try (destruct sy; reflexivity).
  all: unfold key; rewrite xle_fin;
    match goal with |- Bleb ?a ?b = _ => rewrite (Bleb_correct _ _ a b) by reflexivity end;
    unfold rleb; match goal with |- Rle_bool ?a ?b = _ =>
      destruct (Rle_bool_spec a b), (Rle_dec a b); try reflexivity; exfalso; lra end.
Qed.

Lemma F64_ordered lm asc : ordered (F64 lm asc).
Proof.
  destruct XR_ordered as [H1 H2 H3 H4 H5 H6 H7 H8 H9].
  constructor; unfold ok in *; simpl in *.
  - intro x. rewrite flt_key. apply H1.
  - intros x y. rewrite flt_key, feq_key. apply H2.
  - intros x y. rewrite flt_key, feq_key. apply H3.
  - intros x y z. rewrite !flt_key. apply H4.
  - intros x y z. rewrite !flt_key, feq_key. apply H5.
  - intros x y. rewrite !flt_key, !feq_key. apply H6.
  - intros x y. rewrite !flt_key, !feq_key, fle_key. apply H7.
  - intros x y. rewrite !feq_key, fle_key. apply H8.
  - intros x y. rewrite !feq_key. apply H9.
Qed.
