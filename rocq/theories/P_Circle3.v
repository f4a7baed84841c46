(** P_Circle3.v - a circle whose first fit is not finite is rejected, in doubles. *)
From Coq Require Import ZArith Bool.
From Flocq Require Import IEEE754.BinarySingleNaN.
From Verif Require Import Base Num NumF64 Geo Stl Env Ast F64Spec.

Local Unset Implicit Arguments.
Section Fit.
  Context (lm : libm) (asc : bool).
  #[local] Instance AF : Arith := F64 lm asc.
  Lemma filter_none64 {X} (f : X -> bool) l : (forall x, f x = false) -> filter f l = [].
  Proof. intro H. induction l as [|x l IH]; [reflexivity|]. cbn. rewrite H. exact IH. Qed.
  Lemma pos_shape (y : f64) m e : B2SF y = SpecFloat.S754_finite false m e -> exists h, y = B754_finite false m e h.
  Proof. destruct y as [s|s| |s m' e' h]; cbn; try discriminate. intro H. injection H as -> -> ->. eauto. Qed.
  Lemma low_shape : exists m e h, (@nsub AF n1 del : f64) = B754_finite false m e h.
  Proof.
    destruct (pos_shape (fsub (fz_ 1) (fdec 1 (-1))) 8106479329266893 (-53)) as [h H]; [vm_compute; reflexivity|].
    do 3 eexists. exact H.
  Qed.
  Lemma high_shape : exists m e h, (@nadd AF n1 del : f64) = B754_finite false m e h.
  Proof.
    destruct (pos_shape (fadd (fz_ 1) (fdec 1 (-1))) 4953959590107546 (-52)) as [h H]; [vm_compute; reflexivity|].
    do 3 eexists. exact H.
  Qed.
  Lemma between_nonfin (l : list v2) (rad : f64) c : ~ fin rad -> @Ast.between AF l (@nmul AF rad (@nsub AF n1 del)) (@nmul AF rad (@nadd AF n1 del)) c = [].
  Proof.
    intro W. destruct low_shape as (m1 & e1 & h1 & ->). destruct high_shape as (m2 & e2 & h2 & ->).
    destruct rad as [s|s| |s m e h]; [destruct (W eq_refl)| | |destruct (W eq_refl)].
    - change (@nmul AF (B754_infinity s) (B754_finite false m1 e1 h1)) with (B754_infinity (xorb s false) : f64).
      change (@nmul AF (B754_infinity s) (B754_finite false m2 e2 h2)) with (B754_infinity (xorb s false) : f64).
      rewrite xorb_false_r. unfold Ast.between. destruct s.
      + match goal with |- (if ?b then _ else _) = _ => assert (E : b = true) by (vm_compute; reflexivity); rewrite E; reflexivity end.
      + match goal with |- (if ?b then _ else _) = _ => destruct b; [reflexivity|] end. apply filter_none64. intro p. cbv zeta.
        apply andb_false_iff. left. change (Bltb (B754_infinity false : f64) (sqn2 (sub2 p c)) = false). destruct (sqn2 (sub2 p c)) as [[]|[]| |[] ? ? ?]; reflexivity.
    - unfold Ast.between. match goal with |- (if ?b then _ else _) = _ => destruct b; [reflexivity|] end. apply filter_none64. intro p. cbv zeta.
      apply andb_false_iff. left. reflexivity.
  Qed.
  Lemma fit_fin ps t r : @fit_circle AF ps t = Some r -> exists c rad, @find_circle AF (@closest AF (map xy ps) 3 t) = Some (c, rad) /\ fin rad.
  Proof.
    unfold fit_circle. cbv zeta. destruct (@find_circle AF (closest (map xy ps) 3 t)) as [[c rad]|]; [|discriminate].
    intro H. exists c, rad. split; [reflexivity|]. unfold fin. destruct (is_finite rad) eqn:F; [reflexivity|]. exfalso.
    rewrite between_nonfin in H by (unfold fin; congruence). discriminate H.
  Qed.
End Fit.
