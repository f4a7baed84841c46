(** P_Circle5.v - what dia, rad and center() do with a first fit that is not finite. *)
From Coq Require Import ZArith Bool.
From Flocq Require Import IEEE754.BinarySingleNaN.
From Verif Require Import Base Num NumF64 Geo Stl Env Ast Ps Draw DocSpec F64Spec P_Circle3 P_Script4.

Local Unset Implicit Arguments.
Section Item.
  Context (lm : libm) (asc : bool) (E : @Env (F64 lm asc)).
  #[local] Instance AF5 : Arith := F64 lm asc.
  #[local] Instance EF5 : @Env AF5 := E.
  Lemma drawn_first_fit (d : dim) (s s' : vst) d' : d_kind d = KDia \/ d_kind d = KRad -> visit_base_dim d s = Ret (s', d', true) ->
    exists t c rad, evaluates (v_points s) (v_rot s) (d_meta d) "center" t /\ find_circle (closest (map xy (v_points s)) 3 (xy t)) = Some (c, rad) /\ fin rad.
  Proof.
    intros K H. apply used_once in H. unfold uses_once in H. cbv zeta in H.
    destruct K as [K|K]; rewrite K in H; destruct H as (fm & a & dd & t & ce & r & _ & _ & _ & C & F & _); apply (fit_fin lm asc) in F; destruct F as (c & rad & F1 & F2); exists t, c, rad; auto.
  Qed.
  Lemma center_first_fit ps q l v : snd (invoke ps (PFunc (B "center") q l)) = Some v ->
    exists t c rad, snd (invoke ps q) = Some t /\ find_circle (closest (map xy ps) 3 (xy t)) = Some (c, rad) /\ fin rad.
  Proof.
    cbn [invoke]. change (bytes_eqb (B "center") (B "near")) with false. change (bytes_eqb (B "center") (B "center")) with true. cbv iota.
    destruct (_ <? _)%nat; [discriminate|]. destruct (invoke ps q) as [lg [t|]]; [|discriminate]. cbn [snd].
    destruct (fit_circle ps (xy t)) as [[ce r]|] eqn:F; [|discriminate]. intros _. apply (fit_fin lm asc) in F. destruct F as (c & rad & F1 & F2). exists t, c, rad. auto.
  Qed.
End Item.
