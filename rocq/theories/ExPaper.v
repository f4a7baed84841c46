(** ExPaper.v - a drawing on paper, in doubles. *)
From Coq Require Import Reals Lra ZArith Lia List.
From Flocq Require Import Core IEEE754.BinarySingleNaN.
From Verif Require Import Base Num NumReal NumF64 NumLaws Geo Stl GeoSpec Env Ast Ps Draw DocSpec F64Spec P_Base P_Bound P_Err P_Err3 P_Float ExErr ExFollow ErrSpec ViewSpec FollowSpec PaperSpec RealSpec.
Import ListNotations.

Local Unset Implicit Arguments.
Local Open Scope R_scope.
(** scale = 1:2; @[1,-2] *)
Definition paper_at (asc : bool) : @v2 (F64 good_libm asc) := @V2 (F64 good_libm asc) (fz_ 1) (fz_ (-2)).
Definition paper_metas (asc : bool) : list (@meta (F64 good_libm asc)) :=
  [@Meta (F64 good_libm asc) (B "scale") (MScale 1 2) (Loc [] 0); @Meta (F64 good_libm asc) (B "@") (MLoc (paper_at asc)) (Loc [] 0)].
Definition paper_models (asc : bool) : @stl_map (F64 good_libm asc) := [(B "m", Some (follow_model good_libm asc))].
Lemma paper_plan asc : plan good_libm asc (paper_models asc) (B "m") (paper_metas asc) (follow_model good_libm asc) mZP (fun p => p) 3 6 36 468 162.
Proof.
  split.
  - reflexivity.
  - apply AV_default. intro H. unfold has in H. cbn in H. intuition discriminate.
  - exact (proj1 (follow_sees asc)).
  - exact (follow_small asc).
  - exists 1%Z, 2%Z. split; [eapply AS_given; [left; reflexivity|reflexivity..]|]. split; [lia|]. split; [lia|]. lra.
  - change (bp 6) with 64. lra.
  - lia.
  - left. exists (@Meta (F64 good_libm asc) (B "@") (MLoc (paper_at asc)) (Loc [] 0)), (paper_at asc). split; [right; left; reflexivity|]. split; [reflexivity|]. split; [reflexivity|].
    assert (Z : forall z, (Z.abs z <= 2 ^ 10)%Z -> bnd 10 (fz_ z)) by (intros z H; refine (proj1 (apx_int 10 z _ H _)); lia).
    unfold paper_at. cbn [x2 y2]. split; [apply Z; lia|]. split; [apply Z; lia|]. rewrite !fz_val by lia. split; lra.
Qed.
Lemma paper_accuracy : accuracy 3 6 36 (bp (-31) + bp (-33)).
Proof. right. split; [|reflexivity]. exists 9%Z, 2%Z. split; [reflexivity|]. split; [lia|]. change (bp 2) with 4. lra. Qed.
Definition paper_lines (asc : bool) (E : @Env (F64 good_libm asc)) : option nat :=
  match visit_draw (paper_models asc) (Loc [] 0) (B "m") (paper_metas asc) [] vst_init with
  | Ret (s, _, true) => Some (length (o_lines (v_page s)))
  | _ => None
  end.
Lemma paper_count asc E : paper_lines asc E = Some 7%nat.
Proof. destruct asc; vm_compute; reflexivity. Qed.
Lemma paper_runs asc (E : @Env (F64 good_libm asc)) : exists s ds, visit_draw (paper_models asc) (Loc [] 0) (B "m") (paper_metas asc) [] vst_init = Ret (s, ds, true) /\ length (o_lines (v_page s)) = 7%nat.
Proof.
  pose proof (paper_count asc E) as H. unfold paper_lines in H. destruct (visit_draw (paper_models asc) (Loc [] 0) (B "m") (paper_metas asc) [] vst_init) as [[[s ds] [|]]|]; try discriminate H.
  exists s, ds. injection H as H. auto.
Qed.
