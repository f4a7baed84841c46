(** ExView.v - cases that meet the hypotheses of the properties of views. *)
From Coq Require Import Reals Lra Lia Permutation.
From Flocq Require Import Core BinarySingleNaN.
From Verif Require Import Base Num NumReal NumF64 Geo Stl Env Ast Ps Draw DocSpec DimSpec F64Spec EnvEx ExReal ExPict P_Named ViewSpec BoxSpec RealSpec PictSpec.

Local Unset Implicit Arguments.
Local Open Scope R_scope.
(** Two triangles, four units wide and high. *)
Lemma ex_sized : sized (seen ex_id ex_tris) 4 4.
Proof.
  rewrite ex_seen. unfold sized, corner. intros t u p q [<-|[<-|[]]] [<-|[<-|[]]] HP HQ; destruct HP as [->|[->| ->]]; destruct HQ as [->|[->| ->]]; cbn; lra.
Qed.
Lemma ex_boxed (E : @Env XR) : let st := [(B "m", Some (Stl (map embf ex_tris) [] [] 0))] in
  (exists s1, visit_draw st (Loc [] 0) (B "m") (at_scale 1 2) [] vst_init = Ret (s1, [], true)) /\
  asks_view (at_scale 1 2) (embm ex_id) /\ asks_scale (at_scale 1 2) 1 2 /\ asks_place (at_scale 1 2) (72 * 1 + 396) (72 * -2 + 306).
Proof.
  intro st. split; [apply ex_draw; exact ex_proper|].
  assert (N : ~ has (at_scale 1 2) "view") by (unfold has; simpl; intros [K|[K|[]]]; discriminate K).
  assert (Z : embm ex_id = mZP) by reflexivity. rewrite Z. split; [apply AV_default, N|]. split; [eapply AS_given; [left; reflexivity|reflexivity..]|].
  exact (proj2 (proj2 (proj2 (proj2 (proj2 (proj2 (proj2 (ex_two_sizes E)))))))) || exact (proj2 (proj2 (proj2 (proj2 (proj2 (proj2 (proj2 (proj2 (ex_two_sizes E))))))))).
Qed.
(** A floor and a wall, drawn from the side at 3:2. *)
Definition pf (x y z : Z) : @v3 ExA := V3 (fz_ x : @num ExA) (fz_ y : @num ExA) (fz_ z : @num ExA).
Definition ff (n a b c : @v3 ExA) : @facet ExA := Facet n a b c (fz_ 0 : @num ExA).
Definition side_model : @stl ExA := Stl [ff (pf 0 0 1) (pf 0 0 0) (pf 3 0 0) (pf 0 3 0); ff (pf 1 0 0) (pf 3 0 0) (pf 3 4 0) (pf 3 0 5); ff (pf (-1) 0 0) (pf 0 0 0) (pf 0 0 5) (pf 0 4 0)] [] [] 0.
Definition side_metas : list (@meta ExA) := [Meta (B "view") (MStr (B "X+")) (Loc [] 0); Meta (B "scale") (MScale 3 2) (Loc [] 0)].
Lemma side_finite : Forall (fun f => fin3 ex_libm true (fnorm f) /\ finF ex_libm true f) (facets side_model).
Proof.
  assert (K : forall n a b c, forallb (fun v => is_finite (x3 v : f64) && is_finite (y3 v : f64) && is_finite (z3 v : f64)) [n; a; b; c] = true -> fin3 ex_libm true (fnorm (ff n a b c)) /\ finF ex_libm true (ff n a b c)).
  { intros n a b c H. cbn [forallb] in H. rewrite !andb_true_iff in H. unfold fin3, finF, fin. cbn [ff fnorm fe0 fe1 fe2]. unfold fin3. tauto. }
  repeat constructor; apply K; vm_compute; reflexivity.
Qed.
Lemma side_draw : (exists s1, visit_draw [(B "m", Some side_model)] (Loc [] 0) (B "m") side_metas [] vst_init = Ret (s1, [], true)) /\
  In (Meta (B "view") (MStr (B "X+")) (Loc [] 0)) side_metas /\ asks_scale side_metas 3 2.
Proof.
  split; [|split; [left; reflexivity|eapply AS_given; [right; left; reflexivity|reflexivity..]]].
  assert (K : match visit_draw [(B "m", Some side_model)] (Loc [] 0) (B "m") side_metas [] vst_init with Ret (_, [], true) => true | _ => false end = true) by (vm_compute; reflexivity).
  destruct (visit_draw [(B "m", Some side_model)] (Loc [] 0) (B "m") side_metas [] vst_init) as [[[s1 ds] b]|]; [|discriminate K]. destruct ds; [|discriminate K]. destruct b; [|discriminate K]. eauto.
Qed.
(** 72 * 3 / 2 = 108 is a float. *)
Lemma side_rotates : (exists p, rotate side_model (@mXP ExA) = Ret p) /\ (exists p, rotate side_model (@mXN ExA) = Ret p).
Proof.
  split; [assert (K : match rotate side_model (@mXP ExA) with Ret _ => true | _ => false end = true) by (vm_compute; reflexivity); destruct (rotate side_model (@mXP ExA))
  |assert (K : match rotate side_model (@mXN ExA) with Ret _ => true | _ => false end = true) by (vm_compute; reflexivity); destruct (rotate side_model (@mXN ExA))]; eauto; discriminate K.
Qed.
