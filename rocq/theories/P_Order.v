(** P_Order.v - the comparisons of geo.h and stl.cc are strict weak orders on
    values without NaN. *)
From Verif Require Import Base Num Geo Stl NumLaws P_Base.

Local Unset Strict Implicit.
Section Lex.
  Context {K : Type} (P : K -> Prop).
  Definition lex (a b : K -> K -> bool) (x y : K) : bool := if a x y then true else if a y x then false else b x y.
  Lemma lex_swo a b : swo P a -> swo P b -> swo P (lex a b).
  Proof.
    intros SA SB. unfold lex. constructor.
    - intros x Hx. rewrite (swo_irr SA Hx). apply (swo_irr SB Hx).
    - intros x y z Hx Hy Hz. destruct (a x y) eqn:XY.
      + intros _. destruct (a y z) eqn:YZ; [intros _; rewrite (swo_tr SA Hx Hy Hz XY YZ); reflexivity|].
        destruct (a z y) eqn:ZY; [discriminate|]. intros _.
        destruct (swo_neg SA Hx Hz Hy XY) as [Q|Q]; [rewrite Q; reflexivity|congruence].
      + destruct (a y x) eqn:YX; [discriminate|]. intro B1. destruct (a y z) eqn:YZ.
        * intros _. destruct (swo_neg SA Hy Hx Hz YZ) as [Q|Q]; [congruence|rewrite Q; reflexivity].
        * destruct (a z y) eqn:ZY; [discriminate|]. intro B2.
          destruct (a x z) eqn:XZ; [reflexivity|]. destruct (a z x) eqn:ZX.
          -- destruct (swo_neg SA Hz Hy Hx ZX); congruence.
          -- exact (swo_tr SB Hx Hy Hz B1 B2).
    - intros x y z Hx Hy Hz. destruct (a x z) eqn:XZ.
      + intros _. destruct (swo_neg SA Hx Hy Hz XZ) as [Q|Q]; rewrite Q; [left|right]; reflexivity.
      + destruct (a z x) eqn:ZX; [discriminate|]. intro B1.
        destruct (a x y) eqn:XY; [left; reflexivity|]. destruct (a y z) eqn:YZ; [right; reflexivity|].
        destruct (a y x) eqn:YX.
        { destruct (swo_neg SA Hy Hz Hx YX) as [Q|Q]; congruence. }
        destruct (a z y) eqn:ZY.
        { destruct (swo_neg SA Hz Hx Hy ZY) as [Q|Q]; congruence. }
        exact (swo_neg SB Hx Hy Hz B1).
  Qed.
  Lemma swo_ext a b : (forall x y, P x -> P y -> a x y = b x y) -> swo P a -> swo P b.
  Proof.
    intros H [I T N]. constructor.
    - intros x Hx. rewrite <- H by assumption. auto.
    - intros x y z Hx Hy Hz. rewrite <- !H by assumption. eauto.
    - intros x y z Hx Hy Hz. rewrite <- !H by assumption. eauto.
  Qed.
  Lemma swo_by {L} (Q : L -> Prop) (f : K -> L) a : (forall x, P x -> Q (f x)) -> swo Q a -> swo P (fun x y => a (f x) (f y)).
  Proof.
    intros HF [I T N]. constructor.
    - intros x Hx. auto.
    - intros x y z Hx Hy Hz. apply T; auto.
    - intros x y z Hx Hy Hz. apply N; auto.
  Qed.
  Lemma lex_eqv a b x y : eqv (lex a b) x y <-> eqv a x y /\ eqv b x y.
  Proof.
    unfold eqv, lex. destruct (a x y) eqn:H1, (a y x) eqn:H2; split; intros; repeat match goal with H : _ /\ _ |- _ => destruct H end; try discriminate; auto.
  Qed.
End Lex.
Local Set Strict Implicit.

Section Order.
  Context {A : Arith} (O : ordered A).
  Local Open Scope num_scope.

  Lemma num_swo : swo ok nlt.
  Proof.
    constructor.
    - intros x _. apply (ord_irr O).
    - intros x y z _ _ _. apply (ord_tr O).
    - intros x y z _ Hy _. apply (ord_neg O); assumption.
  Qed.
  Lemma num_eqv x y : ok x -> ok y -> (eqv nlt x y <-> (x =? y) = true).
  Proof.
    intros Hx Hy. rewrite (ord_eq O) by assumption. unfold eqv. rewrite andb_true_iff, !negb_true_iff. tauto.
  Qed.
  Lemma nne_lex x y (b : bool) : ok x -> ok y -> (if nne x y then x <? y else b) = (if x <? y then true else if y <? x then false else b).
  Proof.
    intros Hx Hy. unfold nne. rewrite (ord_eq O) by assumption. destruct (x <? y), (y <? x); reflexivity.
  Qed.

  Definition by3 : v3 -> v3 -> bool :=
    lex (fun p q => x3 p <? x3 q) (lex (fun p q => y3 p <? y3 q) (fun p q => z3 p <? z3 q)).
  Lemma order_by3 p q : ok3 p -> ok3 q -> order p q = by3 p q.
  Proof.
    intros (X & Y & Z) (X' & Y' & Z'). unfold order, by3, lex. rewrite !nne_lex by assumption. reflexivity.
  Qed.
  Lemma by3_swo : swo ok3 by3.
  Proof.
    unfold by3. apply lex_swo; [|apply lex_swo].
    - apply (@swo_by _ ok3 _ ok x3 nlt); [intros x H; apply H|exact num_swo].
    - apply (@swo_by _ ok3 _ ok y3 nlt); [intros x H; apply H|exact num_swo].
    - apply (@swo_by _ ok3 _ ok z3 nlt); [intros x H; apply H|exact num_swo].
  Qed.
  Lemma order_swo : swo ok3 order.
  Proof. apply (@swo_ext _ ok3 by3); [|exact by3_swo]. intros; symmetry; apply order_by3; assumption. Qed.
  Lemma order_eqv p q : ok3 p -> ok3 q -> (eqv order p q <-> eq3 p q = true).
  Proof.
    intros Hp Hq. unfold eqv. rewrite !order_by3 by assumption. fold (eqv by3 p q). unfold by3. rewrite !lex_eqv.
    destruct Hp as (X & Y & Z), Hq as (X' & Y' & Z'). unfold eq3. rewrite !andb_true_iff.
    rewrite <- !num_eqv by assumption. unfold eqv. tauto.
  Qed.

  Definition okE (e : edge) : Prop := ok3 (e1 e) /\ ok3 (e2 e).
  Lemma edge_order_swo : swo okE edge_order.
  Proof.
    apply (@swo_ext _ okE (lex (fun a b => order (e1 a) (e1 b)) (fun a b => order (e2 a) (e2 b)))); [reflexivity|].
    apply lex_swo.
    - apply (@swo_by _ okE _ ok3 e1 order); [intros x H; apply H|exact order_swo].
    - apply (@swo_by _ okE _ ok3 e2 order); [intros x H; apply H|exact order_swo].
  Qed.
  Definition eqE (a b : edge) : Prop := eq3 (e1 a) (e1 b) = true /\ eq3 (e2 a) (e2 b) = true.
  Lemma edge_order_eqv a b : okE a -> okE b -> (eqv edge_order a b <-> eqE a b).
  Proof.
    intros [A1 A2] [B1 B2]. change (eqv edge_order a b) with (eqv (lex (fun a b => order (e1 a) (e1 b)) (fun a b => order (e2 a) (e2 b))) a b).
    rewrite lex_eqv. unfold eqE. rewrite <- !order_eqv by assumption. reflexivity.
  Qed.

  Definition okL (l : line) : Prop := ok2 (lo l) /\ ok2 (lt_ l).
  Lemma line_lt_swo : swo okL line_lt.
  Proof.
    apply (@swo_ext _ okL (lex (fun a b => x2 (lo a) <? x2 (lo b)) (lex (fun a b => y2 (lo a) <? y2 (lo b))
              (lex (fun a b => x2 (lt_ a) <? x2 (lt_ b)) (fun a b => y2 (lt_ a) <? y2 (lt_ b)))))).
    - intros x y [[X1 X2] [X3 X4]] [[Y1 Y2] [Y3 Y4]]. unfold line_lt, lex. rewrite !nne_lex by assumption. reflexivity.
    - repeat apply lex_swo.
      + apply (@swo_by _ okL _ ok (fun l => x2 (lo l)) nlt); [intros x H; apply H|exact num_swo].
      + apply (@swo_by _ okL _ ok (fun l => y2 (lo l)) nlt); [intros x H; apply H|exact num_swo].
      + apply (@swo_by _ okL _ ok (fun l => x2 (lt_ l)) nlt); [intros x H; apply H|exact num_swo].
      + apply (@swo_by _ okL _ ok (fun l => y2 (lt_ l)) nlt); [intros x H; apply H|exact num_swo].
  Qed.

  (** ** == is an equivalence on values that are not NaN *)
  Lemma eq3_refl p : ok3 p -> eq3 p p = true.
  Proof. intros (X & Y & Z). unfold eq3. unfold ok in *. rewrite X, Y, Z. reflexivity. Qed.
  Lemma eq3_ok p q : eq3 p q = true -> ok3 p /\ ok3 q.
  Proof.
    unfold eq3. rewrite !andb_true_iff. intros [[X Y] Z].
    pose proof (ord_eq_ok O _ _ X). pose proof (ord_eq_ok O _ _ Y). pose proof (ord_eq_ok O _ _ Z). unfold ok3. tauto.
  Qed.
  Lemma eq3_sym p q : eq3 p q = true -> eq3 q p = true.
  Proof.
    intro H. destruct (eq3_ok _ _ H) as [Hp Hq]. apply order_eqv in H; [|assumption..]. apply order_eqv; [assumption..|].
    apply eqv_sym. exact H.
  Qed.
  Lemma eq3_trans p q r : eq3 p q = true -> eq3 q r = true -> eq3 p r = true.
  Proof.
    intros H1 H2. destruct (eq3_ok _ _ H1) as [Hp Hq]. destruct (eq3_ok _ _ H2) as [_ Hr].
    apply order_eqv in H1; [|assumption..]. apply order_eqv in H2; [|assumption..]. apply order_eqv; [assumption..|].
    exact (eqv_trans order_swo Hp Hq Hr H1 H2).
  Qed.
End Order.
