(** P_Named.v - named views in double arithmetic. *)
From Coq Require Import Reals Lra ZArith Lia Permutation.
From Flocq Require Import Core IEEE754.BinarySingleNaN.
From Verif Require Import Base Num NumReal NumF64 NumLaws Geo Stl Ast GeoSpec F64Spec RealSpec P_Base P_Order P_Part P_Index P_Hide P_Bound P_Real P_Geo1 ViewSpec.

Local Unset Implicit Arguments.
Local Open Scope R_scope.

Lemma rnd_val (w : f64) : is_finite w = true -> rnd (B2R w) = B2R w.
Proof. intros _. apply round_generic; [apply valid_rnd_N|]. apply generic_format_B2R. Qed.
Lemma val_small (w : f64) : Rlt_bool (Rabs (B2R w)) (bpow radix2 1024) = true.
Proof. apply Rlt_bool_true. apply abs_B2R_lt_emax. Qed.
(** An operation whose exact result is a double gives it. *)
Lemma fadd_exact x y w : fin x -> fin y -> B2R x + B2R y = B2R (w : f64) -> fin w -> fin (fadd x y) /\ B2R (fadd x y) = B2R w.
Proof.
  intros Fx Fy E Fw. pose proof (Bplus_correct 53 1024 prec64 emax64 mode_NE x y Fx Fy) as C. rewrite E, (rnd_val w Fw), val_small in C. destruct C as (C1 & C2 & _). split; [exact C2|exact C1].
Qed.
Lemma fmul_exact x y w : fin x -> fin y -> B2R x * B2R y = B2R (w : f64) -> fin w -> fin (fmul x y) /\ B2R (fmul x y) = B2R w.
Proof.
  intros Fx Fy E Fw. pose proof (Bmult_correct 53 1024 prec64 emax64 mode_NE x y) as C. rewrite E, (rnd_val w Fw), val_small in C. destruct C as (C1 & C2 & _).
  split; [unfold fin, fmul; rewrite C2; unfold fin in Fx, Fy; rewrite Fx, Fy; reflexivity|exact C1].
Qed.
Lemma fneg_val x : fin x -> fin (fneg x) /\ B2R (fneg x) = - B2R x.
Proof. intro F. split; [unfold fin, fneg; rewrite is_finite_Bopp; exact F|apply B2R_Bopp]. Qed.
Lemma zero_val : fin (fz_ 0) /\ B2R (fz_ 0) = 0. Proof. split; reflexivity. Qed.
Lemma one_val : fin (fz_ 1) /\ B2R (fz_ 1) = 1. Proof. split; [exact (proj1 bnd_one)|apply fz_val; lia]. Qed.

(** A unit entry picks or negates its factor, a zero entry drops it. *)
Definition picks (c : f64) (s : R) : Prop := fin c /\ B2R c = s /\ (s = 0 \/ s = 1 \/ s = -1).
Lemma picks_mul x c s : fin x -> picks c s -> fin (fmul x c) /\ B2R (fmul x c) = s * B2R x.
Proof.
  intros F (Fc & Vc & [->|[->| ->]]).
  - destruct (fmul_exact x c (fz_ 0) F Fc) as [P Q]; [rewrite Vc; simpl; ring|reflexivity|]. split; [exact P|]. rewrite Q. simpl. ring.
  - destruct (fmul_exact x c x F Fc) as [P Q]; [rewrite Vc; ring|exact F|]. split; [exact P|]. rewrite Q. ring.
  - destruct (fneg_val x F) as [Fn Vn]. destruct (fmul_exact x c (fneg x) F Fc) as [P Q]; [rewrite Vc, Vn; ring|exact Fn|]. split; [exact P|]. rewrite Q, Vn. ring.
Qed.
Section Named.
  Context (lm : libm) (asc : bool).
  Notation AN := (F64 lm asc).
  (** Three terms of which at most one is not zero. *)
  Lemma sum3_one (a b c : f64) (w : f64) : fin a -> fin b -> fin c -> fin w ->
    (B2R a = B2R w /\ B2R b = 0 /\ B2R c = 0 \/ B2R a = 0 /\ B2R b = B2R w /\ B2R c = 0 \/ B2R a = 0 /\ B2R b = 0 /\ B2R c = B2R w) ->
    fin (@sum3 AN a b c) /\ B2R (@sum3 AN a b c : f64) = B2R w.
  Proof.
    intros Fa Fb Fc Fw H. cbn [sum3 F64]. destruct asc.
    - destruct H as [(A & B & C)|[(A & B & C)|(A & B & C)]].
      + destruct (fadd_exact a b w Fa Fb ltac:(lra) Fw) as [P Q]. apply fadd_exact; try assumption. lra.
      + destruct (fadd_exact a b w Fa Fb ltac:(lra) Fw) as [P Q]. apply fadd_exact; try assumption. lra.
      + destruct (fadd_exact a b (fz_ 0) Fa Fb ltac:(simpl; lra) eq_refl) as [P Q]. apply fadd_exact; try assumption. rewrite Q. simpl. lra.
    - destruct H as [(A & B & C)|[(A & B & C)|(A & B & C)]].
      + destruct (fadd_exact b c (fz_ 0) Fb Fc ltac:(simpl; lra) eq_refl) as [P Q]. apply fadd_exact; try assumption. rewrite Q. simpl. lra.
      + destruct (fadd_exact b c w Fb Fc ltac:(lra) Fw) as [P Q]. apply fadd_exact; try assumption. lra.
      + destruct (fadd_exact b c w Fb Fc ltac:(lra) Fw) as [P Q]. apply fadd_exact; try assumption. lra.
  Qed.
  Definition one_hot (p q r : R) : Prop := (q = 0 /\ r = 0) \/ (p = 0 /\ r = 0) \/ (p = 0 /\ q = 0).
  Lemma dot_pick (x y z a b c : f64) p q r : fin x -> fin y -> fin z -> picks a p -> picks b q -> picks c r -> one_hot p q r ->
    fin (@sum3 AN (@nmul AN x a) (@nmul AN y b) (@nmul AN z c)) /\ B2R (@sum3 AN (@nmul AN x a) (@nmul AN y b) (@nmul AN z c) : f64) = p * B2R x + q * B2R y + r * B2R z.
  Proof.
    intros Fx Fy Fz A B C O. change (@nmul AN) with fmul. destruct (picks_mul x a p Fx A) as [P1 Q1]. destruct (picks_mul y b q Fy B) as [P2 Q2]. destruct (picks_mul z c r Fz C) as [P3 Q3].
    destruct O as [[-> ->]|[[-> ->]|[-> ->]]].
    - destruct (sum3_one _ _ _ (fmul x a) P1 P2 P3 P1) as [F V]; [left; repeat split; lra|]. split; [exact F|]. rewrite V. lra.
    - destruct (sum3_one _ _ _ (fmul y b) P1 P2 P3 P2) as [F V]; [right; left; repeat split; lra|]. split; [exact F|]. rewrite V. lra.
    - destruct (sum3_one _ _ _ (fmul z c) P1 P2 P3 P3) as [F V]; [right; right; repeat split; lra|]. split; [exact F|]. rewrite V. lra.
  Qed.
  Lemma pick0 : picks (@nz AN) 0. Proof. destruct zero_val as [F V]. split; [exact F|]. split; [exact V|]. lra. Qed.
  Lemma pick1 : picks (@n1 AN) 1. Proof. destruct one_val as [F V]. split; [exact F|]. split; [exact V|]. lra. Qed.
  Lemma pickm1 : picks (@nneg AN n1) (-1). Proof. destruct one_val as [F V]. destruct (fneg_val _ F) as [F' V']. split; [exact F'|]. split; [rewrite V in V'; exact V'|lra]. Qed.
  Lemma pickm0 : picks (@nneg AN nz) 0. Proof. destruct zero_val as [F V]. destruct (fneg_val _ F) as [F' V']. split; [exact F'|]. split; [rewrite V in V'; rewrite Ropp_0 in V'; exact V'|lra]. Qed.
  Ltac pk := first [exact pick0|exact pick1|exact pickm1|exact pickm0].
  Theorem named_exact n m (v : @v3 AN) : @matrix_by_name AN n = Some m -> fin3 lm asc v -> fin3 lm asc (mulm v m) /\ look n (value3 v) = Some (value3 (mulm v m)).
  Proof.
    destruct v as [vx vy vz]. intros H (Fx & Fy & Fz). cbn [x3 y3 z3] in Fx, Fy, Fz. revert H. unfold matrix_by_name, look.
    repeat match goal with |- (if ?c then _ else _) = _ -> _ => destruct c end; try discriminate; intro H; injection H as <-; unfold fin3, value3, mulm;
      cbn [x3 y3 z3 row0 row1 row2 mXP mXN mYP mYN mZP mZN px py pz neg3 rx ry rz];
      repeat match goal with |- context [@sum3 AN (@nmul AN ?x ?a) (@nmul AN ?y ?b) (@nmul AN ?z ?c)] =>
        let F := fresh "F" in let V := fresh "V" in let s := fresh "s" in let ES := fresh in
        edestruct (dot_pick x y z a b c) as [F V]; [exact Fx|exact Fy|exact Fz|pk|pk|pk|unfold one_hot; lra|];
        remember (@sum3 AN (@nmul AN x a) (@nmul AN y b) (@nmul AN z c)) as s eqn:ES; clear ES
      end; (split; [auto|]); f_equal; f_equal; lra.
  Qed.
  Lemma look_some n (m : @m3 AN) : @matrix_by_name AN n = Some m -> forall p, exists q, look n p = Some q.
  Proof. unfold matrix_by_name, look. repeat match goal with |- context [if ?c then _ else _] => destruct c end; try discriminate; intros _ p; eauto. Qed.
  Lemma pos_test (z : f64) : fin z -> negb (fle z (fz_ 0)) = (if Rlt_dec 0 (B2R z) then true else false).
  Proof.
    intro F. unfold fle. rewrite (Bleb_correct 53 1024 z (fz_ 0) F eq_refl). replace (B2R (fz_ 0)) with 0 by reflexivity.
    destruct (Rle_bool_spec (B2R z) 0), (Rlt_dec 0 (B2R z)); try reflexivity; lra.
  Qed.
  Lemma front_named n m (f : @facet AN) : @matrix_by_name AN n = Some m -> fin3 lm asc (fnorm f) -> front (rotate_facet m f) = turned_to n (value3 (fnorm f)).
  Proof.
    intros H F. destruct (named_exact n m _ H F) as ((_ & _ & Fz) & L). unfold front, turned_to, toward. rewrite L. cbn [value3 rz]. unfold rotate_facet. cbn [fnorm].
    exact (pos_test _ Fz).
  Qed.
  Theorem named_facets n m (s p : @stl AN) : @matrix_by_name AN n = Some m -> Forall (fun f => fin3 lm asc (fnorm f)) (facets s) -> rotate s m = Ret p ->
    Permutation (facets p) (map (rotate_facet m) (filter (fun f => turned_to n (value3 (fnorm f))) (facets s))).
  Proof.
    intros H HF R. unfold rotate in R. assert (E : facets p = cull_facets (map (rotate_facet m) (facets s))) by (exact (proj1 (index_range _ R))). rewrite E.
    rewrite (proj1 (cull_exact _)). clear - H HF. induction (facets s) as [|f fs IH]; [reflexivity|]. inversion HF as [|? ? F1 F2]; subst. cbn [map filter].
    rewrite (front_named n m f H F1). destruct (turned_to n (value3 (fnorm f))); [cbn [map]; apply perm_skip|]; exact (IH F2).
  Qed.
  Theorem opposite_views n n' m m' (s p p' : @stl AN) : opposite n n' -> @matrix_by_name AN n = Some m -> @matrix_by_name AN n' = Some m' ->
    Forall (fun f => fin3 lm asc (fnorm f)) (facets s) -> rotate s m = Ret p -> rotate s m' = Ret p' ->
    (length (facets p) + length (facets p') + length (filter (fun f => edge_on n (value3 (fnorm f))) (facets s)) = length (facets s))%nat.
  Proof.
    intros O H H' HF R R'. rewrite (Permutation_length (named_facets n m s p H HF R)), (Permutation_length (named_facets n' m' s p' H' HF R')), !map_length.
    assert (T : forall q, toward n' q = - toward n q) by (intro q; unfold toward; destruct O as [[-> ->]|[[-> ->]|[-> ->]]]; reflexivity).
    clear - T. induction (facets s) as [|f fs IH]; [reflexivity|]. cbn [filter length].
    assert (K : (turned_to n (value3 (fnorm f)), turned_to n' (value3 (fnorm f)), edge_on n (value3 (fnorm f))) = (true, false, false) \/
      (turned_to n (value3 (fnorm f)), turned_to n' (value3 (fnorm f)), edge_on n (value3 (fnorm f))) = (false, true, false) \/
      (turned_to n (value3 (fnorm f)), turned_to n' (value3 (fnorm f)), edge_on n (value3 (fnorm f))) = (false, false, true)).
    { unfold turned_to, edge_on. rewrite T. generalize (toward n (value3 (fnorm f))). intro t.
      destruct (Rlt_dec 0 t), (Rlt_dec 0 (- t)), (Req_EM_T t 0); auto; exfalso; lra. }
    destruct K as [K|[K|K]]; injection K as -> -> ->; cbn [length]; lia.
  Qed.
End Named.
