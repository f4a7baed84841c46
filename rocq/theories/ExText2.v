(** ExText2.v - cases for the properties of numbers as text. *)
From Coq Require Import Reals ZArith Lra Lia.
From Flocq Require Import Core IEEE754.BinarySingleNaN.
From Verif Require Import Base Num NumF64 NumReal Geo Stl StlRead Env Ast Lexer Parser Ps Draw Main LangSpec DocSpec StlSpec PsSpec DimSpec
  P_Base RealSpec ExDim ExLang P_Text P_Text2 ExText TextSpec.

Local Unset Implicit Arguments.
Local Open Scope R_scope.
Local Open Scope list_scope.

(** A script with numbers that single precision cannot hold. *)
Definition ex_numbers : bytes := B "load t = ""t.stl"";" ++ [LF] ++ B "page { draw t { scale = 2:5; @[16777217, 0.1]; } }".
Section Numbers.
  Context (lm : libm) (asc : bool) (E : @Env (F64 lm asc)) (x y : f64).
  #[local] Instance AN2 : Arith := F64 lm asc.
  Definition d_numbers : document := Doc [Model (B "t") (B "t.stl") (Loc (B "s") 1)]
    [Page (Loc (B "s") 2) [] [DDraw (Loc (B "s") 2) (B "t") [Meta (B "scale") (MScale 2 5) (Loc (B "s") 2); Meta (B "@") (MLoc (V2 x y)) (Loc (B "s") 2)] []]].
  Lemma numbers_parse : stof (B "2") = Some (fz_ 2) -> stof (B "5") = Some (fz_ 5) -> stof (B "16777217") = Some x -> stof (B "0.1") = Some y -> parses (B "s") ex_numbers d_numbers.
  Proof.
    intros S1 S2 S3 S4. exists []. unfold parse, tokens.
    remember (scan_all ex_numbers) as sc eqn:SC. vm_compute in SC. rewrite SC. clear SC sc. cbn [toks_of tok_of lx_act lx_text lx_line].
    repeat match goal with |- context [cstr ?w] => let v := eval vm_compute in (cstr w) in change (cstr w) with v end.
    repeat match goal with |- context [new_quote ?w] => let v := eval vm_compute in (new_quote w) in change (new_quote w) with v end.
    match type of S1 with stof ?w = _ => let v := eval vm_compute in w in change w with v in S1 end. match type of S2 with stof ?w = _ => let v := eval vm_compute in w in change w with v in S2 end.
    match type of S3 with stof ?w = _ => let v := eval vm_compute in w in change w with v in S3 end. match type of S4 with stof ?w = _ => let v := eval vm_compute in w in change w with v in S4 end.
    rewrite S1, S2, S3, S4. clear. match goal with |- _ = ?r => exact (eq_refl r) end.
  Qed.
End Numbers.

Lemma number_value w p r : number w -> plain w = Some p -> reads w r -> r = plain_val p.
Proof.
  intros N P R1. inversion R1 as [sg ds m k S D Q1 Q2|sg ds m k sx x n S D SX SP Q1 Q2].
  - subst w. rewrite (plain_complete _ _ _ _ S D) in P. injection P as <-. reflexivity.
  - exfalso. subst w. apply (number_no_e _ N). apply in_or_app. right. apply in_or_app. right. left. reflexivity.
Qed.
Lemma read_single lm asc (E : @Env (F64 lm asc)) w p : std64 lm asc E -> number w -> plain w = Some p -> 1 / 2 ^ 126 <= Rabs (plain_val p) <= 2 ^ 127 ->
  exists x, @stof (F64 lm asc) E w = Some x /\ is_finite x = true /\ B2R x = rnd32 (plain_val p).
Proof.
  intros STD N P OR. destruct (@stof (F64 lm asc) E w) as [x|] eqn:S; [|exfalso; exact (std_stof_ok _ _ _ STD w _ N (plain_sound _ _ P) (or_intror OR) S)].
  destruct (std_stof _ _ _ STD w x N S) as (r & R1 & V). rewrite (number_value _ _ _ N P R1) in V. apply val64_some in V. exists x. tauto.
Qed.
Lemma ordinary r : 1 / 100 <= Rabs r <= 100000000 -> 1 / 2 ^ 126 <= Rabs r <= 2 ^ 127.
Proof. intros [H1 H2]. split; [eapply Rle_trans; [|exact H1]|eapply Rle_trans; [exact H2|]]; simpl; lra. Qed.
Lemma single_int lm asc (E : @Env (F64 lm asc)) w z : std64 lm asc E -> number w -> plain w = Some ([], Z.to_N z, 0%nat) -> (1 <= z <= 2 ^ 24)%Z ->
  exists x, @stof (F64 lm asc) E w = Some x /\ is_finite x = true /\ B2R x = IZR z.
Proof.
  intros STD N P Z1. assert (V : plain_val ([], Z.to_N z, 0%nat) = IZR z) by (cbn [plain_val]; rewrite Z2N.id by lia; unfold sign_of; destruct (list_eq_dec _ _ _) as [Q|Q]; [discriminate Q|]; change (ten _) with 1; ring).
  destruct (read_single lm asc E w _ STD N P) as (x & S & F & X).
  - apply ordinary. rewrite V, Rabs_pos_eq by (apply IZR_le; lia). destruct Z1 as [Z1 Z2]. apply IZR_le in Z1, Z2. change (IZR (2 ^ 24)) with 16777216 in Z2. lra.
  - exists x. rewrite V, rnd32_int in X by lia. auto.
Qed.
Lemma digits_number w : w <> [] -> forallb (fun c => (48 <=? ord c) && (ord c <=? 57))%N w = true -> number w.
Proof.
  intros NE H. exists [], w, []. split; [left; reflexivity|]. split; [rewrite app_nil_r; reflexivity|]. split; [|left; auto].
  rewrite forallb_forall in H. apply Forall_forall. intros c I. specialize (H c I). apply andb_true_iff in H. destruct H as [H1 H2]. apply N.leb_le in H1, H2. split; assumption.
Qed.
Lemma big_not_single : ~ generic_format radix2 (FLT_exp (-149) 24) 16777217.
Proof.
  intro G. assert (P : Prec_gt_0 24) by reflexivity. apply FLT_format_generic in G; [|exact P]. destruct G as [[m e] Q H1 _]. cbn [Fnum Fexp] in *. unfold F2R in Q. cbn [Fnum Fexp] in Q. change (Zpower radix2 24) with 16777216%Z in H1.
  destruct (Z.le_gt_cases 0 e) as [L|L].
  - rewrite <- IZR_Zpower, <- mult_IZR in Q by exact L. apply eq_IZR in Q. destruct (Z.eq_dec e 0) as [->|NE]; [change (Zpower radix2 0) with 1%Z in Q; lia|].
    replace e with (1 + (e - 1))%Z in Q by lia. rewrite Zpower_plus in Q by lia. change (Zpower radix2 1) with 2%Z in Q. lia.
  - assert (K : IZR m = 16777217 * bpow radix2 (- e)) by (rewrite Q, Rmult_assoc, <- bpow_plus, Z.add_opp_diag_r; cbn [bpow]; ring).
    assert (1 <= bpow radix2 (- e)) by (apply (bpow_le radix2 0); lia). assert (IZR m < 16777217) by (apply IZR_lt; lia). lra.
Qed.
Lemma numbers_case lm asc (E : @Env (F64 lm asc)) : std64 lm asc E ->
  exists x y, parses (A := F64 lm asc) (B "s") ex_numbers (d_numbers lm asc x y) /\ is_finite x = true /\ is_finite y = true /\ Rabs (B2R y - 1 / 10) <= / 2 ^ 27 /\ B2R x <> 16777217.
Proof.
  intro STD.
  destruct (single_int lm asc E (B "2") 2 STD (digits_number (B "2") ltac:(discriminate) eq_refl) eq_refl ltac:(lia)) as (a & S1 & F1 & V1).
  destruct (single_int lm asc E (B "5") 5 STD (digits_number (B "5") ltac:(discriminate) eq_refl) eq_refl ltac:(lia)) as (b & S2 & F2 & V2).
  assert (FZ : forall z (u : f64), (1 <= z <= 5)%Z -> is_finite u = true -> B2R u = IZR z -> u = fz_ z).
  { intros z u Hz Hf Hv. assert (K : is_finite (fz_ z) = true /\ B2R (fz_ z) = IZR z).
    { assert (z = 1 \/ z = 2 \/ z = 3 \/ z = 4 \/ z = 5)%Z as C by lia. destruct C as [-> | [-> | [-> | [-> | ->]]]]; split; try reflexivity; vm_compute B2R; lra. }
    apply B2R_inj; [| |rewrite Hv; symmetry; apply K]; apply is_finite_strict_B2R; [rewrite Hv|rewrite (proj2 K)]; apply not_0_IZR; lia. }
  rewrite (FZ 2%Z a ltac:(lia) F1 V1) in S1. rewrite (FZ 5%Z b ltac:(lia) F2 V2) in S2.
  destruct (read_single lm asc E (B "16777217") ([], 16777217%N, 0%nat) STD (digits_number (B "16777217") ltac:(discriminate) eq_refl) eq_refl) as (x & S3 & F3 & V3).
  { apply ordinary. cbn [plain_val]. unfold sign_of. destruct (list_eq_dec _ _ _) as [Q|_]; [discriminate Q|]. change (ten _) with 1. change (Z.of_N 16777217) with 16777217%Z. rewrite Rabs_pos_eq by lra. lra. }
  destruct (read_single lm asc E (B "0.1") ([], 1%N, 1%nat) STD) as (y & S4 & F4 & V4); [|reflexivity| |].
  { exists [], (B "0"), (B ".1"). split; [left; reflexivity|]. split; [reflexivity|]. split; [repeat constructor; unfold ord; cbn; lia|]. left. split; [discriminate|]. right. exists (B "1"). split; [repeat constructor; unfold ord; cbn; lia|reflexivity]. }
  { apply ordinary. cbn [plain_val]. unfold sign_of. destruct (list_eq_dec _ _ _) as [Q|_]; [discriminate Q|]. unfold ten. change (Z.of_N 1) with 1%Z. cbn [Z.opp Z.of_nat Pos.of_succ_nat powerRZ]. rewrite Pos2Nat.inj_1. rewrite Rabs_pos_eq; simpl; lra. }
  exists x, y. split; [exact (numbers_parse lm asc E x y S1 S2 S3 S4)|]. split; [exact F3|]. split; [exact F4|]. split.
  - rewrite V4. eapply Rle_trans.
    + replace (1 / 10) with (plain_val ([], 1%N, 1%nat)) at 1; [apply rnd32_error|]. cbn [plain_val]. unfold sign_of. destruct (list_eq_dec _ _ _) as [Q|_]; [discriminate Q|]. unfold ten. simpl. lra.
    + replace (plain_val ([], 1%N, 1%nat)) with (1 / 10); [rewrite Rabs_pos_eq by lra; simpl; lra|]. cbn [plain_val]. unfold sign_of. destruct (list_eq_dec _ _ _) as [Q|_]; [discriminate Q|]. unfold ten. simpl. lra.
  - rewrite V3. replace (plain_val ([], 16777217%N, 0%nat)) with 16777217; [|cbn [plain_val]; unfold sign_of; destruct (list_eq_dec _ _ _) as [Q|_]; [discriminate Q|]; change (ten _) with 1; change (Z.of_N 16777217) with 16777217%Z; ring].
    intro Q. apply big_not_single. assert (P24 : Prec_gt_0 24) by reflexivity. rewrite <- Q at 1. unfold rnd32. apply generic_format_round; typeclasses eauto.
Qed.

(** A page without numbers. *)
Definition ex_words : bytes := B "page { name = ""n""; text[""one""] { } }".
Lemma words_convert (A : Arith) (E : Env) fs : exists r, script_to_ps fs (B "s") ex_words = Ret r /\ r_ok r = true.
Proof. eexists. split; [vm_compute; reflexivity|reflexivity]. Qed.
Lemma digits_regular w : Forall digit w -> Forall (fun c => is_regular c = true) w.
Proof.
  apply Forall_impl. intros c [H1 H2]. unfold ord in *. unfold is_regular, is_white, is_delim. apply andb_true_iff.
  assert (K : forall l, Forall (fun x => (N_of_ascii x < 48 \/ 57 < N_of_ascii x)%N) l -> existsb (byte_eqb c) l = false).
  { induction 1 as [|x l Hx F IH]; [reflexivity|]. cbn [existsb]. rewrite IH. destruct (byte_eqb c x) eqn:Q; [apply byte_eqb_eq in Q; subst; lia|reflexivity]. }
  split; apply negb_true_iff, K; repeat apply Forall_cons; try apply Forall_nil; first [left; reflexivity|right; reflexivity].
Qed.
Lemma int_text_words z : word_like (int_text z).
Proof.
  unfold int_text. destruct (dec_of_N_val (Z.to_N (Z.abs z))) as [NE D]. apply dec_digit, digits_regular in D. split.
  - destruct (z <? 0)%Z; [discriminate|exact NE].
  - apply Forall_app. split; [destruct (z <? 0)%Z; repeat constructor|exact D].
Qed.
Lemma six_words r : word_like (six_text r).
Proof.
  unfold six_text, exp_text. destruct (int_text_words (Ztrunc (scaled_mantissa r10 (FLX_exp 6) (six r)))) as [N1 F1]. destruct (int_text_words (cexp r10 (FLX_exp 6) (six r))) as [N2 F2]. split.
  - intro H. apply app_eq_nil in H. destruct H as [_ H]. discriminate H.
  - apply Forall_app. split; [exact F1|]. constructor; [reflexivity|exact F2].
Qed.
Lemma text_words {A : Arith} (val : num -> option R) ms md path x : word_like (@fmt_num A (text_env val ms md path) x).
Proof. cbn [fmt_num text_env]. destruct (val x); [apply six_words|]. split; [discriminate|repeat constructor]. Qed.
Lemma text64_case lm asc : std64 lm asc (Text64 lm asc) /\ (forall x, word_like (@fmt_num (F64 lm asc) (Text64 lm asc) x)) /\
  one_line (@flag_name (F64 lm asc) (Text64 lm asc)) /\ one_line (B "s") /\ one_line (@now (F64 lm asc) (Text64 lm asc)) /\
  forall fs, exists r, @script_to_ps (F64 lm asc) (Text64 lm asc) fs (B "s") ex_words = Ret r /\ r_ok r = true.
Proof.
  split; [apply text64_std|]. split; [intro x; apply text_words|]. assert (O : forall s, existsb (fun c => existsb (byte_eqb c) [LF; CR; FF]) s = false -> one_line s).
  { intros s H. assert (K : forall c, In c [LF; CR; FF] -> ~ In c s); [|repeat split; apply K; cbn; auto]. intros c I J.
    assert (Q : existsb (fun c => existsb (byte_eqb c) [LF; CR; FF]) s = true); [|congruence]. apply existsb_exists. exists c. split; [exact J|]. apply existsb_exists. exists c. split; [exact I|]. apply byte_eqb_eq. reflexivity. }
  split; [apply O; reflexivity|]. split; [apply O; reflexivity|]. split; [apply O; reflexivity|]. intro fs. apply words_convert.
Qed.
Lemma plain_format d n : d_meta d = d_meta ex_dim \/ d_meta d = d_meta ex_angle \/ d_meta d = d_meta ex_dia -> format_digits (d_meta d) n [] n [].
Proof. intro H. left. split; [|auto]. destruct H as [-> | [-> | ->]]; unfold absent, has; cbn; intuition discriminate. Qed.
