(** P_Text2.v - script numbers, output numbers and labels as text. *)
From Coq Require Import Reals ZArith Lra Lia.
From Flocq Require Import Core Relative IEEE754.BinarySingleNaN.
From Verif Require Import Base Num NumF64 NumReal Geo Stl StlRead Env Ast Lexer Parser Ps Draw Main
  P_Base P_Meta P_Frame P_Dims P_Doc DocSpec P_Script P_Script2 LangSpec P_Lex P_Lex2 P_Lex3 Grammar P_Parser P_Parser2 P_Parser3 P_Dead P_Print P_Lang P_Lang2 StlSpec P_Stl P_Total EndSpec PsSpec P_Ps2 FiniteSpec P_Finite
  NumLaws F64Spec P_Bound RealSpec DimSpec P_Value P_Value2 P_Text TextSpec.

Local Unset Implicit Arguments.
Local Open Scope R_scope.

(** ** Single and double precision *)
Lemma rnd32_error r : Rabs (rnd32 r - r) <= / 2 ^ 24 * Rabs r + / 2 ^ 150.
Proof.
  destruct (error_N_FLT radix2 (-149) 24 ltac:(lia) (fun x => negb (Z.even x)) r) as (e & n & He & Hn & _ & HR).
  unfold rnd32. rewrite HR. replace (r * (1 + e) + n - r) with (e * r + n) by ring.
  eapply Rle_trans; [apply Rabs_triang|]. rewrite Rabs_mult. apply Rplus_le_compat.
  - apply Rmult_le_compat_r; [apply Rabs_pos|]. eapply Rle_trans; [exact He|]. rewrite bpow_powerRZ. simpl. lra.
  - eapply Rle_trans; [exact Hn|]. rewrite bpow_powerRZ. simpl. lra.
Qed.
Lemma rnd64_error r : Rabs (rnd64 r - r) <= / 2 ^ 53 * Rabs r + / 2 ^ 1075.
Proof.
  destruct (error_N_FLT radix2 (-1074) 53 ltac:(lia) (fun x => negb (Z.even x)) r) as (e & n & He & Hn & _ & HR).
  unfold rnd64. rewrite HR. replace (r * (1 + e) + n - r) with (e * r + n) by ring.
  eapply Rle_trans; [apply Rabs_triang|]. rewrite Rabs_mult. apply Rplus_le_compat.
  - apply Rmult_le_compat_r; [apply Rabs_pos|]. eapply Rle_trans; [exact He|]. rewrite bpow_powerRZ. simpl. lra.
  - eapply Rle_trans; [exact Hn|]. rewrite bpow_powerRZ. change (powerRZ (IZR radix2) (-1074)) with (/ 2 ^ 1074). rewrite <- Rinv_mult. apply Req_le. reflexivity.
Qed.
Lemma rnd32_int z : (Z.abs z <= 2 ^ 24)%Z -> rnd32 (IZR z) = IZR z.
Proof.
  intro H. unfold rnd32. apply round_generic; [typeclasses eauto|]. destruct (Z.eq_dec (Z.abs z) (2 ^ 24)) as [Q|Q].
  - assert (G : generic_format radix2 (FLT_exp (-149) 24) (IZR (2 ^ 24))) by (change (IZR (2 ^ 24)) with (bpow radix2 24); apply generic_format_bpow; unfold FLT_exp; lia).
    destruct (Z.abs_eq_or_opp z) as [K|K]; rewrite K in Q.
    + rewrite Q. exact G.
    + replace z with (- (2 ^ 24))%Z by lia. rewrite opp_IZR. apply generic_format_opp, G.
  - apply generic_format_FLT. exists (Float radix2 z 0); [unfold F2R; simpl; ring|cbn [Fnum]; change (Zpower radix2 24) with (2 ^ 24)%Z; lia|cbn [Fexp]; lia].
Qed.

(** ** Every number can be read *)
Lemma digits_val w : Forall digit w -> forall acc, exists m, dec_val w acc = Some m.
Proof.
  induction 1 as [|c w D F IH]; intro acc; cbn [dec_val]; [eauto|]. unfold digit, ord in D. destruct D as [D1 D2]. apply N.leb_le in D1, D2. rewrite D1, D2. apply IH.
Qed.
Lemma number_reads w : number w -> exists r, reads w r.
Proof.
  intros (sg & a & r & S & -> & FA & H). assert (K : exists f, (a ++ r = a ++ "."%char :: f \/ a ++ r = a /\ f = []) /\ a ++ f <> [] /\ Forall digit f).
  { destruct H as [[N [->|(f & FF & ->)]]|[-> (f & N & FF & ->)]].
    - exists []. rewrite app_nil_r. auto.
    - exists f. split; [auto|]. split; [|exact FF]. destruct a; [congruence|discriminate].
    - exists f. auto. }
  destruct K as (f & K1 & K2 & K3). destruct (digits_val (a ++ f) (proj2 (Forall_app _ _ _) (conj FA K3)) 0%N) as [m M].
  eexists. apply reads_plain with (m := m) (k := length f); [exact S|]. exists a, f. auto.
Qed.

(** ** Numbers of scripts *)
Section Script.
  Context {A : Arith} {E : Env}.
  Lemma number_tokens c ts k x : tokens c = Ret ts -> In k ts -> t_tok k = TNum x -> exists w, numeral_in c w /\ number w /\ stof w = Some x.
  Proof.
    intros H HI T. destruct (token_piece _ _ _ H HI) as (ls & y & S & I & Q & P). unfold tok_of in Q.
    destruct (lx_act y) eqn:EA; cbn [piece] in P; try (injection Q as <-; discriminate T).
    - injection Q as <-. cbn [t_tok] in T. rewrite (cstr_id _ (number_nul _ P)) in T. destruct (stof (lx_text y)) eqn:SF; [|discriminate T]. injection T as <-.
      exists (lx_text y). split; [exists ls, y; auto|]. split; [exact P|exact SF].
    - destruct P as [v L]. destruct (quote_safe _ _ L) as [u Hu]. rewrite Hu in Q. injection Q as <-. discriminate T.
    - discriminate Q.
  Qed.
  Context (val : num -> option R) (rs rd : R -> R) (STD : text_std val rs rd).
  Lemma script_numbers src c d : parses src c d -> doc_nums (fun x => exists w r, numeral_in c w /\ reads w r /\ val x = Some (rs r)) d.
  Proof.
    intro HP. pose proof HP as [lg H]. apply parse_iff in H. destruct H as (_ & ts & HT & G). apply (parsed_nums_tok _ src c d ts HP HT).
    apply Forall_forall. intros k HI. unfold num_tok. destruct (t_tok k) eqn:T; auto. destruct (number_tokens _ _ _ _ HT HI T) as (w & W & N & S).
    destruct (std_stof _ _ _ STD _ _ N S) as (r & R1 & R2). eauto.
  Qed.
  Lemma numeral_number c w : numeral_in c w -> number w.
  Proof. intros (l & x & S & I & A1 & <-). destruct (scanned_of _ _ S) as (_ & F & _). rewrite Forall_forall in F. specialize (F _ I). rewrite A1 in F. exact (proj2 F). Qed.
  Lemma ordinary_numbers fs src c : (forall w r, numeral_in c w -> reads w r -> r = 0 \/ 1 / 2 ^ 126 <= Rabs r <= 2 ^ 127) -> ~ reason fs src c (AThrow "std::stof").
  Proof. intros H R. inversion R as [w W N| | | | | | | |]; subst. destruct (number_reads w (numeral_number _ _ W)) as [r Hr]. exact (std_stof_ok _ _ _ STD w r (numeral_number _ _ W) Hr (H _ _ W Hr) N). Qed.
  Lemma model_numbers t f lg : stl_make t = Ret (Some f, lg) -> forall g, In g (facets f) ->
    Forall (nums3 (fun x => exists w r u v, numeral w /\ t = u ++ w ++ v /\ reads w r /\ val x = Some (rd r))) [fe0 g; fe1 g; fe2 g].
  Proof.
    intros H g I. set (P := nums3 _). assert (F : Forall (fun f => P (fe0 f) /\ P (fe1 f) /\ P (fe2 f)) (facets f)).
    - refine (make_keeps P t f lg _ H). intros ls l p HL IL S. inversion S as [| | |q HT|]; subst. destruct HT as (b & s1 & n1 & s2 & n2 & s3 & n3 & s4 & _ & _ & _ & N1 & _ & _ & N2 & _ & _ & N3 & _ & Q & D1 & D2 & D3).
      assert (IN : exists u v, t = u ++ l ++ v).
      { destruct HL as [_ [->|(i & m & -> & _ & ->)]].
        - apply in_split in IL. destruct IL as (a & z & ->). exists (flat_map (fun l => l ++ [LF]) a), ([LF] ++ flat_map (fun l => l ++ [LF]) z). rewrite flat_map_app. cbn [flat_map]. rewrite <- !app_assoc. reflexivity.
        - apply in_app_or in IL. destruct IL as [IL|[<-|[]]].
          + apply in_split in IL. destruct IL as (a & z & ->). exists (flat_map (fun l => l ++ [LF]) a), ([LF] ++ flat_map (fun l => l ++ [LF]) z ++ m). rewrite flat_map_app. cbn [flat_map]. rewrite <- !app_assoc. reflexivity.
          + exists (flat_map (fun l => l ++ [LF]) i), []. rewrite app_nil_r. reflexivity. }
      destruct IN as (u & v & ->). unfold P. repeat split.
      + destruct (std_re2 _ _ _ STD _ _ N1 D1) as (r & R1 & R2). exists n1, r, (u ++ b ++ B "vertex" ++ s1), (s2 ++ n2 ++ s3 ++ n3 ++ s4 ++ v). split; [exact N1|]. split; [rewrite Q, <- !app_assoc; reflexivity|auto].
      + destruct (std_re2 _ _ _ STD _ _ N2 D2) as (r & R1 & R2). exists n2, r, (u ++ b ++ B "vertex" ++ s1 ++ n1 ++ s2), (s3 ++ n3 ++ s4 ++ v). split; [exact N2|]. split; [rewrite Q, <- !app_assoc; reflexivity|auto].
      + destruct (std_re2 _ _ _ STD _ _ N3 D3) as (r & R1 & R2). exists n3, r, (u ++ b ++ B "vertex" ++ s1 ++ n1 ++ s2 ++ n2 ++ s3), (s4 ++ v). split; [exact N3|]. split; [rewrite Q, <- !app_assoc; reflexivity|auto].
    - rewrite Forall_forall in F. destruct (F _ I) as (H1 & H2 & H3). apply Forall_cons; [exact H1|apply Forall_cons; [exact H2|apply Forall_cons; [exact H3|apply Forall_nil]]].
  Qed.
End Script.

(** ** Doubles *)
Section Doubles.
  Context (lm : libm) (asc : bool) (E : @Env (F64 lm asc)).
  Notation AN := (F64 lm asc).
  #[local] Instance AT : Arith := AN.
  Definition single_of (c : bytes) (x : f64) : Prop := exists w r, numeral_in c w /\ reads w r /\ is_finite x = true /\ B2R x = rnd32 r.
  Lemma val64_some x r : val64 x = Some r -> is_finite x = true /\ B2R x = r.
  Proof. unfold val64. destruct (is_finite x); [intro H; injection H; auto|discriminate]. Qed.
  Lemma doc_nums_impl (P Q : @num AN -> Prop) d : (forall x, P x -> Q x) -> doc_nums P d -> doc_nums Q d.
  Proof.
    intros H D pg I. destruct (D pg I) as [D1 D2].
    assert (M : forall ml, metas_nums P ml -> metas_nums Q ml).
    { intros ml K x Ix. specialize (K x Ix). destruct (m_val x); cbn in *; unfold nums3, nums2 in *; intuition. }
    split; [apply M, D1|]. intros i Ii. specialize (D2 i Ii). destruct i; cbn in *; [destruct D2 as [K1 K2]; split; [apply M, K1|intros dm Id; apply M, K2, Id]|apply M, D2].
  Qed.
  Theorem script_singles : std64 lm asc E -> forall src c d, @parses AN E src c d -> doc_nums (A := AN) (single_of c) d.
  Proof.
    intros STD src c d HP. eapply doc_nums_impl; [|exact (script_numbers _ _ _ STD src c d HP)]. intros x (w & r & W & R1 & V). apply val64_some in V. exists w, r. tauto.
  Qed.
  Theorem model_doubles : std64 lm asc E -> forall t f lg, @stl_make AN E t = Ret (Some f, lg) -> forall g v, In g (facets f) -> In v [fe0 g; fe1 g; fe2 g] ->
    nums3 (A := AN) (fun x : f64 => exists w r u z, numeral w /\ t = u ++ w ++ z /\ reads w r /\ is_finite x = true /\ B2R x = rnd64 r) v.
  Proof.
    intros STD t f lg H g v I J. pose proof (model_numbers _ _ _ STD t f lg H g I) as F. rewrite Forall_forall in F. destruct (F v J) as (H1 & H2 & H3).
    repeat split; [destruct H1 as (w & r & u & z & N & Q & R1 & V)|destruct H2 as (w & r & u & z & N & Q & R1 & V)|destruct H3 as (w & r & u & z & N & Q & R1 & V)]; apply val64_some in V; exists w, r, u, z; tauto.
  Qed.
  Theorem script_no_throw : std64 lm asc E -> forall fs src c s, (forall w r, numeral_in c w -> reads w r -> r = 0 \/ 1 / 2 ^ 126 <= Rabs r <= 2 ^ 127) ->
    @script_to_ps AN E fs src c <> Abort (AThrow s).
  Proof.
    intros STD fs src c s OR H.
    assert (R := reasons (F64_ordered lm asc) (zero_ok lm asc)).
    assert (NAN : forall w x, numeral w -> @re2_double AN E w = Some x -> @ok AN x).
    { intros w x W D. apply (proj2 (doubles_ordered lm asc)). destruct (std_re2 _ _ _ STD w x W D) as (r & _ & V). apply val64_some in V. destruct V as [V _]. destruct x; [reflexivity|discriminate V|discriminate V|reflexivity]. }
    specialize (R NAN fs src c _ H). inversion R; subst. exact (ordinary_numbers _ _ _ STD fs src c OR R).
  Qed.
  Lemma f_to_int_val x a : f_to_int x = Some a -> a = Ztrunc (B2R x).
  Proof.
    intro H. assert (K : a = Btrunc x).
    { destruct x; cbn [f_to_int] in H; try discriminate H; [injection H as <-; reflexivity|]. destruct (_ && _)%bool; [|discriminate H]. injection H as <-. reflexivity. }
    pose proof (Btrunc_correct 53 1024 eq_refl x) as Q. rewrite K. apply eq_IZR. rewrite Q. unfold round, F2R, scaled_mantissa, cexp, FIX_exp. cbn [Fnum Fexp Z.opp bpow]. rewrite !Rmult_1_r. reflexivity.
  Qed.
  Theorem scales_read : std64 lm asc E -> forall src c d pg l n ml ds m a b, @parses AN E src c d -> In pg (doc_pages d) -> In (DDraw l n ml ds) (pg_draws pg) -> In m ml -> m_val m = MScale a b ->
    exists us w1 w2 vs r1 r2, arranged (us ++ m_name m :: B "=" :: w1 :: B ":" :: w2 :: vs) c /\ reads w1 r1 /\ reads w2 r2 /\ a = Ztrunc (rnd32 r1) /\ b = Ztrunc (rnd32 r2).
  Proof.
    intros STD src c d pg l n ml ds m a b HP H1 H2 H3 V. destruct (scale_numbers _ _ _ _ _ _ _ _ _ _ _ HP H1 H2 H3 V) as (us & w1 & w2 & vs & x & y & AR & N1 & N2 & S1 & T1 & S2 & T2).
    destruct (std_stof _ _ _ STD _ _ N1 S1) as (r1 & R1 & V1). destruct (std_stof _ _ _ STD _ _ N2 S2) as (r2 & R2 & V2). apply val64_some in V1, V2.
    exists us, w1, w2, vs, r1, r2. split; [exact AR|]. split; [exact R1|]. split; [exact R2|]. rewrite (f_to_int_val _ _ T1), (f_to_int_val _ _ T2), (proj2 V1), (proj2 V2). auto.
  Qed.
End Doubles.
