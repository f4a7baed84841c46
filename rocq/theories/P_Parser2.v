(** P_Parser2.v - every sentence of the grammar is accepted, with its document. *)
From Verif Require Import Base Num Env Ast Lexer Parser Grammar P_Base P_Parser.

Local Unset Implicit Arguments.

Section Complete.
  Context {A : Arith}.
  Variable file : bytes.
  Variable el : nat.

  Lemma location_complete pre v r : g_location pre v -> parse_location el (pre ++ r) = POk v r.
  Proof. intros []. reflexivity. Qed.
  Lemma point_complete pre v : g_point file pre v -> forall r, parse_point file el (pre ++ r) = POk v r.
  Proof.
    induction 1 as [|a b c n ts p G IH]; intro r; [reflexivity|]. change ((LTok a (TId n) :: LTok b (TP "(") :: ts ++ [LTok c (TP ")")]) ++ r) with (LTok a (TId n) :: LTok b (TP "(") :: (ts ++ [LTok c (TP ")")]) ++ r).
    rewrite <- app_assoc. cbn [parse_point]. rewrite byte_eqb_refl, IH. reflexivity.
  Qed.
  Definition follow (r : list ltok) : Prop := match r with LTok _ (TP c) :: _ => c <> ":"%char | _ => False end.
  Lemma string_first pre u : g_string pre u -> exists l s p, pre = LTok l (TStr s) :: p /\ forall r, parse_more_str s (p ++ r) = parse_more_str u r.
  Proof.
    induction 1 as [a s|a ts u s G IH]; [exists a, s, []; split; [reflexivity|]; intro r; reflexivity|]. destruct IH as (l & s0 & p & -> & H). exists l, s0, (p ++ [LTok a (TStr s)]). split; [reflexivity|].
    intro r. rewrite <- app_assoc, H. reflexivity.
  Qed.
  Lemma string_complete pre v r : g_string pre v -> follow r -> parse_string_lit el (pre ++ r) = POk v r.
  Proof.
    intros G F. destruct (string_first _ _ G) as (l & s & p & -> & H). cbn [app parse_string_lit]. rewrite H. destruct r as [|[l1 k] r]; [destruct F|]. destruct k; try contradiction. reflexivity.
  Qed.
  Lemma value_complete pre v r : g_value file pre v -> follow r -> parse_value file el (pre ++ r) = POk v r.
  Proof.
    intros G F. destruct G as [ts s G|ts p G|a x|ts v G|a b c x y m n E1 E2].
    - pose proof (string_complete _ _ r G F) as S. destruct (string_first _ _ G) as (l & s0 & p & -> & _). cbn [app] in *. unfold parse_value. rewrite S. reflexivity.
    - pose proof (point_complete _ _ G r) as S. destruct G as [|a b c n ts p G]; [reflexivity|]. cbn [app] in *. unfold parse_value. rewrite S. reflexivity.
    - destruct r as [|[l1 k] r]; [destruct F|]. destruct k; try contradiction. cbn [app parse_value]. destruct (byte_eqb_spec c ":"); [contradiction|reflexivity].
    - destruct G. reflexivity.
    - cbn [app parse_value]. rewrite byte_eqb_refl. cbn [pbind pnum]. unfold mk_scale. rewrite E1, E2. reflexivity.
  Qed.
  Lemma arg_complete pre v r : g_arg file pre v -> follow r -> parse_arg file el (pre ++ r) = POk v r.
  Proof.
    intros G F. destruct G as [a b n ts v G|a ts v G]; cbn [app parse_arg].
    - unfold punct at 1. rewrite byte_eqb_refl. cbn [pbind]. rewrite (value_complete _ _ _ G F). reflexivity.
    - rewrite byte_eqb_refl. rewrite (location_complete _ _ _ G). reflexivity.
  Qed.
  Lemma arg_head pre v : g_arg file pre v -> exists l k p, pre = LTok l k :: p /\ ((exists n, k = TId n) \/ k = TP "@").
  Proof. intros [a b n ts u _|a ts u _]; eexists _, _, _; (split; [reflexivity|]); eauto. Qed.
  Lemma arg_semi_complete pre v l r : g_arg file pre v -> parse_arg_semi file el (pre ++ LTok l (TP ";") :: r) = POk v r.
  Proof. intro G. unfold parse_arg_semi. rewrite (arg_complete pre v (LTok l (TP ";") :: r) G); [reflexivity|]. simpl. discriminate. Qed.

  Lemma dim_parts_loop pre ml : g_dim_parts file pre ml -> exists us m mid, pre = us ++ mid /\ g_arg file us m /\ (forall r, follow r -> follow (mid ++ r)) /\
    forall fuel r, follow r -> length (mid ++ r) < fuel -> exists fuel', length r < fuel' /\ parse_more_args file el fuel [m] (mid ++ r) = parse_more_args file el fuel' ml r.
  Proof.
    induction 1 as [ts m G|a ts ml us m G IH GA].
    - exists ts, m, []. split; [rewrite app_nil_r; reflexivity|]. split; [exact G|]. split; [auto|]. intros fuel r _ L. exists fuel. auto.
    - destruct IH as (us0 & m0 & mid & -> & G0 & F0 & IH). exists us0, m0, (mid ++ LTok a (TP ",") :: us). split; [rewrite <- app_assoc; reflexivity|]. split; [exact G0|].
      assert (FC : forall t, follow (LTok a (TP ",") :: t)) by (intro; simpl; discriminate).
      split; [intros r _; rewrite <- app_assoc; apply F0; apply FC|]. intros fuel r F L. rewrite <- app_assoc in *. cbn [app] in *. destruct (IH fuel _ (FC _) L) as (fuel' & L' & E1). rewrite E1. destruct fuel' as [|fuel']; [simpl in L'; lia|].
      exists fuel'. cbn [parse_more_args]. rewrite byte_eqb_refl, (arg_complete us m r GA F). simpl in L'. rewrite app_length in L'. split; [lia|reflexivity].
  Qed.
  Lemma dim_args_complete fuel b c d us m r : g_dim_parts file us m -> length (us ++ LTok c (TP ")") :: LTok d (TP ";") :: r) < fuel ->
    parse_dim_args file el fuel (LTok b (TP "(") :: us ++ LTok c (TP ")") :: LTok d (TP ";") :: r) = POk m r.
  Proof.
    intros G L. destruct (dim_parts_loop _ _ G) as (us0 & m0 & mid & -> & G0 & F0 & H). unfold parse_dim_args. unfold punct at 1. rewrite byte_eqb_refl. cbn [pbind]. rewrite <- app_assoc in *.
    assert (FC : follow (LTok c (TP ")") :: LTok d (TP ";") :: r)) by (simpl; discriminate).
    assert (PA := arg_complete us0 m0 (mid ++ LTok c (TP ")") :: LTok d (TP ";") :: r) G0 (F0 _ FC)).
    destruct (H fuel (LTok c (TP ")") :: LTok d (TP ";") :: r) FC) as (fuel' & L' & E1); [rewrite app_length in L; lia|]. destruct fuel' as [|fuel']; [simpl in L'; lia|].
    assert (R : pbind (parse_arg file el (us0 ++ mid ++ LTok c (TP ")") :: LTok d (TP ";") :: r)) (fun a t1 => pbind (parse_more_args file el fuel [a] t1)
        (fun ml t => pbind (punct el ")" t) (fun _ t2 => pbind (punct el ";" t2) (fun _ t3 => POk ml t3)))) = POk m r).
    { rewrite PA. cbn [pbind]. rewrite E1. cbn [parse_more_args]. change (byte_eqb ")" ",") with false. cbn [pbind]. reflexivity. }
    destruct (arg_head _ _ G0) as (l & k & p & -> & [[n ->] | ->]); exact R.
  Qed.
  Lemma draw_parts_loop pre v : g_draw_parts file pre v -> forall fuel r, length (pre ++ r) < fuel ->
    exists fuel', length r < fuel' /\ parse_draw_parts file el fuel [] [] (pre ++ r) = parse_draw_parts file el fuel' (fst v) (snd v) r.
  Proof.
    induction 1 as [|a ts ml ds us m G IH GA|a b c d ts ml ds k kd G IH GK|a b c d ts ml ds k kd us m G IH GK GD]; intros fuel r L.
    - exists fuel. auto.
    - rewrite <- !app_assoc in *. destruct (IH fuel _ L) as (fuel' & L' & E1). rewrite E1. destruct fuel' as [|fuel']; [lia|]. exists fuel'. rewrite !app_length in L'. simpl in L'. split; [lia|].
      cbn [fst snd app]. pose proof (arg_semi_complete us m a r GA) as PA. destruct (arg_head _ _ GA) as (l & t & p & -> & [[n ->] | ->]); cbn [app] in *; cbn [parse_draw_parts]; [|change (byte_eqb "@" "}") with false; cbv iota]; rewrite PA; reflexivity.
    - rewrite <- !app_assoc in *. destruct (IH fuel _ L) as (fuel' & L' & E1). rewrite E1. simpl in L'. destruct fuel' as [|fuel']; [lia|]. exists fuel'. split; [lia|].
      cbn [fst snd app parse_draw_parts]. apply dim_kw_iff in GK. rewrite GK. reflexivity.
    - rewrite <- !app_assoc in *. cbn [app] in *. rewrite <- !app_assoc in *. destruct (IH fuel _ L) as (fuel' & L' & E1). rewrite E1. simpl in L'. rewrite app_length in L'. simpl in L'. destruct fuel' as [|fuel']; [lia|]. exists fuel'. split; [lia|].
      cbn [fst snd app parse_draw_parts]. apply dim_kw_iff in GK. rewrite GK. rewrite (dim_args_complete fuel' b c d us m r GD); [reflexivity|]. rewrite app_length. simpl. lia.
  Qed.
  Lemma draw_parts_complete pre v l r fuel : g_draw_parts file pre v -> length (pre ++ LTok l (TP "}") :: r) < fuel -> parse_draw_parts file el fuel [] [] (pre ++ LTok l (TP "}") :: r) = POk v r.
  Proof. intros G L. destruct (draw_parts_loop _ _ G fuel _ L) as (fuel' & L' & ->). destruct fuel' as [|fuel']; [simpl in L'; lia|]. destruct v. reflexivity. Qed.
  Lemma text_parts_loop pre v : g_text_parts file pre v -> forall fuel r, length (pre ++ r) < fuel ->
    exists fuel', length r < fuel' /\ parse_text_parts file el fuel [] (pre ++ r) = parse_text_parts file el fuel' v r.
  Proof.
    induction 1 as [|a ts ml us m G IH GA]; intros fuel r L.
    - exists fuel. auto.
    - rewrite <- !app_assoc in *. destruct (IH fuel _ L) as (fuel' & L' & E1). rewrite E1. destruct fuel' as [|fuel']; [lia|]. exists fuel'. rewrite !app_length in L'. simpl in L'. split; [lia|].
      pose proof (arg_semi_complete us m a r GA) as PA. destruct (arg_head _ _ GA) as (l & t & p & -> & [[n ->] | ->]); cbn [app] in *; cbn [parse_text_parts]; [|change (byte_eqb "@" "}") with false; cbv iota]; rewrite PA; reflexivity.
  Qed.
  Lemma text_parts_complete pre v l r fuel : g_text_parts file pre v -> length (pre ++ LTok l (TP "}") :: r) < fuel -> parse_text_parts file el fuel [] (pre ++ LTok l (TP "}") :: r) = POk v r.
  Proof. intros G L. destruct (text_parts_loop _ _ G fuel _ L) as (fuel' & L' & ->). destruct fuel' as [|fuel']; [simpl in L'; lia|]. reflexivity. Qed.
  Lemma page_parts_loop pre v : g_page_parts file pre v -> forall fuel r, length (pre ++ r) < fuel ->
    exists fuel', length r < fuel' /\ parse_page_parts file el fuel [] [] (pre ++ r) = parse_page_parts file el fuel' (fst v) (snd v) r.
  Proof.
    induction 1 as [|a ts ml ds us m G IH GA|a b c d ts ml ds n us m dm G IH GD|a b c d e ts ml ds us s ws m G IH GS GT]; intros fuel r L.
    - exists fuel. auto.
    - rewrite <- !app_assoc in *. destruct (IH fuel _ L) as (fuel' & L' & E1). rewrite E1. destruct fuel' as [|fuel']; [lia|]. exists fuel'. rewrite !app_length in L'. simpl in L'. split; [lia|].
      cbn [fst snd app]. pose proof (arg_semi_complete us m a r GA) as PA. destruct (arg_head _ _ GA) as (l & t & p & -> & [[n ->] | ->]); cbn [app] in *; cbn [parse_page_parts]; [|change (byte_eqb "@" "}") with false; cbv iota]; rewrite PA; reflexivity.
    - rewrite <- !app_assoc in *. cbn [app] in *. rewrite <- !app_assoc in *. destruct (IH fuel _ L) as (fuel' & L' & E1). rewrite E1. simpl in L'. rewrite app_length in L'. simpl in L'. destruct fuel' as [|fuel']; [lia|]. exists fuel'. split; [lia|].
      cbn [fst snd app parse_page_parts]. unfold punct at 1. rewrite byte_eqb_refl. cbn [pbind]. rewrite (draw_parts_complete us (m, dm) d r fuel' GD); [reflexivity|]. rewrite app_length. simpl. lia.
    - rewrite <- !app_assoc in *. cbn [app] in *. rewrite <- !app_assoc in *. cbn [app] in *. rewrite <- !app_assoc in *. destruct (IH fuel _ L) as (fuel' & L' & E1). rewrite E1. simpl in L'. rewrite app_length in L'. simpl in L'. rewrite app_length in L'. simpl in L'.
      destruct fuel' as [|fuel']; [lia|]. exists fuel'. split; [lia|].
      cbn [fst snd app parse_page_parts]. unfold punct at 1. rewrite byte_eqb_refl. cbn [pbind]. rewrite (string_complete us s (LTok c (TP "]") :: LTok d (TP "{") :: ws ++ LTok e (TP "}") :: r) GS); [|simpl; discriminate].
      cbn [pbind]. unfold punct at 1. rewrite byte_eqb_refl. cbn [pbind]. unfold punct at 1. rewrite byte_eqb_refl. cbn [pbind]. rewrite (text_parts_complete ws m e r fuel' GT); [reflexivity|]. rewrite app_length. simpl. lia.
  Qed.
  Lemma page_parts_complete pre v l r fuel : g_page_parts file pre v -> length (pre ++ LTok l (TP "}") :: r) < fuel -> parse_page_parts file el fuel [] [] (pre ++ LTok l (TP "}") :: r) = POk v r.
  Proof. intros G L. destruct (page_parts_loop _ _ G fuel _ L) as (fuel' & L' & ->). destruct fuel' as [|fuel']; [simpl in L'; lia|]. destruct v. reflexivity. Qed.
  Lemma input_loop pre d : g_input file pre d -> forall fuel r, length (pre ++ r) < fuel ->
    exists fuel', length r < fuel' /\ parse_input file el fuel (Doc [] []) (pre ++ r) = parse_input file el fuel' d r.
  Proof.
    induction 1 as [|a b c d e ts ms ps n s G IH|a b c ts ms ps us ml ds G IH GP]; intros fuel r L.
    - exists fuel. auto.
    - rewrite <- !app_assoc in *. destruct (IH fuel _ L) as (fuel' & L' & E1). rewrite E1. simpl in L'. destruct fuel' as [|fuel']; [lia|]. exists fuel'. split; [lia|]. reflexivity.
    - rewrite <- !app_assoc in *. cbn [app] in *. rewrite <- !app_assoc in *. destruct (IH fuel _ L) as (fuel' & L' & E1). rewrite E1. simpl in L'. rewrite app_length in L'. simpl in L'. destruct fuel' as [|fuel']; [lia|]. exists fuel'. split; [lia|].
      cbn [app parse_input]. unfold parse_page. unfold punct at 1. rewrite byte_eqb_refl. cbn [pbind]. rewrite (page_parts_complete us (ml, ds) c r fuel' GP); [reflexivity|]. rewrite app_length. simpl. lia.
  Qed.
  Lemma input_complete ts d : g_input file ts d -> parse_input file el (S (length ts)) (Doc [] []) ts = (d, None).
  Proof.
    intro G. destruct (input_loop ts d G (S (length ts)) []) as (fuel' & L' & E1); [rewrite app_nil_r; lia|]. rewrite app_nil_r in E1. rewrite E1. destruct fuel' as [|fuel']; [simpl in L'; lia|]. reflexivity.
  Qed.
  Lemma input_unique ts d d' : g_input file ts d -> g_input file ts d' -> d = d'.
  Proof. intros H1 H2. apply input_complete in H1, H2. congruence. Qed.
End Complete.

Lemma parse_iff {A : Arith} {E : Env} f c d lg : parse f c = Ret (0, d, lg) <-> lg = [] /\ exists ts, tokens c = Ret ts /\ g_input f ts d.
Proof.
  unfold parse. split.
  - intro H. destruct (tokens c) as [ts|e]; [|discriminate H]. cbn [obind] in H. destruct (parse_input f (1 + count_lf c) (S (length ts)) (Doc [] []) ts) as [d' [e|]] eqn:PI.
    + destruct e; discriminate H.
    + injection H as <- <-. split; [reflexivity|]. exists ts. split; [reflexivity|]. apply (input_sound f (1 + count_lf c) (S (length ts)) ts [] (Doc [] []) d'); [constructor|exact PI].
  - intros [-> (ts & -> & G)]. cbn [obind]. rewrite (input_complete f _ ts d G). reflexivity.
Qed.
