(** P_Lang2.v - accepted scripts are arrangements of tokens, what the parser
    returns can be printed, and where the scales come from. *)
From Coq Require Import Reals Lra.
From Verif Require Import Base Num NumReal Geo Stl StlRead Env Ast Lexer Parser Ps Draw Main
  P_Base P_Meta P_Frame P_Dims P_Doc DocSpec P_Script P_Script2 P_Script3
  LangSpec P_Lex P_Lex2 P_Lex3 Grammar P_Parser P_Parser2 P_Parser3 P_Lang P_Layout PrintSpec P_Print.

Local Unset Implicit Arguments.

Section Lang2.
  Context {A : Arith} {E : Env}.
  (** ** Layout *)
  Lemma same_layout f f' ws s s' : arranged ws s -> arranged ws s' -> erase_answer (parse f s) = erase_answer (parse f' s').
  Proof.
    intros H H'. apply arranged_reads in H, H'. destruct (tokens_of _ _ H) as (ts & HT & HM). destruct (tokens_of _ _ H') as (ts' & HT' & HM').
    refine (same_tokens f f' s s' ts ts' HT HT' _). congruence.
  Qed.
  (** No token of a derivation is an error. *)
  Definition sane_tok (k : ltok) : Prop := match t_tok k with TErr _ | TThrow => False | _ => True end.
  Ltac sane := repeat first [assumption | apply Forall_nil | apply Forall_cons; [exact I|] | apply Forall_app; split].
  Lemma s_point f ts p : g_point f ts p -> Forall sane_tok ts. Proof. induction 1; sane. Qed.
  Lemma s_string ts s : g_string ts s -> Forall sane_tok ts. Proof. induction 1; sane. Qed.
  Lemma s_location ts v : g_location ts v -> Forall sane_tok ts. Proof. intros []; sane. Qed.
  Lemma s_value f ts v : g_value f ts v -> Forall sane_tok ts.
  Proof. intros [us s G|us p G|a x|us u G|a b c x y m n Tm Tn]; [exact (s_string _ _ G)|exact (s_point _ _ _ G)| |exact (s_location _ _ G)|]; sane. Qed.
  Lemma s_arg f ts m : g_arg f ts m -> Forall sane_tok ts.
  Proof. intros [a b n us v G|a us v G]; [apply s_value in G|apply s_location in G]; sane. Qed.
  Lemma s_dim_parts f ts m : g_dim_parts f ts m -> Forall sane_tok ts.
  Proof. induction 1 as [ts m G|a ts ml us m G IH GA]; [apply s_arg in G|apply s_arg in GA]; sane. Qed.
  Lemma s_draw_parts f ts r : g_draw_parts f ts r -> Forall sane_tok ts.
  Proof.
    induction 1 as [|a ts ml ds us m G IH GA|a b c d ts ml ds k kd G IH GK|a b c d ts ml ds k kd us m G IH GK GD]; [|apply s_arg in GA| |apply s_dim_parts in GD]; sane.
  Qed.
  Lemma s_text_parts f ts r : g_text_parts f ts r -> Forall sane_tok ts.
  Proof. induction 1 as [|a ts ml us m G IH GA]; [|apply s_arg in GA]; sane. Qed.
  Lemma s_page_parts f ts r : g_page_parts f ts r -> Forall sane_tok ts.
  Proof.
    induction 1 as [|a ts ml ds us m G IH GA|a b c d ts ml ds n us m dm G IH GD|a b c d e ts ml ds us s ws m G IH GS GT]; [|apply s_arg in GA|apply s_draw_parts in GD|apply s_string in GS; apply s_text_parts in GT]; sane.
  Qed.
  Lemma s_input f ts r : g_input f ts r -> Forall sane_tok ts.
  Proof.
    induction 1 as [|a b c d e ts ms ps n s G IH|a b c ts ms ps us ml ds G IH GP]; [| |apply s_page_parts in GP]; sane.
  Qed.
  Lemma parsed_words f c d : parses f c d -> exists ts ws, tokens c = Ret ts /\ g_input f ts d /\ arranged ws c /\ flat_map (fun w => val w (act_of w)) ws = map t_tok ts.
  Proof.
    intros [lg H]. apply parse_iff in H. destruct H as (_ & ts & HT & G). destruct (reads_all c) as [vs R]. destruct (tokens_of _ _ R) as (ts' & HT' & HM). rewrite HT in HT'. injection HT' as <-.
    destruct (reads_arranged (length c) c vs (le_n _) R) as (ws & H1 & H2).
    { intros u HI. rewrite <- HM in HI. apply in_map_iff in HI. destruct HI as (k & Hk & HI). pose proof (s_input _ _ _ G) as F. rewrite Forall_forall in F. specialize (F _ HI). unfold sane_tok in F. rewrite Hk in F. exact F. }
    exists ts, ws. split; [exact HT|]. split; [exact G|]. split; [exact H1|]. rewrite H2, HM. reflexivity.
  Qed.
  Lemma parsed_arranged f c d : parses f c d -> exists ws, arranged ws c.
  Proof. intro H. destruct (parsed_words _ _ _ H) as (_ & ws & _ & _ & H1 & _). eauto. Qed.

  (** ** Printing what was parsed *)
  Lemma new_quote_nul w v : literal w v -> ~ In NUL (match new_quote (cstr w) with Ret u => u | Abort _ => [] end).
  Proof.
    intros _. destruct (new_quote (cstr w)) as [u|] eqn:Q; [|intros []]. unfold new_quote in Q.
    assert (K : forall fuel t f buf u, (forall i c, nth_error buf i = Some c -> c <> NUL) -> nq_loop fuel t f buf = Ret u -> ~ In NUL u).
    { clear. induction fuel as [|fuel IH]; intros t f buf u HB; cbn [nq_loop].
      - destruct ((length buf =? 0) || _); [discriminate|]. intro H; injection H as <-. intro HI. apply In_nth_error in HI. destruct HI as [i Hi].
        assert (HI2 : In NUL buf) by (rewrite <- (firstn_skipn t buf); apply in_or_app; left; eapply nth_error_In; exact Hi). apply In_nth_error in HI2. destruct HI2 as [j Hj]. exact (HB _ _ Hj eq_refl).
      - assert (SET : forall x (HX : x <> NUL), forall i c, nth_error (set_nth t x buf) i = Some c -> c <> NUL).
        { intros x HX i c H ->. apply nth_error_In in H. unfold set_nth in H. destruct (t <? length buf).
          - apply in_app_or in H. destruct H as [H|[H|H]]; [|exact (HX H)|].
            + assert (HI2 : In NUL buf) by (rewrite <- (firstn_skipn t buf); apply in_or_app; left; exact H). apply In_nth_error in HI2. destruct HI2 as [j Hj]. exact (HB _ _ Hj eq_refl).
            + assert (HI2 : In NUL buf) by (rewrite <- (firstn_skipn (S t) buf); apply in_or_app; right; exact H). apply In_nth_error in HI2. destruct HI2 as [j Hj]. exact (HB _ _ Hj eq_refl).
          - apply In_nth_error in H. destruct H as [j Hj]. exact (HB _ _ Hj eq_refl). }
        destruct ((length buf =? 0) || _).
        + destruct (nth_error buf f) as [c|] eqn:N; [|discriminate]. destruct (negb (byte_eqb c BSLASH)).
          * destruct (t <? length buf); [|discriminate]. apply IH, SET, (HB _ _ N).
          * destruct (nth_error buf (S f)) as [e|] eqn:N2; [|discriminate]. destruct (t <? length buf); [|discriminate]. apply IH, SET. destruct (byte_eqb e "n"); [discriminate|exact (HB _ _ N2)].
        + intro H; injection H as <-. intro HI. assert (HI2 : In NUL buf) by (rewrite <- (firstn_skipn t buf); apply in_or_app; left; exact HI). apply In_nth_error in HI2. destruct HI2 as [j Hj]. exact (HB _ _ Hj eq_refl). }
    refine (K _ _ _ _ _ _ Q). intros i c H ->. apply nth_error_In in H. exact (cstr_no_nul w H).
  Qed.
  Lemma fine_tokens c ts : tokens c = Ret ts -> Forall fine_tok ts.
  Proof.
    intro H. apply Forall_forall. intros k HI. destruct (token_piece _ _ _ H HI) as (ls & x & _ & _ & Q & P). unfold tok_of in Q. unfold fine_tok.
    destruct (lx_act x) eqn:EA; cbn [piece] in P.
    - injection Q as <-. exact I.
    - injection Q as <-. exact I.
    - injection Q as <-. cbn [t_tok]. destruct P as [W K]. rewrite (cstr_id _ (word_nul _ W)). split; assumption.
    - injection Q as <-. cbn [t_tok]. rewrite (cstr_id _ (number_nul _ P)). destruct (stof (lx_text x)) eqn:S; [|exact I]. eauto.
    - destruct P as [v L]. destruct (quote_safe _ _ L) as [u Hu]. pose proof (new_quote_nul _ _ L) as N. rewrite Hu in Q, N. injection Q as <-. exact N.
    - discriminate Q.
    - injection Q as <-. exact I.
  Qed.
  Lemma parsed_printable sn si f c d : spells_read sn si -> parses f c d -> printable sn si d.
  Proof. intros SR [lg H]. apply parse_iff in H. destruct H as (_ & ts & HT & G). exact (r_input sn si SR f ts d G (fine_tokens _ _ HT)). Qed.
  Lemma print_spaced sn si f d : printable sn si d -> exists d', parse f (spaced (words_doc sn si d)) = Ret (0, d', []) /\ erase d' = erase d.
  Proof. intro P. apply (print_parse sn si f d _ P). apply spaced_arranged, t_doc, P. Qed.

  (** ** Scales *)
  Definition has_scale (ts : list ltok) (nm : bytes) (a b : Z) : Prop :=
    exists pre l1 l2 l3 l4 l5 x y post, ts = pre ++ LTok l1 (TId nm) :: LTok l2 (TP "=") :: LTok l3 (TNum x) :: LTok l4 (TP ":") :: LTok l5 (TNum y) :: post /\ to_int x = Some a /\ to_int y = Some b.
  Lemma has_scale_app u ts v nm a b : has_scale ts nm a b -> has_scale (u ++ ts ++ v) nm a b.
  Proof.
    intros (pre & l1 & l2 & l3 & l4 & l5 & x & y & post & -> & H1 & H2). exists (u ++ pre), l1, l2, l3, l4, l5, x, y, (post ++ v). split; [|auto]. rewrite <- !app_assoc. reflexivity.
  Qed.
  Lemma arg_scale f ts m a b : g_arg f ts m -> m_val m = MScale a b -> has_scale ts (m_name m) a b.
  Proof.
    intros [k1 k2 n us v G|k1 us v G] V; cbn [m_val m_name] in *; [|discriminate V]. subst v. inversion G; subst. exists [], k1, k2. do 3 eexists. exists x, y, []. split; [reflexivity|]. split; assumption.
  Qed.
  Lemma draw_scale f ts r m a b : g_draw_parts f ts r -> In m (fst r) -> m_val m = MScale a b -> has_scale ts (m_name m) a b.
  Proof.
    induction 1 as [|k ts ml ds us m' G IH GA|k1 k2 k3 k4 ts ml ds k kd G IH GK|k1 k2 k3 k4 ts ml ds k kd us m' G IH GK GD]; cbn [fst] in *; intros HI V; [destruct HI| | |].
    - apply in_app_or in HI. destruct HI as [HI|[->|[]]]; [exact (has_scale_app [] _ _ _ _ _ (IH HI V))|exact (has_scale_app _ _ _ _ _ _ (arg_scale _ _ _ _ _ GA V))].
    - exact (has_scale_app [] _ _ _ _ _ (IH HI V)).
    - exact (has_scale_app [] _ _ _ _ _ (IH HI V)).
  Qed.
  Lemma page_scale f ts r l n ml ds m a b : g_page_parts f ts r -> In (DDraw l n ml ds) (snd r) -> In m ml -> m_val m = MScale a b -> has_scale ts (m_name m) a b.
  Proof.
    induction 1 as [|k1 ts ml0 ds0 us m' G IH GA|k1 k2 k3 k4 ts ml0 ds0 n' us m' dm G IH GD|k1 k2 k3 k4 k5 ts ml0 ds0 us s ws m' G IH GS GT]; cbn [snd] in *; intros HI HM V; [destruct HI| | |].
    - exact (has_scale_app [] _ _ _ _ _ (IH HI HM V)).
    - apply in_app_or in HI. destruct HI as [HI|[HI|[]]]; [exact (has_scale_app [] _ _ _ _ _ (IH HI HM V))|]. injection HI as <- <- <- <-.
      pose proof (draw_scale _ _ _ _ _ _ GD HM V) as S. match goal with |- has_scale (?u ++ ?x :: ?y :: ?z :: us ++ ?v) _ _ _ => replace (u ++ x :: y :: z :: us ++ v) with ((u ++ [x; y; z]) ++ us ++ v) by (rewrite <- app_assoc; reflexivity) end. apply has_scale_app, S.
    - apply in_app_or in HI. destruct HI as [HI|[HI|[]]]; [exact (has_scale_app [] _ _ _ _ _ (IH HI HM V))|discriminate HI].
  Qed.
  Lemma input_scale f ts d pg l n ml ds m a b : g_input f ts d -> In pg (doc_pages d) -> In (DDraw l n ml ds) (pg_draws pg) -> In m ml -> m_val m = MScale a b -> has_scale ts (m_name m) a b.
  Proof.
    induction 1 as [|k1 k2 k3 k4 k5 ts ms ps n' s G IH|k1 k2 k3 ts ms ps us ml0 ds0 G IH GP]; cbn [doc_pages] in *; intros HP HI HM V; [destruct HP| |].
    - exact (has_scale_app [] _ _ _ _ _ (IH HP HI HM V)).
    - apply in_app_or in HP. destruct HP as [HP|[<-|[]]]; [exact (has_scale_app [] _ _ _ _ _ (IH HP HI HM V))|].
      pose proof (page_scale _ _ _ _ _ _ _ _ _ _ GP HI HM V) as S. match goal with |- has_scale (?u ++ ?x :: ?y :: us ++ ?v) _ _ _ => replace (u ++ x :: y :: us ++ v) with ((u ++ [x; y]) ++ us ++ v) by (rewrite <- app_assoc; reflexivity) end. apply has_scale_app, S.
  Qed.
  (** One word for each token *)
  Lemma val_one w : token w -> exists v, val w (act_of w) = [v].
  Proof.
    intro T. destruct (lex_token w [] T I) as (c & t & E1 & E2). rewrite app_nil_r in E1. subst w. destruct (lex_piece _ _ _ _ E2) as [_ P]. rewrite firstn_all in P.
    destruct (act_of (c :: t)) eqn:EA; cbn [val]; eauto. exfalso. cbn [piece] in P.
    assert (S : forall x, x = "/"%char \/ blank x -> forall r, ~ token (x :: r)).
    { clear. intros x HX r [(d & E1 & PU)|[(d & r' & E1 & L & _)|[N|[v (b & E1 & _)]]]].
      - injection E1 as <- ->. simpl in PU. destruct HX as [->|HX]; [(repeat (destruct PU as [PU|PU]; [discriminate PU|]); exact PU)|]. simpl in HX. destruct HX as [<-|[<-|[<-|[<-|[]]]]]; (repeat (destruct PU as [PU|PU]; [discriminate PU|]); exact PU).
      - injection E1 as <- <-. apply letter_iff in L. destruct HX as [->|HX]; [discriminate L|]. simpl in HX. destruct HX as [<-|[<-|[<-|[<-|[]]]]]; discriminate L.
      - destruct N as (sg & a & q & S & E1 & D & R). assert (HD : x = "+"%char \/ x = "-"%char \/ x = "."%char \/ digit x).
        { destruct S as [->|[->| ->]]; cbn [app B list_ascii_of_string] in E1; [|injection E1 as <- _; auto|injection E1 as <- _; auto].
          destruct a as [|k a]; [|injection E1 as <- _; right; right; right; exact (Forall_inv D)]. destruct R as [[NE _]|(_ & g & _ & _ & ->)]; [contradiction|]. injection E1 as <- _. auto. }
        destruct HD as [->|[->|[->|HD]]].
        1-3: destruct HX as [HX|HX]; [discriminate HX|]; simpl in HX; (repeat (destruct HX as [HX|HX]; [discriminate HX|]); exact HX).
        unfold digit, ord in HD. destruct HX as [->|HX]; [change (N_of_ascii "/") with 47%N in HD; lia|]. simpl in HX.
        destruct HX as [<-|[<-|[<-|[<-|[]]]]]; [change (N_of_ascii SP) with 32%N in HD|change (N_of_ascii TAB) with 9%N in HD|change (N_of_ascii LF) with 10%N in HD|change (N_of_ascii CR) with 13%N in HD]; lia.
      - injection E1 as -> _. destruct HX as [HX|HX]; [discriminate HX|]. simpl in HX. (repeat (destruct HX as [HX|HX]; [discriminate HX|]); exact HX). }
    destruct P as [(x & E1 & BX)|(u & E1 & _)]; [injection E1 as -> ->; exact (S x (or_intror BX) [] T)|]. rewrite E1 in T. exact (S "/"%char (or_introl eq_refl) _ T).
  Qed.
  Lemma arranged_tokens ws s : arranged ws s -> Forall token ws.
  Proof. induction 1; constructor; assumption. Qed.
  Lemma words_split ws : Forall token ws -> forall p q, flat_map (fun w => val w (act_of w)) ws = p ++ q ->
    exists u v, ws = u ++ v /\ flat_map (fun w => val w (act_of w)) u = p /\ flat_map (fun w => val w (act_of w)) v = q.
  Proof.
    induction 1 as [|w ws T _ IH]; intros p q HE; cbn [flat_map] in HE.
    - exists [], []. symmetry in HE. apply app_eq_nil in HE. destruct HE as [-> ->]. auto.
    - destruct p as [|x p]; [exists [], (w :: ws); split; [reflexivity|]; split; [reflexivity|exact HE]|]. destruct (val_one w T) as [v V]. rewrite V in HE. injection HE as <- HE. destruct (IH p q HE) as (u & t & -> & H1 & H2).
      exists (w :: u), t. split; [reflexivity|]. split; [|exact H2]. cbn [flat_map]. rewrite V, H1. reflexivity.
  Qed.
  Lemma words_head ws x q : Forall token ws -> flat_map (fun w => val w (act_of w)) ws = x :: q ->
    exists w v, ws = w :: v /\ val w (act_of w) = [x] /\ flat_map (fun w => val w (act_of w)) v = q /\ Forall token v.
  Proof.
    intros F HE. destruct ws as [|w v]; [discriminate HE|]. cbn [flat_map] in HE. destruct (val_one w (Forall_inv F)) as [y V]. rewrite V in HE. injection HE as -> HE. exists w, v. split; [reflexivity|]. split; [exact V|]. split; [exact HE|exact (Forall_inv_tail F)].
  Qed.
  Lemma token_shape w : token w -> piece (act_of w) w.
  Proof. intro T. destruct (lex_token w [] T I) as (c & t & E1 & E2). rewrite app_nil_r in E1. subst w. destruct (lex_piece _ _ _ _ E2) as [_ P]. rewrite firstn_all in P. exact P. Qed.
  Lemma val_num w x : token w -> val w (act_of w) = [TNum x] -> stof w = Some x.
  Proof.
    intros T V. pose proof (token_shape _ T) as P. destruct (act_of w); try discriminate V. cbn [val piece] in *. rewrite (cstr_id _ (number_nul _ P)) in V. destruct (stof w); [injection V as ->; reflexivity|discriminate V].
  Qed.
  Lemma val_number w x : token w -> val w (act_of w) = [TNum x] -> number w.
  Proof. intros T V. pose proof (token_shape _ T) as P. destruct (act_of w); try discriminate V. exact P. Qed.
  Lemma val_punct w c : token w -> val w (act_of w) = [TP c] -> w = [c].
  Proof.
    intros T V. pose proof (token_shape _ T) as P. destruct (act_of w); try discriminate V; cbn [val piece] in *; [injection V as ->; exact (proj1 P)|]. destruct (stof _); discriminate V.
  Qed.
  Lemma val_id w n : token w -> val w (act_of w) = [TId n] -> w = n.
  Proof.
    intros T V. pose proof (token_shape _ T) as P. destruct (act_of w); try discriminate V; cbn [val piece] in *; [|destruct (stof _); discriminate V]. injection V as <-. symmetry. apply cstr_id, word_nul, (proj1 P).
  Qed.
  Lemma scale_numbers f c d pg l n ml ds m a b : parses f c d -> In pg (doc_pages d) -> In (DDraw l n ml ds) (pg_draws pg) -> In m ml -> m_val m = MScale a b ->
    exists us w1 w2 vs x y, arranged (us ++ m_name m :: B "=" :: w1 :: B ":" :: w2 :: vs) c /\ number w1 /\ number w2 /\ stof w1 = Some x /\ to_int x = Some a /\ stof w2 = Some y /\ to_int y = Some b.
  Proof.
    intros HP H1 H2 H3 V. destruct (parsed_words _ _ _ HP) as (ts & ws & HT & G & AR & HV). destruct (input_scale _ _ _ _ _ _ _ _ _ _ _ G H1 H2 H3 V) as (pre & l1 & l2 & l3 & l4 & l5 & x & y & post & E1 & T1 & T2).
    rewrite E1, map_app in HV. cbn [map t_tok] in HV. pose proof (arranged_tokens _ _ AR) as FT. destruct (words_split ws FT _ _ HV) as (us & r & -> & _ & HR). apply Forall_app in FT. destruct FT as [_ F0].
    destruct (words_head _ _ _ F0 HR) as (k1 & r1 & -> & V1 & HR1 & F1). destruct (words_head _ _ _ F1 HR1) as (k2 & r2 & -> & V2 & HR2 & F2). destruct (words_head _ _ _ F2 HR2) as (k3 & r3 & -> & V3 & HR3 & F3).
    destruct (words_head _ _ _ F3 HR3) as (k4 & r4 & -> & V4 & HR4 & F4). destruct (words_head _ _ _ F4 HR4) as (k5 & r5 & -> & V5 & _ & _).
    pose proof (val_number _ _ (Forall_inv F2) V3) as N3. pose proof (val_number _ _ (Forall_inv F4) V5) as N5. apply (val_id _ _ (Forall_inv F0)) in V1. apply (val_punct _ _ (Forall_inv F1)) in V2. apply (val_num _ _ (Forall_inv F2)) in V3. apply (val_punct _ _ (Forall_inv F3)) in V4. apply (val_num _ _ (Forall_inv F4)) in V5. subst k1 k2 k4.
    exists us, k3, k5, r5, x, y. auto 8.
  Qed.
  Lemma scale_words f c d pg l n ml ds m a b : parses f c d -> In pg (doc_pages d) -> In (DDraw l n ml ds) (pg_draws pg) -> In m ml -> m_val m = MScale a b ->
    exists us w1 w2 vs x y, arranged (us ++ m_name m :: B "=" :: w1 :: B ":" :: w2 :: vs) c /\ stof w1 = Some x /\ to_int x = Some a /\ stof w2 = Some y /\ to_int y = Some b.
  Proof. intros HP H1 H2 H3 V. destruct (scale_numbers _ _ _ _ _ _ _ _ _ _ _ HP H1 H2 H3 V) as (us & w1 & w2 & vs & x & y & H). exists us, w1, w2, vs, x, y. tauto. Qed.
  Lemma one_scale ml a b a' b' : NoDup (map m_name ml) -> asks_scale ml a b -> asks_scale ml a' b' -> a = a' /\ b = b'.
  Proof.
    intros ND [N|x c e HI HN HV] [N'|x' c' e' HI' HN' HV']; [auto| | |].
    - exfalso. apply N. unfold has. rewrite <- HN'. apply in_map, HI'.
    - exfalso. apply N'. unfold has. rewrite <- HN. apply in_map, HI.
    - assert (K : x = x').
      { clear HV HV'. revert HI HI'. induction ml as [|y ml IH]; [intros []|]. cbn [map] in ND. inversion ND as [|? ? N1 N2]; subst. intros [->|HI] [HI'|HI']; [exact HI'| | |exact (IH N2 HI HI')].
        - exfalso. apply N1. rewrite HN, <- HN'. apply in_map, HI'.
        - subst y. exfalso. apply N1. rewrite HN', <- HN. apply in_map, HI. }
      subst x'. rewrite HV in HV'. injection HV' as -> ->. auto.
  Qed.
  Lemma drawn_nodup st l n ml ds s s1 ds1 : visit_draw st l n ml ds s = Ret (s1, ds1, true) -> NoDup (map m_name ml).
  Proof. intro H. destruct (visit_draw_spec _ _ _ _ _ _ H) as [[K _] _]. destruct (K eq_refl) as [[a b] file rot pl proj ls ND ON HS HM HV HP HR HL _ HD]. exact ND. Qed.
End Lang2.

Lemma real_scale (E : @Env XR) st l n ml ds s s1 ds1 a b : visit_draw st l n ml ds s = Ret (s1, ds1, true) -> asks_scale ml a b -> b <> 0%Z ->
  exists proj ls q off, shows st n ml proj ls /\
    v_page s1 = plus_page (v_page s) (put_page (Fin (72 * (IZR a / IZR b)) : @num XR) off (plus_page (OPage ls [] []) q)).
Proof.
  intros H AS NZ. destruct (placed_draw _ _ _ _ _ _ H) as (a' & b' & proj & ls & q & off & AS' & SH & HP & _). destruct (one_scale ml a b a' b' (drawn_nodup _ _ _ _ _ _ _ _ H) AS AS') as [<- <-].
  exists proj, ls, q, off. split; [exact SH|]. cbv zeta in HP. rewrite HP. do 2 f_equal.
  change (xdiv (xmul (Fin 72) (Fin (IZR a))) (Fin (IZR b)) = Fin (72 * (IZR a / IZR b))). unfold xdiv, xmul.
  assert (IZR b <> 0)%R by (apply IZR_neq; exact NZ). 
  destruct (reqb_spec (IZR b) 0); [contradiction|]. match goal with |- Fin ?u = Fin ?v => assert (K : u = v) by (field; assumption); rewrite K; reflexivity end.
Qed.
