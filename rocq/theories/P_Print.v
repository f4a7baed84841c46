(** P_Print.v - a printed document parses back. *)
From Verif Require Import Base Num Env Ast Lexer Parser P_Base DocSpec LangSpec PrintSpec P_Lex P_Lex2 P_Lex3 Grammar P_Parser P_Parser2 P_Parser3 P_Layout P_Lang.

Local Unset Implicit Arguments.
Section Print.
  Context {A : Arith} {E : Env}.
  Variable spell_num : num -> bytes.
  Variable spell_int : Z -> bytes.
  Definition V (ws : list bytes) : list ltok := map (LTok 0) (flat_map (fun w => val w (act_of w)) ws).
  Lemma V_app a b : V (a ++ b) = V a ++ V b.
  Proof. unfold V. rewrite flat_map_app, map_app. reflexivity. Qed.
  Lemma V_cons w b : V (w :: b) = map (LTok 0) (val w (act_of w)) ++ V b.
  Proof. unfold V. cbn [flat_map]. rewrite map_app. reflexivity. Qed.
  Lemma V_nil : V [] = []. Proof. reflexivity. Qed.

  Lemma word_act w : word w -> act_of w = match kw_index w kws with Some n => AKw n | None => AId end.
  Proof.
    intros W. destruct (lex_token w [] (or_intror (or_introl W)) I) as (c0 & t0 & E0 & L0). rewrite app_nil_r in E0. subst w. unfold act_of.
    destruct W as (c & r & E1 & Lc & Wr). injection E1 as <- <-. unfold lex1. apply letter_iff in Lc. rewrite (alpha_not_punct _ Lc), Lc. cbv zeta. cbn [snd].
    replace (run is_alnum_ t0) with t0; [reflexivity|]. rewrite <- (app_nil_r t0) at 2. rewrite run_app by (eapply Forall_iff; [intro; apply wordy_iff|exact Wr]). cbn [run]. rewrite app_nil_r. reflexivity.
  Qed.
  Lemma V_name n : name_ok n -> map (LTok 0) (val n (act_of n)) = [LTok 0 (TId n)].
  Proof.
    intros [W K]. rewrite (word_act n W). destruct (kw_index n kws) as [k|] eqn:KI.
    - exfalso. assert (P : piece (AKw k) n).
      { destruct W as (c & r & -> & Lc & Wr). apply letter_iff in Lc. destruct (lex1 c r) as [m a] eqn:EL. pose proof EL as EL2. unfold lex1 in EL2. rewrite (alpha_not_punct _ Lc), Lc in EL2. cbv zeta in EL2.
        replace (run is_alnum_ r) with r in EL2 by (rewrite <- (app_nil_r r) at 2; rewrite run_app by (eapply Forall_iff; [intro; apply wordy_iff|exact Wr]); cbn [run]; rewrite app_nil_r; reflexivity).
        rewrite KI in EL2. injection EL2 as EM EK. destruct (lex_piece _ _ _ _ EL) as [_ P]. rewrite <- EM, <- EK in P. change (S (length r)) with (length (c :: r)) in P. rewrite firstn_all in P. exact P. }
      cbn [piece] in P. apply nth_error_In in P. exact (K P).
    - cbn [val map]. rewrite (cstr_id _ (word_nul _ W)). reflexivity.
  Qed.
  Lemma number_nul w : number w -> ~ In NUL w.
  Proof.
    intros N HI. destruct N as (sg & a0 & r & S & -> & D & R). rewrite !in_app_iff in HI.
    assert (DN : forall d0, Forall digit d0 -> ~ In NUL d0) by (intros d0 F I; rewrite Forall_forall in F; specialize (F _ I); unfold digit, ord in F; change (N_of_ascii NUL) with 0%N in F; lia).
    destruct HI as [HI|[HI|HI]]; [destruct S as [->|[->| ->]]; simpl in HI; intuition discriminate|exact (DN _ D HI)|].
    destruct R as [(_ & [->|(g & G & ->)])|(_ & g & _ & G & ->)]; [destruct HI| |]; (destruct HI as [HI|HI]; [discriminate HI|exact (DN _ G HI)]).
  Qed.
  Lemma V_number w x : number w -> stof w = Some x -> map (LTok 0) (val w (act_of w)) = [LTok 0 (TNum x)].
  Proof.
    intros N S. assert (AC : act_of w = ANum).
    { destruct (num_first _ N) as (c & t & -> & P1 & P2). unfold act_of, lex1. rewrite P1, P2. pose proof (num_whole (c :: t) [] N I) as NW. rewrite app_nil_r in NW. rewrite NW. reflexivity. }
    rewrite AC. cbn [val map]. rewrite (cstr_id _ (number_nul _ N)), S. reflexivity.
  Qed.
  Lemma V_num x : num_ok spell_num x -> map (LTok 0) (val (spell_num x) (act_of (spell_num x))) = [LTok 0 (TNum x)].
  Proof. intros [N S]. exact (V_number _ _ N S). Qed.
  Lemma V_str s : str_ok s -> map (LTok 0) (val (spell s) (act_of (spell s))) = [LTok 0 (TStr s)].
  Proof.
    intro N. rewrite (literal_act _ _ (spell_literal s)). cbn [val map]. rewrite (quote_value _ _ (spell_literal s) (spell_nul s N)). reflexivity.
  Qed.
  Ltac vc := repeat (rewrite V_cons); rewrite ?V_app, ?V_nil; cbn [map val app].

  Lemma p_point p : point_ok spell_num p -> g_point [] (V (words_point spell_num p)) (erase_point p).
  Proof.
    induction p as [[x y z] l|n q IH l]; cbn [point_ok words_point erase_point x3 y3 z3].
    - intros (H1 & H2 & H3). rewrite !V_cons, V_nil, (V_num _ H1), (V_num _ H2), (V_num _ H3). exact (@gp_val A [] 0 0 0 0 0 0 0 x y z).
    - intros (H1 & H2). rewrite !V_cons, V_app, (V_name _ H1). exact (@gp_func A [] 0 0 0 n _ _ (IH H2)).
  Qed.
  Lemma p_loc v : num_ok spell_num (x2 v) /\ num_ok spell_num (y2 v) -> g_location (V (words_loc spell_num v)) v.
  Proof. destruct v as [x y]. cbn [x2 y2]. intros (H1 & H2). unfold words_loc. cbn [x2 y2]. rewrite !V_cons, V_nil, (V_num _ H1), (V_num _ H2). exact (@gl_intro A 0 0 0 0 0 x y). Qed.
  Lemma p_value v : value_ok spell_num spell_int v -> g_value [] (V (words_value spell_num spell_int v)) (erase_mval v).
  Proof.
    destruct v as [s|p|x|v|a b]; cbn [value_ok words_value erase_mval]; intro H.
    - rewrite V_cons, V_nil, (V_str _ H). apply gv_str. apply gs_one.
    - apply gv_point. apply p_point. exact H.
    - rewrite V_cons, V_nil, (V_num _ H). apply gv_num.
    - apply gv_loc. apply p_loc. exact H.
    - destruct H as ((N1 & x & S1 & T1) & N2 & y & S2 & T2). rewrite !V_cons, V_nil, (V_number _ _ N1 S1), (V_number _ _ N2 S2). exact (@gv_scale A [] 0 0 0 x y a b T1 T2).
  Qed.
  Lemma at_name : ~ name_ok (B "@"). Proof. intros [W _]. exact (at_not_word W). Qed.
  Lemma p_meta m : meta_ok spell_num spell_int m -> g_arg [] (V (words_meta spell_num spell_int m)) (erase_meta m).
  Proof.
    destruct m as [n v l]. intros [HV HN]. cbn [m_val m_name] in *. unfold words_meta, erase_meta. cbn [m_val m_name].
    assert (GEN : name_ok n -> g_arg [] (V (n :: B "=" :: words_value spell_num spell_int v)) (Meta n (erase_mval v) nowhere)).
    { intro K. rewrite !V_cons, (V_name _ K). exact (@ga_named A [] 0 0 n _ _ (p_value v HV)). }
    destruct HN as [K|[-> (u & ->)]].
    - destruct v as [s|p|x|v|a b]; try exact (GEN K). destruct (bytes_eqb n (B "@")) eqn:Q; [|exact (GEN K)]. apply bytes_eqb_eq in Q. subst n. destruct (at_name K).
    - rewrite bytes_eqb_refl. rewrite V_cons. exact (@ga_at A [] 0 _ _ (p_loc u HV)).
  Qed.
  Lemma p_args ml : Forall (meta_ok spell_num spell_int) ml -> ml <> [] -> g_dim_parts [] (V (words_args spell_num spell_int ml)) (map erase_meta ml).
  Proof.
    assert (PRE : forall pre ts ml, g_dim_parts [] ts pre -> Forall (meta_ok spell_num spell_int) ml -> ml <> [] -> g_dim_parts [] (ts ++ LTok 0 (TP ",") :: V (words_args spell_num spell_int ml)) (pre ++ map erase_meta ml)).
    { intros pre ts l G F. revert pre ts G. induction l as [|m l IH]; intros pre ts G N; [contradiction|]. inversion F as [|? ? Hm F']; subst. clear N. destruct l as [|m2 l].
      - cbn [words_args map]. exact (@gd_more A [] 0 _ _ _ _ G (p_meta m Hm)).
      - change (words_args spell_num spell_int (m :: m2 :: l)) with (words_meta spell_num spell_int m ++ B "," :: words_args spell_num spell_int (m2 :: l)). rewrite V_app, V_cons. cbn [map].
        specialize (IH F' (pre ++ [erase_meta m]) (ts ++ LTok 0 (TP ",") :: V (words_meta spell_num spell_int m)) (@gd_more A [] 0 _ _ _ _ G (p_meta m Hm)) ltac:(discriminate)).
        rewrite <- !app_assoc in IH. cbn [app map] in IH |- *. rewrite <- ?app_assoc in IH. cbn [app] in IH. exact IH. }
    intros F N. destruct ml as [|m ml]; [contradiction|]. inversion F as [|? ? Hm F']; subst. destruct ml as [|m2 ml]; [apply gd_one, p_meta; exact Hm|].
    change (words_args spell_num spell_int (m :: m2 :: ml)) with (words_meta spell_num spell_int m ++ B "," :: words_args spell_num spell_int (m2 :: ml)). rewrite V_app, V_cons.
    exact (PRE [erase_meta m] _ (m2 :: ml) (@gd_one A [] _ _ (p_meta m Hm)) F' ltac:(discriminate)).
  Qed.
  Lemma p_kind k : exists n, g_dim_kw n k /\ map (LTok 0) (val (kind_word k) (act_of (kind_word k))) = [LTok 0 (TKw n)].
  Proof. destruct k; eexists; (split; [constructor|reflexivity]). Qed.

  (** lists of semicolon-terminated properties, in any of the three contexts *)
  Lemma p_draw_metas ml : Forall (meta_ok spell_num spell_int) ml -> g_draw_parts [] (V (words_metas spell_num spell_int ml)) (map erase_meta ml, []).
  Proof.
    induction ml as [|m ml IH] using rev_ind; intro F; [constructor|]. apply Forall_app in F. destruct F as [F1 F2]. inversion F2 as [|? ? Hm _]; subst.
    unfold words_metas. rewrite flat_map_app, map_app. cbn [flat_map map]. rewrite app_nil_r, !V_app. exact (@gr_arg A [] 0 _ _ _ _ _ (IH F1) (p_meta m Hm)).
  Qed.
  Lemma p_draw_parts ml ds : Forall (meta_ok spell_num spell_int) ml -> Forall (dim_ok spell_num spell_int) ds ->
    g_draw_parts [] (V (words_metas spell_num spell_int ml ++ flat_map (words_dim spell_num spell_int) ds)) (map erase_meta ml, map erase_dim ds).
  Proof.
    intros FM. induction ds as [|d ds IH] using rev_ind; intro F; [cbn [flat_map map]; rewrite app_nil_r; apply p_draw_metas; exact FM|].
    apply Forall_app in F. destruct F as [F1 F2]. inversion F2 as [|? ? Hd _]; subst. rewrite flat_map_app, map_app. cbn [flat_map map]. rewrite app_nil_r, app_assoc. specialize (IH F1). rewrite V_app. generalize dependent (V (words_metas spell_num spell_int ml ++ flat_map (words_dim spell_num spell_int) ds)). intros pre IH.
    destruct d as [k l ml']. unfold words_dim. cbn [d_kind d_meta]. destruct (p_kind k) as (n & GK & VK). rewrite !V_cons, VK, V_app. cbn [app]. unfold dim_ok in Hd. cbn [d_meta] in Hd.
    unfold erase_dim. cbn [d_kind d_meta]. destruct ml' as [|m ml'].
    - exact (@gr_empty A [] 0 0 0 0 _ _ _ n k IH GK).
    - exact (@gr_dim A [] 0 0 0 0 _ _ _ n k _ _ IH GK (p_args (m :: ml') Hd ltac:(discriminate))).
  Qed.
  Lemma p_text_parts ml : Forall (meta_ok spell_num spell_int) ml -> g_text_parts [] (V (words_metas spell_num spell_int ml)) (map erase_meta ml).
  Proof.
    induction ml as [|m ml IH] using rev_ind; intro F; [constructor|]. apply Forall_app in F. destruct F as [F1 F2]. inversion F2 as [|? ? Hm _]; subst.
    unfold words_metas. rewrite flat_map_app, map_app. cbn [flat_map map]. rewrite app_nil_r, !V_app. exact (@gt_arg A [] 0 _ _ _ _ (IH F1) (p_meta m Hm)).
  Qed.
  Lemma p_page_metas ml : Forall (meta_ok spell_num spell_int) ml -> g_page_parts [] (V (words_metas spell_num spell_int ml)) (map erase_meta ml, []).
  Proof.
    induction ml as [|m ml IH] using rev_ind; intro F; [constructor|]. apply Forall_app in F. destruct F as [F1 F2]. inversion F2 as [|? ? Hm _]; subst.
    unfold words_metas. rewrite flat_map_app, map_app. cbn [flat_map map]. rewrite app_nil_r, !V_app. exact (@gq_arg A [] 0 _ _ _ _ _ (IH F1) (p_meta m Hm)).
  Qed.
  Lemma p_page_parts ml ds : Forall (meta_ok spell_num spell_int) ml -> Forall (item_ok spell_num spell_int) ds ->
    g_page_parts [] (V (words_metas spell_num spell_int ml ++ flat_map (words_item spell_num spell_int) ds)) (map erase_meta ml, map erase_drawable ds).
  Proof.
    intros FM. induction ds as [|d ds IH] using rev_ind; intro F; [cbn [flat_map map]; rewrite app_nil_r; apply p_page_metas; exact FM|].
    apply Forall_app in F. destruct F as [F1 F2]. inversion F2 as [|? ? Hd _]; subst. rewrite flat_map_app, map_app. cbn [flat_map map]. rewrite app_nil_r, app_assoc. specialize (IH F1). rewrite V_app. generalize dependent (V (words_metas spell_num spell_int ml ++ flat_map (words_item spell_num spell_int) ds)). intros pre IH.
    destruct d as [l n m dm|l t m]; cbn [words_item erase_drawable item_ok] in *.
    - destruct Hd as (H1 & H2 & H3). rewrite !V_cons, (V_name _ H1), (app_assoc (words_metas spell_num spell_int m) (flat_map (words_dim spell_num spell_int) dm)), V_app. exact (@gq_draw A [] 0 0 0 0 _ _ _ n _ _ _ IH (p_draw_parts m dm H2 H3)).
    - destruct Hd as (H1 & H2). cbn [app]. rewrite !V_cons, (V_str _ H1), V_app. exact (@gq_text A [] 0 0 0 0 0 _ _ _ _ t _ _ IH (@gs_one A 0 t) (p_text_parts m H2)).
  Qed.
  Lemma p_models ms : Forall model_ok ms -> g_input [] (V (flat_map words_model ms)) (Doc (map erase_model ms) []).
  Proof.
    induction ms as [|m ms IH] using rev_ind; intro F; [constructor|]. apply Forall_app in F. destruct F as [F1 F2]. inversion F2 as [|? ? Hm _]; subst. destruct Hm as [H1 H2].
    rewrite flat_map_app, map_app, V_app. cbn [flat_map map]. rewrite app_nil_r. unfold words_model. rewrite !V_cons, (V_name _ H1), (V_str _ H2). exact (@gi_model A [] 0 0 0 0 0 _ _ _ (mo_name m) (mo_source m) (IH F1)).
  Qed.
  Lemma p_doc d : printable spell_num spell_int d -> g_input [] (V (words_doc spell_num spell_int d)) (erase d).
  Proof.
    destruct d as [ms ps]. intros [FM FP]. cbn [doc_models doc_pages] in *. unfold words_doc, erase. cbn [doc_models doc_pages].
    induction ps as [|p ps IH] using rev_ind; [cbn [flat_map map]; rewrite app_nil_r; apply p_models; exact FM|].
    apply Forall_app in FP. destruct FP as [F1 F2]. inversion F2 as [|? ? Hp _]; subst. specialize (IH F1). destruct Hp as [H1 H2].
    rewrite flat_map_app, map_app, app_assoc, V_app. generalize dependent (V (flat_map words_model ms ++ flat_map (words_page spell_num spell_int) ps)). intros pre IH. cbn [flat_map map]. rewrite app_nil_r. unfold words_page. rewrite !V_cons, (app_assoc (words_metas spell_num spell_int (pg_meta p)) (flat_map (words_item spell_num spell_int) (pg_draws p))), V_app.
    exact (@gi_page A [] 0 0 0 _ _ _ _ _ _ IH (p_page_parts _ _ H1 H2)).
  Qed.
  Lemma print_parse f d s : printable spell_num spell_int d -> arranged (words_doc spell_num spell_int d) s -> exists d', parse f s = Ret (0, d', []) /\ erase d' = erase d.
  Proof.
    intros P H. apply p_doc in P. apply arranged_reads in H. destruct (tokens_of _ _ H) as (ts & HT & HM). unfold parse. rewrite HT. cbn [obind].
    assert (EQ : map at0 ts = V (words_doc spell_num spell_int d)) by (unfold V; rewrite <- HM, map_map; reflexivity).
    assert (LN : length (V (words_doc spell_num spell_int d)) = length ts) by (rewrite <- EQ; apply map_length).
    pose proof (input_complete [] 0 _ _ P) as C. pose proof (era_input f (1 + count_lf s) (S (length ts)) ts (Doc [] [])) as E2. rewrite EQ in E2. rewrite LN in C. change (erase (Doc [] [])) with (Doc (A := A) [] []) in E2. rewrite C in E2.
    destruct (parse_input f (1 + count_lf s) (S (length ts)) (Doc [] []) ts) as [d' e]. assert (E3 : None = erase_err e) by exact (f_equal snd E2). assert (E4 : erase d = erase d') by exact (f_equal fst E2).
    destruct e as [[l m|a]|]; try discriminate E3. exists d'. split; [reflexivity|]. symmetry; exact E4.
  Qed.

  (** ** Arranging with spaces *)
  Lemma number_no_sp w : number w -> ~ In SP w.
  Proof.
    intros N HI. destruct N as (sg & a0 & r & S & -> & D & R). rewrite !in_app_iff in HI.
    assert (DN : forall d0, Forall digit d0 -> ~ In SP d0) by (intros d0 F I; rewrite Forall_forall in F; specialize (F _ I); unfold digit, ord in F; change (N_of_ascii SP) with 32%N in F; lia).
    destruct HI as [HI|[HI|HI]]; [destruct S as [->|[->| ->]]; simpl in HI; intuition discriminate|exact (DN _ D HI)|].
    destruct R as [(_ & [->|(g & G & ->)])|(_ & g & _ & G & ->)]; [destruct HI| |]; (destruct HI as [HI|HI]; [discriminate HI|exact (DN _ G HI)]).
  Qed.
  Lemma sp_joins w : ~ joins_on w SP.
  Proof.
    intros [[_ [[H|[H|H]]|H]]|[_ H]]; [| |discriminate H| |].
    1-3: unfold digit, ord in H; change (N_of_ascii SP) with 32%N in H; lia.
    apply (number_no_sp _ H), in_or_app. right; left; reflexivity.
  Qed.
  Lemma spaced_arranged ws : Forall token ws -> arranged ws (spaced ws).
  Proof.
    induction 1 as [|w ws T _ IH]; [apply arranged_end; exists [], []; split; [reflexivity|]; split; [constructor|left; reflexivity]|].
    unfold spaced. cbn [flat_map]. rewrite <- app_assoc. apply (arranged_token []); [constructor|exact T| |exact (sp_joins w)].
    apply (arranged_layout [SP]); [constructor; [left; reflexivity|constructor]|exact IH].
  Qed.
  Lemma tok_punct c : punctuation c -> token [c]. Proof. intro H. left. eauto. Qed.
  Lemma tok_name n : name_ok n -> token n. Proof. intros [W _]. right; left; exact W. Qed.
  Lemma tok_num x : num_ok spell_num x -> token (spell_num x). Proof. intros [N _]. right; right; left; exact N. Qed.
  Lemma tok_int x : int_ok spell_int x -> token (spell_int x). Proof. intros [N _]. right; right; left; exact N. Qed.
  Lemma tok_str s : token (spell s). Proof. right; right; right. exists s. apply spell_literal. Qed.
  Lemma tok_kw w : In w keywords -> token w.
  Proof.
    intro P. right; left. simpl in P. repeat (destruct P as [<-|P]; [eexists _, _; split; [reflexivity|]; split; [apply letter_iff; reflexivity|repeat (constructor; [apply wordy_iff; reflexivity|]); constructor]|]); destruct P.
  Qed.
  Ltac tk := repeat first [apply Forall_nil | apply Forall_cons | apply Forall_app; split];
    try solve [apply tok_punct; unfold punctuation; simpl; tauto | apply tok_str | apply tok_kw; simpl; tauto | apply tok_num; assumption | apply tok_int; assumption | apply tok_name; assumption].
  Lemma t_point p : point_ok spell_num p -> Forall token (words_point spell_num p).
  Proof. induction p as [v l|n q IH l]; cbn [point_ok words_point]; [intros (H1 & H2 & H3)|intros [H1 H2]]; tk. exact (IH H2). Qed.
  Lemma t_meta m : meta_ok spell_num spell_int m -> Forall token (words_meta spell_num spell_int m).
  Proof.
    destruct m as [n v l]. intros [HV HN]. cbn [m_val m_name] in *. unfold words_meta. cbn [m_val m_name]. destruct HN as [K|[-> (u & ->)]].
    - destruct v as [s|p|x|v|a b]; cbn [value_ok words_value] in *; tk.
      + exact (t_point _ HV).
      + destruct HV as [H1 H2]. unfold words_loc. destruct (bytes_eqb n (B "@")); tk.
      + apply tok_int; tauto.
      + apply tok_int; tauto.
    - rewrite bytes_eqb_refl. cbn [value_ok] in HV. destruct HV as [H1 H2]. unfold words_loc. tk.
  Qed.
  Lemma t_metas ml : Forall (meta_ok spell_num spell_int) ml -> Forall token (words_metas spell_num spell_int ml).
  Proof. induction 1 as [|m ml Hm _ IH]; [constructor|]. unfold words_metas. cbn [flat_map]. tk; [exact (t_meta _ Hm)|exact IH]. Qed.
  Lemma t_args ml : Forall (meta_ok spell_num spell_int) ml -> Forall token (words_args spell_num spell_int ml).
  Proof.
    induction 1 as [|m ml Hm _ IH]; [constructor|]. destruct ml as [|m2 ml]; [exact (t_meta _ Hm)|].
    change (words_args spell_num spell_int (m :: m2 :: ml)) with (words_meta spell_num spell_int m ++ B "," :: words_args spell_num spell_int (m2 :: ml)). tk; [exact (t_meta _ Hm)|exact IH].
  Qed.
  Lemma t_dims ds : Forall (dim_ok spell_num spell_int) ds -> Forall token (flat_map (words_dim spell_num spell_int) ds).
  Proof. induction 1 as [|d ds Hd _ IH]; [constructor|]. cbn [flat_map]. unfold words_dim at 1. tk; [destruct (d_kind d); apply tok_kw; simpl; tauto|exact (t_args _ Hd)|exact IH]. Qed.
  Lemma t_items ds : Forall (item_ok spell_num spell_int) ds -> Forall token (flat_map (words_item spell_num spell_int) ds).
  Proof.
    induction 1 as [|d ds Hd _ IH]; [constructor|]. cbn [flat_map]. destruct d as [l n m dm|l t m]; cbn [words_item item_ok app] in *.
    - destruct Hd as (H1 & H2 & H3). tk; [exact (t_metas _ H2)|exact (t_dims _ H3)|exact IH].
    - destruct Hd as (H1 & H2). tk; [exact (t_metas _ H2)|exact IH].
  Qed.
  Lemma t_doc d : printable spell_num spell_int d -> Forall token (words_doc spell_num spell_int d).
  Proof.
    intros [HM HP]. unfold words_doc. apply Forall_app. split.
    - induction HM as [|m ms [H1 H2] _ IH]; [constructor|]. cbn [flat_map]. unfold words_model at 1. tk. exact IH.
    - induction HP as [|p ps [H1 H2] _ IH]; [constructor|]. cbn [flat_map]. unfold words_page at 1. tk; [exact (t_metas _ H1)|exact (t_items _ H2)|exact IH].
  Qed.

  (** ** What the parser returns can be printed *)
  Definition fine_tok (k : ltok) : Prop :=
    match t_tok k with
    | TId n => name_ok n | TStr s => str_ok s | TNum x => exists w, number w /\ stof w = Some x | _ => True
    end.
  Variable SR : spells_read spell_num spell_int.
  Ltac hd H := let K := fresh "K" in pose proof (Forall_inv H) as K; apply Forall_inv_tail in H; unfold fine_tok in K; cbn [t_tok] in K.
  Lemma num_read x : (exists w, number w /\ stof w = Some x) -> num_ok spell_num x.
  Proof. intros (w & N & S). exact (proj1 SR w x N S). Qed.
  Lemma int_read x z : (exists w, number w /\ stof w = Some x) -> to_int x = Some z -> int_ok spell_int z.
  Proof. intros (w & N & S). exact (proj2 SR w x z N S). Qed.
  Lemma r_point f ts p : g_point f ts p -> Forall fine_tok ts -> point_ok spell_num p.
  Proof.
    induction 1 as [a b c d e g h x y z|a b c n ts p G IH]; intro F; cbn [point_ok x3 y3 z3].
    - repeat hd F. repeat split; apply num_read; assumption.
    - do 2 hd F. apply Forall_app in F. split; [exact K|exact (IH (proj1 F))].
  Qed.
  Lemma r_string ts s : g_string ts s -> Forall fine_tok ts -> str_ok s.
  Proof.
    induction 1 as [a s|a ts u s G IH]; intro F; [exact (Forall_inv F)|]. apply Forall_app in F. destruct F as [F1 F2]. intro HI. apply in_app_or in HI. destruct HI as [HI|HI]; [exact (IH F1 HI)|exact (Forall_inv F2 HI)].
  Qed.
  Lemma r_location ts v : g_location ts v -> Forall fine_tok ts -> num_ok spell_num (x2 v) /\ num_ok spell_num (y2 v).
  Proof. intros [a b c d e x y] F. repeat hd F. split; apply num_read; assumption. Qed.
  Lemma r_value f ts v : g_value f ts v -> Forall fine_tok ts -> value_ok spell_num spell_int v.
  Proof.
    intros [us s G|us p G|a x|us u G|a b c x y m n Tm Tn] F; cbn [value_ok].
    - exact (r_string _ _ G F).
    - exact (r_point _ _ _ G F).
    - hd F. apply num_read. exact K.
    - exact (r_location _ _ G F).
    - repeat hd F. split; [refine (int_read _ _ _ Tm)|refine (int_read _ _ _ Tn)]; assumption.
  Qed.
  Lemma r_arg f ts m : g_arg f ts m -> Forall fine_tok ts -> meta_ok spell_num spell_int m.
  Proof.
    intros [a b n us v G|a us v G] F.
    - do 2 hd F. split; [exact (r_value _ _ _ G F)|left; exact K].
    - hd F. split; [exact (r_location _ _ G F)|]. right. split; [reflexivity|]. exists v. reflexivity.
  Qed.
  Lemma r_dim_parts f ts ml : g_dim_parts f ts ml -> Forall fine_tok ts -> Forall (meta_ok spell_num spell_int) ml.
  Proof.
    induction 1 as [ts m G|a ts ml us m G IH GA]; intro F; [constructor; [exact (r_arg _ _ _ G F)|constructor]|]. apply Forall_app in F. destruct F as [F1 F2]. hd F2. apply Forall_app. split; [exact (IH F1)|]. constructor; [exact (r_arg _ _ _ GA F2)|constructor].
  Qed.
  Lemma r_draw_parts f ts r : g_draw_parts f ts r -> Forall fine_tok ts -> Forall (meta_ok spell_num spell_int) (fst r) /\ Forall (dim_ok spell_num spell_int) (snd r).
  Proof.
    induction 1 as [|a ts ml ds us m G IH GA|a b c d ts ml ds k kd G IH GK|a b c d ts ml ds k kd us m G IH GK GD]; intro F; [split; constructor| | |]; cbn [fst snd] in *; apply Forall_app in F; destruct F as [F1 F2]; specialize (IH F1); destruct IH as [I1 I2].
    - apply Forall_app in F2. split; [|exact I2]. apply Forall_app. split; [exact I1|]. constructor; [exact (r_arg _ _ _ GA (proj1 F2))|constructor].
    - split; [exact I1|]. apply Forall_app. split; [exact I2|]. constructor; [constructor|constructor].
    - split; [exact I1|]. apply Forall_app. split; [exact I2|]. constructor; [|constructor]. do 2 hd F2. apply Forall_app in F2. exact (r_dim_parts _ _ _ GD (proj1 F2)).
  Qed.
  Lemma r_text_parts f ts ml : g_text_parts f ts ml -> Forall fine_tok ts -> Forall (meta_ok spell_num spell_int) ml.
  Proof.
    induction 1 as [|a ts ml us m G IH GA]; intro F; [constructor|]. apply Forall_app in F. destruct F as [F1 F2]. apply Forall_app in F2. apply Forall_app. split; [exact (IH F1)|]. constructor; [exact (r_arg _ _ _ GA (proj1 F2))|constructor].
  Qed.
  Lemma r_page_parts f ts r : g_page_parts f ts r -> Forall fine_tok ts -> Forall (meta_ok spell_num spell_int) (fst r) /\ Forall (item_ok spell_num spell_int) (snd r).
  Proof.
    induction 1 as [|a ts ml ds us m G IH GA|a b c d ts ml ds n us m dm G IH GD|a b c d e ts ml ds us s ws m G IH GS GT]; intro F; [split; constructor| | |]; cbn [fst snd] in *; apply Forall_app in F; destruct F as [F1 F2]; specialize (IH F1); destruct IH as [I1 I2].
    - apply Forall_app in F2. split; [|exact I2]. apply Forall_app. split; [exact I1|]. constructor; [exact (r_arg _ _ _ GA (proj1 F2))|constructor].
    - split; [exact I1|]. apply Forall_app. split; [exact I2|]. constructor; [|constructor]. do 3 hd F2. apply Forall_app in F2. destruct (r_draw_parts _ _ _ GD (proj1 F2)) as [D1 D2]. split; [exact K0|]. split; assumption.
    - split; [exact I1|]. apply Forall_app. split; [exact I2|]. constructor; [|constructor]. do 2 hd F2. apply Forall_app in F2. destruct F2 as [F2 F3]. do 2 hd F3. apply Forall_app in F3. split; [exact (r_string _ _ GS F2)|exact (r_text_parts _ _ _ GT (proj1 F3))].
  Qed.
  Lemma r_input f ts d : g_input f ts d -> Forall fine_tok ts -> printable spell_num spell_int d.
  Proof.
    induction 1 as [|a b c d e ts ms ps n s G IH|a b c ts ms ps us ml ds G IH GP]; intro F; [split; constructor| |]; apply Forall_app in F; destruct F as [F1 F2]; specialize (IH F1); destruct IH as [I1 I2]; cbn [doc_models doc_pages] in *.
    - repeat hd F2. split; [|exact I2]. apply Forall_app. split; [exact I1|]. constructor; [split; assumption|constructor].
    - split; [exact I1|]. apply Forall_app. split; [exact I2|]. constructor; [|constructor]. do 2 hd F2. apply Forall_app in F2. exact (r_page_parts _ _ _ GP (proj1 F2)).
  Qed.
  Lemma cstr_no_nul s : ~ In NUL (cstr s).
  Proof. induction s as [|c s IH]; [intros []|]. cbn [cstr]. destruct (byte_eqb_spec c NUL) as [|N]; [intros []|]. intros [H|H]; [congruence|exact (IH H)]. Qed.
End Print.
