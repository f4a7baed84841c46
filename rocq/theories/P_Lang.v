(** P_Lang.v - what the scanner and the parser guarantee about documents, and
    the reasons for which a conversion can end the process. *)
From Verif Require Import Base Num Geo Stl StlRead Env Ast Lexer Parser Ps Draw Main
  P_Base P_Meta P_Frame P_Dims P_Doc DocSpec P_Script P_Script2 P_Hide P_Geo1 P_Part
  LangSpec P_Lex P_Lex2 P_Lex3 Grammar P_Parser P_Parser2 P_Parser3 P_Dead StlSpec P_Stl.

Local Unset Implicit Arguments.

Section Toks.
  Context {A : Arith} {E : Env}.
  Lemma toks_in l : forall ts k, toks_of l = Ret ts -> In k ts -> exists x, In x l /\ tok_of x = Ret (Some k).
  Proof.
    induction l as [|x l IH]; intros ts k H HI; cbn [toks_of] in H; [injection H as <-; destruct HI|].
    apply obind_ret in H. destruct H as (o & H1 & H). apply obind_ret in H. destruct H as (ts' & H2 & H). injection H as <-.
    destruct o as [k'|].
    - destruct HI as [->|HI]; [exists x; split; [left; reflexivity|exact H1]|]. destruct (IH _ _ H2 HI) as (y & Hy & Q). exists y. split; [right; exact Hy|exact Q].
    - destruct (IH _ _ H2 HI) as (y & Hy & Q). exists y. split; [right; exact Hy|exact Q].
  Qed.
  (** A token and the piece of the input it was made from *)
  Lemma token_piece c ts k : tokens c = Ret ts -> In k ts -> exists l x, scan_all c = Some l /\ In x l /\ tok_of x = Ret (Some k) /\ piece (lx_act x) (lx_text x).
  Proof.
    unfold tokens. destruct (scan_all c) as [l|] eqn:S; [|intro H; discriminate H]. intros H HI. destruct (toks_in _ _ _ H HI) as (x & Hx & Q).
    exists l, x. split; [reflexivity|]. split; [exact Hx|]. split; [exact Q|]. destruct (scanned_of _ _ S) as (_ & F & _). rewrite Forall_forall in F. exact (proj2 (F _ Hx)).
  Qed.
  Lemma wordy_nul c : wordy c -> c <> NUL.
  Proof. intros [[H|[H|H]]|H] ->; [| |discriminate H|]; unfold digit, ord in H; change (N_of_ascii NUL) with 0%N in H; lia. Qed.
  Lemma word_nul w : word w -> ~ In NUL w.
  Proof.
    intros (c & r & -> & L & F) [H|H]; [exact (wordy_nul c (or_introl L) H)|]. rewrite Forall_forall in F. exact (wordy_nul _ (F _ H) eq_refl).
  Qed.
  Lemma id_word c ts l n : tokens c = Ret ts -> In (LTok l (TId n)) ts -> word n /\ ~ In n keywords.
  Proof.
    intros H HI. destruct (token_piece _ _ _ H HI) as (ls & x & _ & _ & Q & P). unfold tok_of in Q. destruct (lx_act x) eqn:EA; try discriminate Q.
    - injection Q as _ <-. cbn [piece] in P. destruct P as [W K]. rewrite (cstr_id _ (word_nul _ W)). auto.
    - destruct (stof _); discriminate Q.
    - destruct (new_quote _); discriminate Q.
  Qed.
  Lemma at_not_word : ~ word (B "@").
  Proof. intros (c & r & H & L & _). injection H as <- _. destruct L as [L|[L|L]]; [| |discriminate L]; unfold ord in L; change (N_of_ascii _) with 64%N in L; lia. Qed.

  (** ** @ is always a location *)
  Definition named_ok (ts : list ltok) : Prop := forall l n, In (LTok l (TId n)) ts -> n <> B "@".
  Definition at_ok (m : meta) : Prop := m_name m = B "@" -> exists v, m_val m = MLoc v.
  Lemma named_app a b : named_ok (a ++ b) -> named_ok a /\ named_ok b.
  Proof. intro H. split; intros l n HI; apply (H l n), in_or_app; auto. Qed.
  Lemma named_cons k b : named_ok (k :: b) -> named_ok b.
  Proof. intros H l n HI; apply (H l n); right; exact HI. Qed.
  Lemma arg_at_ok f ts m : g_arg f ts m -> named_ok ts -> at_ok m.
  Proof. intros [a b n us v G|a us v G] H Q; cbn in *; [exfalso; exact (H a n (or_introl eq_refl) Q)|eauto]. Qed.
  Lemma draw_parts_at_ok f ts r : g_draw_parts f ts r -> named_ok ts -> Forall at_ok (fst r).
  Proof.
    induction 1 as [|a ts ml ds us m G IH GA|a b c d ts ml ds k kd G IH GK|a b c d ts ml ds k kd us m G IH GK GD]; intro H; [constructor| | |]; cbn [fst] in *.
    - apply named_app in H. destruct H as [H1 H2]. apply named_app in H2. destruct H2 as [H2 _]. apply Forall_app. split; [exact (IH H1)|]. constructor; [exact (arg_at_ok _ _ _ GA H2)|constructor].
    - apply named_app in H. exact (IH (proj1 H)).
    - apply named_app in H. exact (IH (proj1 H)).
  Qed.
  Lemma text_parts_at_ok f ts r : g_text_parts f ts r -> named_ok ts -> Forall at_ok r.
  Proof.
    induction 1 as [|a ts ml us m G IH GA]; intro H; [constructor|].
    apply named_app in H. destruct H as [H1 H2]. apply named_app in H2. destruct H2 as [H2 _]. apply Forall_app. split; [exact (IH H1)|]. constructor; [exact (arg_at_ok _ _ _ GA H2)|constructor].
  Qed.
  Definition item_at_ok (d : drawable) : Prop := match d with DDraw _ _ ml _ => Forall at_ok ml | DText _ _ ml => Forall at_ok ml end.
  Lemma page_parts_at_ok f ts r : g_page_parts f ts r -> named_ok ts -> Forall item_at_ok (snd r).
  Proof.
    induction 1 as [|a ts ml ds us m G IH GA|a b c d ts ml ds n us m dm G IH GD|a b c d e ts ml ds us s ws m G IH GS GT]; intro H; [constructor| | |]; cbn [snd] in *; apply named_app in H; destruct H as [H1 H2].
    - exact (IH H1).
    - apply Forall_app. split; [exact (IH H1)|]. constructor; [|constructor]. do 3 apply named_cons in H2. apply named_app in H2. exact (draw_parts_at_ok _ _ _ GD (proj1 H2)).
    - apply Forall_app. split; [exact (IH H1)|]. constructor; [|constructor]. do 2 apply named_cons in H2. apply named_app in H2. destruct H2 as [_ H2]. do 2 apply named_cons in H2. apply named_app in H2. exact (text_parts_at_ok _ _ _ GT (proj1 H2)).
  Qed.
  Lemma input_at_ok f ts d : g_input f ts d -> named_ok ts -> Forall (fun pg => Forall item_at_ok (pg_draws pg)) (doc_pages d).
  Proof.
    induction 1 as [|a b c d e ts ms ps n s G IH|a b c ts ms ps us ml ds G IH GP]; intro H; [constructor| |]; cbn [doc_pages] in *; apply named_app in H; destruct H as [H1 H2].
    - exact (IH H1).
    - apply Forall_app. split; [exact (IH H1)|]. constructor; [|constructor]. do 2 apply named_cons in H2. apply named_app in H2. exact (page_parts_at_ok _ _ _ GP (proj1 H2)).
  Qed.
  Lemma parsed_at_ok f c d : parses f c d -> Forall (fun pg => Forall item_at_ok (pg_draws pg)) (doc_pages d).
  Proof.
    intros [lg H]. apply parse_iff in H. destruct H as (_ & ts & HT & G). apply (input_at_ok _ _ _ G). intros l n HI ->. exact (at_not_word (proj1 (id_word _ _ _ _ HT HI))).
  Qed.
  Lemma at_ok_place ml : Forall at_ok ml -> place_of ml <> None /\ text_place_of ml <> None.
  Proof.
    intro F. unfold place_of, text_place_of. destruct (arg "@" ml) as [x|] eqn:G; [|split; discriminate]. destruct (arg_in _ _ G) as [HI Hn].
    rewrite Forall_forall in F. destruct (F _ HI Hn) as [v V]. unfold as_loc. rewrite V. split; discriminate.
  Qed.

  (** ** Why a conversion ends the process *)
  Lemma script_abort fs src c e : script_to_ps fs src c = Abort e -> ends_because fs src c e.
  Proof.
    unfold script_to_ps. intro H. apply obind_abort in H. destruct H as [H|([[rc d] lg] & HP & H)]; [apply EB_script; exact H|].
    destruct (rc =? 0)%nat eqn:R; [|discriminate H]. apply Nat.eqb_eq in R. subst rc. apply obind_abort in H. destruct H as [H|(r & _ & H)]; [|discriminate H].
    assert (PS : parses src c d) by (exists lg; exact HP).
    unfold doc_to_ps in H. apply obind_abort in H. destruct H as [H|([[st lg1] ok1] & HL & H)].
    { destruct (load_abort _ _ _ _ H) as (m & t & H1 & H2 & H3). eapply EB_model; eassumption. }
    destruct ok1; cbn [negb] in H; [|discriminate H]. apply obind_abort in H. destruct H as [H|([[[os d'] lg2] ok2] & _ & H)]; [|destruct ok2; discriminate H].
    unfold generate_pages in H. apply obind_abort in H. destruct H as [H|([[[s pgs] os] ok] & _ & H)]; [|discriminate H].
    destruct (pages_abort _ _ _ _ _ H) as (pg & it & Hpg & Hit & D).
    pose proof (parsed_at_ok _ _ _ PS) as AT. rewrite Forall_forall in AT. specialize (AT _ Hpg). rewrite Forall_forall in AT. specialize (AT _ Hit).
    destruct (load_files_nil_ok _ _ HL) as (_ & _ & HM & _).
    assert (DM : forall l n ml ds f r, it = DDraw l n ml ds -> model_of st n = Some f -> view_of ml = Some r -> draws_model fs src c f r ds).
    { intros l n ml ds f r -> M V. destruct (HM _ _ M) as (m & t & lgm & H1 & H2 & H3 & H4). exists d, pg, l, n, ml, m, t, lgm. repeat (split; [assumption|]). split; [apply view_of_asks; exact V|]. auto. }
    destruct D as [l n ml ds e D|l t ml P]; cbn [item_at_ok] in AT; destruct (at_ok_place _ AT) as [P1 P2]; [|exfalso; exact (P2 P)].
    destruct D as [P|N|f r e M V R|f r p e M V R L|f r p M V R SO|f r M V N Z].
    - exfalso; exact (P1 P).
    - exfalso. destruct (load_files_ok fs _ [] (Sorted.SSorted_nil _) HL) as (_ & G & _ & _ & FD). rewrite FD in N. cbn in N. destruct (find _ (doc_models d)) as [m|] eqn:Fi; [|discriminate N].
      apply List.find_some in Fi. destruct Fi as [HI _]. rewrite Forall_forall in G. destruct (G m HI) as (cc & f & lgm & O & M). rewrite O, M in N. discriminate N.
    - eapply EB_turn; [exact (DM _ _ _ _ _ _ eq_refl M V)|exact R].
    - eapply EB_lines; [exact (DM _ _ _ _ _ _ eq_refl M V)|exact R|exact L].
    - eapply EB_set; [exact (DM _ _ _ _ _ _ eq_refl M V)|exact R|exact SO].
    - eapply EB_dims; [exact (DM _ _ _ _ _ _ eq_refl M V)|exact N|exact Z].
  Qed.

  (** The numbers of a script *)
  Lemma parse_abort f c e : parse f c = Abort e ->
    (e = AThrow "std::stof" /\ exists w, numeral_in c w /\ stof w = None) \/
    (e = AUB "Scale: float to int out of range" /\ exists w x, numeral_in c w /\ stof w = Some x /\ to_int x = None).
  Proof.
    unfold parse. destruct (tokens_total c) as [ts HT]. rewrite HT. cbn [obind]. destruct (parse_input _ _ _ _ _) as [d [pe|]] eqn:PI; [|intro H; discriminate H].
    apply input_dead in PI; [|lia]. destruct pe as [l m|a]; [intro H; discriminate H|]. intro H; injection H as <-.
    assert (NN : forall w, number w -> cstr w = w).
    { intros w N. apply cstr_id. intro HI. destruct N as (sg & a0 & r & S & -> & D & R). rewrite !in_app_iff in HI.
      assert (DN : forall d0, Forall digit d0 -> ~ In NUL d0) by (intros d0 F I; rewrite Forall_forall in F; specialize (F _ I); unfold digit, ord in F; change (N_of_ascii NUL) with 0%N in F; lia).
      destruct HI as [HI|[HI|HI]]; [destruct S as [->|[->| ->]]; simpl in HI; intuition discriminate|exact (DN _ D HI)|].
      destruct R as [(_ & [->|(g & G & ->)])|(_ & g & _ & G & ->)]; [destruct HI| |]; (destruct HI as [HI|HI]; [discriminate HI|exact (DN _ G HI)]). }
    destruct PI as [(-> & l & HI)|(-> & l & x & HI & TI)]; [left|right]; (split; [reflexivity|]); destruct (token_piece _ _ _ HT HI) as (ls & y & HS & Hy & Q & P); unfold tok_of in Q;
      (destruct (lx_act y) eqn:EA; try discriminate Q; [|destruct (new_quote _); discriminate Q]); cbn [piece] in P; rewrite (NN _ P) in Q; destruct (stof (lx_text y)) as [f0|] eqn:SF; try discriminate Q.
    - exists (lx_text y). split; [exists ls, y; auto|exact SF].
    - injection Q as _ ->. exists (lx_text y), x. split; [exists ls, y; auto|]. auto.
  Qed.
End Toks.
