(** P_Msg4.v - the places of messages are lines of tokens of the script. *)
From Verif Require Import Base Num Geo Stl StlRead Env Ast Lexer Parser Grammar Ps Draw Main DocSpec ValidSpec MsgSpec P_Base P_Parser2 P_Msg3.

Local Unset Implicit Arguments.
Local Open Scope list_scope.
Section Lines.
  Context {A : Arith}.
  Variable file : bytes.
  Notation st := (starts file).
  Lemma starts_incl ts us k l : incl ts us -> st ts k l -> st us k l.
  Proof. intros I (n & H & ->). exists n. auto. Qed.
  Lemma prop_incl ts us x : incl ts us -> prop_starts file ts x -> prop_starts file us x.
  Proof.
    intros I [H1 H2]. split.
    - destruct H1 as [H|[N H]]; [left|right; split; [exact N|]]; eapply starts_incl; eauto.
    - intros p n l V F. eapply starts_incl; eauto.
  Qed.
  Lemma props_incl ts us ml : incl ts us -> Forall (prop_starts file ts) ml -> Forall (prop_starts file us) ml.
  Proof. intros I. apply Forall_impl. intro x. apply prop_incl, I. Qed.
  Lemma dims_incl ts us ml : incl ts us -> Forall (dim_starts file ts) ml -> Forall (dim_starts file us) ml.
  Proof. intros I. apply Forall_impl. intros x [(k & K & S) P]. split; [exists k; split; [exact K|eapply starts_incl; eauto]|eapply props_incl; eauto]. Qed.
  Lemma items_incl ts us ml : incl ts us -> Forall (item_starts file ts) ml -> Forall (item_starts file us) ml.
  Proof.
    intros I. apply Forall_impl. intros [l n ml0 ds|l t ml0]; cbn.
    - intros (S & P & D). split; [eapply starts_incl; eauto|]. split; [eapply props_incl; eauto|eapply dims_incl; eauto].
    - intros (S & P). split; [eapply starts_incl; eauto|eapply props_incl; eauto].
  Qed.
  Lemma pages_incl ts us ml : incl ts us -> Forall (page_starts file ts) ml -> Forall (page_starts file us) ml.
  Proof. intros I. apply Forall_impl. intros pg (S & P & D). split; [eapply starts_incl; eauto|]. split; [eapply props_incl; eauto|eapply items_incl; eauto]. Qed.

  Ltac isin := let x := fresh in let H := fresh in intros x H; repeat (rewrite in_app_iff in * || cbn [In] in * ); tauto.
  Lemma point_lines ts p : g_point file ts p -> forall n l, In (n, l) (funcs p) -> st ts (TId n) l.
  Proof.
    induction 1 as [|a b c n ts p G IH]; cbn [funcs]; [intros n l []|]. intros n' l [H|H].
    - injection H as <- <-. exists a. split; [left; reflexivity|reflexivity].
    - apply (starts_incl ts); [isin|]. apply IH, H.
  Qed.
  Lemma value_lines ts v : g_value file ts v -> forall p n l, v = MPoint p -> In (n, l) (funcs p) -> st ts (TId n) l.
  Proof. intros H p n l ->. inversion H; subst. apply point_lines. assumption. Qed.
  Lemma arg_lines ts x : g_arg file ts x -> prop_starts file ts x.
  Proof.
    destruct 1 as [a b n ts v G|a ts v G]; (split; [|cbn [m_val]]).
    - left. exists a. split; [left; reflexivity|reflexivity].
    - intros p n' l V I. apply (starts_incl ts); [isin|]. exact (value_lines _ _ G _ _ _ V I).
    - right. split; [reflexivity|]. exists a. split; [left; reflexivity|reflexivity].
    - discriminate.
  Qed.
  Lemma snoc_props ts us ws ml m : incl ts ws -> incl us ws -> Forall (prop_starts file ts) ml -> g_arg file us m -> Forall (prop_starts file ws) (ml ++ [m]).
  Proof. intros I J F G. apply Forall_app. split; [exact (props_incl _ _ _ I F)|]. constructor; [|constructor]. eapply prop_incl; [exact J|]. apply arg_lines, G. Qed.
  Lemma dim_parts_lines ts ml : g_dim_parts file ts ml -> Forall (prop_starts file ts) ml.
  Proof.
    induction 1 as [ts m G|a ts ml us m G IH GA]; [constructor; [apply arg_lines, G|constructor]|].
    apply (snoc_props ts us); auto; isin.
  Qed.
  Lemma draw_parts_lines ts q : g_draw_parts file ts q -> Forall (prop_starts file ts) (fst q) /\ Forall (dim_starts file ts) (snd q).
  Proof.
    induction 1 as [|a ts ml ds us m G [I1 I2] GA|a b c d ts ml ds k kd G [I1 I2] GK|a b c d ts ml ds k kd us m G [I1 I2] GK GD]; cbn [fst snd] in *.
    - split; constructor.
    - split; [apply (snoc_props ts us); auto; isin|eapply dims_incl; [|exact I2]; isin].
    - split; [eapply props_incl; [|exact I1]; isin|]. apply Forall_app. split; [eapply dims_incl; [|exact I2]; isin|].
      constructor; [|constructor]. split; [|constructor]. exists k. split; [exact GK|]. exists a. split; [|reflexivity]. apply in_or_app. right. left. reflexivity.
    - split; [eapply props_incl; [|exact I1]; isin|]. apply Forall_app. split; [eapply dims_incl; [|exact I2]; isin|].
      constructor; [|constructor]. split; [|eapply props_incl; [|apply dim_parts_lines, GD]; isin]. exists k. split; [exact GK|]. exists a. split; [|reflexivity]. apply in_or_app. right. left. reflexivity.
  Qed.
  Lemma text_parts_lines ts ml : g_text_parts file ts ml -> Forall (prop_starts file ts) ml.
  Proof. induction 1 as [|a ts ml us m G IH GA]; [constructor|]. apply (snoc_props ts us); auto; isin. Qed.
  Lemma page_parts_lines ts q : g_page_parts file ts q -> Forall (prop_starts file ts) (fst q) /\ Forall (item_starts file ts) (snd q).
  Proof.
    induction 1 as [|a ts ml ds us m G [I1 I2] GA|a b c d ts ml ds n us m dm G [I1 I2] GD|a b c d e ts ml ds us s ws m G [I1 I2] GS GT]; cbn [fst snd] in *.
    - split; constructor.
    - split; [apply (snoc_props ts us); auto; isin|eapply items_incl; [|exact I2]; isin].
    - split; [eapply props_incl; [|exact I1]; isin|]. apply Forall_app. split; [eapply items_incl; [|exact I2]; isin|].
      destruct (draw_parts_lines _ _ GD) as [D1 D2]. cbn [fst snd] in *. constructor; [|constructor]. cbn. split; [|split].
      + exists b. split; [|reflexivity]. apply in_or_app. right. right. left. reflexivity.
      + eapply props_incl; [|exact D1]; isin.
      + eapply dims_incl; [|exact D2]; isin.
    - split; [eapply props_incl; [|exact I1]; isin|]. apply Forall_app. split; [eapply items_incl; [|exact I2]; isin|].
      constructor; [|constructor]. cbn. split.
      + exists a. split; [|reflexivity]. apply in_or_app. right. left. reflexivity.
      + eapply props_incl; [|apply text_parts_lines, GT]; isin.
  Qed.
  Lemma input_lines ts d : g_input file ts d -> doc_starts file ts d.
  Proof.
    induction 1 as [|a b c d e ts ms ps n s G [I1 I2]|a b c ts ms ps us ml ds G [I1 I2] GP]; cbn [doc_models doc_pages] in *.
    - split; constructor.
    - split; cbn [doc_models doc_pages].
      + apply Forall_app. split; [eapply Forall_impl; [|exact I1]; intro x; apply starts_incl; isin|]. constructor; [|constructor].
        exists a. split; [|reflexivity]. apply in_or_app. right. left. reflexivity.
      + eapply pages_incl; [|exact I2]; isin.
    - destruct (page_parts_lines _ _ GP) as [P1 P2]. cbn [fst snd] in *. split; cbn [doc_models doc_pages].
      + eapply Forall_impl; [|exact I1]; intro x; apply starts_incl; isin.
      + apply Forall_app. split; [eapply pages_incl; [|exact I2]; isin|]. constructor; [|constructor]. split; [|split]; cbn [pg_loc pg_meta pg_draws].
        * exists a. split; [|reflexivity]. apply in_or_app. right. left. reflexivity.
        * eapply props_incl; [|exact P1]; isin.
        * eapply items_incl; [|exact P2]; isin.
  Qed.
End Lines.
Section Places.
  Context {A : Arith} {E : Env}.
  Lemma parse_starts src c d ts : parses src c d -> tokens c = Ret ts -> doc_starts src ts d.
  Proof.
    intros [lg H] T. apply parse_iff in H. destruct H as (_ & ts' & T' & G). rewrite T in T'. injection T' as <-. apply input_lines, G.
  Qed.
  Variables (file : bytes) (ts : list ltok).
  Definition some_line (l : loc) : Prop := exists t, In t ts /\ l = Loc file (t_line t).
  Lemma starts_line k l : starts file ts k l -> some_line l.
  Proof. intros (n & I & ->). exists (LTok n k). auto. Qed.
  Lemma prop_line ml x : Forall (prop_starts file ts) ml -> In x ml -> some_line (m_loc x).
  Proof. rewrite Forall_forall. intros F I. destruct (proj1 (F x I)) as [S|[_ S]]; exact (starts_line _ _ S). Qed.
  Lemma repeats_in ml y : repeats ml y -> In y ml.
  Proof. intros (a & x & b & c & -> & _). rewrite in_app_iff. right. right. rewrite in_app_iff. right. left. reflexivity. Qed.
  Lemma names_line k l0 ml l m : Forall (prop_starts file ts) ml -> some_line l0 -> true_of_names k l0 ml l m -> some_line l.
  Proof. intros F S T. destruct T as [y R|x U K|x [U _]]; [eapply prop_line; eauto using repeats_in|exact S|eapply prop_line; eauto]. Qed.
  Lemma dim_line ps r dm l m : dim_starts file ts dm -> true_of_dim ps r dm l m -> some_line l.
  Proof.
    intros [(k & _ & S) F] T. apply starts_line in S. destruct T; try exact S; try (eapply prop_line; eauto; fail).
    - eapply names_line; eauto.
    - rewrite Forall_forall in F. destruct (F x ltac:(assumption)) as [_ Q]. eapply starts_line. eapply Q; eauto.
  Qed.
  Lemma item_line fs d i l m : item_starts file ts i -> true_of_item fs d i l m -> some_line l.
  Proof.
    intros S T. destruct T as [l0 t ml l m T|l0 n ml ds l m T|l0 n ml ds dm ps r l m I SE T]; cbn in S.
    - destruct S as [S F]. apply starts_line in S. eapply names_line; eauto.
    - destruct S as (S & F & _). apply starts_line in S. destruct T; try exact S; try (eapply prop_line; eauto; fail). eapply names_line; eauto.
    - destruct S as (_ & _ & D). rewrite Forall_forall in D. eapply dim_line; eauto.
  Qed.
  Lemma message_line fs d l m : doc_starts file ts d -> true_message fs d l m \/ miscalled d l m \/ not_zero fs d l m -> some_line l.
  Proof.
    intros [D1 D2] H. rewrite Forall_forall in D1, D2. destruct H as [T|[T|T]].
    - destruct T as [mo l m I T|k pg l m N T].
      + specialize (D1 _ I). apply starts_line in D1. destruct T; exact D1.
      + destruct (D2 _ (nth_error_In _ _ N)) as (S & P & Q). apply starts_line in S. rewrite Forall_forall in Q.
        destruct T; try exact S; try (eapply prop_line; eauto; fail); [eapply names_line; eauto|eapply item_line; eauto].
    - destruct T as (pg & l0 & t & ml & y & IP & II & R & -> & _). destruct (D2 _ IP) as (_ & _ & Q). rewrite Forall_forall in Q. destruct (Q _ II) as [_ F].
      eapply prop_line; eauto using repeats_in.
    - destruct T as (pg & l0 & n & ml & ds & dm & x & ps & r & IP & II & ID & _ & _ & IX & _ & _ & -> & _). destruct (D2 _ IP) as (_ & _ & Q). rewrite Forall_forall in Q.
      destruct (Q _ II) as (_ & _ & F). rewrite Forall_forall in F. destruct (F _ ID) as [_ F']. eapply prop_line; eauto.
  Qed.
End Places.
Section Top.
  Context {A : Arith} {E : Env}.
  Lemma messages_true fs src c r d l m : script_to_ps fs src c = Ret r -> parses src c d -> In (DSym l m) (r_log r) ->
    r_ok r = false /\ (true_message fs d l m \/ miscalled d l m \/ not_zero fs d l m).
  Proof.
    intros H P I. destruct (messages_true_or _ _ _ _ _ H P) as [F N]. rewrite Forall_forall in F. specialize (F _ I). split; [|exact F].
    destruct (r_ok r); [|reflexivity]. exfalso. exact (N eq_refl _ _ I).
  Qed.
  Lemma messages_placed fs src c r d ts l m : script_to_ps fs src c = Ret r -> parses src c d -> tokens c = Ret ts ->
    doc_starts src ts d /\ (In (DSym l m) (r_log r) -> exists t, In t ts /\ l = Loc src (t_line t)).
  Proof.
    intros H P T. pose proof (parse_starts _ _ _ _ P T) as S. split; [exact S|]. intro I. eapply message_line; [exact S|]. eapply messages_true; eauto.
  Qed.
  Lemma messages_need_parse fs src c r l m : script_to_ps fs src c = Ret r -> In (DSym l m) (r_log r) -> exists d, parses src c d.
  Proof.
    unfold script_to_ps. intros H I. rewrite obind_ret in H. destruct H as ([[rc d] lg] & P & H). destruct rc as [|rc].
    - exists d, lg. exact P.
    - simpl in H. injection H as <-. cbn [r_log] in I. exfalso. unfold parse in P. rewrite obind_ret in P. destruct P as (ts & _ & P).
      destruct (parse_input _ _ _ _ _) as [d' [[l' m'|a]|]]; try discriminate P. injection P as _ _ <-. cbn in I. intuition discriminate.
  Qed.
End Top.
