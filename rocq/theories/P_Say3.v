(** P_Say3.v - defects of texts, pages and loads are reported. *)
From Verif Require Import Base Num Geo Stl StlRead Env Ast Lexer Parser Grammar Ps Draw Main DocSpec ValidSpec MsgSpec SaySpec
  P_Base P_Meta P_Frame P_Dims P_Doc P_Script P_Script2 P_Mark P_Valid P_Value P_Parser2 P_Msg P_Msg2 P_Msg3 P_Msg4 P_Say P_Say2.

Local Unset Implicit Arguments.
Local Open Scope string_scope.
Local Open Scope list_scope.
Section Say.
  Context {A : Arith} {E : Env}.
  Ltac tk nm W F :=
    match goal with
    | H : context [take nm ?m] |- _ =>
        let m' := fresh "m" in let T := fresh "T" in let W' := fresh "W" in let F' := fresh "F" in
        destruct (@take_chain _ nm _ m _ W F eq_refl) as (m' & T & W' & F'); rewrite T in H; clear T
    end.
  Lemma text_must fs d l0 t ml s s' ok l m : visit_text l0 t ml s = Ret (s', ok) -> must_item fs d (DText l0 t ml) l m -> told (DSym l m) s'.
  Proof.
    intros H M. unfold visit_text in H. destruct (flatten_spec "draw" ml) as (m0 & HF & W & F). rewrite HF in H. clear HF.
    pose proof (nilb_nodup (B "draw") ml) as ND. assert (F0 : forall n, fnd m0 n = drop [] n (index_of n (names ml))) by exact F.
    destruct (nilb (dup_diags (B "draw") [] ml)) eqn:HK; cbn [negb] in H.
    2:{ injection H as <- _. inversion M as [|? ? ? y R|? ? ? x N U]; subst; [apply told_new, dup_told, R|]. apply ND in N. congruence. }
    pose proof (proj1 ND eq_refl) as NDP. clear ND HK. set (s1 := log_all (dup_diags (B "draw") [] ml) s) in *. clearbody s1.
    inversion M as [|? ? ? y R|? ? ? x N U]; subst; [destruct (repeats_nodup _ _ R NDP)|].
    tk "@" W F0.
    match type of H with obind ?x _ = _ => destruct x as [pl|]; [cbn [obind] in H|discriminate H] end.
    pose proof (unknown_told BText _ _ _ x F1 ltac:(intro k; cbn; tauto) U (unknown_first _ _ _ NDP U)) as UT.
    destruct m as [|y m]; [destruct UT|]. injection H as <- _. apply told_new. right. exact UT.
  Qed.
  Lemma items_keep fs d st D ds s s' ds' ok : loaded fs d st -> visit_drawables st ds s = Ret (s', ds', ok) -> told D s -> told D s'.
  Proof. intros LD H. refine (says_told (fun _ _ => True) _ _ _ ok _). refine (items_say _ _ _ _ LD _ _ _ _ _ _ H). trivial. Qed.
  Lemma items_must fs d st i l m : loaded_all fs d st -> must_item fs d i l m -> forall ds s s' ds' ok, In i ds -> visit_drawables st ds s = Ret (s', ds', ok) -> told (DSym l m) s'.
  Proof.
    intros LD M. induction ds as [|i0 ds IH]; intros s s' ds' ok I H; [destruct I|]. cbn [visit_drawables] in H.
    apply obind_ret in H. destruct H as ([[s1 d1] ok1] & H1 & H). apply obind_ret in H. destruct H as ([[s2 t2] ok2] & H2 & H). injection H as <- <- <-.
    destruct I as [->|I]; [|exact (IH _ _ _ _ I H2)]. eapply items_keep; [apply LD|exact H2|]. clear H2. unfold visit_drawable in H1. destruct i as [l0 n ml dms|l0 t ml].
    - apply obind_ret in H1. destruct H1 as ([[s3 ds3] ok3] & H1 & H3). injection H3 as <- _ _. inversion M; subst. eapply draw_must; eassumption.
    - apply obind_ret in H1. destruct H1 as ([s3 ok3] & H1 & H3). injection H3 as <- _ _. exact (text_must _ _ _ _ _ _ _ _ _ _ H1 M).
  Qed.
  Lemma page_must fs d st k pg s s' pg' ok l m : loaded_all fs d st -> gen_page st k pg s = Ret (s', pg', ok) -> must_page fs d pg l m -> told (DSym l m) s'.
  Proof.
    intros LD H M. unfold gen_page in H. set (ml := pg_meta pg) in *.
    destruct (flatten_spec "page" ml) as (m0 & HF & W & F). rewrite HF in H. clear HF.
    assert (F0 : forall n, fnd m0 n = drop [] n (index_of n (names ml))) by exact F.
    set (dd := dup_diags (B "page") [] ml) in *. set (s0 := set_page opage_empty (log_all dd s)) in *.
    assert (S0 : forall y, repeats ml y -> told (DSym (m_loc y) (says_duplicate "page" y)) s0) by (intros y R; exact (told_new _ dd s (dup_told "page" ml y R))).
    clearbody s0. clearbody dd. tk "name" W F0.
    match type of H with (let '(_, _) := ?x in _) = _ => destruct x as [[s1 nm] ok1] eqn:GN end.
    assert (S1 : forall D, told D s0 -> told D s1).
    { intros D T. destruct (arg_prop "name" ml) as [(i & x & P & N & QN & _)|[P _]]; rewrite P in GN; [|injection GN as <- _ _; exact T].
      rewrite N in GN. destruct (as_str x) as [t|]; injection GN as <- _ _; [exact T|apply told_err, T]. }
    assert (N1 : forall x, first_named ml x -> m_name x = B "name" -> (forall t, m_val x <> MStr t) ->
      told (DSym (m_loc x) (B "Expected document name to be a string, got '" ++ type_name (mkind (m_val x)) ++ B "'")) s1).
    { intros x FO Q V. destruct (first_index _ _ FO) as (i & IX & NX). rewrite Q in IX. unfold prop in GN.
      rewrite IX, NX in GN. assert (as_str x = None) as AS by (unfold as_str; destruct (m_val x); try reflexivity; exfalso; eapply V; reflexivity).
      rewrite AS in GN. injection GN as <- _ _. rewrite err_log. apply told_new. left. reflexivity. }
    clear GN. apply obind_ret in H. destruct H as ([[s2 ds2] ok2] & HV & H).
    assert (S2 : forall D, told D s1 -> told D s2) by (intro D; eapply items_keep; [apply LD|exact HV]).
    assert (UT : forall x, unknown_in BPage ml x -> first_named ml x -> In (DSym (m_loc x) (m_name x)) (list_unknown ml m1)).
    { intros x U FO. exact (unknown_told BPage _ _ _ x F1 ltac:(intro j; cbn; tauto) U FO). }
    match type of H with (let '(_, _) := ?x in _) = _ => destruct x as [s3 ok3] eqn:GE end.
    injection H as <- _ _.
    assert (S3 : forall D, told D s2 -> told D s3) by (intros D T; destruct m1; injection GE as <- _; [exact T|apply told_keep; exact T]).
    assert (N3 : forall x, unknown_in BPage ml x -> first_named ml x -> told (DSym (m_loc x) (m_name x)) s3).
    { intros x U FO. specialize (UT x U FO). destruct m1 as [|y m1]; [destruct UT|]. injection GE as <- _. apply told_new. right. exact UT. }
    destruct M as [y R|x U FO|x FO Q V|i l m I M]; auto. apply S3. eapply items_must; eassumption.
  Qed.
  Lemma pages_must fs d st pg l m : loaded_all fs d st -> must_page fs d pg l m -> forall pgs k s s' pgs' os ok, In pg pgs ->
    gen_pages st k pgs s = Ret (s', pgs', os, ok) -> told (DSym l m) s'.
  Proof.
    intros LD M. induction pgs as [|pg0 pgs IH]; intros k s s' pgs' os ok I H; [destruct I|]. cbn [gen_pages] in H.
    apply obind_ret in H. destruct H as ([[s1 d1] ok1] & H1 & H). apply obind_ret in H. destruct H as ([[[s2 t2] os2] ok2] & H2 & H).
    injection H as <- <- <- <-. destruct I as [->|I]; [|exact (IH _ _ _ _ _ _ I H2)].
    refine (says_told (fun _ _ => True) _ _ _ ok2 _ (page_must _ _ _ _ _ _ _ _ _ _ _ LD H1 M)).
    refine (pages_say _ _ _ _ (proj1 LD) _ _ _ _ _ _ _ _ H2). trivial.
  Qed.

  (** ** Loads *)
  Lemma find_put k v n (st : stl_map) : smap_find bytes_ltb k st = None ->
    smap_find bytes_ltb n (smap_emplace bytes_ltb k v st) = if bytes_eqb k n then Some v else smap_find bytes_ltb n st.
  Proof.
    intro F. destruct (bytes_eqb k n) eqn:Eq.
    - apply bytes_eqb_eq in Eq. subst n. apply (find_emplace_same bytes_swo); auto; apply Forall_true.
    - apply (find_emplace_other bytes_swo); auto; try apply Forall_true. intro Hv. apply bytes_eqv in Hv. subst n. rewrite bytes_eqb_refl in Eq. discriminate.
  Qed.
  (** The names that are taken. *)
  Definition taken (st : stl_map) (ns : list bytes) : Prop := forall n, In n ns <-> smap_find bytes_ltb n st <> None.
  Lemma load_one_must fs pre mo st st' lg ok : taken st (map mo_name pre) -> load_one fs mo st = Ret (st', lg, ok) ->
    taken st' (map mo_name (pre ++ [mo])) /\ (ok = true -> exists f, smap_find bytes_ltb (mo_name mo) st' = Some (Some f)) /\ forall l m, must_model fs pre mo l m -> In (DSym l m) lg.
  Proof.
    intros T H. unfold load_one in H. destruct (smap_find bytes_ltb (mo_name mo) st) as [v|] eqn:SF.
    - injection H as <- <- <-. assert (IN : In (mo_name mo) (map mo_name pre)) by (apply T; congruence). split; [|split; [discriminate|]].
      + intro n. rewrite map_app, in_app_iff, <- (T n). cbn. split; [intros [X|[<-|[]]]|]; auto.
      + intros l m [I|I|? ? I]; [left; reflexivity|contradiction|contradiction].
    - assert (NI : ~ In (mo_name mo) (map mo_name pre)) by (intro I; apply T in I; congruence).
      assert (TK : forall v, taken (smap_emplace bytes_ltb (mo_name mo) v st) (map mo_name (pre ++ [mo]))).
      { intros v n. rewrite (find_put _ _ _ _ SF), map_app, in_app_iff, (T n). cbn. destruct (bytes_eqb (mo_name mo) n) eqn:Q.
        - apply bytes_eqb_eq in Q. split; [discriminate|]. auto.
        - split; [intros [X|[X|[]]]|]; auto. rewrite X, bytes_eqb_refl in Q. discriminate. }
      destruct (first_open fs (candidates (mo_source mo))) as [c|] eqn:FO.
      + apply obind_ret in H. destruct H as ([r lgm] & HM & H). destruct r as [f|]; injection H as <- <- <-; (split; [apply TK|split]).
        * intros _. exists f. rewrite (find_put _ _ _ _ SF), bytes_eqb_refl. reflexivity.
        * intros l m [I|I R|t lg I R SM]; [contradiction| |]; exfalso.
          -- apply (R c), resolves_iff, FO.
          -- apply resolves_iff in R. congruence.
        * discriminate.
        * intros l m [I|I R|t lg I R SM]; [contradiction| |].
          -- exfalso. apply (R c), resolves_iff, FO.
          -- apply in_or_app. right. left. reflexivity.
      + injection H as <- <- <-. split; [apply TK|]. split; [discriminate|]. intros l m [I|I R|t lg I R SM]; [contradiction|left; reflexivity|].
        apply resolves_iff in R. congruence.
  Qed.
  Lemma load_must fs : forall ms pre st st' lg ok, taken st (map mo_name pre) -> load_files fs ms st = Ret (st', lg, ok) ->
    taken st' (map mo_name (pre ++ ms)) /\ forall a mo b l m, ms = a ++ mo :: b -> must_model fs (pre ++ a) mo l m -> In (DSym l m) lg.
  Proof.
    induction ms as [|x ms IH]; intros pre st st' lg ok T H; cbn [load_files] in H.
    - injection H as <- <- <-. split; [rewrite app_nil_r; exact T|]. intros a mo b l m Q. destruct a; discriminate.
    - apply obind_ret in H. destruct H as ([[st1 lg1] ok1] & H1 & H). apply obind_ret in H. destruct H as ([[st2 lg2] ok2] & H2 & H). injection H as <- <- <-.
      destruct (load_one_must _ _ _ _ _ _ _ T H1) as (T1 & _ & M1). destruct (IH _ _ _ _ _ T1 H2) as [T2 M2].
      rewrite <- app_assoc in T2. split; [exact T2|]. intros [|y a] mo b l m Q M; injection Q as <- Q; apply in_or_app.
      + rewrite app_nil_r in M. left. apply M1, M.
      + right. apply (M2 a mo b l m Q). rewrite <- app_assoc. exact M.
  Qed.
  Lemma load_all fs d st lg : load_files fs (doc_models d) [] = Ret (st, lg, true) -> loaded_all fs d st.
  Proof.
    intro H. split; [exact (load_loaded _ _ _ _ H)|]. destruct (load_files_nil_ok _ _ H) as (_ & N & _ & H4). split; [exact N|].
    destruct (load_must fs (doc_models d) [] [] st lg true) as [T _]; [intro n; cbn; split; [intros []|congruence]|exact H|]. cbn [app] in T.
    intros n v S. assert (I : In n (map mo_name (doc_models d))) by (apply T; congruence). apply in_map_iff in I. destruct I as (mo & <- & I).
    destruct (H4 mo I) as (c & f & lgm & _ & _ & K). unfold model_of in K. rewrite S in K. exists f. destruct v; congruence.
  Qed.
  Theorem defects_told fs src c r d l m : script_to_ps fs src c = Ret r -> parses src c d -> must_say fs d l m -> In (DSym l m) (r_log r).
  Proof.
    intros H [lg0 HP] M. unfold script_to_ps in H. rewrite HP in H. cbn [obind] in H. change (0 =? 0)%nat with true in H. cbv iota in H.
    apply obind_ret in H. destruct H as (r0 & H & H0). injection H0 as <-. cbn [r_log]. apply in_or_app. right.
    unfold doc_to_ps in H. apply obind_ret in H. destruct H as ([[st lg1] ok1] & HL & H).
    destruct (load_must fs (doc_models d) [] [] st lg1 ok1) as [_ ML]; [intro n; cbn; split; [intros []|congruence]|exact HL|]. cbn [app] in ML.
    assert (L1 : In (DSym l m) lg1 -> In (DSym l m) (r_log r0)).
    { intro I. destruct ok1; cbn [negb] in H; [|injection H as <-; exact I]. apply obind_ret in H. destruct H as ([[[os d2] lg2] ok2] & HG & H).
      destruct ok2; cbn [negb] in H; injection H as <-; cbn [r_log]; apply in_or_app; left; exact I. }
    destruct M as [a mo b l m Q M|pg l m N G I M]; [apply L1; exact (ML _ _ _ _ _ Q M)|].
    destruct (load_complete fs (doc_models d) [] (Sorted.SSorted_nil _) (good_models fs d N G) N (fun _ _ => eq_refl)) as (st1 & lg & HL1).
    rewrite HL in HL1. injection HL1 as <- <- ->. cbn [negb] in H. apply obind_ret in H. destruct H as ([[[os d2] lg2] ok2] & HG & H).
    unfold generate_pages in HG. apply obind_ret in HG. destruct HG as ([[[s pgs] os'] ok'] & HG & HE). injection HE as <- <- <- <-.
    pose proof (pages_must _ _ _ _ _ _ (load_all _ _ _ _ HL) M _ _ _ _ _ _ _ I HG) as T.
    destruct ok'; cbn [negb] in H; injection H as <-; cbn [r_log]; apply in_or_app; right; exact T.
  Qed.
  Lemma defects_fail fs src c r d l m : script_to_ps fs src c = Ret r -> parses src c d -> must_say fs d l m -> r_ok r = false /\ r_out r = [].
  Proof.
    intros H P M. pose proof (defects_told _ _ _ _ _ _ _ H P M) as I. destruct (messages_true _ _ _ _ _ _ _ H P I) as [F _]. split; [exact F|].
    unfold script_to_ps in H. destruct P as [lg0 HP]. rewrite HP in H. cbn [obind] in H. change (0 =? 0)%nat with true in H. cbv iota in H.
    apply obind_ret in H. destruct H as (r0 & H & H0). injection H0 as <-. cbn [r_ok r_out] in *.
    unfold doc_to_ps in H. apply obind_ret in H. destruct H as ([[st lg1] ok1] & _ & H). destruct ok1; cbn [negb] in H; [|injection H as <-; reflexivity].
    apply obind_ret in H. destruct H as ([[[os d2] lg2] ok2] & _ & H). destruct ok2; cbn [negb] in H; injection H as <-; [discriminate F|reflexivity].
  Qed.
End Say.
