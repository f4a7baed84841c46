(** P_Msg3.v - the messages about scripts are true and point into the script. *)
From Verif Require Import Base Num Geo Stl StlRead Env Ast Lexer Parser Grammar Ps Draw Main DocSpec ValidSpec MsgSpec
  P_Base P_Meta P_Frame P_Dims P_Doc P_Script P_Script2 P_Mark P_Valid P_Parser2 P_Msg P_Msg2.

Local Unset Implicit Arguments.
Local Open Scope string_scope.
Local Open Scope list_scope.
Section Msg.
  Context {A : Arith} {E : Env}.
  Implicit Types P : loc -> bytes -> Prop.
  Ltac tk nm W F :=
    match goal with
    | H : context [take nm ?m] |- _ =>
        let m' := fresh "m" in let T := fresh "T" in let W' := fresh "W" in let F' := fresh "F" in
        destruct (@take_chain _ nm _ m _ W F eq_refl) as (m' & T & W' & F'); rewrite T in H; clear T
    end.
  Lemma base_dim_says d s s' d' ok : visit_base_dim d s = Ret (s', d', ok) -> says (dim_msg (v_points s) (v_rot s) d) s s' ok.
  Proof.
    intro H. unfold visit_base_dim in H. rewrite obind_ret in H. destruct H as ([[s1 ml1] ok1] & H & H1). injection H1 as <- <- <-.
    destruct (d_kind d) eqn:K.
    - exact (angle_says _ _ _ _ _ K H).
    - refine (circ_says draw_dia _ _ _ _ _ (or_introl K) _ _); [|unfold visit_dia in H; rewrite K; exact H].
      intros. destruct (draw_dia_draws f a b c r s0) as (p & Hp & _). rewrite Hp. reflexivity.
    - exact (dim_says _ _ _ _ _ K H).
    - refine (circ_says draw_rad _ _ _ _ _ (or_intror K) _ _); [|unfold visit_rad in H; rewrite K; exact H].
      intros. destruct (draw_rad_draws f a b c r s0) as (p & Hp & _). rewrite Hp. reflexivity.
  Qed.
  Lemma base_dim_grows d s s' d' ok : visit_base_dim d s = Ret (s', d', ok) -> v_points s' = v_points s /\ v_rot s' = v_rot s.
  Proof.
    intro H. assert (HD : visit_dims [d] s = Ret (s', [d'], ok && true)) by (cbn [visit_dims]; rewrite H; reflexivity).
    apply visit_dims_spec in HD. destruct HD as [(p & dl & ->) _]. split; reflexivity.
  Qed.
  Lemma dims_say P ps r : forall ds s s' ds' ok, v_points s = ps -> v_rot s = r -> (forall dm l m, In dm ds -> dim_msg ps r dm l m -> P l m) ->
    visit_dims ds s = Ret (s', ds', ok) -> says P s s' ok.
  Proof.
    induction ds as [|d ds IH]; intros s s' ds' ok HP HR HC H; cbn [visit_dims] in H.
    - injection H as <- <- <-. apply says_same. reflexivity.
    - rewrite obind_ret in H. destruct H as ([[s1 d1] ok1] & H1 & H). rewrite obind_ret in H. destruct H as ([[s2 t2] ok2] & H2 & H).
      injection H as <- <- <-. destruct (base_dim_grows _ _ _ _ _ H1) as [G1 G2]. eapply says_app.
      + apply base_dim_says in H1. rewrite HP, HR in H1. eapply says_imp; [|exact H1]. intros l m. apply HC. left; reflexivity.
      + refine (IH _ _ _ _ _ _ _ H2); [congruence|congruence|]. intros dm l m I. apply HC. right; exact I.
  Qed.

  (** ** Drawings and texts *)
  Lemma scale_says P ml s : (forall x, In x ml -> m_name x = B "scale" -> (forall a b, m_val x <> MScale a b) -> P (m_loc x) (B "Wrong type for scale")) ->
    exists dl, get_scale ml (prop "scale" ml) s = (log_all dl s, scale_of ml) /\ Forall (okd P) dl /\ (scale_of ml <> None -> dl = []).
  Proof.
    intro H. unfold get_scale, scale_of. destruct (arg_prop "scale" ml) as [(i & x & -> & N & Q & ->)|[-> ->]]; [rewrite N|exists []; rewrite log_all_nil; auto].
    destruct (as_scale x) as [ab|] eqn:AS; [exists []; rewrite log_all_nil; auto|]. eexists. rewrite err_log. split; [reflexivity|]. split; [|congruence].
    constructor; [|constructor]. apply H; [exact (nth_error_In _ _ N)|exact Q|]. intros a b V. unfold as_scale in AS. rewrite V in AS. discriminate.
  Qed.
  Lemma view_says P ml s : (forall x v, In x ml -> m_name x = B "view" -> m_val x = MStr v -> ~ In v view_names -> P (m_loc x) (B "Unknown view name: '" ++ v ++ B "'")) ->
    (forall x, In x ml -> m_name x = B "view" -> (forall a, m_val x <> MLoc a) -> (forall v, m_val x <> MStr v) -> P (m_loc x) (B "Unexpect view type: " ++ type_name (mkind (m_val x)))) ->
    exists dl, get_view ml (prop "view" ml) s = (log_all dl s, view_of ml) /\ Forall (okd P) dl /\ (view_of ml <> None -> dl = []).
  Proof.
    intros H1 H2. unfold get_view, view_of. destruct (arg_prop "view" ml) as [(i & x & -> & N & Q & ->)|[-> ->]]; [rewrite N|exists []; rewrite log_all_nil; auto].
    pose proof (nth_error_In _ _ N) as I.
    destruct (as_loc x) as [a|] eqn:AL; [exists []; rewrite log_all_nil; auto|].
    destruct (as_str x) as [n|] eqn:AS.
    - destruct (matrix_by_name n) as [r|] eqn:M; [exists []; rewrite log_all_nil; auto|]. eexists. rewrite err_log. split; [reflexivity|]. split; [|congruence].
      constructor; [|constructor]. apply H1; auto.
      + unfold as_str in AS. destruct (m_val x); try discriminate. injection AS as ->. reflexivity.
      + intro V. assert (V' : exists r, In (n, r) (combine view_names [mXP; mXN; mYP; mYN; mZP; mZN])).
        { unfold view_names in *. cbn [map combine In] in *. repeat (destruct V as [<-|V]; [eexists; eauto 10|]). destruct V. }
        destruct V' as [r V']. apply matrix_by_name_iff in V'. congruence.
    - eexists. rewrite err_log. split; [reflexivity|]. split; [|congruence]. constructor; [|constructor]. apply H2; auto.
      + intros a V. unfold as_loc in AL. rewrite V in AL. discriminate.
      + intros v V. unfold as_str in AS. rewrite V in AS. discriminate.
  Qed.
  Definition loaded (fs : files) (d : document) (st : stl_map) : Prop :=
    (forall n f, smap_find bytes_ltb n st = Some (Some f) -> reads_as fs d n f) /\
    (forall n, smap_find bytes_ltb n st = None -> forall m, In m (doc_models d) -> mo_name m <> n).
  (** What may be said about an item. *)
  Definition item_msg (fs : files) (d : document) (i : drawable) (l : loc) (m : bytes) : Prop :=
    true_of_item fs d i l m \/
    match i with
    | DText _ _ ml => exists y, repeats ml y /\ l = m_loc y /\ m = says_duplicate "draw" y
    | DDraw _ n ml ds => exists dm ps r, In dm ds /\ sees fs d n ml ps r /\ dim_not_zero ps r dm l m
    end.
  Lemma draw_says fs d st l n ml ds s s' ds' ok : loaded fs d st ->
    visit_draw st l n ml ds s = Ret (s', ds', ok) -> says (item_msg fs d (DDraw l n ml ds)) s s' ok.
  Proof.
    intros [LD1 LD2] H. unfold visit_draw in H. set (Q := item_msg fs d (DDraw l n ml ds)).
    assert (TR : forall l' m, true_of_draw d l n ml l' m -> Q l' m) by (intros; left; apply TI_draw; assumption).
    assert (TN : forall l' m, true_of_names BDraw l ml l' m -> Q l' m) by (intros; apply TR, TR_names; assumption).
    destruct (flatten_spec "draw" ml) as (m0 & HF & W & F). rewrite HF in H. clear HF.
    pose proof (dups_says _ _ _ _ TN) as DU. cbn [word] in DU. pose proof (nilb_nodup (B "draw") ml) as ND.
    set (dd := dup_diags (B "draw") [] ml) in *.
    assert (F0 : forall n, fnd m0 n = drop [] n (index_of n (names ml))) by exact F.
    destruct (nilb dd) eqn:HK; cbn [negb] in H.
    2:{ injection H as <- <- <-. apply says_log; [exact DU|discriminate]. }
    assert (HND : NoDup (names ml)) by (apply ND; reflexivity).
    assert (Hd : dd = []). { unfold dd. apply dup_diags_nil; [constructor|exact HND]. }
    rewrite Hd, log_all_nil in H. clear HK ND DU Hd. clearbody dd.
    tk "scale" W F0.
    destruct (scale_says Q ml s) as (dl & GS & O1 & Z1); [intros x Ix Qx Vx; apply TR; apply TR_scale; assumption|]. rewrite GS in H. clear GS.
    destruct (scale_of ml) as [ab|]; [|injection H as <- <- <-; apply says_log; [exact O1|discriminate]].
    rewrite (Z1 ltac:(congruence)), log_all_nil in H. clear Z1 O1 dl.
    set (s2 := Vst (v_points s) (v_rot s) (proj_scale ab) (v_d s) (v_page s) (v_log s)) in *.
    assert (CUT : forall s'' b, says Q s2 s'' b -> says Q s s'' b) by (intros s'' b X; exact X).
    destruct (smap_find bytes_ltb n st) as [fo|] eqn:SF.
    2:{ injection H as <- <- <-. apply CUT. rewrite err_log. apply says_log; [|discriminate]. constructor; [|constructor]. apply TR, TR_model. apply LD2, SF. }
    tk "view" W0 F1.
    destruct (view_says Q ml s2) as (dl & GV & O1 & Z1); [intros; apply TR; apply TR_view; assumption|intros; apply TR; apply TR_view_type; assumption|]. rewrite GV in H. clear GV.
    destruct (view_of ml) as [rot|] eqn:VO; [|injection H as <- <- <-; apply CUT; apply says_log; [exact O1|discriminate]].
    rewrite (Z1 ltac:(congruence)), log_all_nil in H. clear Z1 O1 dl.
    tk "@" W1 F2.
    match type of H with obind ?x _ = _ => destruct x as [pl|]; [cbn [obind] in H|discriminate H] end.
    destruct fo as [file|]; [|discriminate H].
    rewrite obind_ret in H. destruct H as (proj & HP & H). rewrite obind_ret in H. destruct H as (ls & _ & H).
    rewrite obind_ret in H. destruct H as ([[s4 ds4] ok4] & HV & H). unfold add_dims in HV. destruct (strict_weak _ _) in HV; [|discriminate].
    assert (SE : sees fs d n ml (points (cull_back_face proj)) rot).
    { exists file, proj. split; [apply LD1, SF|]. split; [apply view_of_asks, VO|]. auto. }
    apply (dims_say Q (points (cull_back_face proj)) rot) in HV; [|reflexivity|reflexivity|].
    2:{ intros dm l' m' I [T|T]; [left; eapply TI_dim; eauto|right; do 3 eexists; eauto]. }
    assert (S4 : says Q s s4 ok4) by exact HV.
    destruct ok4; cbn [negb] in H; [|injection H as <- <- <-; exact S4].
    destruct m2 as [|x m2]; injection H as <- <- <-; [exact S4|]. change false with (true && false). eapply says_app; [exact S4|].
    apply (unexpected_says BDraw _ _ _ _ _ _ _ _ W2 F3); auto; [|discriminate]. intro k. cbn. tauto.
  Qed.
  Lemma text_says fs d l t ml s s' ok : visit_text l t ml s = Ret (s', ok) -> says (item_msg fs d (DText l t ml)) s s' ok.
  Proof.
    intro H. unfold visit_text in H. set (Q := item_msg fs d (DText l t ml)).
    assert (TN : forall l' m, true_of_names BText l ml l' m -> Q l' m) by (intros; left; apply TI_text; assumption).
    destruct (flatten_spec "draw" ml) as (m0 & HF & W & F). rewrite HF in H. clear HF.
    assert (DU : Forall (okd Q) (dup_diags (B "draw") [] ml)) by (apply dup_repeats; intros y R; right; exists y; auto).
    pose proof (nilb_nodup (B "draw") ml) as ND. set (dd := dup_diags (B "draw") [] ml) in *.
    assert (F0 : forall n, fnd m0 n = drop [] n (index_of n (names ml))) by exact F.
    destruct (nilb dd) eqn:HK; cbn [negb] in H.
    2:{ injection H as <- <-. apply says_log; [exact DU|discriminate]. }
    assert (HND : NoDup (names ml)) by (apply ND; reflexivity).
    assert (Hd : dd = []). { unfold dd. apply dup_diags_nil; [constructor|exact HND]. }
    rewrite Hd, log_all_nil in H. clear HK ND DU Hd. clearbody dd.
    tk "@" W F0.
    match type of H with obind ?x _ = _ => destruct x as [pl|]; [cbn [obind] in H|discriminate H] end.
    destruct m as [|x m]; injection H as <- <-; [apply says_same; reflexivity|].
    match goal with |- says _ _ (unexpected _ _ _ _ ?a) _ => change (says Q a (unexpected "text" l ml (x :: m) a) false) end.
    apply (unexpected_says BText _ _ _ _ _ _ _ _ W0 F1); auto; try discriminate.
  Qed.
  Lemma items_say fs d st P : loaded fs d st -> forall ds s s' ds' ok, (forall i l m, In i ds -> item_msg fs d i l m -> P l m) ->
    visit_drawables st ds s = Ret (s', ds', ok) -> says P s s' ok.
  Proof.
    intro LD. induction ds as [|i ds IH]; intros s s' ds' ok HC H; cbn [visit_drawables] in H.
    - injection H as <- <- <-. apply says_same. reflexivity.
    - rewrite obind_ret in H. destruct H as ([[s1 d1] ok1] & H1 & H). rewrite obind_ret in H. destruct H as ([[s2 t2] ok2] & H2 & H).
      injection H as <- <- <-. apply (says_app _ s s1 s2).
      + apply (says_imp (item_msg fs d i)); [intros l m; apply HC; left; reflexivity|]. unfold visit_drawable in H1. destruct i as [l n ml dms|l t ml].
        * rewrite obind_ret in H1. destruct H1 as ([[s3 ds3] ok3] & H1 & H3). injection H3 as <- <- <-. exact (draw_says _ _ _ _ _ _ _ _ _ _ _ LD H1).
        * rewrite obind_ret in H1. destruct H1 as ([s3 ok3] & H1 & H3). injection H3 as <- <- <-. exact (text_says _ _ _ _ _ _ _ _ H1).
      + refine (IH _ _ _ _ _ H2). intros i' l m I. apply HC. right; exact I.
  Qed.
  Definition page_msg (fs : files) (d : document) (k : nat) (pg : page) (l : loc) (m : bytes) : Prop :=
    true_of_page fs d k pg l m \/ exists i, In i (pg_draws pg) /\ item_msg fs d i l m.
  Lemma page_says_true fs d st k pg s s' pg' ok : loaded fs d st -> gen_page st k pg s = Ret (s', pg', ok) -> says (page_msg fs d k pg) s s' ok.
  Proof.
    intros LD H. unfold gen_page in H. set (ml := pg_meta pg) in *. set (Q := page_msg fs d k pg).
    assert (TN : forall l' m, true_of_names BPage (pg_loc pg) ml l' m -> Q l' m) by (intros; left; apply TP_names; assumption).
    destruct (flatten_spec "page" ml) as (m0 & HF & W & F). rewrite HF in H. clear HF.
    pose proof (dups_says _ _ _ _ TN) as DU. cbn [word] in DU.
    assert (F0 : forall n, fnd m0 n = drop [] n (index_of n (names ml))) by exact F.
    set (dd := dup_diags (B "page") [] ml) in *. clearbody dd. set (s0 := set_page opage_empty (log_all dd s)) in *.
    assert (S0 : says Q s s0 (nilb dd)) by (exists dd; split; [reflexivity|split; [exact DU|destruct dd; [reflexivity|discriminate]]]). clearbody s0.
    tk "name" W F0.
    match type of H with (let '(_, _) := ?x in _) = _ => destruct x as [[s1 nm] ok1] eqn:GN end.
    assert (T1 : says Q s0 s1 ok1).
    { destruct (arg_prop "name" ml) as [(i & x & P & N & QN & _)|[P _]]; rewrite P in GN; [|injection GN as <- <- <-; apply says_same; reflexivity].
      rewrite N in GN. destruct (as_str x) as [t|] eqn:AS; injection GN as <- <- <-; [apply says_same; reflexivity|].
      rewrite err_log. apply says_log; [|discriminate]. constructor; [|constructor]. left. apply TP_title; [exact (nth_error_In _ _ N)|exact QN|].
      intros t V. unfold as_str in AS. rewrite V in AS. discriminate. }
    pose proof (says_app _ _ _ _ _ _ S0 T1) as S2.
    rewrite obind_ret in H. destruct H as ([[s2 ds2] ok2] & HV & H).
    apply (items_say fs d st Q LD) in HV; [|intros i l' m' I T; right; exists i; auto]. pose proof (says_app _ _ _ _ _ _ S2 HV) as S3.
    match type of H with (let '(_, _) := ?x in _) = _ => destruct x as [s3 ok3] eqn:GE end.
    injection H as <- <- <-. eapply says_app; [exact S3|].
    destruct m as [|x m]; injection GE as <- <-; [apply says_same; reflexivity|].
    eexists. split; [reflexivity|]. split; [|discriminate]. constructor.
    - destruct (some_unknown BPage _ _ _ _ W0 F1) as (y & U); [intro j; cbn; tauto|]. left. eapply TP_some_unknown; [exact U|apply dec_of_nat_spells].
    - apply (unknown_says BPage _ _ _ _ W0 F1); [intro j; cbn; tauto|]. intros y U. apply TN. apply TN_unknown, U.
  Qed.
  Lemma pages_say fs d st P : loaded fs d st -> forall pgs k s s' pgs' os ok,
    (forall j pg l m, nth_error pgs j = Some pg -> page_msg fs d (j + k) pg l m -> P l m) ->
    gen_pages st k pgs s = Ret (s', pgs', os, ok) -> says P s s' ok.
  Proof.
    intro LD. induction pgs as [|pg pgs IH]; intros k s s' pgs' os ok HC H; cbn [gen_pages] in H.
    - injection H as <- <- <- <-. apply says_same. reflexivity.
    - rewrite obind_ret in H. destruct H as ([[s1 d1] ok1] & H1 & H). rewrite obind_ret in H. destruct H as ([[[s2 t2] os2] ok2] & H2 & H).
      injection H as <- <- <- <-. apply (says_app _ s s1 s2).
      + apply (says_imp (page_msg fs d k pg)); [intros l m; exact (HC 0 pg l m eq_refl)|]. exact (page_says_true _ _ _ _ _ _ _ _ _ LD H1).
      + refine (IH _ _ _ _ _ _ _ H2). intros j pg' l m N T. apply (HC (S j) pg' l m N). rewrite Nat.add_succ_comm. exact T.
  Qed.

  (** ** Loading *)
  Definition said_of P (d : diag) : Prop := match d with DSym l m => P l m | _ => True end.
  Lemma read_line_quiet P n s line o lg : read_line n s line = Ret (o, lg) -> Forall (said_of P) lg.
  Proof.
    unfold read_line. repeat match goal with |- (if ?x then _ else _) = _ -> _ => destruct x | |- match ?x with _ => _ end = _ -> _ => destruct x end;
      intro H; try discriminate H; injection H as _ <-; repeat constructor.
  Qed.
  Lemma read_lines_quiet P : forall ls n s o lg, read_lines n s ls = Ret (o, lg) -> Forall (said_of P) lg.
  Proof.
    induction ls as [|x ls IH]; intros n s o lg H; cbn [read_lines] in H; [injection H as _ <-; constructor|].
    rewrite obind_ret in H. destruct H as ([r lg1] & H1 & H). apply (read_line_quiet P) in H1. destruct r as [s1|]; [|injection H as _ <-; exact H1].
    rewrite obind_ret in H. destruct H as ([r2 lg2] & H2 & H). injection H as _ <-. apply Forall_app. split; [exact H1|exact (IH _ _ _ _ H2)].
  Qed.
  Lemma stl_make_quiet P c o lg : stl_make c = Ret (o, lg) -> Forall (said_of P) lg.
  Proof.
    unfold stl_make. intro H. rewrite obind_ret in H. destruct H as ([r lg1] & H1 & H). apply (read_lines_quiet P) in H1.
    destruct r as [s1|]; [|injection H as _ <-; exact H1]. rewrite obind_ret in H. destruct H as (m & _ & H). injection H as _ <-. exact H1.
  Qed.
  Lemma find_key n (st : stl_map) v : smap_find bytes_ltb n st = Some v -> In n (map fst st).
  Proof.
    induction st as [|[q w] st IH]; simpl; [discriminate|]. destruct (bytes_ltb q n) eqn:L1; [intro H; right; exact (IH H)|].
    destruct (bytes_ltb n q) eqn:L2; [discriminate|]. intros _. left. exact (bytes_ltb_tot _ _ L1 L2).
  Qed.
  Lemma emplace_keys n k v (st : stl_map) : In n (map fst (smap_emplace bytes_ltb k v st)) -> n = k \/ In n (map fst st).
  Proof.
    rewrite !in_map_iff. intros (x & <- & I). apply emplace_in in I. destruct I as [[_ ->]|I]; [left; reflexivity|right; eauto].
  Qed.
  Definition loud P (lg : list diag) (ok : bool) : Prop := Forall (said_of P) lg /\ (ok = true -> forall l m, ~ In (DSym l m) lg).
  Lemma quiet_loud P lg : (forall Q, Forall (said_of Q) lg) -> loud P lg true.
  Proof. intro H. split; [apply H|]. intros _ l m I. pose proof (H (fun _ _ => False)) as F. rewrite Forall_forall in F. exact (F _ I). Qed.
  Lemma load_says fs d : forall ms pre st st' lg ok, doc_models d = pre ++ ms -> (forall n, In n (map fst st) -> In n (map mo_name pre)) ->
    load_files fs ms st = Ret (st', lg, ok) -> loud (fun l m => exists mo, In mo (doc_models d) /\ true_of_model fs d mo l m) lg ok.
  Proof.
    induction ms as [|mo ms IH]; intros pre st st' lg ok HD HK H; cbn [load_files] in H.
    - injection H as _ <- <-. apply quiet_loud. constructor.
    - rewrite obind_ret in H. destruct H as ([[st1 lg1] ok1] & H1 & H). rewrite obind_ret in H. destruct H as ([[st2 lg2] ok2] & H2 & H). injection H as _ <- <-.
      set (Q := fun l m => exists mo, In mo (doc_models d) /\ true_of_model fs d mo l m) in *.
      assert (IM : In mo (doc_models d)) by (rewrite HD; apply in_or_app; right; left; reflexivity).
      assert (X : loud Q lg1 ok1 /\ forall n, In n (map fst st1) -> In n (map mo_name (pre ++ [mo]))).
      { assert (KE : forall v n, In n (map fst (smap_emplace bytes_ltb (mo_name mo) v st)) -> In n (map mo_name (pre ++ [mo]))).
        { intros v n I. rewrite map_app. apply in_or_app. apply emplace_keys in I. destruct I as [->|I]; [right; left; reflexivity|left; apply HK, I]. }
        assert (ONE : forall l m, true_of_model fs d mo l m -> said_of Q (DSym l m)) by (intros l m T; exists mo; auto).
        unfold load_one in H1. destruct (smap_find bytes_ltb (mo_name mo) st) as [v|] eqn:SF.
        - injection H1 as <- <- <-. split; [split; [|discriminate]|].
          + constructor; [|constructor]. apply ONE. apply find_key, HK in SF. apply in_map_iff in SF. destruct SF as (mo' & N & I).
            apply in_split in I. destruct I as (a & b & ->). apply (TM_again _ _ _ a b ms mo'); [|exact N]. rewrite HD, <- app_assoc. reflexivity.
          + intros n I. rewrite map_app. apply in_or_app. left. apply HK, I.
        - destruct (first_open fs (candidates (mo_source mo))) as [c|] eqn:FO.
          + rewrite obind_ret in H1. destruct H1 as ([r lgm] & HM & H1). pose proof (fun P => stl_make_quiet P _ _ _ HM) as QU. destruct r as [f|]; injection H1 as <- <- <-.
            * split; [|apply KE]. apply quiet_loud. exact QU.
            * split; [|apply KE]. split; [|discriminate]. apply Forall_app. split; [apply QU|]. constructor; [|constructor]. apply ONE.
              eapply TM_no_model; [apply resolves_iff; exact FO|exact HM].
          + injection H1 as <- <- <-. split; [|apply KE]. split; [|discriminate]. constructor; [|constructor]. apply ONE. apply TM_no_file.
            intros t R. apply resolves_iff in R. congruence. }
      destruct X as [[X1 X2] X3]. destruct (IH (pre ++ [mo]) st1 st2 lg2 ok2) as [Y1 Y2]; [rewrite <- app_assoc; exact HD|exact X3|exact H2|].
      split; [apply Forall_app; auto|]. intros OK l m I. apply andb_true_iff in OK. destruct OK as [-> ->]. apply in_app_or in I.
      destruct I as [I|I]; [exact (X2 eq_refl _ _ I)|exact (Y2 eq_refl _ _ I)].
  Qed.
  Lemma load_loaded fs d st lg : load_files fs (doc_models d) [] = Ret (st, lg, true) -> loaded fs d st.
  Proof.
    intro H. destruct (load_files_nil_ok _ _ H) as (_ & _ & H3 & H4). split.
    - intros n f S. destruct (H3 n f) as (m & c & lgm & K); [unfold model_of; rewrite S; reflexivity|]. exists m, c, lgm. exact K.
    - intros n S m I <-. destruct (H4 m I) as (c & f & lgm & _ & _ & K). unfold model_of in K. rewrite S in K. discriminate.
  Qed.
  Lemma messages_true_or fs src c r d : script_to_ps fs src c = Ret r -> parses src c d ->
    loud (fun l m => true_message fs d l m \/ miscalled d l m \/ not_zero fs d l m) (r_log r) (r_ok r).
  Proof.
    intros H [lg0 HP]. unfold script_to_ps in H. rewrite HP in H. cbn [obind] in H. change (0 =? 0)%nat with true in H. cbv iota in H.
    rewrite obind_ret in H. destruct H as (r0 & H & H0). injection H0 as <-. cbn [r_log r_ok].
    apply parse_iff in HP. destruct HP as [-> _]. cbn [app].
    set (Q := fun l m => true_message fs d l m \/ miscalled d l m \/ not_zero fs d l m).
    unfold doc_to_ps in H. rewrite obind_ret in H. destruct H as ([[st lg1] ok1] & HL & H).
    assert (L1 : loud Q lg1 ok1).
    { destruct (load_says fs d (doc_models d) [] [] st lg1 ok1) as [X Y]; [reflexivity|intros n []|exact HL|]. split; [|exact Y].
      eapply Forall_impl; [|exact X]. intros [l m|m|l m]; cbn; auto. intros (mo & I & T). left. eapply TM_model; eauto. }
    destruct ok1; cbn [negb] in H; [|injection H as <-; exact L1].
    rewrite obind_ret in H. destruct H as ([[[os d2] lg2] ok2] & HG & H).
    unfold generate_pages in HG. rewrite obind_ret in HG. destruct HG as ([[[s pgs] os'] ok'] & HG & HE). injection HE as <- <- <- <-.
    apply (pages_say fs d st Q (load_loaded _ _ _ _ HL)) in HG.
    2:{ intros j pg l m N T. rewrite Nat.add_1_r in T. pose proof (nth_error_In _ _ N) as IP.
        assert (TI : forall i, In i (pg_draws pg) -> true_of_item fs d i l m -> Q l m) by (intros i I T'; left; eapply TM_page; [exact N|]; eapply TP_item; eauto).
        destruct T as [T|(i & I & [T|T])]; [left; eapply TM_page; eauto|exact (TI i I T)|]. right. destruct i as [l0 n ml ds|l0 t ml].
        - right. destruct T as (dm & ps & rr & ID & SE & T). destruct T as (x & K & Ix & Nx & NE & -> & ->). exists pg, l0, n, ml, ds, dm, x, ps, rr. auto 10.
        - left. destruct T as (y & R & -> & ->). exists pg, l0, t, ml, y. auto. }
    destruct HG as (dl & EL & FD & ZD). unfold vst_init in EL. cbn [v_log app] in EL. rewrite EL in *.
    assert (L2 : loud Q (lg1 ++ dl) ok').
    { split.
      - apply Forall_app. split; [apply L1|]. eapply Forall_impl; [|exact FD]. intros [l m|m|l m]; cbn; auto.
      - intros -> l m I. rewrite (ZD eq_refl), app_nil_r in I. exact (proj2 L1 eq_refl _ _ I). }
    destruct ok'; cbn [negb] in H; injection H as <-; exact L2.
  Qed.
End Msg.
