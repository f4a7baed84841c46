(** P_Why.v - a visit that fails has said why, except for point functions that
    fail without a message. *)
From Verif Require Import Base Num Geo Stl StlRead Env Ast Lexer Parser Ps Draw Main
  P_Base P_Meta P_Frame P_Dims P_Doc DocSpec P_Script.

Section Why.
  Context {A : Arith} {E : Env}.

  Definition sym (dl : list diag) : Prop := exists l m, In (DSym l m) dl.
  Lemma sym_app_l a b : sym a -> sym (a ++ b).
  Proof. intros (l & m & H). exists l, m. apply in_or_app. auto. Qed.
  Lemma sym_app_r a b : sym b -> sym (a ++ b).
  Proof. intros (l & m & H). exists l, m. apply in_or_app. auto. Qed.
  Lemma sym_cons l m t : sym (DSym l m :: t).
  Proof. exists l, m. left; reflexivity. Qed.

  Context (Q : Prop).
  Definition st (s s' : vst) (b : bool) : Prop :=
    exists dl, v_log s' = v_log s ++ dl /\ (b = false -> sym dl \/ Q).
  Lemma st_refl s : st s s true.
  Proof. exists []. rewrite app_nil_r. split; [reflexivity|discriminate]. Qed.
  Lemma st_trans a b c x y : st a b x -> st b c y -> st a c (x && y).
  Proof.
    intros (d1 & H1 & K1) (d2 & H2 & K2). exists (d1 ++ d2). split; [rewrite H2, H1, app_assoc; reflexivity|].
    intro H. apply andb_false_iff in H. destruct H as [H|H].
    - destruct (K1 H); [left; apply sym_app_l; assumption|right; assumption].
    - destruct (K2 H); [left; apply sym_app_r; assumption|right; assumption].
  Qed.
  Lemma st_false s s' b : st s s' false -> st s s' b.
  Proof. intros (dl & H & K). exists dl. auto. Qed.
  Lemma st_log dl s b : (b = false -> sym dl) -> st s (log_all dl s) b.
  Proof. intro H. exists dl. split; [reflexivity|auto]. Qed.
  Lemma st_err l m s b : st s (err l m s) b.
  Proof. apply st_false. exists [DSym l m]. split; [reflexivity|]. intros _. left. apply sym_cons. Qed.
  Lemma st_unexpected w l ml m s b : st s (unexpected w l ml m s) b.
  Proof. apply st_false. unfold unexpected. apply st_log. intros _. apply sym_cons. Qed.
  Lemma st_same s s' : v_log s' = v_log s -> st s s' true.
  Proof. intro H. exists []. rewrite app_nil_r. split; [exact H|discriminate]. Qed.

  Definition covers (ml : list meta) : Prop :=
    forall x p ps p', In x ml -> m_val x = MPoint p -> funcs p' = funcs p -> invoke ps p' = ([], None) -> Q.

  Lemma funcs_rotate r p : funcs (point_rotate r p) = funcs p.
  Proof. induction p; simpl; congruence. Qed.
  Lemma invoke_none_sym ps p : forall lg, invoke ps p = (lg, None) -> sym lg \/ lg = [].
  Proof.
    induction p as [v l|n q IH l]; intro lg; cbn [invoke]; [discriminate|].
    destruct (bytes_eqb n (B "near")).
    { destruct ps; [intro H; injection H as <-; auto|].
      destruct (invoke _ q) as [lg' [t|]]; intro H; [discriminate|]. injection H as <-. auto. }
    destruct (bytes_eqb n (B "center")).
    { destruct (_ <? _)%nat; [intro H; injection H as <-; auto|].
      destruct (invoke _ q) as [lg' [t|]] eqn:I; intro H.
      - pose proof (invoke_some_nolog _ _ I) as ->. destruct (fit_circle _ _) as [[? ?]|]; [discriminate|].
        injection H as <-. auto.
      - injection H as <-. auto. }
    intro H; injection H as <-. left. apply sym_cons.
  Qed.
  Lemma in_set_nth {X} i (x y : X) l : In y (set_nth i x l) -> y = x \/ In y l.
  Proof.
    unfold set_nth. destruct (_ <? _)%nat; [|auto]. intro H. apply in_app_or in H. destruct H as [H|[H|H]]; auto.
    - right. rewrite <- (firstn_skipn i l). apply in_or_app. auto.
    - right. rewrite <- (firstn_skipn (S i) l). apply in_or_app. auto.
  Qed.
  Lemma gr_st i s ml s' ml' r v : covers ml -> get_rotated i (s, ml) = Ret (s', ml', r, v) -> st s s' r /\ covers ml'.
  Proof.
    intros HC. unfold get_rotated. destruct (check _ _); [cbn [obind]|discriminate].
    destruct (nth_error ml i) as [m|] eqn:N; [|discriminate]. unfold as_point.
    destruct (m_val m) eqn:V; try (intro H; injection H as <- <- <- <-; split; [apply st_err|exact HC]).
    destruct (invoke _ _) as [lg o] eqn:I.
    assert (HC' : covers (set_nth i (Meta (m_name m) (MPoint (point_rotate (v_rot s) p)) (m_loc m)) ml)).
    { intros x q ps p' Hx Hq Hf Hi. destruct (in_set_nth _ _ _ _ Hx) as [->|Hx'].
      - simpl in Hq. injection Hq as <-. rewrite funcs_rotate in Hf. exact (HC _ _ _ _ (nth_error_In _ _ N) V Hf Hi).
      - exact (HC _ _ _ _ Hx' Hq Hf Hi). }
    destruct o; intro H; injection H as <- <- <- <-; split; try exact HC'.
    - apply st_log. discriminate.
    - destruct (invoke_none_sym _ _ I) as [Sy| ->]; [apply st_log; auto|].
      exists []. split; [reflexivity|]. intros _. right. eapply HC; [exact (nth_error_In _ _ N)|exact V| |exact I]. apply funcs_rotate.
  Qed.
  Lemma need_st l p m s s' k : need l p m s = (s', k) -> st s s' k.
  Proof. destruct p; simpl; intro H; injection H as <- <-; [apply st_refl|apply st_err]. Qed.
  Lemma fmt_st w d p s ml s' o : (forall i, p = Some i -> nth_error ml i <> None) ->
    get_fmt w d p (s, ml) = (s', o) -> st s s' (is_some o).
  Proof.
    unfold get_fmt. intros HP. destruct p as [i|]; [|intro H; injection H as <- <-; apply st_refl].
    destruct (nth_error ml i) as [m|] eqn:N; [|exfalso; exact (HP i eq_refl N)].
    destruct (as_str m); [|intro H; injection H as <- <-; apply st_err].
    destruct (pf_ok _); intro H; injection H as <- <-; [apply st_refl|apply st_err].
  Qed.
  Lemma flatten_st w ml ok m lg s : flatten w ml = (ok, m, lg) -> st s (log_all lg s) ok.
  Proof.
    destruct (flatten_spec w ml) as (m0 & HF & _). rewrite HF. intro H; injection H as <- <- <-.
    apply st_log. intro H. pose proof (dup_diags_sym (B w) ml []) as D.
    destruct (dup_diags (B w) [] ml) as [|x t]; [discriminate|]. inversion D as [|? ? (l & mm & ->) ?]; subst. apply sym_cons.
  Qed.
  Lemma flatten_idx w ml ok m lg i nm m' : flatten w ml = (ok, m, lg) -> forall ks mk, wfs mk ->
    (forall n, fnd mk n = drop ks n (index_of n (names ml))) -> take nm mk = (Some i, m') -> nth_error ml i <> None.
  Proof.
    intros _ ks mk W F T. unfold take in T. pose proof (F (B nm)) as FN. unfold fnd in FN.
    destruct (smap_find bytes_ltb (B nm) mk) as [k|]; [|discriminate]. injection T as -> _.
    unfold drop in FN. destruct (existsb _ _); [discriminate|].
    symmetry in FN. apply index_of_some in FN. unfold names in FN. rewrite nth_error_map in FN. intro N. rewrite N in FN. discriminate.
  Qed.
  Lemma prop_nth nm ml i : prop nm ml = Some i -> nth_error ml i <> None.
  Proof. intro H. destruct (prop_some _ _ H) as (m & -> & _). discriminate. Qed.
  Lemma gr_len i s ml s' ml' r v : get_rotated i (s, ml) = Ret (s', ml', r, v) -> length ml' = length ml.
  Proof.
    unfold get_rotated. destruct (check _ _); [cbn [obind]|discriminate].
    destruct (nth_error ml i) as [m|] eqn:N; [|discriminate]. destruct (as_point m).
    - destruct (invoke _ _) as [lg [o|]]; intro H; injection H as <- <- <- <-; apply set_nth_length.
    - intro H; injection H as <- <- <- <-; reflexivity.
  Qed.
  Lemma nth_len {X Y} (l : list X) (l' : list Y) i : length l' = length l -> nth_error l i <> None -> nth_error l' i <> None.
  Proof. intros H H1. apply nth_error_Some in H1. apply nth_error_Some. congruence. Qed.

  Ltac tk nm W F :=
    match goal with
    | H : context [take nm ?m] |- _ =>
        let m' := fresh "m" in let T := fresh "T" in let W' := fresh "W" in let F' := fresh "F" in
        destruct (@take_chain _ nm _ m _ W F eq_refl) as (m' & T & W' & F'); rewrite T in H; clear T
    end.
  Ltac gr H :=
    match type of H with
    | obind (get_rotated ?i (?s, ?ml)) _ = _ =>
        let G := fresh "G" in let s' := fresh "s" in let ml' := fresh "ml" in let r := fresh "r" in let v := fresh "v" in
        destruct (get_rotated i (s, ml)) as [[[[s' ml'] r] v]|] eqn:G; [cbn [obind] in H|discriminate H]
    end.
  Ltac nd H :=
    match type of H with
    | context [need ?l ?p ?m ?s] =>
        let N := fresh "N" in let s' := fresh "s" in let k := fresh "k" in
        destruct (need l p m s) as [s' k] eqn:N; apply need_st in N
    end.

  Lemma visit_dim_why d s s' ml' ok : covers (d_meta d) -> visit_dim d s = Ret (s', ml', ok) -> st s s' ok.
  Proof.
    intros HC H. unfold visit_dim in H. set (ml := d_meta d) in *. clearbody ml.
    destruct (flatten_spec "dim" ml) as (m0 & HF & W & F). pose proof (flatten_st _ _ s HF) as S0. rewrite HF in H.
    assert (F0 : forall n, fnd m0 n = drop [] n (index_of n (names ml))) by exact F.
    remember (log_all _ s) as s0 eqn:Hs0. clear Hs0.
    tk "at"%string W F0. tk "dir"%string W0 F1. tk "from"%string W1 F2. tk "to"%string W2 F3. tk "fmt"%string W3 F4.
    destruct m4 as [|x4 m4].
    2:{ injection H as <- <- <-. pose proof (st_unexpected "dim" (d_loc d) ml (x4 :: m4) s0 false) as U.
        pose proof (st_trans S0 U) as T. rewrite andb_false_r in T. exact T. }
    nd H. nd H. nd H. nd H.
    pose proof (st_trans (st_trans (st_trans (st_trans S0 N) N0) N1) N2) as S1. clear S0 N N0 N1 N2.
    destruct (negb _) eqn:HK.
    { injection H as <- <- <-. apply negb_true_iff in HK. rewrite HK in S1. exact S1. }
    apply negb_false_iff in HK. rewrite HK in S1.
    destruct (prop "at" ml) as [i1|]; [|discriminate H]. destruct (prop "dir" ml) as [i2|]; [|discriminate H].
    destruct (prop "from" ml) as [i3|]; [|discriminate H]. destruct (prop "to" ml) as [i4|]; [|discriminate H].
    gr H. gr H. gr H. gr H.
    assert (L : length ml3 = length ml) by (apply gr_len in G, G0, G1, G2; congruence).
    destruct (gr_st _ _ HC G) as [S2 HC1]. destruct (gr_st _ _ HC1 G0) as [S3 HC2].
    destruct (gr_st _ _ HC2 G1) as [S4 HC3]. destruct (gr_st _ _ HC3 G2) as [S5 HC4].
    pose proof (st_trans (st_trans (st_trans (st_trans S1 S2) S3) S4) S5) as S6.
    destruct (eq3 _ _).
    { injection H as <- <- <-. pose proof (st_trans S6 (st_err (mloc ml3 i2) (B "Dimention's 'dir' must not be the zero vector") s8 false)) as T.
      rewrite andb_false_r in T. exact T. }
    destruct (get_fmt _ _ _ _) as [s9 fo] eqn:GF.
    apply fmt_st in GF; [|intros i Hi; apply (nth_len ml); [exact L|exact (prop_nth _ _ Hi)]].
    pose proof (st_trans S6 GF) as S7. destruct fo.
    2:{ injection H as <- <- <-. cbn [is_some] in S7. rewrite andb_false_r in S7. exact S7. }
    cbn [is_some] in S7. rewrite andb_true_r in S7.
    destruct (negb _) eqn:HR.
    { injection H as <- <- <-. apply negb_true_iff in HR. cbn [andb] in S7. rewrite HR in S7. exact S7. }
    injection H as <- <- <-. apply negb_false_iff in HR. cbn [andb] in S7. rewrite HR in S7.
    apply (st_trans (y := true) S7). apply st_same.
    destruct (draw_dim_draws b v (normalized3 v0) v1 v2 s9) as (p & Hp & _). rewrite Hp. reflexivity.
  Qed.

  Lemma st_cut s s' s'' b : st s s' true -> st s' s'' b -> st s s'' b.
  Proof. intros H1 H2. exact (st_trans H1 H2). Qed.
  Lemma st_fail_then s s' s'' b : st s s' b -> st s' s'' false -> st s s'' false.
  Proof. intros H1 H2. pose proof (st_trans H1 H2) as T. rewrite andb_false_r in T. exact T. Qed.
  Lemma need_is l p m s s' k : need l p m s = (s', k) -> k = is_some p.
  Proof. destruct p; simpl; intro H; injection H as <- <-; reflexivity. Qed.
  Ltac nd2 H :=
    match type of H with
    | context [need ?l ?p ?m ?s] =>
        let N := fresh "N" in let I := fresh "I" in let s' := fresh "s" in let k := fresh "k" in
        destruct (need l p m s) as [s' k] eqn:N; pose proof (need_is _ _ _ _ N) as I; apply need_st in N; subst k
    end.

  Lemma get_center_why l m0 s ml s' ml' m' o : covers ml -> wfs m0 -> (forall n, fnd m0 n = drop [] n (index_of n (names ml))) ->
    get_center l m0 (s, ml) = Ret (s', ml', m', o) ->
    st s s' (is_some o) /\ length ml' = length ml /\ wfs m' /\ (forall n, fnd m' n = drop ["center"; "dir"; "at"]%string n (index_of n (names ml))).
  Proof.
    intros HC W F0 H. unfold get_center in H.
    tk "at"%string W F0. tk "dir"%string W0 F. tk "center"%string W1 F1.
    nd2 H. nd2 H. nd2 H.
    pose proof (st_trans (st_trans N N0) N1) as S1.
    destruct (prop "at" ml) as [i1|].
    2:{ injection H as <- <- <- <-. auto. }
    destruct (prop "dir" ml) as [i2|].
    2:{ injection H as <- <- <- <-. auto. }
    destruct (prop "center" ml) as [i3|].
    2:{ injection H as <- <- <- <-. auto. }
    cbn [is_some andb] in S1.
    destruct (_ <? _)%nat.
    { injection H as <- <- <- <-. split; [|auto]. apply (st_cut S1). apply st_err. }
    gr H. gr H. gr H.
    assert (L : length ml2 = length ml) by (apply gr_len in G, G0, G1; congruence).
    destruct (gr_st _ _ HC G) as [S2 HC1]. destruct (gr_st _ _ HC1 G0) as [S3 HC2]. destruct (gr_st _ _ HC2 G1) as [S4 HC3].
    pose proof (st_cut S1 (st_trans (st_trans S2 S3) S4)) as S5.
    destruct (negb _) eqn:HR.
    { apply negb_true_iff in HR. rewrite HR in S5. injection H as <- <- <- <-. auto. }
    apply negb_false_iff in HR. rewrite HR in S5.
    destruct (fit_circle _ _) as [[cc rr]|]; injection H as <- <- <- <-; split; auto.
    apply (st_cut S5). apply st_err.
  Qed.
  Lemma visit_circ_why what draw d s s' ml' ok : (forall f a b c r s, v_log (draw f a b c r s) = v_log s) -> covers (d_meta d) ->
    visit_circ what draw d s = Ret (s', ml', ok) -> st s s' ok.
  Proof.
    intros HD HC H. unfold visit_circ in H. set (ml := d_meta d) in *. clearbody ml.
    destruct (flatten_spec what ml) as (m0 & HF & W & F). pose proof (flatten_st _ _ s HF) as S0. rewrite HF in H.
    assert (F0 : forall n, fnd m0 n = drop [] n (index_of n (names ml))) by exact F.
    remember (log_all _ s) as s0 eqn:Hs0. clear Hs0.
    destruct (negb _) eqn:HK.
    { injection H as <- <- <-. apply negb_true_iff in HK. rewrite HK in S0. exact S0. }
    apply negb_false_iff in HK. rewrite HK in S0.
    destruct (get_center _ _ _) as [[[[s1 ml1] m1] gc]|] eqn:GC; [cbn [obind] in H|discriminate H].
    edestruct get_center_why as (S1 & L & W1 & F1); [exact HC|exact W|exact F0|exact GC|]. pose proof (st_cut S0 S1) as S2.
    destruct gc as [[[[a dd] c] r]|]; [|injection H as <- <- <-; exact S2]. cbn [is_some] in S2.
    tk "fmt"%string W1 F1. destruct m as [|x m].
    2:{ injection H as <- <- <-. apply (st_cut S2). apply st_unexpected. }
    destruct (get_fmt _ _ _ _) as [s9 fo] eqn:GF.
    apply fmt_st in GF; [|intros i Hi; apply (nth_len ml); [exact L|exact (prop_nth _ _ Hi)]].
    pose proof (st_cut S2 GF) as S7. destruct fo; injection H as <- <- <-; [|exact S7].
    apply (st_cut S7). apply st_same. apply HD.
  Qed.
  Lemma visit_angle_why d s s' ml' ok : covers (d_meta d) -> visit_angle d s = Ret (s', ml', ok) -> st s s' ok.
  Proof.
    intros HC H. unfold visit_angle in H. set (ml := d_meta d) in *. clearbody ml.
    destruct (flatten_spec "angle" ml) as (m0 & HF & W & F). pose proof (flatten_st _ _ s HF) as S0. rewrite HF in H.
    assert (F0 : forall n, fnd m0 n = drop [] n (index_of n (names ml))) by exact F.
    remember (log_all _ s) as s0 eqn:Hs0. clear Hs0.
    tk "at"%string W F0. tk "apex"%string W0 F1. tk "from_dir"%string W1 F2. tk "from_point"%string W2 F3.
    tk "to_dir"%string W3 F4. tk "to_point"%string W4 F5. tk "fmt"%string W5 F6.
    destruct m6 as [|x6 m6].
    2:{ injection H as <- <- <-. apply (st_fail_then S0). apply st_unexpected. }
    nd2 H. nd2 H.
    destruct (if is_some (prop "from_dir" ml) then (s2, true) else need (d_loc d) (prop "from_point" ml) "Missing 'from_{dir,point}'" s2) as [s3 k3] eqn:N3.
    assert (T3 : st s2 s3 k3).
    { destruct (is_some _) in N3; [injection N3 as <- <-; apply st_refl|exact (need_st _ _ _ _ N3)]. }
    destruct (if is_some (prop "to_dir" ml) then (s3, true) else need (d_loc d) (prop "to_point" ml) "Missing 'to_{dir,point}'" s3) as [s4 k4] eqn:N4.
    assert (T4 : st s3 s4 k4).
    { destruct (is_some _) in N4; [injection N4 as <- <-; apply st_refl|exact (need_st _ _ _ _ N4)]. }
    pose proof (st_trans (st_trans (st_trans (st_trans S0 N) N0) T3) T4) as S1. clear S0 N N0 T3 T4.
    destruct (negb _) eqn:HK.
    { injection H as <- <- <-. apply negb_true_iff in HK. rewrite HK in S1. exact S1. }
    apply negb_false_iff in HK. rewrite HK in S1.
    match type of H with (if ?b then Ret (?x, _, _) else _) = _ => set (bb := b) in *; set (s5 := x) in * end.
    assert (T5 : st s4 s5 (negb bb)).
    { unfold s5, bb. destruct (prop "from_dir" ml), (prop "from_point" ml), (prop "to_dir" ml), (prop "to_point" ml); cbn [is_some andb orb negb];
        first [apply st_refl|apply st_err|eapply st_fail_then with (b := false); apply st_err]. }
    clearbody bb s5. destruct bb; cbn [negb] in T5.
    { injection H as <- <- <-. exact (st_cut S1 T5). }
    pose proof (st_cut S1 T5) as S2. clear S1 T5.
    destruct (prop "at" ml) as [i1|]; [|discriminate H]. destruct (prop "apex" ml) as [i2|]; [|discriminate H].
    gr H. gr H. destruct (gr_st _ _ HC G) as [U1 HC1]. destruct (gr_st _ _ HC1 G0) as [U2 HC2].
    match type of H with obind ?x _ = _ => destruct x as [[[[[s8 ml8] r8] fd] fp]|] eqn:GA; [cbn [obind] in H|discriminate H] end.
    assert (U3 : st s7 s8 r8 /\ covers ml8 /\ length ml8 = length ml1).
    { destruct (prop "from_dir" ml); [|destruct (prop "from_point" ml); [|discriminate GA]].
      all: gr GA; destruct (gr_st _ _ HC2 G1) as [U3 HC3]; injection GA as <- <- <- <- <-; split; [exact U3|]; split; [exact HC3|exact (gr_len _ _ _ G1)]. }
    destruct U3 as (U3 & HC3 & L3).
    match type of H with obind ?x _ = _ => destruct x as [[[[[s9 ml9] r9] td] tp]|] eqn:GB; [cbn [obind] in H|discriminate H] end.
    assert (U4 : st s8 s9 r9 /\ covers ml9 /\ length ml9 = length ml8).
    { destruct (prop "to_dir" ml); [|destruct (prop "to_point" ml); [|discriminate GB]].
      all: gr GB; destruct (gr_st _ _ HC3 G1) as [U4 HC4]; injection GB as <- <- <- <- <-; split; [exact U4|]; split; [exact HC4|exact (gr_len _ _ _ G1)]. }
    destruct U4 as (U4 & HC4 & L4).
    assert (L : length ml9 = length ml) by (apply gr_len in G, G0; congruence).
    pose proof (st_cut S2 (st_trans (st_trans (st_trans U1 U2) U3) U4)) as S6.
    destruct (get_fmt _ _ _ _) as [s10 fo] eqn:GF.
    apply fmt_st in GF; [|intros i Hi; apply (nth_len ml); [exact L|exact (prop_nth _ _ Hi)]].
    pose proof (st_trans S6 GF) as S7. destruct fo.
    2:{ injection H as <- <- <-. cbn [is_some] in S7. rewrite andb_false_r in S7. exact S7. }
    cbn [is_some] in S7. rewrite andb_true_r in S7.
    destruct (negb _) eqn:HR.
    { injection H as <- <- <-. apply negb_true_iff in HR. rewrite HR in S7. exact S7. }
    apply negb_false_iff in HR. rewrite HR in S7.
    destruct (draw_angle _ _ _ _ _ _ _ _ _) as [s11 okk] eqn:DA. injection H as <- <- <-.
    apply (st_cut S7). destruct okk.
    - apply st_same. symmetry in DA. apply draw_angle_draws in DA. destruct DA as (p & Hp & _). rewrite Hp. reflexivity.
    - unfold draw_angle in DA. destruct (neq _ _); injection DA as <-; [apply st_err|discriminate].
  Qed.
  Lemma base_dim_why d s s' d' ok : covers (d_meta d) -> visit_base_dim d s = Ret (s', d', ok) -> st s s' ok.
  Proof.
    intros HC H. unfold visit_base_dim in H. rewrite obind_ret in H. destruct H as ([[s1 ml1] ok1] & H & H1). injection H1 as <- <- <-.
    destruct (d_kind d).
    - exact (visit_angle_why _ _ HC H).
    - refine (visit_circ_why _ _ _ _ _ HC H). intros. destruct (draw_dia_draws f a b c r s0) as (p & Hp & _). rewrite Hp. reflexivity.
    - exact (visit_dim_why _ _ HC H).
    - refine (visit_circ_why _ _ _ _ _ HC H). intros. destruct (draw_rad_draws f a b c r s0) as (p & Hp & _). rewrite Hp. reflexivity.
  Qed.
  Lemma visit_dims_why : forall ds s s' ds' ok, (forall d, In d ds -> covers (d_meta d)) -> visit_dims ds s = Ret (s', ds', ok) -> st s s' ok.
  Proof.
    induction ds as [|d ds IH]; intros s s' ds' ok HC H; cbn [visit_dims] in H.
    - injection H as <- <- <-. apply st_refl.
    - rewrite obind_ret in H. destruct H as ([[s1 d1] ok1] & H1 & H). rewrite obind_ret in H. destruct H as ([[s2 t2] ok2] & H2 & H).
      injection H as <- <- <-. eapply st_trans; [exact (base_dim_why _ _ (HC _ (or_introl eq_refl)) H1)|].
      refine (IH _ _ _ _ _ H2). intros d' Hd. apply HC. right; exact Hd.
  Qed.
  Lemma visit_draw_why files l n ml ds s s' ds' ok : (forall d, In d ds -> covers (d_meta d)) ->
    visit_draw files l n ml ds s = Ret (s', ds', ok) -> st s s' ok.
  Proof.
    intros HC H. unfold visit_draw in H.
    destruct (flatten_spec "draw" ml) as (m0 & HF & W & F). pose proof (flatten_st _ _ s HF) as S0. rewrite HF in H.
    assert (F0 : forall n, fnd m0 n = drop [] n (index_of n (names ml))) by exact F.
    remember (log_all _ s) as s0 eqn:Hs0. clear Hs0.
    destruct (negb _) eqn:HK.
    { injection H as <- <- <-. apply negb_true_iff in HK. rewrite HK in S0. exact S0. }
    apply negb_false_iff in HK. rewrite HK in S0.
    tk "scale"%string W F0.
    destruct (get_scale _ _ _) as [s1 sc] eqn:GS.
    assert (T1 : st s0 s1 (is_some sc)).
    { unfold get_scale in GS. destruct (prop "scale" ml) as [i|] eqn:P; [|injection GS as <- <-; apply st_refl].
      pose proof (prop_nth _ _ P) as PN. destruct (nth_error ml i) as [x|]; [|congruence].
      destruct (as_scale x); injection GS as <- <-; [apply st_refl|apply st_err]. }
    pose proof (st_cut S0 T1) as S1. clear S0 T1. destruct sc as [ab|]; [|injection H as <- <- <-; exact S1]. cbn [is_some] in S1.
    match type of H with match _ with Some _ => _ | None => Ret (err _ _ ?x, _, _) end = _ => set (s2 := x) in * end.
    assert (S2 : st s s2 true) by (apply (st_cut S1), st_same; reflexivity). clearbody s2.
    destruct (smap_find _ n files) as [fo|]; [|injection H as <- <- <-; apply (st_cut S2), st_err].
    tk "view"%string W0 F1.
    destruct (get_view _ _ _) as [s3 vw] eqn:GV.
    assert (T1 : st s2 s3 (is_some vw)).
    { unfold get_view in GV. destruct (prop "view" ml) as [i|] eqn:P; [|injection GV as <- <-; apply st_refl].
      pose proof (prop_nth _ _ P) as PN. destruct (nth_error ml i) as [x|]; [|congruence].
      destruct (as_loc x); [injection GV as <- <-; apply st_refl|].
      destruct (as_str x); [|injection GV as <- <-; apply st_err].
      destruct (matrix_by_name _); injection GV as <- <-; [apply st_refl|apply st_err]. }
    pose proof (st_cut S2 T1) as S3. clear S1 S2 T1. destruct vw as [rot|]; [|injection H as <- <- <-; exact S3]. cbn [is_some] in S3.
    tk "@"%string W1 F2.
    match type of H with obind ?x _ = _ => destruct x as [pl|]; [cbn [obind] in H|discriminate H] end.
    destruct fo as [file|]; [|discriminate H].
    rewrite obind_ret in H. destruct H as (proj & _ & H). rewrite obind_ret in H. destruct H as (ls & _ & H).
    rewrite obind_ret in H. destruct H as ([[s4 ds4] ok4] & HV & H). unfold add_dims in HV. destruct (strict_weak _ _) in HV; [|discriminate].
    apply (visit_dims_why _ _ HC) in HV.
    assert (S4 : st s s4 ok4).
    { apply (st_cut S3). refine (st_cut _ HV). apply st_same. reflexivity. }
    destruct ok4; cbn [negb] in H; [|injection H as <- <- <-; exact S4].
    destruct m2 as [|x m2]; injection H as <- <- <-; [exact S4|apply (st_cut S4), st_unexpected].
  Qed.
  Lemma visit_text_why l t ml s s' ok : visit_text l t ml s = Ret (s', ok) -> st s s' ok.
  Proof.
    intros H. unfold visit_text in H.
    destruct (flatten_spec "draw" ml) as (m0 & HF & W & F). pose proof (flatten_st _ _ s HF) as S0. rewrite HF in H.
    assert (F0 : forall n, fnd m0 n = drop [] n (index_of n (names ml))) by exact F.
    remember (log_all _ s) as s0 eqn:Hs0. clear Hs0.
    destruct (negb _) eqn:HK.
    { injection H as <- <-. apply negb_true_iff in HK. rewrite HK in S0. exact S0. }
    apply negb_false_iff in HK. rewrite HK in S0.
    tk "@"%string W F0.
    match type of H with obind ?x _ = _ => destruct x as [pl|]; [cbn [obind] in H|discriminate H] end.
    destruct m as [|x m]; injection H as <- <-.
    - apply (st_cut S0), st_same. reflexivity.
    - apply (st_cut S0). eapply st_cut; [|apply st_unexpected]. apply st_same. reflexivity.
  Qed.
  Definition covers_item (d : drawable) : Prop :=
    match d with DDraw _ _ _ ds => forall dm, In dm ds -> covers (d_meta dm) | DText _ _ _ => True end.
  Lemma drawables_why files : forall ds s s' ds' ok, (forall d, In d ds -> covers_item d) ->
    visit_drawables files ds s = Ret (s', ds', ok) -> st s s' ok.
  Proof.
    induction ds as [|d ds IH]; intros s s' ds' ok HC H; cbn [visit_drawables] in H.
    - injection H as <- <- <-. apply st_refl.
    - rewrite obind_ret in H. destruct H as ([[s1 d1] ok1] & H1 & H). rewrite obind_ret in H. destruct H as ([[s2 t2] ok2] & H2 & H).
      injection H as <- <- <-. apply (@st_trans s s1 s2).
      + unfold visit_drawable in H1. pose proof (HC _ (or_introl eq_refl)) as HCd. destruct d as [l n ml dms|l t ml].
        * rewrite obind_ret in H1. destruct H1 as ([[s3 ds3] ok3] & H1 & H3). injection H3 as <- <- <-. exact (visit_draw_why _ _ _ _ _ _ HCd H1).
        * rewrite obind_ret in H1. destruct H1 as ([s3 ok3] & H1 & H3). injection H3 as <- <- <-. exact (visit_text_why _ _ _ _ H1).
      + refine (IH _ _ _ _ _ H2). intros d' Hd. apply HC. right; exact Hd.
  Qed.
  Lemma gen_page_why files n pg s s' pg' ok : (forall d, In d (pg_draws pg) -> covers_item d) ->
    gen_page files n pg s = Ret (s', pg', ok) -> st s s' ok.
  Proof.
    intros HC H. unfold gen_page in H. set (ml := pg_meta pg) in *.
    destruct (flatten_spec "page" ml) as (m0 & HF & W & F). pose proof (flatten_st _ _ s HF) as S0. rewrite HF in H.
    assert (F0 : forall n, fnd m0 n = drop [] n (index_of n (names ml))) by exact F.
    set (ok0 := nilb (dup_diags (B "page") [] ml)) in *. clearbody ok0.
    match type of S0 with st _ ?x _ => assert (S1 : st s (set_page opage_empty x) ok0) by (rewrite <- (andb_true_r ok0); apply (st_trans S0), st_same; reflexivity);
      remember (set_page opage_empty x) as s0 eqn:Hs0; clear Hs0 S0 end.
    tk "name"%string W F0.
    match type of H with (let '(_, _) := ?x in _) = _ => destruct x as [[s1 nm] ok1] eqn:GN end.
    assert (T1 : st s0 s1 ok1).
    { destruct (prop "name" ml) as [i|] eqn:P; [|injection GN as <- <- <-; apply st_refl].
      pose proof (prop_nth _ _ P) as PN. destruct (nth_error ml i) as [x|]; [|congruence].
      destruct (as_str x); injection GN as <- <- <-; [apply st_refl|apply st_err]. }
    pose proof (st_trans S1 T1) as S2. clear S1 T1.
    rewrite obind_ret in H. destruct H as ([[s2 ds2] ok2] & HV & H).
    apply (drawables_why _ _ _ HC) in HV. pose proof (st_trans S2 HV) as S3.
    match type of H with (let '(_, _) := ?x in _) = _ => destruct x as [s3 ok3] eqn:GE end.
    injection H as <- <- <-. apply (st_trans S3).
    destruct m as [|x m]; injection GE as <- <-; [apply st_same; reflexivity|].
    eexists. split; [reflexivity|]. intros _. left. apply sym_cons.
  Qed.
  Lemma gen_pages_why files : forall pgs n s s' pgs' os ok,
    (forall pg d, In pg pgs -> In d (pg_draws pg) -> covers_item d) ->
    gen_pages files n pgs s = Ret (s', pgs', os, ok) -> st s s' ok.
  Proof.
    induction pgs as [|pg pgs IH]; intros n s s' pgs' os ok HC H; cbn [gen_pages] in H.
    - injection H as <- <- <- <-. apply st_refl.
    - rewrite obind_ret in H. destruct H as ([[s1 d1] ok1] & H1 & H). rewrite obind_ret in H. destruct H as ([[[s2 t2] os2] ok2] & H2 & H).
      injection H as <- <- <- <-. apply (@st_trans s s1 s2).
      + refine (gen_page_why _ _ _ _ _ H1). intros d. apply HC. left; reflexivity.
      + refine (IH _ _ _ _ _ _ _ H2). intros pg' d Hp. apply HC. right; exact Hp.
  Qed.
End Why.

Section Why2.
  Context {A : Arith} {E : Env}.
  Lemma load_files_why fs : forall ms st st' lg ok, load_files fs ms st = Ret (st', lg, ok) -> ok = false -> sym lg.
  Proof.
    induction ms as [|m ms IH]; intros st0 st' lg ok H; cbn [load_files] in H.
    - injection H as <- <- <-. discriminate.
    - rewrite obind_ret in H. destruct H as ([[s1 lg1] ok1] & H1 & H). rewrite obind_ret in H. destruct H as ([[s2 lg2] ok2] & H2 & H).
      injection H as <- <- <-. intro HO. apply andb_false_iff in HO. destruct HO as [HO|HO].
      + apply sym_app_l. unfold load_one in H1. destruct (smap_find _ _ st0).
        { injection H1 as <- <- <-. apply sym_cons. }
        destruct (first_open _ _); [|injection H1 as <- <- <-; apply sym_cons].
        rewrite obind_ret in H1. destruct H1 as ([[f|] lgm] & _ & H1); injection H1 as <- <- <-; [discriminate|].
        apply sym_app_r. apply sym_cons.
      + apply sym_app_r. exact (IH _ _ _ _ H2 HO).
  Qed.
  (** A dimension of the document uses an expression that fails without a message. *)
  Definition mute (d : document) : Prop :=
    exists pg l n ml ds dm x p ps p', In pg (doc_pages d) /\ In (DDraw l n ml ds) (pg_draws pg) /\ In dm ds /\
      In x (d_meta dm) /\ m_val x = MPoint p /\ funcs p' = funcs p /\ invoke ps p' = ([], None).
  Lemma fails_why fs src c d r : parses src c d -> script_to_ps fs src c = Ret r -> r_ok r = false ->
    (exists l m, In (DSym l m) (r_log r)) \/ mute d.
  Proof.
    intros [lg HP] H HO. unfold script_to_ps in H. rewrite HP in H. cbn [obind Nat.eqb] in H.
    rewrite obind_ret in H. destruct H as (r' & H & HR). injection HR as <-. cbn [r_ok r_log] in *.
    unfold doc_to_ps in H. rewrite obind_ret in H. destruct H as ([[st0 lg1] ok1] & HL & H).
    destruct ok1; cbn [negb] in H.
    - rewrite obind_ret in H. destruct H as ([[[os d'] lg2] ok2] & HG & H).
      destruct ok2; cbn [negb] in H; injection H as <-; [discriminate|]. cbn [r_log].
      unfold generate_pages in HG. rewrite obind_ret in HG. destruct HG as ([[[s pgs'] os'] ok'] & HG & H). injection H as <- <- <- ->.
      apply (@gen_pages_why _ _ (mute d)) in HG.
      + destruct HG as (dl & Hl & HS). simpl in Hl. rewrite Hl. destruct (HS eq_refl) as [S1|S1]; [|right; exact S1].
        left. apply (@sym_app_r lg), (@sym_app_r lg1), S1.
      + intros pg [l n ml ds|l t ml] H1 H2; [|exact I]. intros dm Hd x p ps p' Hx Hv Hf Hi.
        exists pg, l, n, ml, ds, dm, x, p, ps, p'. auto 10.
    - injection H as <-. left. cbn [r_log]. apply (@sym_app_r lg). exact (load_files_why _ _ _ HL eq_refl).
  Qed.
  Lemma mute_funcs ps p : invoke ps p = ([], None) -> In (B "near") (map fst (funcs p)) \/ In (B "center") (map fst (funcs p)).
  Proof.
    induction p as [v l|n q IH l]; cbn [invoke]; [discriminate|]. cbn [funcs map fst In].
    destruct (bytes_eqb n (B "near")) eqn:N1; [apply bytes_eqb_eq in N1; auto|].
    destruct (bytes_eqb n (B "center")) eqn:N2; [apply bytes_eqb_eq in N2; auto|]. discriminate.
  Qed.
End Why2.
