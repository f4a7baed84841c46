(** P_Say2.v - defects of angles, drawings, pages and loads are reported. *)
From Verif Require Import Base Num Geo Stl StlRead Env Ast Lexer Parser Grammar Ps Draw Main DocSpec ValidSpec MsgSpec SaySpec
  P_Base P_Meta P_Frame P_Dims P_Doc P_Script P_Script2 P_Mark P_Valid P_Value P_Parser2 P_Msg P_Msg2 P_Msg3 P_Msg4 P_Say.

Local Unset Implicit Arguments.
Local Open Scope string_scope.
Local Open Scope list_scope.
Section Say.
  Context {A : Arith} {E : Env}.
  Local Hint Resolve told_keep told_err told_rot told_fmt told_need told_draw_angle : told.
  Ltac tk nm W F :=
    match goal with
    | H : context [take nm ?m] |- _ =>
        let m' := fresh "m" in let T := fresh "T" in let W' := fresh "W" in let F' := fresh "F" in
        destruct (@take_chain _ nm _ m _ W F eq_refl) as (m' & T & W' & F'); rewrite T in H; clear T
    end.
  Lemma angle_must d s s' ml' ok l m : d_kind d = KAngle -> visit_angle d s = Ret (s', ml', ok) -> must_dim (v_points s) d l m -> told (DSym l m) s'.
  Proof.
    intros K H M. apply sym_cases in M; [|right; exact K]. rewrite K in M. unfold visit_angle in H. set (ml := d_meta d) in *.
    destruct (flatten_spec "angle" ml) as (m0 & HF & W & F). rewrite HF in H. clear HF. pose proof (nilb_nodup (B "angle") ml) as ND.
    assert (F0 : forall n, fnd m0 n = drop [] n (index_of n (names ml))) by exact F.
    tk "at" W F0. tk "apex" W0 F1. tk "from_dir" W1 F2. tk "from_point" W2 F3. tk "to_dir" W3 F4. tk "to_point" W4 F5. tk "fmt" W5 F6.
    set (s1 := log_all (dup_diags (B "angle") [] ml) s) in *.
    assert (C1 : forall y, repeats ml y -> told (DSym (m_loc y) (says_duplicate (word (BDim KAngle)) y)) s1) by (intros y R; apply told_new, dup_told, R).
    assert (KN : known (BDim KAngle) ml -> m7 = []).
    { intro KN. apply (chain_nil _ _ W6 F7). apply (known_only (BDim KAngle)); [|exact KN]. intro k. cbn. tauto. }
    destruct m7 as [|x7 m7].
    2:{ injection H as <- <- <-. destruct M as [(y & R & ->)|[(x & U & FO & ->)|[(KK & _)|[(KK & _)|(x & (_ & _ & L) & _)]]]].
        - apply told_keep, C1, R.
        - apply told_new. right. apply (unknown_told (BDim KAngle) _ _ _ _ F7); auto. intro k. cbn. tauto.
        - discriminate (KN KK).
        - discriminate (KN KK).
        - rewrite K in L. discriminate (KN (proj1 L)). }
    rewrite !need_spec in H.
    set (e3 := if is_some (prop "from_dir" ml) then [] else if is_some (prop "from_point" ml) then [] else [DSym (d_loc d) (B "Missing 'from_{dir,point}'")]).
    set (e4 := if is_some (prop "to_dir" ml) then [] else if is_some (prop "to_point" ml) then [] else [DSym (d_loc d) (B "Missing 'to_{dir,point}'")]).
    match type of H with context [log_all ?b (log_all ?c s1)] => set (e1 := c) in *; set (e2 := b) in * end.
    assert (G : forall n1 n2 x msg, (if is_some (prop n1 ml) then (x, true) else (log_all (if is_some (prop n2 ml) then [] else [DSym (d_loc d) (B msg)]) x, is_some (prop n2 ml))) =
       (log_all (if is_some (prop n1 ml) then [] else if is_some (prop n2 ml) then [] else [DSym (d_loc d) (B msg)]) x, is_some (prop n1 ml) || is_some (prop n2 ml))).
    { intros n1 n2 x msg. destruct (is_some (prop n1 ml)); [rewrite log_all_nil; reflexivity|]. reflexivity. }
    rewrite (G "from_dir" "from_point") in H. cbv beta iota in H. rewrite ?need_spec, (G "to_dir" "to_point") in H. cbv beta iota in H. clear G. fold e3 e4 in H.
    set (s2 := log_all e4 (log_all e3 (log_all e2 (log_all e1 s1)))) in *.
    assert (C2 : told (DSym l m) s2 \/ exists x, looked_at (v_points s) d /\ In x ml /\ In (m_name x) (map B (point_names KAngle)) /\ as_point x = None /\ DSym l m = no_point x).
    { destruct M as [(y & R & ->)|[(x & U & FO & ->)|[(_ & n & I & NH & ->)|[(_ & KK & n & nd & np & I & N1 & N2 & ->)|M]]]]; [left|left|left|left|right; exact M].
      - unfold s2. auto 6 with told.
      - exfalso. refine (unknown_told (BDim KAngle) _ _ _ _ F7 _ U FO). intro k. cbn. tauto.
      - unfold s2. cbn in I. destruct I as [<-|[<-|[]]].
        + do 3 apply told_keep. apply told_new. exact (need_told _ "at" "Missing 'at'" _ NH).
        + do 2 apply told_keep. apply told_new. exact (need_told _ "apex" "Missing 'apex'" _ NH).
      - assert (NN : forall n, ~ has ml n -> is_some (prop n ml) = false).
        { intros k NH. destruct (is_some (prop k ml)) eqn:X; [|reflexivity]. exfalso. apply NH. unfold prop in X. destruct (index_of _ _) as [i|] eqn:J; [|discriminate X].
          apply index_of_some, nth_error_In in J. exact J. }
        apply NN in N1, N2. unfold s2. destruct I as [I|[I|[]]]; injection I as <- <- <-.
        + apply told_keep, told_new. unfold e3. rewrite N1, N2. left. reflexivity.
        + apply told_new. unfold e4. rewrite N1, N2. left. reflexivity. }
    clear M C1 KN. clearbody s2. clear e1 e2 e3 e4.
    destruct (negb _) eqn:HK.
    { injection H as <- <- <-. destruct C2 as [C2|(x & (NDP & HM & HS) & _)]; [exact C2|]. exfalso. rewrite K in HM, HS. destruct HS as (_ & [S1 _] & [S2 _]).
      rewrite (proj2 ND NDP) in HK. rewrite (has_some "at"), (has_some "apex") in HK by (apply HM; cbn; tauto). cbn [andb] in HK. fold ml in S1, S2.
      assert (X1 : is_some (prop "from_dir" ml) || is_some (prop "from_point" ml) = true) by (destruct S1 as [S|S]; rewrite (has_some _ _ S), ?orb_true_r; reflexivity).
      assert (X2 : is_some (prop "to_dir" ml) || is_some (prop "to_point" ml) = true) by (destruct S2 as [S|S]; rewrite (has_some _ _ S), ?orb_true_r; reflexivity).
      rewrite X1, X2 in HK. discriminate HK. }
    clear HK.
    match type of H with context [if ?a || ?b then Ret (?x, ml, false) else _] => set (s3 := x) in *; destruct (a || b) eqn:BO end.
    { injection H as <- _ _. destruct C2 as [C2|(x & (NDP & HM & HS) & _)].
      - unfold s3. destruct (prop "from_dir" ml), (prop "to_dir" ml); cbn [is_some andb]; repeat match goal with |- context [if ?x then _ else _] => destruct x end; auto with told.
      - exfalso. rewrite K in HS. destruct HS as (_ & [_ S1] & [_ S2]). fold ml in S1, S2.
        assert (NB : forall a b, is_some (prop a ml) && is_some (prop b ml) = true -> has ml a /\ has ml b).
        { intros a b X. apply andb_true_iff in X. destruct X as [X Y]. unfold prop in X, Y. destruct (index_of (B a) _) as [i|] eqn:I1; [|discriminate X]. destruct (index_of (B b) _) as [j|] eqn:I2; [|discriminate Y].
          split; [apply index_of_some, nth_error_In in I1; exact I1|apply index_of_some, nth_error_In in I2; exact I2]. }
        apply orb_true_iff in BO. destruct BO as [BO|BO]; apply NB in BO; tauto. }
    assert (C3 : told (DSym l m) s3 \/ exists x, looked_at (v_points s) d /\ In x ml /\ In (m_name x) (map B (point_names KAngle)) /\ as_point x = None /\ DSym l m = no_point x).
    { destruct C2 as [C2|C2]; [left|right; exact C2]. unfold s3. destruct (prop "from_dir" ml), (prop "to_dir" ml); cbn [is_some andb]; repeat match goal with |- context [if ?x then _ else _] => destruct x end; auto with told. }
    clear C2. clearbody s3.
    destruct (prop "at" ml) as [i1|] eqn:P1; [|discriminate H]. destruct (prop "apex" ml) as [i2|] eqn:P2; [|discriminate H].
    apply obind_ret in H. destruct H as ([[[s4 ml4] r4] v4] & H1 & H). apply obind_ret in H. destruct H as ([[[s5 ml5] r5] v5] & H2 & H).
    apply obind_ret in H. destruct H as ([[[[s6 ml6] r6] fd] fp] & H3 & H). apply obind_ret in H. destruct H as ([[[[s7 ml7] r7] td] tp] & H4 & H).
    assert (G : forall (pd pp : option nat) (sx : vst) mlx sy mly r a b ap,
      match pd, pp with
      | Some i, _ => do! '(s, ml, r, v) <- get_rotated i (sx, mlx); Ret (s, ml, r, normalized3 v, ap)
      | None, Some i => do! '(s, ml, r, v) <- get_rotated i (sx, mlx); Ret (s, ml, r, normalized3 (sub3 v ap), v)
      | None, None => Abort (AUB "null Meta*")
      end = Ret (sy, mly, r, a, b) -> exists i v, get_rotated i (sx, mlx) = Ret (sy, mly, r, v) /\ (pd = Some i \/ pd = None /\ pp = Some i)).
    { intros pd pp sx mlx sy mly r a b ap X. destruct pd as [i|]; [|destruct pp as [i|]; [|discriminate X]];
        apply obind_ret in X; destruct X as ([[[sz mlz] rz] v] & X1 & X); injection X as <- <- <- _ _; exists i, v; auto. }
    apply G in H3, H4. clear G. destruct H3 as (i3 & v6 & H3 & P3). destruct H4 as (i4 & v7 & H4 & P4).
    assert (C7 : told (DSym l m) s7).
    { destruct C3 as [C3|(x & (NDP & _ & HS) & I & P & AP & ->)]; [eauto 8 with told|]. rewrite K in HS. destruct HS as (_ & [_ S1] & [_ S2]). fold ml in S1, S2.
      apply in_map_iff in P. destruct P as (n & Q & P). destruct (the_prop ml x n NDP I (eq_sym Q)) as (j & PJ & NJ).
      assert (HJ : has ml n) by (unfold prop in PJ; apply index_of_some, nth_error_In in PJ; exact PJ).
      destruct (rot_point j x _ _ _ _ _ _ _ AP NJ H1) as [N1 T1]. destruct (rot_point j x _ _ _ _ _ _ _ AP N1 H2) as [N2 T2].
      destruct (rot_point j x _ _ _ _ _ _ _ AP N2 H3) as [N3 T3]. destruct (rot_point j x _ _ _ _ _ _ _ AP N3 H4) as [N4 T4].
      assert (HP : forall k i, prop k ml = Some i -> has ml k) by (intros k i X; unfold prop in X; apply index_of_some, nth_error_In in X; exact X).
      cbn in P. destruct P as [<-|[<-|[<-|[<-|[<-|[<-|[]]]]]]].
      - assert (i1 = j) by congruence. eauto 8 with told.
      - assert (i2 = j) by congruence. eauto 8 with told.
      - assert (i3 = j) by (destruct P3 as [P3|[P3 _]]; congruence). eauto 8 with told.
      - assert (i3 = j) by (destruct P3 as [P3|[_ P3]]; [exfalso; apply S1; split; eapply HP; eassumption|congruence]). eauto 8 with told.
      - assert (i4 = j) by (destruct P4 as [P4|[P4 _]]; congruence). eauto 8 with told.
      - assert (i4 = j) by (destruct P4 as [P4|[_ P4]]; [exfalso; apply S2; split; eapply HP; eassumption|congruence]). eauto 8 with told. }
    clear - H C7. destruct (get_fmt _ _ _ _) as [s8 fo] eqn:GF. apply (told_fmt (DSym l m)) in GF; [|exact C7].
    destruct fo as [f|]; [|injection H as <- _ _; exact GF]. destruct (negb _); [injection H as <- _ _; exact GF|].
    destruct (draw_angle _ _ _ _ _ _ _ _ s8) as [s9 o9] eqn:DA. injection H as <- _ _. exact (told_draw_angle _ _ _ _ _ _ _ _ _ _ _ _ DA GF).
  Qed.
  Lemma base_dim_must d s s' d' ok l m : visit_base_dim d s = Ret (s', d', ok) -> must_dim (v_points s) d l m -> told (DSym l m) s'.
  Proof.
    intros H M. unfold visit_base_dim in H. apply obind_ret in H. destruct H as ([[s1 ml1] ok1] & H & H1). injection H1 as <- <- <-.
    destruct (d_kind d) eqn:K.
    - exact (angle_must _ _ _ _ _ _ _ K H M).
    - refine (circ_must draw_dia _ _ _ _ _ _ _ (or_introl K) _ _ M); [|unfold visit_dia in H; rewrite K; exact H].
      intros. destruct (draw_dia_draws f a b c r s0) as (p & Hp & _). rewrite Hp. reflexivity.
    - exact (dim_must _ _ _ _ _ _ _ K H M).
    - refine (circ_must draw_rad _ _ _ _ _ _ _ (or_intror K) _ _ M); [|unfold visit_rad in H; rewrite K; exact H].
      intros. destruct (draw_rad_draws f a b c r s0) as (p & Hp & _). rewrite Hp. reflexivity.
  Qed.
  Lemma says_told P D s s' b : says P s s' b -> told D s -> told D s'.
  Proof. intros (dl & H & _) T. unfold told. rewrite H. apply in_or_app. left. exact T. Qed.
  Lemma dims_keep D ds s s' ds' ok : visit_dims ds s = Ret (s', ds', ok) -> told D s -> told D s'.
  Proof. intros H T. apply visit_dims_spec in H. destruct H as [(p & dl & ->) _]. apply in_or_app. left. exact T. Qed.
  Lemma dims_must l m dm : forall ds s s' ds' ok, visit_dims ds s = Ret (s', ds', ok) -> In dm ds -> must_dim (v_points s) dm l m -> told (DSym l m) s'.
  Proof.
    induction ds as [|d ds IH]; intros s s' ds' ok H I M; [destruct I|]. cbn [visit_dims] in H.
    apply obind_ret in H. destruct H as ([[s1 d1] ok1] & H1 & H). apply obind_ret in H. destruct H as ([[s2 t2] ok2] & H2 & H). injection H as <- <- <-.
    destruct I as [->|I].
    - eapply dims_keep; [exact H2|]. exact (base_dim_must _ _ _ _ _ _ _ H1 M).
    - refine (IH _ _ _ _ H2 I _). destruct (base_dim_grows _ _ _ _ _ H1) as [-> _]. exact M.
  Qed.

  (** ** Drawings and texts *)
  Lemma scale_fine_some ml : scale_fine ml -> exists ab, scale_of ml = Some ab.
  Proof.
    intro H. unfold scale_of. destruct (arg_prop "scale" ml) as [(i & x & _ & N & Q & ->)|[_ ->]]; [|eauto].
    destruct (H x (nth_error_In _ _ N) Q) as (a & b & V). unfold as_scale. rewrite V. eauto.
  Qed.
  Lemma unknown_first k ml x : NoDup (map m_name ml) -> unknown_in k ml x -> first_named ml x.
  Proof.
    intros N [I _]. apply in_split in I. destruct I as (a & b & ->). exists a, b. split; [reflexivity|]. rewrite map_app in N. cbn [map] in N.
    apply NoDup_remove_2 in N. intro J. apply N. apply in_or_app. left. exact J.
  Qed.
  Lemma sees_name fs d n ml ps r : sees fs d n ml ps r -> In n (map mo_name (doc_models d)).
  Proof. intros (f & p & (m & t & lg & I & <- & _) & _). apply in_map, I. Qed.
  (** What is loaded, exactly. *)
  Definition loaded_all (fs : files) (d : document) (st : stl_map) : Prop :=
    loaded fs d st /\ NoDup (map mo_name (doc_models d)) /\ (forall n v, smap_find bytes_ltb n st = Some v -> exists f, v = Some f).
  Lemma reads_fun fs d n f g : NoDup (map mo_name (doc_models d)) -> reads_as fs d n f -> reads_as fs d n g -> f = g.
  Proof.
    intros N (m1 & t1 & lg1 & I1 & Q1 & R1 & M1) (m2 & t2 & lg2 & I2 & Q2 & R2 & M2).
    assert (m1 = m2) as <-.
    { clear - N I1 I2 Q1 Q2. induction (doc_models d) as [|x ms IH]; [destruct I1|]. cbn [map] in N. inversion N as [|? ? N1 N2]; subst.
      destruct I1 as [->|I1], I2 as [->|I2]; auto; exfalso; apply N1; apply in_map_iff; eauto. }
    apply resolves_iff in R1, R2. congruence.
  Qed.
  Lemma draw_must fs d st l0 n ml ds s s' ds' ok l m : loaded_all fs d st -> visit_draw st l0 n ml ds s = Ret (s', ds', ok) ->
    must_draw fs d l0 n ml ds l m -> told (DSym l m) s'.
  Proof.
    intros [[LD1 LD2] [LN LD3]] H M. unfold visit_draw in H.
    destruct (flatten_spec "draw" ml) as (m0 & HF & W & F). rewrite HF in H. clear HF. pose proof (nilb_nodup (B "draw") ml) as ND.
    assert (F0 : forall n, fnd m0 n = drop [] n (index_of n (names ml))) by exact F.
    destruct (nilb (dup_diags (B "draw") [] ml)) eqn:HK; cbn [negb] in H.
    2:{ injection H as <- _ _. destruct M as [y R|x N|N|x v N|x N|dm ps r l m N|x ps r N]; [apply told_new, dup_told, R| | | | | |]; apply ND in N; congruence. }
    pose proof (proj1 ND eq_refl) as NDP. clear ND HK. set (s1 := log_all (dup_diags (B "draw") [] ml) s) in *. clearbody s1.
    tk "scale" W F0.
    destruct (scale_says (fun _ _ => True) ml s1) as (dl & GS & _ & _); [trivial|].
    assert (M' : scale_fine ml \/ exists x, In x ml /\ m_name x = B "scale" /\ as_scale x = None /\ DSym l m = DSym (m_loc x) (B "Wrong type for scale")).
    { destruct M as [y R|x N I Q V|N| | | |]; auto; [exfalso; exact (repeats_nodup _ _ R NDP)|]. right. exists x. split; [exact I|]. split; [exact Q|]. split; [|reflexivity].
      unfold as_scale. destruct (m_val x); try reflexivity. exfalso. exact (V _ _ eq_refl). }
    destruct M' as [SF|(x & I & Q & AS & ->)].
    2:{ clear GS. destruct (the_prop ml x "scale" NDP I Q) as (j & PJ & NJ). unfold get_scale in H. rewrite PJ, NJ, AS in H. injection H as <- _ _. rewrite err_log. apply told_new. left. reflexivity. }
    destruct (scale_fine_some _ SF) as [ab AB]. rewrite GS, AB in H. clear GS. set (s15 := log_all dl s1) in *. clearbody s15. clear dl.
    assert (CUT : forall y, repeats ml y -> False) by (intros y R; exact (repeats_nodup _ _ R NDP)).
    destruct (smap_find bytes_ltb n st) as [fo|] eqn:SF'.
    2:{ injection H as <- _ _. pose proof (LD2 _ SF') as NM. assert (NI : ~ In n (map mo_name (doc_models d))) by (intro I; apply in_map_iff in I; destruct I as (mo & Q & I); exact (NM mo I Q)).
        destruct M as [y R|x N I Q V|N SF2 NN|x v N SF2 I|x N SF2 I|dm ps r l m N SF2 SE|x ps r N SF2 SE]; try (exfalso; eauto; fail).
        - destruct (SF x I Q) as (a & b & VV). exfalso. exact (V _ _ VV).
        - rewrite err_log. apply told_new. left. reflexivity.
        - exfalso. exact (NI (sees_name _ _ _ _ _ _ SE)).
        - exfalso. exact (NI (sees_name _ _ _ _ _ _ SE)). }
    destruct (LD3 _ _ SF') as [file ->]. pose proof (LD1 _ _ SF') as RA.
    assert (NI : In n (map mo_name (doc_models d))) by (destruct RA as (mo & t & lg & IM & <- & _); apply in_map, IM).
    tk "view" W0 F1.
    match type of H with context [get_view ml (prop "view" ml) ?x] => set (s2 := x) in *; destruct (view_says (fun _ _ => True) ml s2) as (dl & GV & _ & _); [trivial|trivial|] end.
    clearbody s2.
    assert (M' : (exists x v, In x ml /\ m_name x = B "view" /\ m_val x = MStr v /\ ~ In v view_names /\ DSym l m = DSym (m_loc x) (B "Unknown view name: '" ++ v ++ B "'")) \/
      (exists x, In x ml /\ m_name x = B "view" /\ as_loc x = None /\ as_str x = None /\ DSym l m = DSym (m_loc x) (B "Unexpect view type: " ++ type_name (mkind (m_val x)))) \/
      (exists dm ps r, sees fs d n ml ps r /\ In dm ds /\ must_dim ps dm l m) \/
      (exists x ps r, sees fs d n ml ps r /\ (ds = [] \/ eqm r zerom = false) /\ Forall (dim_good ps r) ds /\ unknown_in BDraw ml x /\ DSym l m = DSym (m_loc x) (m_name x))).
    { destruct M as [y R|x N I Q V|N SF2 NN|x v N SF2 _ I Q V VN|x N SF2 _ I Q V1 V2|dm ps r l m N SF2 SE I M|x ps r N SF2 SE Z G U].
      - destruct (CUT _ R).
      - destruct (SF x I Q) as (a & b & VV). exfalso. exact (V _ _ VV).
      - contradiction.
      - left. exists x, v. auto 6.
      - right; left. exists x. split; [exact I|]. split; [exact Q|]. unfold as_loc, as_str. destruct (m_val x) eqn:V; try (exfalso; eapply V1; reflexivity); try (exfalso; eapply V2; reflexivity); auto.
      - right; right; left. exists dm, ps, r. auto.
      - right; right; right. exists x, ps, r. auto. }
    clear M.
    destruct M' as [(x & v & I & Q & V & VN & ->)|[(x & I & Q & AL & AS & ->)|M]].
    { clear GV. destruct (the_prop ml x "view" NDP I Q) as (j & PJ & NJ). unfold get_view in H. rewrite PJ, NJ in H. unfold as_loc, as_str in H. rewrite V in H.
      destruct (matrix_by_name v) as [r|] eqn:MB.
      - exfalso. apply matrix_by_name_iff in MB. apply VN. unfold view_names in *. cbn [map combine In] in *. 
        repeat (destruct MB as [MB|MB]; [injection MB as <- _; tauto|]). destruct MB.
      - injection H as <- _ _. rewrite err_log. apply told_new. left. reflexivity. }
    { clear GV. destruct (the_prop ml x "view" NDP I Q) as (j & PJ & NJ). unfold get_view in H. rewrite PJ, NJ, AL, AS in H.
      injection H as <- _ _. rewrite err_log. apply told_new. left. reflexivity. }
    assert (VO : exists rot ps, view_of ml = Some rot /\ sees fs d n ml ps rot /\
      ((exists dm, In dm ds /\ must_dim ps dm l m) \/ (exists x, (ds = [] \/ eqm rot zerom = false) /\ Forall (dim_good ps rot) ds /\ unknown_in BDraw ml x /\ DSym l m = DSym (m_loc x) (m_name x)))).
    { destruct M as [(dm & ps & r & SE & I & MD)|(x & ps & r & SE & Z & G & U & ->)]; exists r, ps;
        (split; [destruct SE as (f & p & _ & AV & _); exact (view_iff _ NDP _ AV)|]); split; eauto 8. }
    clear M. destruct VO as (rot & ps & VO & SE & M). rewrite GV, VO in H. clear GV.
    tk "@" W1 F2.
    match type of H with obind ?x _ = _ => destruct x as [pl|]; [cbn [obind] in H|discriminate H] end.
    apply obind_ret in H. destruct H as (proj & HP & H). apply obind_ret in H. destruct H as (ls & _ & H).
    apply obind_ret in H. destruct H as ([[s4 ds4] ok4] & HV & H). unfold add_dims in HV. destruct (strict_weak _ _) in HV; [|discriminate].
    assert (PS : ps = points (cull_back_face proj)).
    { destruct SE as (f & p & RB & AV & RO & ->). rewrite (reads_fun _ _ _ _ _ LN RB RA) in RO. apply (view_iff _ NDP) in AV. congruence. }
    destruct M as [(dm & I & MD)|(x & Z & G & U & ->)].
    - assert (T4 : told (DSym l m) s4) by (eapply dims_must; [exact HV|exact I|rewrite <- PS; exact MD]).
      destruct ok4; cbn [negb] in H; [|injection H as <- _ _; exact T4]. destruct m3 as [|y m3]; injection H as <- _ _; [exact T4|apply told_keep, T4].
    - assert (ok4 = true) as ->.
      { apply visit_dims_spec in HV. destruct HV as (_ & _ & OK & _). apply OK. split; [exact Z|]. cbn [v_points v_rot]. rewrite <- PS. eapply Forall_impl; [|exact G]. intros dm Hd. apply dim_iff, Hd. }
      cbn [negb] in H. pose proof (unknown_told BDraw _ _ _ x F3 ltac:(intro k; cbn; tauto) U (unknown_first _ _ _ NDP U)) as UT.
      destruct m3 as [|y m3]; [destruct UT|]. injection H as <- _ _. apply told_new. right. exact UT.
  Qed.
End Say.
