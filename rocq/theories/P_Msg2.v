(** P_Msg2.v - the messages of the four kinds of dimensions. *)
From Verif Require Import Base Num Geo Stl StlRead Env Ast Lexer Parser Ps Draw Main DocSpec ValidSpec MsgSpec
  P_Base P_Meta P_Frame P_Dims P_Doc P_Script P_Script2 P_Mark P_Valid P_Msg.

Local Unset Implicit Arguments.
Local Open Scope string_scope.
Local Open Scope list_scope.
Section Msg.
  Context {A : Arith} {E : Env}.
  (** The message about a zero dir where dir has no value. *)
  Definition dim_not_zero (ps : point_set) (r : m3) (dm : dim) (l : loc) (m : bytes) : Prop :=
    exists x, d_kind dm = KDim /\ In x (d_meta dm) /\ m_name x = B "dir" /\ (forall v, ~ evaluates ps r (d_meta dm) "dir" v) /\
      l = m_loc x /\ m = B "Dimention's 'dir' must not be the zero vector".
  Definition dim_msg (ps : point_set) (r : m3) (dm : dim) (l : loc) (m : bytes) : Prop := true_of_dim ps r dm l m \/ dim_not_zero ps r dm l m.

  Ltac tk nm W F :=
    match goal with
    | H : context [take nm ?m] |- _ =>
        let m' := fresh "m" in let T := fresh "T" in let W' := fresh "W" in let F' := fresh "F" in
        destruct (@take_chain _ nm _ m _ W F eq_refl) as (m' & T & W' & F'); rewrite T in H; clear T
    end.
  Ltac argcase n ml :=
    let i := fresh "i" in let x := fresh "x" in let P := fresh "P" in let N := fresh "N" in
    let Q := fresh "Q" in let AE := fresh "AE" in
    destruct (arg_prop n ml) as [(i & x & P & N & Q & AE)|[P AE]]; rewrite ?P in *.
  Ltac notin := simpl; intros ?; repeat match goal with H : _ \/ _ |- _ => destruct H end; try contradiction; subst;
    match goal with
    | H1 : prop ?a ?ml = Some ?i, H2 : prop ?b ?ml = Some ?i |- _ =>
        exact (@prop_neq _ a b ml i i H1 H2 ltac:(discriminate) eq_refl)
    end.
  Ltac fa := repeat (apply Forall_app; split); auto.

  Lemma dim_says d s s' ml' ok : d_kind d = KDim -> visit_dim d s = Ret (s', ml', ok) -> says (dim_msg (v_points s) (v_rot s) d) s s' ok.
  Proof.
    intros K H. unfold visit_dim in H. set (ml := d_meta d) in *. set (ps := v_points s). set (r := v_rot s).
    assert (TD : forall l m, true_of_dim ps r d l m -> dim_msg ps r d l m) by (intros; left; assumption).
    assert (TN : forall l m, true_of_names (BDim (d_kind d)) (d_loc d) ml l m -> dim_msg ps r d l m) by (intros; left; apply TD_names; assumption).
    destruct (flatten_spec "dim" ml) as (m0 & HF & W & F). rewrite HF in H. clear HF.
    pose proof (dups_says _ _ _ _ TN) as DU. rewrite K in DU. cbn [word] in DU. pose proof (nilb_nodup (B "dim") ml) as ND.
    set (dd := dup_diags (B "dim") [] ml) in *.
    assert (F0 : forall n, fnd m0 n = drop [] n (index_of n (names ml))) by exact F.
    tk "at" W F0. tk "dir" W0 F1. tk "from" W1 F2. tk "to" W2 F3. tk "fmt" W3 F4.
    destruct m4 as [|x4 m4].
    2:{ injection H as <- <- <-. change false with (false && false). eapply says_app; [apply says_log; [exact DU|discriminate]|].
        rewrite K in TN. apply (unexpected_says (BDim KDim) _ _ _ _ _ _ _ _ W4 F5); auto; [|discriminate]. intro k. cbn. tauto. }
    clear W F F0 W0 F1 W1 F2 W2 F3 W3 F4 W4 F5.
    assert (NE : forall n msg, In n (mandatory KDim) -> B msg = B "Missing '" ++ B n ++ B "'" ->
              Forall (okd (dim_msg ps r d)) (if is_some (prop n ml) then [] else [DSym (d_loc d) (B msg)])).
    { intros n msg I EM. apply need_says. intro HH. rewrite EM. left. apply TD_missing; [rewrite K; exact I|exact HH]. }
    pose proof (NE "at" "Missing 'at'" ltac:(cbn; tauto) eq_refl) as N1. pose proof (NE "dir" "Missing 'dir'" ltac:(cbn; tauto) eq_refl) as N2.
    pose proof (NE "from" "Missing 'from'" ltac:(cbn; tauto) eq_refl) as N3. pose proof (NE "to" "Missing 'to'" ltac:(cbn; tauto) eq_refl) as N4.
    rewrite !need_spec, !log_all_app in H.
    destruct (negb _) eqn:HK.
    { injection H as <- <- <-. apply says_log; [|discriminate]. fa. }
    clear N1 N2 N3 N4 NE.
    argcase "at" ml; [|rewrite ?andb_false_r in HK; discriminate HK]. argcase "dir" ml; [|rewrite ?andb_false_r in HK; discriminate HK].
    argcase "from" ml; [|rewrite ?andb_false_r in HK; discriminate HK]. argcase "to" ml; [|rewrite ?andb_false_r in HK; discriminate HK].
    assert (HND : NoDup (names ml)). { apply ND. destruct (nilb dd); [reflexivity|discriminate HK]. }
    assert (Hd : dd = []). { unfold dd. apply dup_diags_nil; [constructor|exact HND]. }
    rewrite Hd in H. cbn [is_some app] in H. clear HK.
    destruct (eqm (v_rot s) zerom) eqn:EQ.
    { rewrite (get_rotated_null i (log_all [] s) ml EQ) in H. discriminate H. }
    rewrite (@gr_spec0 _ _ i s [] ml x) in H by assumption. cbn [obind] in H.
    rewrite (@gr_spec _ _ i0 s _ ml x0) in H by (assumption || notin). cbn [obind] in H.
    rewrite (@gr_spec _ _ i1 s _ ml x1) in H by (assumption || notin). cbn [obind] in H.
    rewrite (@gr_spec _ _ i2 s _ ml x2) in H by (assumption || notin). cbn [obind] in H.
    fold ps r in H. cbn [app] in H.
    assert (EV : forall j y n, nth_error ml j = Some y -> m_name y = B n -> In n (point_names KDim) -> Forall (okd (dim_msg ps r d)) (ev_log ps r y)).
    { intros j y n Hy Hn I. apply (ev_says ps r _ d); auto; [exact (nth_error_In _ _ Hy)|]. rewrite K, Hn. apply in_map, I. }
    pose proof (EV i x "at" N Q ltac:(cbn; tauto)) as E1. pose proof (EV i0 x0 "dir" N0 Q0 ltac:(cbn; tauto)) as E2.
    pose proof (EV i1 x1 "from" N1 Q1 ltac:(cbn; tauto)) as E3. pose proof (EV i2 x2 "to" N2 Q2 ltac:(cbn; tauto)) as E4.
    destruct (eq3 _ zero3) eqn:Z.
    { injection H as <- <- <-. rewrite err_log, log_all_app. apply says_log; [|discriminate]. fa. constructor; [|constructor].
      cbn [okd]. rewrite rot_at_mloc. unfold mloc. rewrite N0. destruct (ev ps r x0) as [v|] eqn:EVV.
      - left. eapply TD_zero; [exact K|exact (nth_error_In _ _ N0)|exact Q0| |exact Z]. apply ev_evaluates. unfold point_arg. fold ml. rewrite AE0. exact EVV.
      - right. exists x0. split; [exact K|]. split; [exact (nth_error_In _ _ N0)|]. split; [exact Q0|]. split; [|auto].
        intros v V. apply evaluates_arg in V; [|exact HND]. unfold point_arg in V. fold ml in V. rewrite AE0 in V. congruence. }
    destruct (fmt_says (dim_msg ps r d) ps r d "%.3f" (log_all (((ev_log ps r x ++ ev_log ps r x0) ++ ev_log ps r x1) ++ ev_log ps r x2) s) (i2 :: i1 :: i0 :: [i]) TD) as (dl & GF & FD & FN).
    rewrite K in GF. cbn [word] in GF. fold ml in GF. fold r in H. rewrite GF in H. clear GF.
    destruct (fmt_arg "%.3f" (d_meta d)) as [f|] eqn:FA; fold ml in FA; rewrite FA in H.
    2:{ injection H as <- <- <-. rewrite log_all_app. apply says_log; [|discriminate]. fa. }
    rewrite (FN ltac:(congruence)), log_all_nil in H.
    destruct (negb _) eqn:HR.
    { injection H as <- <- <-. apply says_log; [|discriminate]. fa. }
    injection H as <- <- <-.
    destruct (ev ps r x) as [v|] eqn:V1; [|discriminate HR]. destruct (ev ps r x0) as [v0|] eqn:V2; [|discriminate HR].
    destruct (ev ps r x1) as [v1|] eqn:V3; [|discriminate HR]. destruct (ev ps r x2) as [v2|] eqn:V4; [|discriminate HR].
    apply says_same. rewrite (ev_some_nolog _ _ _ V1), (ev_some_nolog _ _ _ V2), (ev_some_nolog _ _ _ V3), (ev_some_nolog _ _ _ V4). cbn [app]. rewrite log_all_nil.
    edestruct draw_dim_draws as (p & Hp & _). rewrite Hp. reflexivity.
  Qed.

  Lemma list_unknown_rot r R ml m : list_unknown (rot_at r R ml) m = list_unknown ml m.
  Proof.
    unfold list_unknown. apply flat_map_ext. intros [k i]. cbn [snd]. rewrite nth_rot_at. destruct (nth_error ml i) as [x|]; [|reflexivity].
    cbn [option_map]. destruct (memb i R); [rewrite rot_meta_loc, rot_meta_name|]; reflexivity.
  Qed.
  Lemma circ_says draw d s s' ml' ok : round (d_kind d) -> (forall f a b c r s, v_log (draw f a b c r s) = v_log s) ->
    visit_circ (word (BDim (d_kind d))) draw d s = Ret (s', ml', ok) -> says (dim_msg (v_points s) (v_rot s) d) s s' ok.
  Proof.
    intros K HD H. unfold visit_circ in H. set (ml := d_meta d) in *. set (ps := v_points s). set (r := v_rot s).
    set (w := word (BDim (d_kind d))) in *.
    assert (KM : mandatory (d_kind d) = ["at"; "dir"; "center"]) by (destruct K as [-> | ->]; reflexivity).
    assert (KP : point_names (d_kind d) = ["at"; "dir"; "center"]) by (destruct K as [-> | ->]; reflexivity).
    assert (KD : documented (BDim (d_kind d)) = ["at"; "dir"; "center"; "fmt"]) by (destruct K as [-> | ->]; reflexivity).
    assert (TD : forall l m, true_of_dim ps r d l m -> dim_msg ps r d l m) by (intros; left; assumption).
    assert (TN : forall l m, true_of_names (BDim (d_kind d)) (d_loc d) ml l m -> dim_msg ps r d l m) by (intros; left; apply TD_names; assumption).
    destruct (flatten_spec w ml) as (m0 & HF & W & F). rewrite HF in H. clear HF.
    pose proof (dups_says _ _ _ _ TN) as DU. fold w in DU. pose proof (nilb_nodup (B w) ml) as ND.
    set (dd := dup_diags (B w) [] ml) in *.
    assert (F0 : forall n, fnd m0 n = drop [] n (index_of n (names ml))) by exact F.
    destruct (negb _) eqn:HK.
    { injection H as <- <- <-. apply says_log; [exact DU|discriminate]. }
    assert (HND : NoDup (names ml)). { apply ND. destruct (nilb dd); [reflexivity|discriminate HK]. }
    assert (Hd : dd = []). { unfold dd. apply dup_diags_nil; [constructor|exact HND]. }
    rewrite Hd, log_all_nil in H. clear HK ND DU Hd. clearbody dd.
    unfold get_center in H. tk "at" W F0. tk "dir" W0 F1. tk "center" W1 F2.
    assert (NE : forall n msg, In n ["at"; "dir"; "center"] -> B msg = B "Missing '" ++ B n ++ B "'" ->
              Forall (okd (dim_msg ps r d)) (if is_some (prop n ml) then [] else [DSym (d_loc d) (B msg)])).
    { intros n msg I EM. apply need_says. intro HH. rewrite EM. left. apply TD_missing; [rewrite KM; exact I|exact HH]. }
    pose proof (NE "at" "Missing 'at'" ltac:(cbn; tauto) eq_refl) as M1. pose proof (NE "dir" "Missing 'dir'" ltac:(cbn; tauto) eq_refl) as M2.
    pose proof (NE "center" "Missing 'center'" ltac:(cbn; tauto) eq_refl) as M3.
    rewrite !need_spec, !log_all_app in H.
    match type of H with context [log_all ?dl s] => assert (FL : Forall (okd (dim_msg ps r d)) dl) by fa; remember dl as lg eqn:HL end.
    argcase "at" ml; [|cbn [obind] in H; injection H as <- <- <-; apply says_log; [exact FL|discriminate]].
    argcase "dir" ml; [|cbn [obind] in H; injection H as <- <- <-; apply says_log; [exact FL|discriminate]].
    argcase "center" ml; [|cbn [obind] in H; injection H as <- <- <-; apply says_log; [exact FL|discriminate]].
    cbn [is_some app] in HL. subst lg. clear FL.
    clear M1 M2 M3 NE. cbn [is_some app] in H. rewrite log_all_nil in H.
    destruct (Nat.ltb_spec (length (v_points s)) 3) as [L|L].
    { cbn [obind] in H. injection H as <- <- <-. rewrite err_log. apply says_log; [|discriminate]. constructor; [|constructor]. left. apply TD_few; assumption. }
    destruct (eqm (v_rot s) zerom) eqn:EQ.
    { rewrite (get_rotated_null i s ml EQ) in H. discriminate H. }
    rewrite <- (log_all_nil s) in H.
    rewrite (@gr_spec0 _ _ i s [] ml x) in H by assumption. cbn [obind] in H.
    rewrite (@gr_spec _ _ i1 s _ ml x1) in H by (assumption || notin). cbn [obind] in H.
    rewrite (@gr_spec _ _ i0 s _ ml x0) in H by (assumption || notin). cbn [obind] in H.
    fold ps r in H. cbn [app] in H. change (v_points (log_all ?a s)) with ps in H.
    assert (EV : forall j y n, nth_error ml j = Some y -> m_name y = B n -> In n ["at"; "dir"; "center"] -> Forall (okd (dim_msg ps r d)) (ev_log ps r y)).
    { intros j y n Hy Hn I. apply (ev_says ps r _ d); auto; [exact (nth_error_In _ _ Hy)|]. rewrite KP, Hn. apply in_map, I. }
    pose proof (EV i x "at" N Q ltac:(cbn; tauto)) as E1. pose proof (EV i0 x0 "dir" N0 Q0 ltac:(cbn; tauto)) as E2.
    pose proof (EV i1 x1 "center" N1 Q1 ltac:(cbn; tauto)) as E3.
    destruct (negb _) eqn:HR.
    { cbn [obind] in H. injection H as <- <- <-. apply says_log; [|discriminate]. fa. }
    destruct (ev ps r x) as [v|] eqn:V1; [|discriminate HR]. destruct (ev ps r x1) as [v1|] eqn:V2; [|discriminate HR]. destruct (ev ps r x0) as [v0|] eqn:V3; [|discriminate HR].
    rewrite (ev_some_nolog _ _ _ V1), (ev_some_nolog _ _ _ V2), (ev_some_nolog _ _ _ V3) in H. cbn [app] in H. rewrite log_all_nil in H. cbn [or_zero] in H.
    change (v_points s) with ps in H.
    destruct (fit_circle ps (xy v1)) as [[cc rr]|] eqn:FC; cbn [obind] in H.
    2:{ injection H as <- <- <-. rewrite err_log. apply says_log; [|discriminate]. constructor; [|constructor]. left. apply (TD_no_circle _ _ _ v1); auto.
        apply ev_evaluates. unfold point_arg. fold ml. rewrite AE1. exact V2. }
    tk "fmt" W2 F3. destruct m3 as [|x3 m3].
    2:{ injection H as <- <- <-. unfold unexpected. rewrite list_unknown_rot. fold (unexpected w (d_loc d) ml (x3 :: m3) s).
        apply (unexpected_says (BDim (d_kind d)) _ _ _ _ _ _ _ _ W3 F4); auto; [|discriminate]. rewrite KD. intro k. cbn. tauto. }
    destruct (fmt_says (dim_msg ps r d) ps r d "%.3f" s (i0 :: i1 :: [i]) TD) as (dl & GF & FD & FN).
    fold w ml in GF. rewrite GF in H. clear GF.
    destruct (fmt_arg "%.3f" (d_meta d)) as [f|] eqn:FA; fold ml in FA; rewrite FA in H.
    2:{ injection H as <- <- <-. apply says_log; [exact FD|discriminate]. }
    rewrite (FN ltac:(congruence)), log_all_nil in H. injection H as <- <- <-. apply says_same, HD.
  Qed.

  Lemma angle_says d s s' ml' ok : d_kind d = KAngle -> visit_angle d s = Ret (s', ml', ok) -> says (dim_msg (v_points s) (v_rot s) d) s s' ok.
  Proof.
    intros K H. unfold visit_angle in H. set (ml := d_meta d) in *. set (ps := v_points s). set (r := v_rot s).
    assert (TD : forall l m, true_of_dim ps r d l m -> dim_msg ps r d l m) by (intros; left; assumption).
    assert (TN : forall l m, true_of_names (BDim (d_kind d)) (d_loc d) ml l m -> dim_msg ps r d l m) by (intros; left; apply TD_names; assumption).
    destruct (flatten_spec "angle" ml) as (m0 & HF & W & F). rewrite HF in H. clear HF.
    pose proof (dups_says _ _ _ _ TN) as DU. rewrite K in DU. cbn [word] in DU. pose proof (nilb_nodup (B "angle") ml) as ND.
    set (dd := dup_diags (B "angle") [] ml) in *.
    assert (F0 : forall n, fnd m0 n = drop [] n (index_of n (names ml))) by exact F.
    tk "at" W F0. tk "apex" W0 F1. tk "from_dir" W1 F2. tk "from_point" W2 F3. tk "to_dir" W3 F4. tk "to_point" W4 F5. tk "fmt" W5 F6.
    destruct m6 as [|x6 m6].
    2:{ injection H as <- <- <-. change false with (false && false). eapply says_app; [apply says_log; [exact DU|discriminate]|].
        rewrite K in TN. apply (unexpected_says (BDim KAngle) _ _ _ _ _ _ _ _ W6 F7); auto; [|discriminate]. intro k. cbn. tauto. }
    clear W F F0 W0 F1 W1 F2 W2 F3 W3 F4 W4 F5 W5 F6 W6 F7.
    assert (NE : forall n msg, In n (mandatory KAngle) -> B msg = B "Missing '" ++ B n ++ B "'" ->
              Forall (okd (dim_msg ps r d)) (if is_some (prop n ml) then [] else [DSym (d_loc d) (B msg)])).
    { intros n msg I EM. apply need_says. intro HH. rewrite EM. left. apply TD_missing; [rewrite K; exact I|exact HH]. }
    pose proof (NE "at" "Missing 'at'" ltac:(cbn; tauto) eq_refl) as M1. pose proof (NE "apex" "Missing 'apex'" ltac:(cbn; tauto) eq_refl) as M2.
    assert (NS : forall n nd np msg, In (n, nd, np) [("from", "from_dir", "from_point"); ("to", "to_dir", "to_point")] -> B msg = B "Missing '" ++ B n ++ B "_{dir,point}'" ->
              Forall (okd (dim_msg ps r d)) (if is_some (prop nd ml) || is_some (prop np ml) then [] else [DSym (d_loc d) (B msg)])).
    { intros n nd np msg I EM. destruct (is_some (prop nd ml)) eqn:X1; [constructor|]. destruct (is_some (prop np ml)) eqn:X2; [constructor|].
      constructor; [|constructor]. cbn [okd]. rewrite EM. left. eapply TD_no_side; [exact K|exact I|exact (prop_has _ _ X1)|exact (prop_has _ _ X2)]. }
    pose proof (NS "from" _ _ "Missing 'from_{dir,point}'" ltac:(left; reflexivity) eq_refl) as M3.
    pose proof (NS "to" _ _ "Missing 'to_{dir,point}'" ltac:(right; left; reflexivity) eq_refl) as M4. clear NE NS.
    rewrite (need_spec (d_loc d) (prop "at" ml)) in H. cbv iota beta in H. rewrite (need_spec (d_loc d) (prop "apex" ml)) in H. cbv iota beta in H.
    rewrite !log_all_app in H.
    assert (HI : forall (o : option nat) p dl msg, (if is_some o then (log_all dl s, true) else need (d_loc d) p msg (log_all dl s))
        = (log_all (dl ++ if is_some o || is_some p then [] else [DSym (d_loc d) (B msg)]) s, is_some o || is_some p)).
    { intros [j|] p dl msg; simpl; [rewrite app_nil_r; reflexivity|]. rewrite need_spec, log_all_app. reflexivity. }
    rewrite HI in H. cbv iota beta in H. rewrite HI in H. cbv iota beta in H. clear HI.
    match type of H with context [log_all ?dl s] => assert (FL : Forall (okd (dim_msg ps r d)) dl) by fa; remember dl as lg eqn:HL end.
    destruct (negb _) eqn:HK.
    { injection H as <- <- <-. apply says_log; [exact FL|discriminate]. }
    apply negb_false_iff in HK. repeat (apply andb_true_iff in HK; destruct HK as [HK ?HB]).
    rewrite HB, HB0, HB1, HB2 in HL. clear M1 M2 M3 M4 FL.
    assert (HND : NoDup (names ml)) by (apply ND, HK).
    assert (Hd : dd = []). { unfold dd. apply dup_diags_nil; [constructor|exact HND]. }
    rewrite Hd in HL. cbn [app] in HL. subst lg. clear ND Hd HK DU. clearbody dd.
    assert (TW : forall n nd np msg, In (n, nd, np) [("from", "from_dir", "from_point"); ("to", "to_dir", "to_point")] -> B msg = B "Both '" ++ B n ++ B "_{dir,point}' provided" ->
              forall s0, says (dim_msg ps r d) s0 (match prop nd ml with Some i => if is_some (prop nd ml) && is_some (prop np ml) then err (mloc ml i) (B msg) s0 else s0 | None => s0 end)
                (negb (is_some (prop nd ml) && is_some (prop np ml)))).
    { intros n nd np msg I EM s0. destruct (arg_prop nd ml) as [(i & x & P & N & Q & _)|[P _]]; rewrite P; [|apply says_same; reflexivity].
      cbn [is_some andb]. destruct (is_some (prop np ml)) eqn:X; cbn [negb]; [|apply says_same; reflexivity].
      rewrite err_log. apply says_log; [|discriminate]. constructor; [|constructor]. cbn [okd]. unfold mloc. rewrite N, EM. left.
      eapply TD_two_sides; [exact K|exact I|exact (nth_error_In _ _ N)|exact Q|].
      unfold has. destruct (prop np ml) as [j|] eqn:PJ; [|discriminate]. unfold prop in PJ. apply index_of_some in PJ. exact (nth_error_In _ _ PJ). }
    pose proof (TW "from" _ _ "Both 'from_{dir,point}' provided" ltac:(left; reflexivity) eq_refl (log_all [] s)) as T1.
    match type of T1 with says _ _ ?x _ => pose proof (TW "to" _ _ "Both 'to_{dir,point}' provided" ltac:(right; left; reflexivity) eq_refl x) as T2 end.
    pose proof (says_app _ _ _ _ _ _ T1 T2) as T3. rewrite log_all_nil in *. clear TW.
    destruct (is_some (prop "from_dir" ml) && is_some (prop "from_point" ml)) eqn:BF.
    { cbn [orb] in H. injection H as <- <- <-. exact T3. }
    destruct (is_some (prop "to_dir" ml) && is_some (prop "to_point" ml)) eqn:BT.
    { cbn [orb] in H. injection H as <- <- <-. exact T3. }
    cbn [orb] in H. clear T1 T2 T3.
    match type of H with context [get_rotated _ (?x, _)] => replace x with s in H by (destruct (prop "from_dir" ml), (prop "to_dir" ml); reflexivity) end.
    argcase "at" ml; [|discriminate HB2]. argcase "apex" ml; [|discriminate HB1].
    destruct (eqm (v_rot s) zerom) eqn:EQ.
    { rewrite (get_rotated_null i s ml EQ) in H. discriminate H. }
    rewrite <- (log_all_nil s) in H.
    rewrite (@gr_spec0 _ _ i s [] ml x) in H by assumption. cbn [obind] in H.
    rewrite (@gr_spec _ _ i0 s _ ml x0) in H by (assumption || notin). cbn [obind] in H.
    assert (EV : forall j y n, nth_error ml j = Some y -> m_name y = B n -> In n (point_names KAngle) -> Forall (okd (dim_msg ps r d)) (ev_log ps r y)).
    { intros j y n Hy Hn I. apply (ev_says ps r _ d); auto; [exact (nth_error_In _ _ Hy)|]. rewrite K, Hn. apply in_map, I. }
    pose proof (EV i x "at" N Q ltac:(cbn; tauto)) as E1. pose proof (EV i0 x0 "apex" N0 Q0 ltac:(cbn; tauto)) as E2.
    match type of H with obind ?a _ = _ => set (fromc := a) in H end.
    set (ap := or_zero (ev ps r x0)) in *.
    assert (SIDE : forall kd kp dl R, In (kd, kp) [("from_dir", "from_point"); ("to_dir", "to_point")] ->
        (forall j, In j R -> prop kd ml <> Some j /\ prop kp ml <> Some j) ->
        is_some (prop kd ml) || is_some (prop kp ml) = true -> is_some (prop kd ml) && is_some (prop kp ml) = false ->
        exists dl' R' b dv pv, 
          match prop kd ml, prop kp ml with
          | Some i, _ => do! '(s, ml, r, v) <- get_rotated i (log_all dl s, rot_at (v_rot s) R ml); Ret (s, ml, r, normalized3 v, ap)
          | None, Some i => do! '(s, ml, r, v) <- get_rotated i (log_all dl s, rot_at (v_rot s) R ml); Ret (s, ml, r, normalized3 (sub3 v ap), v)
          | None, None => Abort (AUB "null Meta*")
          end = Ret (log_all (dl ++ dl') s, rot_at (v_rot s) R' ml, b, dv, pv) /\ Forall (okd (dim_msg ps r d)) dl' /\
          (forall j, In j R' -> In j R \/ prop kd ml = Some j \/ prop kp ml = Some j) /\
          (b = true -> dl' = [] /\ one_side ps r ml kd kp ap (dv, pv))).
    { intros kd kp dl R I HR HO HX.
      assert (NP : forall n, In n [kd; kp] -> In n (point_names KAngle)) by (intros n J; destruct I as [I|[I|[]]]; injection I as <- <-; destruct J as [<-|[<-|[]]]; cbn; tauto).
      destruct (arg_prop kd ml) as [(j & y & P1 & N1 & Q1 & A1)|[P1 A1]]; rewrite P1 in *.
      - assert (P2 : prop kp ml = None) by (destruct (prop kp ml); [discriminate HX|reflexivity]).
        rewrite (@gr_spec _ _ j s dl ml y R) by (try assumption; intro HJ; destruct (HR j HJ); congruence). cbn [obind]. do 5 eexists. split; [reflexivity|].
        split; [exact (EV j y kd N1 Q1 (NP kd (or_introl eq_refl)))|]. split; [intros k [->|HJ]; auto|].
        fold ps r. destruct (ev ps r y) as [v|] eqn:V; [|discriminate]. intros _. split; [exact (ev_some_nolog _ _ _ V)|]. split.
        + left. exists v. split; [|reflexivity]. apply ev_evaluates. unfold point_arg. rewrite A1. exact V.
        + intros [_ HH]. unfold prop in P2. apply index_of_none in P2. exact (P2 HH).
      - destruct (arg_prop kp ml) as [(j & y & P2 & N2 & Q2 & A2)|[P2 A2]]; rewrite P2 in *; [|discriminate HO].
        rewrite (@gr_spec _ _ j s dl ml y R) by (try assumption; intro HJ; destruct (HR j HJ); congruence). cbn [obind]. do 5 eexists. split; [reflexivity|].
        split; [exact (EV j y kp N2 Q2 (NP kp (or_intror (or_introl eq_refl))))|]. split; [intros k [->|HJ]; auto|].
        fold ps r. destruct (ev ps r y) as [v|] eqn:V; [|discriminate]. intros _. split; [exact (ev_some_nolog _ _ _ V)|]. split.
        + right. exists v. split; [|reflexivity]. apply ev_evaluates. unfold point_arg. rewrite A2. exact V.
        + intros [HH _]. unfold prop in P1. apply index_of_none in P1. exact (P1 HH). }
    assert (PN : forall a b j, prop a ml = Some j -> B a <> B b -> prop b ml <> Some j).
    { intros a b j Ha Hn Hb. exact (@prop_neq _ a b ml j j Ha Hb Hn eq_refl). }
    destruct (SIDE "from_dir" "from_point" (([] ++ ev_log (v_points s) (v_rot s) x) ++ ev_log (v_points s) (v_rot s) x0) [i0; i]) as (d1 & R1 & b1 & fd & fp & G1 & O1 & I1 & B1);
      [left; reflexivity|intros j [<-|[<-|[]]]; split; eapply PN; eauto; discriminate|assumption|assumption|].
    assert (GF : fromc = Ret (log_all ((([] ++ ev_log (v_points s) (v_rot s) x) ++ ev_log (v_points s) (v_rot s) x0) ++ d1) s, rot_at (v_rot s) R1 ml, b1, fd, fp)) by exact G1.
    rewrite GF in H. clear G1 GF fromc. cbn [obind] in H.
    destruct (SIDE "to_dir" "to_point" ((([] ++ ev_log (v_points s) (v_rot s) x) ++ ev_log (v_points s) (v_rot s) x0) ++ d1) R1) as (d2 & R2 & b2 & td & tp & G2 & O2 & I2 & B2);
      [right; left; reflexivity| |assumption|assumption|].
    { intros j HJ. destruct (I1 j HJ) as [[<-|[<-|[]]]|[P3|P3]]; split; eapply PN; eauto; discriminate. }
    match type of H with obind ?a _ = _ => set (toc := a) in H end.
    assert (GT : toc = Ret (log_all (((([] ++ ev_log (v_points s) (v_rot s) x) ++ ev_log (v_points s) (v_rot s) x0) ++ d1) ++ d2) s, rot_at (v_rot s) R2 ml, b2, td, tp)) by exact G2.
    rewrite GT in H. clear G2 GT toc. cbn [obind app] in H.
    destruct (fmt_says (dim_msg ps r d) ps r d "%.1f" (log_all (((ev_log ps r x ++ ev_log ps r x0) ++ d1) ++ d2) s) R2 TD) as (dl & GF & FD & FN).
    rewrite K in GF. cbn [word] in GF. fold ml in GF. fold ps r in H. rewrite GF in H. clear GF.
    destruct (fmt_arg "%.1f" (d_meta d)) as [f|] eqn:FA; fold ml in FA; rewrite FA in H.
    2:{ injection H as <- <- <-. rewrite log_all_app. apply says_log; [|discriminate]. fa. }
    rewrite (FN ltac:(congruence)), log_all_nil in H.
    destruct (negb _) eqn:HR.
    { injection H as <- <- <-. apply says_log; [|discriminate]. fa. }
    destruct (ev ps r x) as [v|] eqn:V1; [|discriminate HR]. destruct (ev ps r x0) as [v0|] eqn:V2; [|discriminate HR].
    destruct b1; [|discriminate HR]. destruct b2; [|discriminate HR].
    destruct (B1 eq_refl) as [-> S1]. destruct (B2 eq_refl) as [-> S2].
    rewrite (ev_some_nolog _ _ _ V1), (ev_some_nolog _ _ _ V2) in H. cbn [app] in H. rewrite log_all_nil in H.
    destruct (draw_angle _ _ _ _ _ _ _ _ _) as [s11 okk] eqn:DA. injection H as <- <- <-.
    destruct okk.
    - apply says_same. symmetry in DA. apply draw_angle_draws in DA. destruct DA as (p & Hp & _). rewrite Hp. reflexivity.
    - unfold draw_angle in DA. destruct (neq _ _) eqn:Z; [|discriminate DA]. injection DA as <-. rewrite err_log. apply says_log; [|discriminate].
      constructor; [|constructor]. left. eapply TD_flat; [exact K| |exact S1|exact S2|exact Z].
      apply ev_evaluates. unfold point_arg. fold ml. rewrite AE0. exact V2.
  Qed.
End Msg.
