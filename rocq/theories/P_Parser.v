(** P_Parser.v - the parser of Parser.v decides the grammar of Grammar.v. *)
From Verif Require Import Base Num Env Ast Lexer Parser Grammar P_Base.

Local Unset Implicit Arguments.

Section Sound.
  Context {A : Arith}.
  Variable file : bytes.
  Variable el : nat.

  Lemma pbind_ok {X Y} (a : pres X) (f : X -> list ltok -> pres Y) v r : pbind a f = POk v r -> exists x t, a = POk x t /\ f x t = POk v r.
  Proof. destruct a as [x t|e]; simpl; intro H; [eauto|discriminate H]. Qed.
  Lemma fail_ok {X} ts (v : X) r : @fail A el X ts = POk v r -> False.
  Proof. unfold fail. intro H. discriminate H. Qed.
  Lemma punct_ok c ts l r : punct el c ts = POk l r -> ts = LTok l (TP c) :: r.
  Proof. unfold punct. destruct ts as [|[k t] ts]; [intro H; destruct (fail_ok _ _ _ H)|]. destruct t; try (intro H; destruct (fail_ok _ _ _ H)). destruct (byte_eqb_spec c c0) as [<-|]; [|intro H; destruct (fail_ok _ _ _ H)]. intro H; injection H as -> ->. reflexivity. Qed.
  Lemma pnum_ok ts x r : pnum el ts = POk x r -> exists l, ts = LTok l (TNum x) :: r.
  Proof. unfold pnum. destruct ts as [|[k t] ts]; [intro H; destruct (fail_ok _ _ _ H)|]. destruct t; try (intro H; destruct (fail_ok _ _ _ H)). intro H; injection H as -> ->. eauto. Qed.

  Ltac inv1 := match goal with
    | H : pbind _ _ = POk _ _ |- _ => let x := fresh "x" in let t := fresh "t" in let K := fresh "K" in apply pbind_ok in H; destruct H as (x & t & K & H)
    | H : punct _ _ _ = POk _ _ |- _ => apply punct_ok in H; subst
    | H : pnum _ _ = POk _ _ |- _ => let l := fresh "l" in apply pnum_ok in H; destruct H as [l H]; subst
    | H : fail _ _ = POk _ _ |- _ => destruct (fail_ok _ _ _ H)
    | H : POk _ _ = POk _ _ |- _ => injection H; clear H; intros; subst
    | H : LTok _ _ :: _ = LTok _ _ :: _ |- _ => injection H; clear H; intros; subst
    | H : PFail _ = POk _ _ |- _ => discriminate H
    end.
  Ltac inv := repeat inv1.

  Lemma location_sound ts v r : parse_location el ts = POk v r -> exists pre, ts = pre ++ r /\ g_location pre v.
  Proof. unfold parse_location. intro H. inv. eexists [_; _; _; _; _]. split; [reflexivity|]. constructor. Qed.
  Lemma point_sound : forall n ts v r, length ts <= n -> parse_point file el ts = POk v r -> exists pre, ts = pre ++ r /\ g_point file pre v.
  Proof.
    induction n as [|n IH]; intros ts v r L H; (destruct ts as [|[l t] ts]; [cbn in H; inv|]); [simpl in L; lia|].
    cbn [parse_point] in H. destruct t; inv.
    - destruct (byte_eqb_spec c "["); inv. subst. eexists [_; _; _; _; _; _; _]. split; [reflexivity|]. constructor.
    - destruct ts as [|[lp t] ts]; inv. destruct t; inv. destruct (byte_eqb_spec c "("); inv. apply IH in K; [|simpl in L; lia]. destruct K as (pre & -> & K).
      eexists (_ :: _ :: pre ++ [_]). split; [simpl; rewrite <- app_assoc; reflexivity|]. apply gp_func. exact K.
  Qed.
  Lemma more_str_sound : forall ts pre u w r, g_string pre u -> parse_more_str u ts = (w, r) -> exists mid, ts = mid ++ r /\ g_string (pre ++ mid) w.
  Proof.
    induction ts as [|[l t] ts IH]; intros pre u w r G H; cbn [parse_more_str] in H.
    - injection H as <- <-. exists []. split; [reflexivity|rewrite app_nil_r; exact G].
    - destruct t; try (injection H as <- <-; exists []; split; [reflexivity|rewrite app_nil_r; exact G]).
      apply (IH (pre ++ [LTok l (TStr s)])) in H; [|constructor; exact G]. destruct H as (mid & -> & H). exists (LTok l (TStr s) :: mid). split; [reflexivity|]. rewrite <- app_assoc in H. exact H.
  Qed.
  Lemma string_sound ts v r : parse_string_lit el ts = POk v r -> exists pre, ts = pre ++ r /\ g_string pre v.
  Proof.
    unfold parse_string_lit. intro H. destruct ts as [|[l t] ts]; inv. destruct t; inv. destruct (parse_more_str s ts) as [w r'] eqn:M. inv.
    apply (more_str_sound _ [LTok l (TStr s)]) in M; [|constructor]. destruct M as (mid & -> & M). exists (LTok l (TStr s) :: mid). auto.
  Qed.
  Lemma value_sound ts v r : parse_value file el ts = POk v r -> exists pre, ts = pre ++ r /\ g_value file pre v.
  Proof.
    unfold parse_value. intro H. destruct ts as [|[l t] ts]; inv. destruct t; inv.
    - destruct (byte_eqb_spec c "["); inv. subst. destruct t1 as [|[lz k] t1]; inv. destruct k; inv. destruct (byte_eqb_spec c "]"); inv.
      + subst. eexists [_; _; _; _; _]. split; [reflexivity|]. apply gv_loc. constructor.
      + destruct (byte_eqb_spec c ","); inv. subst. eexists [_; _; _; _; _; _; _]. split; [reflexivity|]. apply gv_point. constructor.
    - apply (point_sound _ _ _ _ (le_n _)) in K. destruct K as (pre & -> & K). exists pre. split; [reflexivity|]. apply gv_point. exact K.
    - assert (N : POk (MNum f) ts = POk v r -> exists pre, LTok l (TNum f) :: ts = pre ++ r /\ g_value file pre v).
      { intro Q. inv. eexists [_]. split; [reflexivity|]. constructor. }
      destruct ts as [|[l1 k] ts]; [auto|]. destruct k; auto. destruct (byte_eqb_spec c ":"); [|auto]. inv. unfold mk_scale in H. destruct (to_int f) eqn:E1; inv. destruct (to_int x) eqn:E2; inv.
      eexists [_; _; _]. split; [reflexivity|]. constructor; assumption.
    - apply string_sound in K. destruct K as (pre & -> & K). exists pre. split; [reflexivity|]. apply gv_str. exact K.
  Qed.
  Lemma arg_sound ts v r : parse_arg file el ts = POk v r -> exists pre, ts = pre ++ r /\ g_arg file pre v.
  Proof.
    unfold parse_arg. intro H. destruct ts as [|[l t] ts]; inv. destruct t; inv.
    - destruct (byte_eqb_spec c "@"); inv. subst. apply location_sound in K. destruct K as (pre & -> & K). exists (LTok l (TP "@") :: pre). split; [reflexivity|]. constructor. exact K.
    - apply value_sound in K0. destruct K0 as (pre & -> & K). eexists (_ :: _ :: pre). split; [reflexivity|]. constructor. exact K.
  Qed.
  Lemma arg_semi_sound ts v r : parse_arg_semi file el ts = POk v r -> exists pre l, ts = pre ++ LTok l (TP ";") :: r /\ g_arg file pre v.
  Proof. unfold parse_arg_semi. intro H. inv. apply arg_sound in K. destruct K as (pre & -> & K). eauto. Qed.
  Lemma more_args_sound : forall fuel ts pre acc ml r, g_dim_parts file pre acc -> parse_more_args file el fuel acc ts = POk ml r -> exists mid, ts = mid ++ r /\ g_dim_parts file (pre ++ mid) ml.
  Proof.
    induction fuel as [|fuel IH]; intros ts pre acc ml r G H; cbn [parse_more_args] in H; inv.
    assert (N : POk acc ts = POk ml r -> exists mid, ts = mid ++ r /\ g_dim_parts file (pre ++ mid) ml).
    { intro Q. inv. exists []. split; [reflexivity|rewrite app_nil_r; exact G]. }
    destruct ts as [|[l t] ts]; [auto|]. destruct t; auto. destruct (byte_eqb_spec c ","); [|auto]. subst. inv. apply arg_sound in K. destruct K as (us & -> & K).
    apply (IH t (pre ++ LTok l (TP ",") :: us)) in H; [|apply gd_more; assumption]. destruct H as (mid & -> & H). exists (LTok l (TP ",") :: us ++ mid). split; [simpl; rewrite <- app_assoc; reflexivity|].
    rewrite <- app_assoc in H. exact H.
  Qed.
  Lemma dim_args_sound fuel ts m r : parse_dim_args file el fuel ts = POk m r ->
    exists b c d us, ts = LTok b (TP "(") :: us ++ LTok c (TP ")") :: LTok d (TP ";") :: r /\ (us = [] /\ m = [] \/ g_dim_parts file us m).
  Proof.
    unfold parse_dim_args. intro H. inv. cbv zeta in H.
    assert (ARGS : forall t0, pbind (parse_arg file el t0) (fun a t1 => pbind (parse_more_args file el fuel [a] t1)
        (fun ml t => pbind (punct el ")" t) (fun _ t2 => pbind (punct el ";" t2) (fun _ t3 => POk ml t3)))) = POk m r ->
      exists c d us, t0 = us ++ LTok c (TP ")") :: LTok d (TP ";") :: r /\ g_dim_parts file us m).
    { intros t0 Q. inv. apply arg_sound in K. destruct K as (us & -> & K). apply (more_args_sound _ _ us) in K0; [|constructor; exact K]. destruct K0 as (mid & -> & K0).
      eexists _, _, (us ++ mid). split; [rewrite <- app_assoc; reflexivity|exact K0]. }
    assert (FIN : pbind (parse_arg file el t) (fun a t1 => pbind (parse_more_args file el fuel [a] t1)
        (fun ml t => pbind (punct el ")" t) (fun _ t2 => pbind (punct el ";" t2) (fun _ t3 => POk ml t3)))) = POk m r ->
      exists b c d us, LTok x (TP "(") :: t = LTok b (TP "(") :: us ++ LTok c (TP ")") :: LTok d (TP ";") :: r /\ (us = [] /\ m = [] \/ g_dim_parts file us m)).
    { intro Q. destruct (ARGS _ Q) as (c & d & us & -> & G). eexists x, c, d, us. auto. }
    destruct t as [|[l k] t]; [auto|]. destruct k; auto. destruct (byte_eqb_spec c ")"); [|auto]. inv. eexists _, _, _, []. split; [reflexivity|]. auto.
  Qed.
  Lemma dim_kw_iff n k : dkind_of_kw n = Some k <-> g_dim_kw n k.
  Proof.
    split.
    - destruct n as [|[|[|[|[|[|[|n]]]]]]]; simpl; intro H; try discriminate; injection H as <-; constructor.
    - intros []; reflexivity.
  Qed.
  Lemma draw_parts_sound : forall fuel ts pre ml ds v r, g_draw_parts file pre (ml, ds) -> parse_draw_parts file el fuel ml ds ts = POk v r ->
    exists mid l, ts = mid ++ LTok l (TP "}") :: r /\ g_draw_parts file (pre ++ mid) v.
  Proof.
    induction fuel as [|fuel IH]; intros ts pre ml ds v r G H; cbn [parse_draw_parts] in H; inv.
    assert (N : pbind (parse_arg_semi file el ts) (fun a t => parse_draw_parts file el fuel (ml ++ [a]) ds t) = POk v r -> exists mid l, ts = mid ++ LTok l (TP "}") :: r /\ g_draw_parts file (pre ++ mid) v).
    { intro Q. inv. apply arg_semi_sound in K. destruct K as (us & l & -> & K). apply (IH t (pre ++ us ++ [LTok l (TP ";")])) in Q; [|constructor; assumption]. destruct Q as (mid & l' & -> & Q).
      exists (us ++ LTok l (TP ";") :: mid), l'. split; [rewrite <- app_assoc; reflexivity|]. rewrite <- !app_assoc in Q. exact Q. }
    destruct ts as [|[l k] ts]; [auto|]. destruct k; auto.
    - destruct (byte_eqb_spec c "}"); [|auto]. inv. exists [], l. split; [reflexivity|rewrite app_nil_r; exact G].
    - destruct (dkind_of_kw n) as [k|] eqn:DK; inv. apply dim_kw_iff in DK. apply dim_args_sound in K. destruct K as (b & c & d & us & -> & [[-> ->]|K]).
      + apply (IH t (pre ++ [LTok l (TKw n); LTok b (TP "("); LTok c (TP ")"); LTok d (TP ";")])) in H; [|constructor; assumption]. destruct H as (mid & l' & -> & H).
        eexists (_ :: _ :: _ :: _ :: mid), l'. split; [reflexivity|]. rewrite <- app_assoc in H. exact H.
      + apply (IH t (pre ++ LTok l (TKw n) :: LTok b (TP "(") :: us ++ [LTok c (TP ")"); LTok d (TP ";")])) in H; [|constructor; assumption]. destruct H as (mid & l' & -> & H).
        exists (LTok l (TKw n) :: LTok b (TP "(") :: us ++ LTok c (TP ")") :: LTok d (TP ";") :: mid), l'. split; [simpl; rewrite <- app_assoc; reflexivity|]. rewrite <- app_assoc in H. simpl in H. rewrite <- app_assoc in H. exact H.
  Qed.
  Lemma text_parts_sound : forall fuel ts pre ml v r, g_text_parts file pre ml -> parse_text_parts file el fuel ml ts = POk v r ->
    exists mid l, ts = mid ++ LTok l (TP "}") :: r /\ g_text_parts file (pre ++ mid) v.
  Proof.
    induction fuel as [|fuel IH]; intros ts pre ml v r G H; cbn [parse_text_parts] in H; inv.
    assert (N : pbind (parse_arg_semi file el ts) (fun a t => parse_text_parts file el fuel (ml ++ [a]) t) = POk v r -> exists mid l, ts = mid ++ LTok l (TP "}") :: r /\ g_text_parts file (pre ++ mid) v).
    { intro Q. inv. apply arg_semi_sound in K. destruct K as (us & l & -> & K). apply (IH t (pre ++ us ++ [LTok l (TP ";")])) in Q; [|constructor; assumption]. destruct Q as (mid & l' & -> & Q).
      exists (us ++ LTok l (TP ";") :: mid), l'. split; [rewrite <- app_assoc; reflexivity|]. rewrite <- !app_assoc in Q. exact Q. }
    destruct ts as [|[l k] ts]; [auto|]. destruct k; auto.
    destruct (byte_eqb_spec c "}"); [|auto]. inv. exists [], l. split; [reflexivity|rewrite app_nil_r; exact G].
  Qed.
  Lemma page_parts_sound : forall fuel ts pre ml ds v r, g_page_parts file pre (ml, ds) -> parse_page_parts file el fuel ml ds ts = POk v r ->
    exists mid l, ts = mid ++ LTok l (TP "}") :: r /\ g_page_parts file (pre ++ mid) v.
  Proof.
    induction fuel as [|fuel IH]; intros ts pre ml ds v r G H; cbn [parse_page_parts] in H; inv.
    assert (N : pbind (parse_arg_semi file el ts) (fun a t => parse_page_parts file el fuel (ml ++ [a]) ds t) = POk v r -> exists mid l, ts = mid ++ LTok l (TP "}") :: r /\ g_page_parts file (pre ++ mid) v).
    { intro Q. inv. apply arg_semi_sound in K. destruct K as (us & l & -> & K). apply (IH t (pre ++ us ++ [LTok l (TP ";")])) in Q; [|constructor; assumption]. destruct Q as (mid & l' & -> & Q).
      exists (us ++ LTok l (TP ";") :: mid), l'. split; [rewrite <- app_assoc; reflexivity|]. rewrite <- !app_assoc in Q. exact Q. }
    destruct ts as [|[l k] ts]; [auto|]. destruct k; auto.
    - destruct (byte_eqb_spec c "}"); [|auto]. inv. exists [], l. split; [reflexivity|rewrite app_nil_r; exact G].
    - destruct (Nat.eq_dec n 3) as [->|N3]; [|destruct (Nat.eq_dec n 7) as [->|N7]].
      + destruct ts as [|[b k] ts]; inv. destruct k; inv. destruct x0 as [m dm]. apply (draw_parts_sound _ _ []) in K0; [|constructor]. destruct K0 as (us & d & -> & K). cbn [app fst snd] in *.
        apply (IH t0 (pre ++ LTok l (TKw 3) :: LTok b (TId s) :: LTok x (TP "{") :: us ++ [LTok d (TP "}")])) in H; [|constructor; assumption]. destruct H as (mid & l' & -> & H).
        exists (LTok l (TKw 3) :: LTok b (TId s) :: LTok x (TP "{") :: us ++ LTok d (TP "}") :: mid), l'. split; [simpl; rewrite <- app_assoc; reflexivity|]. rewrite <- app_assoc in H. simpl in H. rewrite <- app_assoc in H. exact H.
      + inv. apply string_sound in K0. destruct K0 as (us & E1 & K0). apply (text_parts_sound _ _ []) in K3; [|constructor]. destruct K3 as (ws & e & -> & K3). cbn [app] in *. subst.
        eapply (IH _ (pre ++ LTok l (TKw 7) :: LTok x (TP "[") :: us ++ LTok x1 (TP "]") :: LTok x2 (TP "{") :: ws ++ [LTok e (TP "}")])) in H; [|constructor; assumption]. destruct H as (mid & l' & -> & H).
        exists (LTok l (TKw 7) :: LTok x (TP "[") :: us ++ LTok x1 (TP "]") :: LTok x2 (TP "{") :: ws ++ LTok e (TP "}") :: mid), l'.
        split; [simpl; rewrite <- !app_assoc; simpl; rewrite <- app_assoc; reflexivity|]. rewrite <- app_assoc in H. simpl in H. rewrite <- app_assoc in H. simpl in H. rewrite <- app_assoc in H. exact H.
      + do 8 (destruct n as [|n]; [solve [auto|lia]|]). auto.
  Qed.
  Lemma input_sound : forall fuel ts pre d d', g_input file pre d -> parse_input file el fuel d ts = (d', None) -> g_input file (pre ++ ts) d'.
  Proof.
    induction fuel as [|fuel IH]; intros ts pre d d' G H; cbn [parse_input] in H; [discriminate H|].
    destruct ts as [|[l k] ts]; [injection H as <-; rewrite app_nil_r; exact G|]. destruct d as [ms ps].
    assert (N : (Doc ms ps, Some (stop el (LTok l k :: ts))) = (d', None) -> g_input file (pre ++ LTok l k :: ts) d') by (intro Q; discriminate Q).
    destruct k; auto. destruct (Nat.eq_dec n 4) as [->|N3]; [|destruct (Nat.eq_dec n 5) as [->|N7]].
    - destruct (parse_model file el (LTok l (TKw 4) :: ts)) as [m r|] eqn:PM; [|discriminate H]. unfold parse_model in PM. destruct ts as [|[b k] ts]; inv. destruct k; inv. destruct t as [|[d k] t]; inv. destruct k; inv.
      eapply (IH _ (pre ++ [_; _; _; _; _])) in H; [|constructor; exact G]. rewrite <- app_assoc in H. exact H.
    - destruct (parse_page file el fuel (LTok l (TKw 5) :: ts)) as [p r|] eqn:PM; [|discriminate H]. unfold parse_page in PM. inv. destruct x0 as [ml ds]. apply (page_parts_sound _ _ []) in K0; [|constructor]. destruct K0 as (us & e & -> & K). cbn [app fst snd] in *.
      eapply (IH _ (pre ++ LTok l (TKw 5) :: LTok x (TP "{") :: us ++ [LTok e (TP "}")])) in H; [|constructor; eassumption]. rewrite <- app_assoc in H. simpl in H. rewrite <- app_assoc in H. exact H.
    - do 8 (destruct n as [|n]; [solve [auto|lia]|]). auto.
  Qed.
End Sound.
