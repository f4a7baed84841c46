(** P_Say.v - defects of a dimension are reported. *)
From Verif Require Import Base Num Geo Stl StlRead Env Ast Lexer Parser Grammar Ps Draw Main DocSpec ValidSpec MsgSpec SaySpec
  P_Base P_Meta P_Frame P_Dims P_Doc P_Script P_Script2 P_Mark P_Valid P_Value P_Msg P_Msg2.

Local Unset Implicit Arguments.
Local Open Scope string_scope.
Local Open Scope list_scope.
Section Told.
  Context {A : Arith} {E : Env}.
  Definition told (D : diag) (s : vst) : Prop := In D (v_log s).
  Lemma told_keep D dl s : told D s -> told D (log_all dl s).
  Proof. intro H. apply in_or_app. left. exact H. Qed.
  Lemma told_new D dl s : In D dl -> told D (log_all dl s).
  Proof. intro H. apply in_or_app. right. exact H. Qed.
  Lemma told_err D l m s : told D s -> told D (err l m s).
  Proof. rewrite err_log. apply told_keep. Qed.
  Lemma told_rot D i s ml s' ml' b v : get_rotated i (s, ml) = Ret (s', ml', b, v) -> told D s -> told D s'.
  Proof.
    intros H T. unfold get_rotated in H. destruct (check _ _); [|discriminate H]. cbn [obind] in H. destruct (nth_error ml i) as [m|]; [|discriminate H].
    destruct (as_point m) as [p|].
    - destruct (invoke _ _) as [lg [w|]]; injection H as <- _ _ _; apply told_keep, T.
    - injection H as <- _ _ _. apply told_err, T.
  Qed.
  Lemma told_fmt D w dflt p s ml s' o : get_fmt w dflt p (s, ml) = (s', o) -> told D s -> told D s'.
  Proof.
    unfold get_fmt. destruct p as [i|]; [|intro H; injection H as <- _; auto]. destruct (nth_error ml i) as [m|]; [|intro H; injection H as <- _; auto].
    destruct (as_str m); [destruct (pf_ok _)|]; intro H; injection H as <- _; auto using told_err.
  Qed.
  Lemma told_need D l p m s s' b : need l p m s = (s', b) -> told D s -> told D s'.
  Proof. rewrite need_spec. intro H. injection H as <- _. apply told_keep. Qed.
  Definition no_point (x : meta) : diag := DSym (m_loc x) (B "Expected point for '" ++ m_name x ++ B "' got " ++ type_name (mkind (m_val x))).
  Lemma rot_point j x i s ml s' ml' b v : as_point x = None -> nth_error ml j = Some x -> get_rotated i (s, ml) = Ret (s', ml', b, v) ->
    nth_error ml' j = Some x /\ (i = j -> told (no_point x) s').
  Proof.
    intros P N H. unfold get_rotated in H. destruct (check _ _); [|discriminate H]. cbn [obind] in H. destruct (nth_error ml i) as [m|] eqn:NI; [|discriminate H].
    destruct (as_point m) as [p|] eqn:AP.
    - assert (i <> j) by congruence. destruct (invoke _ _) as [lg [w|]]; injection H as _ <- _ _; (split; [rewrite nth_error_set_nth; destruct (Nat.eqb_spec j i); [congruence|exact N]|contradiction]).
    - injection H as <- <- _ _. split; [exact N|]. intros ->. rewrite N in NI. injection NI as <-. rewrite err_log. apply told_new. left. reflexivity.
  Qed.
  Lemma told_draw_angle D l f a b c d e g s s' o : draw_angle l f a b c d e g s = (s', o) -> told D s -> told D s'.
  Proof.
    unfold draw_angle. cbv zeta. destruct (neq _ _); [intro H; injection H as <- _; apply told_err|].
    intros H T. injection H as <- _. exact T.
  Qed.

  (** ** Names *)
  Lemma first_index ml x : first_named ml x -> exists i, index_of (m_name x) (names ml) = Some i /\ nth_error ml i = Some x.
  Proof.
    intros (a & b & -> & N). exists (length a). split; [|rewrite nth_error_app2, Nat.sub_diag by lia; reflexivity].
    induction a as [|y a IH]; cbn [app names map index_of] in *.
    - rewrite bytes_eqb_refl. reflexivity.
    - destruct (bytes_eqb (m_name y) (m_name x)) eqn:Q; [apply bytes_eqb_eq in Q; exfalso; apply N; left; exact Q|].
      unfold names in *. rewrite IH; [reflexivity|]. intro I. apply N. right. exact I.
  Qed.
  Lemma unknown_told k ks m ml x : (forall n, fnd m n = drop ks n (index_of n (names ml))) ->
    (forall s, In s ks -> In s (documented k)) -> unknown_in k ml x -> first_named ml x -> In (DSym (m_loc x) (m_name x)) (list_unknown ml m).
  Proof.
    intros F D [I U] FO. destruct (first_index _ _ FO) as (i & II & NI). specialize (F (m_name x)). rewrite II in F. unfold drop in F.
    destruct (existsb _ ks) eqn:X.
    - exfalso. apply existsb_exists in X. destruct X as (s & Is & Q). apply bytes_eqb_eq in Q. apply U. rewrite Q. apply in_map, D, Is.
    - unfold list_unknown. apply in_flat_map. exists (m_name x, i). split; [|cbn [snd]; rewrite NI; left; reflexivity].
      clear - F. induction m as [|[q w] m IH]; [discriminate F|]. cbn [fnd smap_find] in F. unfold fnd in *. simpl in F.
      destruct (bytes_ltb q (m_name x)) eqn:L1; [right; exact (IH F)|]. destruct (bytes_ltb (m_name x) q) eqn:L2; [discriminate F|].
      left. rewrite (bytes_ltb_tot _ _ L1 L2). injection F as ->. reflexivity.
  Qed.
  Lemma known_only k ks ml : (forall s, In s (documented k) -> In s ks) -> known k ml -> only ks ml.
  Proof.
    intros D K n I. unfold names in I. apply in_map_iff in I. destruct I as (x & <- & I).
    destruct (existsb (bytes_eqb (m_name x)) (map B (documented k))) eqn:X.
    - apply existsb_in in X. apply in_map_iff in X. destruct X as (s & Q & Is). exists s. auto.
    - exfalso. apply (K x). split; [exact I|]. intro J. apply existsb_in in J. congruence.
  Qed.
  Lemma dup_told w ml y : repeats ml y -> In (DSym (m_loc y) (says_duplicate w y)) (dup_diags (B w) [] ml).
  Proof.
    intros (a & x & b & c & -> & Q).
    assert (G : forall u pre, In (m_name y) pre -> In (DSym (m_loc y) (says_duplicate w y)) (dup_diags (B w) pre (u ++ y :: c))).
    { induction u as [|z u IH]; intros pre I; cbn [app dup_diags]; apply in_or_app.
      - left. rewrite (proj2 (existsb_in _ _) I). left. reflexivity.
      - right. apply IH. apply in_or_app. left. exact I. }
    assert (G2 : forall u pre, In (DSym (m_loc y) (says_duplicate w y)) (dup_diags (B w) pre (u ++ x :: b ++ y :: c))).
    { induction u as [|z u IH]; intros pre; cbn [app dup_diags]; apply in_or_app; right; [|apply IH]. apply G. rewrite <- Q. apply in_or_app. right. left. reflexivity. }
    apply G2.
  Qed.
  Lemma need_told l n msg ml : ~ has ml n -> In (DSym l (B msg)) (if is_some (prop n ml) then [] else [DSym l (B msg)]).
  Proof. intro H. destruct (is_some (prop n ml)) eqn:X; [|left; reflexivity]. exfalso. apply H. unfold prop in X. destruct (index_of _ _) as [i|] eqn:I; [|discriminate X].
    apply index_of_some, nth_error_In in I. exact I. Qed.
  Lemma repeats_nodup ml y : repeats ml y -> ~ NoDup (names ml).
  Proof. intros (a & x & b & c & -> & Q) N. unfold names in N. rewrite map_app in N. cbn [map] in N. rewrite map_app in N. cbn [map] in N.
    apply NoDup_remove_2 in N. apply N. apply in_or_app. right. apply in_or_app. right. left. congruence. Qed.
End Told.
Section Dims.
  Context {A : Arith} {E : Env}.
  Local Hint Resolve told_keep told_err told_rot told_fmt told_need told_draw_angle : told.
  Ltac tk nm W F :=
    match goal with
    | H : context [take nm ?m] |- _ =>
        let m' := fresh "m" in let T := fresh "T" in let W' := fresh "W" in let F' := fresh "F" in
        destruct (@take_chain _ nm _ m _ W F eq_refl) as (m' & T & W' & F'); rewrite T in H; clear T
    end.
  Lemma has_prop n ml : has ml n -> exists i, prop n ml = Some i.
  Proof. unfold has, prop. intro I. destruct (index_of (B n) (names ml)) as [i|] eqn:X; [eauto|]. apply index_of_none in X. contradiction. Qed.
  Lemma has_some n ml : has ml n -> is_some (prop n ml) = true.
  Proof. intro H. destruct (has_prop n ml H) as [i ->]. reflexivity. Qed.
  Lemma the_prop ml x n : NoDup (names ml) -> In x ml -> m_name x = B n -> exists j, prop n ml = Some j /\ nth_error ml j = Some x.
  Proof.
    intros N I Q. destruct (arg_prop n ml) as [(i & y & P & Ni & Qy & AE)|[P _]].
    - exists i. split; [exact P|]. rewrite Ni. f_equal. assert (AX : arg n ml = Some x) by (apply arg_unique; assumption). congruence.
    - exfalso. unfold prop in P. apply index_of_none in P. apply P. unfold names. rewrite <- Q. apply in_map, I.
  Qed.
  Lemma sym_cases ps d l m : d_kind d = KDim \/ d_kind d = KAngle -> must_dim ps d l m ->
    (exists y, repeats (d_meta d) y /\ DSym l m = DSym (m_loc y) (says_duplicate (word (BDim (d_kind d))) y)) \/
    (exists x, unknown_in (BDim (d_kind d)) (d_meta d) x /\ first_named (d_meta d) x /\ DSym l m = DSym (m_loc x) (m_name x)) \/
    (known (BDim (d_kind d)) (d_meta d) /\ exists n, In n (mandatory (d_kind d)) /\ ~ has (d_meta d) n /\ DSym l m = DSym (d_loc d) (B "Missing '" ++ B n ++ B "'")) \/
    (known (BDim (d_kind d)) (d_meta d) /\ d_kind d = KAngle /\ exists n nd np, In (n, nd, np) [("from", "from_dir", "from_point"); ("to", "to_dir", "to_point")] /\
       ~ has (d_meta d) nd /\ ~ has (d_meta d) np /\ DSym l m = DSym (d_loc d) (B "Missing '" ++ B n ++ B "_{dir,point}'")) \/
    (exists x, looked_at ps d /\ In x (d_meta d) /\ In (m_name x) (map B (point_names (d_kind d))) /\ as_point x = None /\ DSym l m = no_point x).
  Proof.
    intros K M. assert (NR : ~ round (d_kind d)) by (intros [R|R]; destruct K; congruence). destruct M as [y R|x _ U F|n I H _ N|n nd np KA I H1 H2 N|x L I P V].
    - left. eauto.
    - right; left. eauto.
    - right; right; left. split; [auto|]. eauto.
    - right; right; right; left. rewrite KA. split; [exact N|]. split; [reflexivity|]. exists n, nd, np. auto.
    - right; right; right; right. exists x. split; [exact L|]. split; [exact I|]. split; [exact P|]. split; [|reflexivity]. unfold as_point. destruct (m_val x); try reflexivity. exfalso. exact (V _ eq_refl).
  Qed.
  Lemma dim_must d s s' ml' ok l m : d_kind d = KDim -> visit_dim d s = Ret (s', ml', ok) -> must_dim (v_points s) d l m -> told (DSym l m) s'.
  Proof.
    intros K H M. apply sym_cases in M; [|left; exact K]. rewrite K in M. unfold visit_dim in H. set (ml := d_meta d) in *.
    destruct (flatten_spec "dim" ml) as (m0 & HF & W & F). rewrite HF in H. clear HF. pose proof (nilb_nodup (B "dim") ml) as ND.
    assert (F0 : forall n, fnd m0 n = drop [] n (index_of n (names ml))) by exact F.
    tk "at" W F0. tk "dir" W0 F1. tk "from" W1 F2. tk "to" W2 F3. tk "fmt" W3 F4.
    set (s1 := log_all (dup_diags (B "dim") [] ml) s) in *.
    assert (C1 : forall y, repeats ml y -> told (DSym (m_loc y) (says_duplicate (word (BDim KDim)) y)) s1) by (intros y R; apply told_new, dup_told, R). 
    assert (KN : known (BDim KDim) ml -> m5 = []).
    { intro KN. apply (chain_nil _ _ W4 F5). apply (known_only (BDim KDim)); [|exact KN]. intro k. cbn. tauto. }
    destruct m5 as [|x5 m5].
    2:{ injection H as <- <- <-. destruct M as [(y & R & ->)|[(x & U & FO & ->)|[(KK & _)|[(KK & _)|(x & (_ & _ & L) & _)]]]].
        - apply told_keep, C1, R.
        - apply told_new. right. apply (unknown_told (BDim KDim) _ _ _ _ F5); auto. intro k. cbn. tauto.
        - discriminate (KN KK).
        - discriminate (KN KK).
        - rewrite K in L. discriminate (KN L). }
    rewrite !need_spec in H.
    match type of H with context [log_all ?a (log_all ?b (log_all ?c (log_all ?e s1)))] => set (e1 := e) in *; set (e2 := c) in *; set (e3 := b) in *; set (e4 := a) in * end.
    set (s2 := log_all e4 (log_all e3 (log_all e2 (log_all e1 s1)))) in *.
    assert (C2 : told (DSym l m) s2 \/ exists x, looked_at (v_points s) d /\ In x ml /\ In (m_name x) (map B (point_names KDim)) /\ as_point x = None /\ DSym l m = no_point x).
    { destruct M as [(y & R & ->)|[(x & U & FO & ->)|[(_ & n & I & NH & ->)|[(_ & KK & _)|M]]]]; [left|left|left|congruence|right; exact M].
      - unfold s2. auto 6 with told.
      - exfalso. refine (unknown_told (BDim KDim) _ _ _ _ F5 _ U FO). intro k. cbn. tauto.
      - unfold s2. cbn in I. destruct I as [<-|[<-|[<-|[<-|[]]]]].
        + do 3 apply told_keep. apply told_new. exact (need_told _ "at" "Missing 'at'" _ NH).
        + do 2 apply told_keep. apply told_new. exact (need_told _ "dir" "Missing 'dir'" _ NH).
        + apply told_keep. apply told_new. exact (need_told _ "from" "Missing 'from'" _ NH).
        + apply told_new. exact (need_told _ "to" "Missing 'to'" _ NH). }
    clear M C1 KN. clearbody s2. clear e1 e2 e3 e4.
    destruct (negb _) eqn:HK.
    { injection H as <- <- <-. destruct C2 as [C2|(x & (NDP & HM & _) & _)]; [exact C2|]. exfalso. rewrite K in HM.
      rewrite (proj2 ND NDP), !has_some in HK by (apply HM; cbn; tauto). discriminate HK. }
    destruct (prop "at" ml) as [i1|] eqn:P1; [|discriminate H]. destruct (prop "dir" ml) as [i2|] eqn:P2; [|discriminate H].
    destruct (prop "from" ml) as [i3|] eqn:P3; [|discriminate H]. destruct (prop "to" ml) as [i4|] eqn:P4; [|discriminate H].
    apply obind_ret in H. destruct H as ([[[s3 ml3] r3] v3] & H1 & H). apply obind_ret in H. destruct H as ([[[s4 ml4] r4] v4] & H2 & H).
    apply obind_ret in H. destruct H as ([[[s5 ml5] r5] v5] & H3 & H). apply obind_ret in H. destruct H as ([[[s6 ml6] r6] v6] & H4 & H).
    assert (C3 : told (DSym l m) s6).
    { destruct C2 as [C2|(x & (NDP & _ & _) & I & P & AP & ->)]; [eauto 8 with told|].
      apply in_map_iff in P. destruct P as (n & Q & P). destruct (the_prop ml x n NDP I (eq_sym Q)) as (j & PJ & NJ).
      destruct (rot_point j x _ _ _ _ _ _ _ AP NJ H1) as [N1 T1]. destruct (rot_point j x _ _ _ _ _ _ _ AP N1 H2) as [N2 T2].
      destruct (rot_point j x _ _ _ _ _ _ _ AP N2 H3) as [N3 T3]. destruct (rot_point j x _ _ _ _ _ _ _ AP N3 H4) as [N4 T4].
      cbn in P. destruct P as [<-|[<-|[<-|[<-|[]]]]].
      - assert (i1 = j) by congruence. eauto 8 with told.
      - assert (i2 = j) by congruence. eauto 8 with told.
      - assert (i3 = j) by congruence. eauto 8 with told.
      - assert (i4 = j) by congruence. eauto 8 with told. }
    destruct (eq3 v4 zero3); [injection H as <- _ _; apply told_err, C3|].
    destruct (get_fmt "dim" "%.3f" (prop "fmt" ml) (s6, ml6)) as [s7 fo] eqn:GF. apply (told_fmt (DSym l m)) in GF; [|exact C3].
    clear HK. destruct fo as [f|]; [|injection H as <- _ _; exact GF]. destruct (negb _); injection H as <- _ _; [exact GF|].
    edestruct draw_dim_draws as (p & Hp & _). rewrite Hp. exact GF.
  Qed.
  Lemma circ_must draw d s s' ml' ok l m : round (d_kind d) -> (forall f a b c r s, v_log (draw f a b c r s) = v_log s) ->
    visit_circ (word (BDim (d_kind d))) draw d s = Ret (s', ml', ok) -> must_dim (v_points s) d l m -> told (DSym l m) s'.
  Proof.
    intros K HD H M. unfold visit_circ in H. set (ml := d_meta d) in *. set (w := word (BDim (d_kind d))) in *.
    destruct (flatten_spec w ml) as (m0 & HF & W & F). rewrite HF in H. clear HF. pose proof (nilb_nodup (B w) ml) as ND.
    assert (F0 : forall n, fnd m0 n = drop [] n (index_of n (names ml))) by exact F.
    assert (KM : mandatory (d_kind d) = ["at"; "dir"; "center"]) by (destruct K as [-> | ->]; reflexivity).
    assert (KP : point_names (d_kind d) = ["at"; "dir"; "center"]) by (destruct K as [-> | ->]; reflexivity).
    assert (M' : (exists y, repeats ml y /\ DSym l m = DSym (m_loc y) (says_duplicate w y)) \/
      (NoDup (names ml) /\ exists n, In n ["at"; "dir"; "center"] /\ ~ has ml n /\ DSym l m = DSym (d_loc d) (B "Missing '" ++ B n ++ B "'")) \/
      (exists x, looked_at (v_points s) d /\ In x ml /\ In (m_name x) (map B ["at"; "dir"; "center"]) /\ as_point x = None /\ DSym l m = no_point x)).
    { destruct M as [y R|x NR U FO|n I NH N _|n nd np KA I H1 H2 N|x L I P V].
      - left. eauto.
      - contradiction.
      - right; left. split; [exact (N K)|]. exists n. rewrite <- KM. auto.
      - destruct K; congruence.
      - right; right. exists x. rewrite <- KP. split; [exact L|]. split; [exact I|]. split; [exact P|]. split; [|reflexivity].
        unfold as_point. destruct (m_val x); try reflexivity. exfalso. exact (V _ eq_refl). }
    clear M. set (s1 := log_all (dup_diags (B w) [] ml) s) in *.
    destruct (nilb (dup_diags (B w) [] ml)) eqn:HK; cbn [negb] in H.
    2:{ injection H as <- _ _. destruct M' as [(y & R & ->)|[(N & _)|(x & (N & _ & _) & _)]]; [apply told_new, dup_told, R| |]; apply ND in N; congruence. }
    pose proof (proj1 ND eq_refl) as NDP. clear ND.
    destruct M' as [(y & R & _)|M']; [exfalso; exact (repeats_nodup _ _ R NDP)|].
    assert (PS : v_points s1 = v_points s) by reflexivity. clearbody s1. clear HK.
    apply obind_ret in H. destruct H as ([[[s9 ml9] m9] gc] & GC & H).
    unfold get_center in GC. tk "at" W F0. tk "dir" W0 F1. tk "center" W1 F2.
    rewrite !need_spec in GC.
    match type of GC with context [log_all ?a (log_all ?b (log_all ?c s1))] => set (e1 := c) in *; set (e2 := b) in *; set (e3 := a) in * end.
    set (s2 := log_all e3 (log_all e2 (log_all e1 s1))) in *.
    assert (P2 : v_points s2 = v_points s) by exact PS.
    assert (C2 : told (DSym l m) s2 \/ exists x, looked_at (v_points s) d /\ In x ml /\ In (m_name x) (map B ["at"; "dir"; "center"]) /\ as_point x = None /\ DSym l m = no_point x).
    { destruct M' as [(_ & n & I & NH & ->)|M]; [left|right; exact M].
      unfold s2. cbn in I. destruct I as [<-|[<-|[<-|[]]]].
      - do 2 apply told_keep. apply told_new. exact (need_told _ "at" "Missing 'at'" _ NH).
      - apply told_keep. apply told_new. exact (need_told _ "dir" "Missing 'dir'" _ NH).
      - apply told_new. exact (need_told _ "center" "Missing 'center'" _ NH). }
    clear M'. clearbody s2. clear e1 e2 e3.
    assert (C9 : told (DSym l m) s9).
    { destruct C2 as [C2|(x & (_ & HM & L3) & I & P & AP & ->)].
      - destruct (prop "at" ml) as [i1|] eqn:P1; [|injection GC as <- _ _ _; exact C2]. destruct (prop "dir" ml) as [i3|] eqn:P3; [|injection GC as <- _ _ _; exact C2].
        destruct (prop "center" ml) as [i4|] eqn:P4; [|injection GC as <- _ _ _; exact C2].
        destruct (length (v_points s2) <? 3)%nat; [injection GC as <- _ _ _; apply told_err, C2|].
        apply obind_ret in GC. destruct GC as ([[[s3 ml3] r3] v3] & H1 & GC). apply obind_ret in GC. destruct GC as ([[[s4 ml4] r4] v4] & H2 & GC).
        apply obind_ret in GC. destruct GC as ([[[s5 ml5] r5] v5] & H3 & GC).
        assert (C5 : told (DSym l m) s5) by eauto 8 with told.
        destruct (negb _); [injection GC as <- _ _ _; exact C5|]. destruct (fit_circle _ _) as [[cc rr]|]; injection GC as <- _ _ _; [exact C5|apply told_err, C5].
      - rewrite KM in HM. assert (L3' : 3 <= length (v_points s)) by (destruct K as [K|K]; rewrite K in L3; exact L3).
        destruct (has_prop _ _ (HM "at" ltac:(cbn; tauto))) as [i1 P1]. destruct (has_prop _ _ (HM "dir" ltac:(cbn; tauto))) as [i3 P3]. destruct (has_prop _ _ (HM "center" ltac:(cbn; tauto))) as [i4 P4].
        fold ml in P1, P3, P4. rewrite P1, P3, P4 in GC. destruct (length (v_points s2) <? 3)%nat eqn:LT; [apply Nat.ltb_lt in LT; rewrite P2 in LT; lia|]. clear LT.
        apply obind_ret in GC. destruct GC as ([[[s3 ml3] r3] v3] & H1 & GC). apply obind_ret in GC. destruct GC as ([[[s4 ml4] r4] v4] & H2 & GC).
        apply obind_ret in GC. destruct GC as ([[[s5 ml5] r5] v5] & H3 & GC).
        assert (C5 : told (no_point x) s5).
        { apply in_map_iff in P. destruct P as (n & Q & P). destruct (the_prop ml x n NDP I (eq_sym Q)) as (j & PJ & NJ).
          destruct (rot_point j x _ _ _ _ _ _ _ AP NJ H1) as [N1 T1]. destruct (rot_point j x _ _ _ _ _ _ _ AP N1 H2) as [N2 T2].
          destruct (rot_point j x _ _ _ _ _ _ _ AP N2 H3) as [N3 T3].
          cbn in P. destruct P as [<-|[<-|[<-|[]]]].
          - assert (i1 = j) by congruence. eauto 8 with told.
          - assert (i3 = j) by congruence. eauto 8 with told.
          - assert (i4 = j) by congruence. eauto 8 with told. }
        destruct (negb _); [injection GC as <- _ _ _; exact C5|]. destruct (fit_circle _ _) as [[cc rr]|]; injection GC as <- _ _ _; [exact C5|apply told_err, C5]. }
    clear - H C9 HD. destruct gc as [[[[at_ dir] center] r]|]; [|injection H as <- _ _; exact C9].
    destruct (take "fmt" m9) as [p_fmt m10]. destruct m10 as [|x10 m10]; [|injection H as <- _ _; apply told_keep, C9].
    destruct (get_fmt _ _ p_fmt _) as [s7 fo] eqn:GF. apply (told_fmt (DSym l m)) in GF; [|exact C9].
    destruct fo as [f|]; injection H as <- _ _; [|exact GF]. unfold told. rewrite HD. exact GF.
  Qed.
End Dims.
