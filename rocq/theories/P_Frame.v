(** P_Frame.v - a visit only appends to the page and the log, and reads
    neither: prefixing both commutes with every visit. *)
From Verif Require Import Base Num Geo Stl StlRead Env Ast Ps Draw P_Base P_Meta.

Section Frame.
  Context {A : Arith} {E : Env}.

  (** One page's content followed by another's. *)
  Definition papp (a b : opage) : opage :=
    OPage (o_lines a ++ o_lines b) (o_arcs a ++ o_arcs b) (o_text a ++ o_text b).
  Definition shift (pg : opage) (lg : list diag) (s : vst) : vst :=
    Vst (v_points s) (v_rot s) (v_scale s) (v_d s) (papp pg (v_page s)) (lg ++ v_log s).

  Lemma papp_empty p : papp p opage_empty = p.
  Proof. destruct p; unfold papp; simpl. rewrite !app_nil_r. reflexivity. Qed.
  Lemma papp_assoc a b c : papp a (papp b c) = papp (papp a b) c.
  Proof. unfold papp; simpl. rewrite !app_assoc. reflexivity. Qed.

  Context (pg : opage) (lg0 : list diag).
  Notation sh := (shift pg lg0).

  Lemma sh_log_all ds s : log_all ds (sh s) = sh (log_all ds s).
  Proof. unfold log_all, shift; simpl. rewrite app_assoc. reflexivity. Qed.
  Lemma sh_err l m s : err l m (sh s) = sh (err l m s).
  Proof. unfold err, say, shift; simpl. rewrite app_assoc. reflexivity. Qed.
  Lemma sh_unexpected w l ml m s : unexpected w l ml m (sh s) = sh (unexpected w l ml m s).
  Proof. apply sh_log_all. Qed.
  Lemma sh_add_lines ls s : add_lines ls (sh s) = sh (add_lines ls s).
  Proof. unfold add_lines, set_page, shift, papp; simpl. rewrite app_assoc. reflexivity. Qed.
  Lemma sh_add_arcs ls s : add_arcs ls (sh s) = sh (add_arcs ls s).
  Proof. unfold add_arcs, set_page, shift, papp; simpl. rewrite app_assoc. reflexivity. Qed.
  Lemma sh_add_text ls s : add_text ls (sh s) = sh (add_text ls s).
  Proof. unfold add_text, set_page, shift, papp; simpl. rewrite app_assoc. reflexivity. Qed.

  Definition sh1 {X} (r : vst * X) : vst * X := let '(s, x) := r in (sh s, x).
  Definition osh2 {X Y} (r : outcome (vst * X * Y)) : outcome (vst * X * Y) :=
    do! '(s, x, y) <- r; Ret (sh s, x, y).
  Definition osh3 {X Y Z} (r : outcome (vst * X * Y * Z)) : outcome (vst * X * Y * Z) :=
    do! '(s, x, y, z) <- r; Ret (sh s, x, y, z).

  Lemma sh_need l p m s : need l p m (sh s) = sh1 (need l p m s).
  Proof. destruct p; simpl; [reflexivity|]. rewrite sh_err. reflexivity. Qed.

  Lemma sh_get_rotated i s ml : get_rotated i (sh s, ml) = osh3 (get_rotated i (s, ml)).
  Proof.
    unfold get_rotated. change (v_rot (sh s)) with (v_rot s).
    destruct (check _ _); [|reflexivity]. simpl. destruct (nth_error ml i) as [m|]; [|reflexivity].
    destruct (as_point m) as [p|]; simpl.
    - destruct (invoke _ _) as [lg [v|]]; simpl; rewrite sh_log_all; reflexivity.
    - rewrite sh_err. reflexivity.
  Qed.

  Lemma sh_get_fmt w d p s ml : get_fmt w d p (sh s, ml) = sh1 (get_fmt w d p (s, ml)).
  Proof.
    unfold get_fmt. destruct p as [i|]; [|reflexivity]. destruct (nth_error ml i) as [m|]; [|reflexivity].
    destruct (as_str m) as [f|]; [destruct (pf_ok f); [reflexivity|]|]; simpl; rewrite sh_err; reflexivity.
  Qed.

  Lemma sh_draw_angle l f a b c d e g s : draw_angle l f a b c d e g (sh s) = sh1 (draw_angle l f a b c d e g s).
  Proof.
    unfold draw_angle. cbv zeta. destruct (neq _ _); simpl; [rewrite sh_err; reflexivity|].
    rewrite sh_add_lines, sh_add_arcs, sh_add_text. reflexivity.
  Qed.
  Lemma sh_draw_dia f a b c d s : draw_dia f a b c d (sh s) = sh (draw_dia f a b c d s).
  Proof.
    unfold draw_dia. cbv zeta. destruct (ngt _ _); rewrite !sh_add_lines, sh_add_text; reflexivity.
  Qed.
  Lemma sh_draw_rad f a b c d s : draw_rad f a b c d (sh s) = sh (draw_rad f a b c d s).
  Proof.
    unfold draw_rad. cbv zeta. destruct (ngt _ _); rewrite !sh_add_lines, sh_add_text; reflexivity.
  Qed.
  Lemma sh_draw_dim f a b c d s : draw_dim f a b c d (sh s) = sh (draw_dim f a b c d s).
  Proof.
    unfold draw_dim. cbv zeta. change (v_scale (sh s)) with (v_scale s).
    match goal with |- context [if ?c then add_lines _ _ else _] => destruct c end;
      rewrite sh_add_text, !sh_add_lines; reflexivity.
  Qed.

  (** Rewrite the first call of get_rotated and split on its result. *)
  Ltac step_rot :=
    match goal with
    | |- context [get_rotated ?i (sh ?s, ?ml)] =>
        rewrite (sh_get_rotated i s ml);
        let s' := fresh "s" in let ml' := fresh "ml" in let r := fresh "r" in let v := fresh "v" in
        destruct (get_rotated i (s, ml)) as [[[[s' ml'] r] v]|]; [cbn [obind osh3]|reflexivity]
    end.
  Ltac step_need :=
    match goal with
    | |- context [need ?l ?p ?m (sh ?s)] =>
        rewrite (sh_need l p m s);
        let s' := fresh "s" in let k := fresh "k" in
        destruct (need l p m s) as [s' k]; cbn [sh1]
    end.
  Ltac step_fmt :=
    match goal with
    | |- context [get_fmt ?w ?d ?p (sh ?s, ?ml)] =>
        rewrite (sh_get_fmt w d p s ml);
        let s' := fresh "s" in let f := fresh "f" in
        destruct (get_fmt w d p (s, ml)) as [s' [f|]]; cbn [sh1]
    end.

  Lemma sh_visit_dim d s : visit_dim d (sh s) = osh2 (visit_dim d s).
  Proof.
    unfold visit_dim. destruct (flatten _ _) as [[ok0 m0] lg]. rewrite sh_log_all.
    destruct (take "at" m0) as [p1 m1], (take "dir" m1) as [p2 m2], (take "from" m2) as [p3 m3_],
      (take "to" m3_) as [p4 m4], (take "fmt" m4) as [p5 m5].
    destruct m5 as [|x m5]; [|simpl; rewrite sh_unexpected; reflexivity].
    do 4 step_need. destruct (negb _); [reflexivity|].
    destruct p1 as [i1|]; [|reflexivity]. destruct p2 as [i2|]; [|reflexivity].
    destruct p3 as [i3|]; [|reflexivity]. destruct p4 as [i4|]; [|reflexivity].
    do 4 step_rot. destruct (eq3 _ _); [simpl; rewrite sh_err; reflexivity|].
    step_fmt; [|reflexivity]. destruct (negb _); [reflexivity|].
    simpl. rewrite sh_draw_dim. reflexivity.
  Qed.

  Lemma sh_visit_angle d s : visit_angle d (sh s) = osh2 (visit_angle d s).
  Proof.
    unfold visit_angle. destruct (flatten _ _) as [[ok0 m0] lg]. rewrite sh_log_all.
    destruct (take "at" m0) as [p1 m1], (take "apex" m1) as [p2 m2], (take "from_dir" m2) as [p3 m3_],
      (take "from_point" m3_) as [p4 m4], (take "to_dir" m4) as [p5 m5], (take "to_point" m5) as [p6 m6],
      (take "fmt" m6) as [p7 m7].
    destruct m7 as [|x m7]; [|simpl; rewrite sh_unexpected; reflexivity].
    do 2 step_need.
    match goal with |- context [if is_some p3 then (sh ?s, true) else _] =>
      assert (H3 : (if is_some p3 then (sh s, true) else need (d_loc d) p4 "Missing 'from_{dir,point}'" (sh s)) =
         sh1 (if is_some p3 then (s, true) else need (d_loc d) p4 "Missing 'from_{dir,point}'" s))
        by (destruct (is_some p3); [reflexivity|apply sh_need]); rewrite H3; clear H3 end.
    match goal with |- context [sh1 ?x] => destruct x as [s3 k3]; cbn [sh1] end.
    match goal with |- context [if is_some p5 then (sh ?s, true) else _] =>
      assert (H3 : (if is_some p5 then (sh s, true) else need (d_loc d) p6 "Missing 'to_{dir,point}'" (sh s)) =
         sh1 (if is_some p5 then (s, true) else need (d_loc d) p6 "Missing 'to_{dir,point}'" s))
        by (destruct (is_some p5); [reflexivity|apply sh_need]); rewrite H3; clear H3 end.
    match goal with |- context [sh1 ?x] => destruct x as [s4 k4]; cbn [sh1] end.
    destruct (negb _); [reflexivity|].
    assert (HE : forall (o : option nat) (b : bool) m s,
               match o with Some i => if b then err (mloc (d_meta d) i) m (sh s) else sh s | None => sh s end =
               sh match o with Some i => if b then err (mloc (d_meta d) i) m s else s | None => s end).
    { intros [i|] [] m s00; rewrite ?sh_err; reflexivity. }
    rewrite !HE. destruct (_ || _); [reflexivity|].
    destruct p1 as [i1|]; [|reflexivity]. destruct p2 as [i2|]; [|reflexivity].
    do 2 step_rot.
    destruct p3 as [i3|]; [|destruct p4 as [i4|]; [|reflexivity]]; step_rot;
      (destruct p5 as [i5|]; [|destruct p6 as [i6|]; [|reflexivity]]); step_rot;
      (step_fmt; [|reflexivity]); (destruct (negb _); [reflexivity|]);
      rewrite sh_draw_angle; match goal with |- context [sh1 ?x] => destruct x end; reflexivity.
  Qed.

  Lemma sh_get_center l m s ml : get_center l m (sh s, ml) = osh3 (get_center l m (s, ml)).
  Proof.
    unfold get_center.
    destruct (take "at" m) as [p1 m1], (take "dir" m1) as [p2 m2], (take "center" m2) as [p3 m3_].
    do 3 step_need.
    destruct p1 as [i1|]; [|reflexivity]. destruct p2 as [i2|]; [|reflexivity]. destruct p3 as [i3|]; [|reflexivity].
    match goal with |- context [v_points (sh ?s)] => change (v_points (sh s)) with (v_points s) end.
    destruct (_ <? _); [simpl; rewrite sh_err; reflexivity|].
    do 3 step_rot. destruct (negb _); [reflexivity|].
    match goal with |- context [v_points (sh ?s)] => change (v_points (sh s)) with (v_points s) end.
    destruct (fit_circle _ _) as [[c r2]|]; [reflexivity|]. simpl. rewrite sh_err. reflexivity.
  Qed.

  Lemma sh_visit_circ what draw d s :
    (forall f a b c r s, draw f a b c r (sh s) = sh (draw f a b c r s)) ->
    visit_circ what draw d (sh s) = osh2 (visit_circ what draw d s).
  Proof.
    intro HD. unfold visit_circ. destruct (flatten _ _) as [[ok0 m0] lg]. rewrite sh_log_all.
    destruct ok0; [|reflexivity]. cbn [negb]. rewrite sh_get_center.
    destruct (get_center _ _ _) as [[[[s1 ml1] m1] [[[[at_ dir] c] r]|]]|]; [|reflexivity|reflexivity].
    cbn [obind osh3]. destruct (take "fmt" m1) as [p m2]. destruct m2; [|simpl; rewrite sh_unexpected; reflexivity].
    step_fmt; [|reflexivity]. rewrite HD. reflexivity.
  Qed.

  Lemma sh_visit_base_dim d s : visit_base_dim d (sh s) = osh2 (visit_base_dim d s).
  Proof.
    unfold visit_base_dim. destruct (d_kind d).
    - rewrite sh_visit_angle. destruct (visit_angle d s) as [[[s1 ml1] r]|]; reflexivity.
    - unfold visit_dia. rewrite sh_visit_circ by (intros; apply sh_draw_dia).
      destruct (visit_circ _ _ d s) as [[[s1 ml1] r]|]; reflexivity.
    - rewrite sh_visit_dim. destruct (visit_dim d s) as [[[s1 ml1] r]|]; reflexivity.
    - unfold visit_rad. rewrite sh_visit_circ by (intros; apply sh_draw_rad).
      destruct (visit_circ _ _ d s) as [[[s1 ml1] r]|]; reflexivity.
  Qed.
  Lemma sh_visit_dims ds : forall s, visit_dims ds (sh s) = osh2 (visit_dims ds s).
  Proof.
    induction ds as [|d ds IH]; intro s; cbn [visit_dims]; [reflexivity|].
    rewrite sh_visit_base_dim. destruct (visit_base_dim d s) as [[[s1 d'] r]|]; [|reflexivity].
    cbn [obind osh2]. rewrite IH. destruct (visit_dims ds s1) as [[[s2 t'] r2]|]; reflexivity.
  Qed.
  Lemma sh_add_dims f ds rot s : add_dims f ds rot (sh s) = osh2 (add_dims f ds rot s).
  Proof. unfold add_dims. destruct (strict_weak _ _); [|reflexivity]. rewrite <- sh_visit_dims. reflexivity. Qed.

  Lemma sh_get_scale ml p s : get_scale ml p (sh s) = sh1 (get_scale ml p s).
  Proof.
    unfold get_scale. destruct p as [i|]; [|reflexivity]. destruct (nth_error ml i) as [m|]; [|reflexivity].
    destruct (as_scale m); [reflexivity|]. simpl; rewrite sh_err; reflexivity.
  Qed.
  Lemma sh_get_view ml p s : get_view ml p (sh s) = sh1 (get_view ml p s).
  Proof.
    unfold get_view. destruct p as [i|]; [|reflexivity]. destruct (nth_error ml i) as [m|]; [|reflexivity].
    destruct (as_loc m); [reflexivity|]. destruct (as_str m); [|simpl; rewrite sh_err; reflexivity].
    destruct (matrix_by_name _); [reflexivity|]. simpl; rewrite sh_err; reflexivity.
  Qed.
End Frame.

Section Indep.
  Context {A : Arith} {E : Env}.

  (** Reset of the state a visit may read: everything but page and log. *)
  Definition blank : vst := vst_init.

  Lemma draw_indep files l n ml ds :
    (exists e, forall s, visit_draw files l n ml ds s = Abort e) \/
    (exists dp dl ds' ok, forall s, exists s',
        visit_draw files l n ml ds s = Ret (s', ds', ok) /\
        v_page s' = papp (v_page s) dp /\ v_log s' = v_log s ++ dl).
  Proof.
    unfold visit_draw. destruct (flatten "draw" ml) as [[ok0 m0] lg].
    destruct ok0; cbn [negb].
    2:{ right. exists opage_empty, lg, ds, false. intro s. eexists. split; [reflexivity|].
        simpl. rewrite papp_empty. auto. }
    destruct (take "scale" m0) as [p1 m1].
    assert (HS : exists dl sc, forall s, get_scale ml p1 s = (log_all dl s, sc)).
    { unfold get_scale. destruct p1 as [i|].
      - destruct (nth_error ml i) as [m|].
        + destruct (as_scale m) as [ab|].
          * exists [], (Some ab). intro s. unfold log_all. destruct s; simpl. rewrite app_nil_r. reflexivity.
          * eexists [_], None. intro s. reflexivity.
        + exists [], None. intro s. unfold log_all. destruct s; simpl. rewrite app_nil_r. reflexivity.
      - exists [], (Some (1, 1)%Z). intro s. unfold log_all. destruct s; simpl. rewrite app_nil_r. reflexivity. }
    destruct HS as (dl1 & sc & HS).
    destruct sc as [ab|].
    2:{ right. exists opage_empty, (lg ++ dl1), ds, false. intro s. rewrite HS. eexists. split; [reflexivity|].
        simpl. rewrite papp_empty, app_assoc. auto. }
    destruct (smap_find bytes_ltb n files) as [fo|].
    2:{ right. exists opage_empty, (lg ++ dl1 ++ [DSym l (B "Unknown model '" ++ n ++ B "'")]), ds, false. intro s. rewrite HS. eexists. split; [reflexivity|].
        cbn [err say v_page v_log log_all]. rewrite papp_empty. split; [reflexivity|]. rewrite <- !app_assoc. reflexivity. }
    destruct (take "view" m1) as [p2 m2].
    assert (HV : exists dl vw, forall s, get_view ml p2 s = (log_all dl s, vw)).
    { assert (L0 : forall s, log_all [] s = s) by (intros []; unfold log_all; simpl; rewrite app_nil_r; reflexivity).
      unfold get_view. destruct p2 as [i|].
      - destruct (nth_error ml i) as [m|].
        + destruct (as_loc m) as [a|]; [eexists [], _; intro s; rewrite L0; reflexivity|].
          destruct (as_str m) as [v|]; [|eexists [_], _; reflexivity].
          destruct (matrix_by_name v); [eexists [], _; intro s; rewrite L0; reflexivity|eexists [_], _; reflexivity].
        + eexists [], _; intro s; rewrite L0; reflexivity.
      - eexists [], _; intro s; rewrite L0; reflexivity. }
    destruct HV as (dl2 & vw & HV). destruct vw as [rot|].
    2:{ right. exists opage_empty, (lg ++ dl1 ++ dl2), ds, false. intro s. rewrite HS. cbv iota beta. rewrite HV.
        eexists. split; [reflexivity|]. simpl. rewrite papp_empty, !app_assoc. auto. }
    destruct (take "@" m2) as [p3 m3_].
    match goal with |- context [obind ?x _] => remember x as L eqn:HL end.
    destruct L as [loc|e].
    2:{ left. exists e. intro s. rewrite HS. cbv iota beta. rewrite HV. reflexivity. }
    destruct fo as [file|].
    2:{ left. eexists. intro s. rewrite HS. cbv iota beta. rewrite HV. reflexivity. }
    destruct (rotate file rot) as [proj0|e] eqn:HR.
    2:{ left. exists e. intro s. rewrite HS. cbv iota beta. rewrite HV. cbn [obind]. rewrite HR. reflexivity. }
    destruct (to_lines (cull_back_face proj0)) as [ls|e] eqn:HT.
    2:{ left. exists e. intro s. rewrite HS. cbv iota beta. rewrite HV. cbn [obind]. rewrite HR. cbn [obind]. rewrite HT. reflexivity. }
    set (proj := cull_back_face proj0) in *.
    set (sc := proj_scale ab) in *.
    set (d := sub2 loc (mul2 (div2 (add2 (lo (limits proj)) (lt_ (limits proj))) n2) sc)).
    set (s1 := add_lines ls (Vst [] zerom sc d opage_empty [])).
    destruct (add_dims proj ds rot s1) as [[[s2 ds'] okd]|e] eqn:HD.
    2:{ left. exists e. intro s. rewrite HS. cbv iota beta. rewrite HV. cbn [obind]. rewrite HR. cbn [obind]. fold proj. rewrite HT. cbn [obind].
        match goal with |- context [add_dims _ _ _ ?x] =>
          replace (add_dims proj ds rot x) with (add_dims proj ds rot (shift (v_page s) (v_log s ++ lg ++ dl1 ++ dl2) s1)) end.
        - rewrite sh_add_dims, HD. reflexivity.
        - unfold add_dims. destruct (strict_weak _ _); [|reflexivity]. f_equal. unfold shift, s1, add_lines, set_page, papp; simpl.
          rewrite !app_nil_r, !app_assoc. reflexivity. }
    right.
    assert (HX : forall s, exists s', add_dims proj ds rot s' = Ret (shift (v_page s) (v_log s ++ lg ++ dl1 ++ dl2) s2, ds', okd) /\
      s' = add_lines ls (Vst (v_points s) (v_rot s) sc d (v_page s) (((v_log s ++ lg) ++ dl1) ++ dl2))).
    { intro s. eexists. split; [|reflexivity].
      transitivity (add_dims proj ds rot (shift (v_page s) (v_log s ++ lg ++ dl1 ++ dl2) s1)).
      - unfold add_dims. destruct (strict_weak _ _); [|reflexivity]. f_equal. unfold shift, s1, add_lines, set_page, papp; simpl.
        rewrite !app_nil_r, !app_assoc. reflexivity.
      - rewrite sh_add_dims, HD. reflexivity. }
    destruct okd.
    - destruct m3_ as [|x m3_].
      + exists (v_page s2), (lg ++ dl1 ++ dl2 ++ v_log s2), ds', true. intro s.
        rewrite HS. cbv iota beta. rewrite HV. cbn [obind]. rewrite HR. cbn [obind]. fold proj. rewrite HT. cbn [obind].
        destruct (HX s) as (s' & HX1 & HX2).
        match goal with |- context [add_dims proj ds rot ?x] => replace x with s' by (rewrite HX2; reflexivity) end.
        rewrite HX1. cbn [obind negb]. eexists. split; [reflexivity|].
        simpl. rewrite !app_assoc. auto.
      + exists (v_page s2), (lg ++ dl1 ++ dl2 ++ v_log s2 ++ (DSym l (B "Unexepcted properties for " ++ B "draw") :: list_unknown ml (x :: m3_))), ds', false. intro s.
        rewrite HS. cbv iota beta. rewrite HV. cbn [obind]. rewrite HR. cbn [obind]. fold proj. rewrite HT. cbn [obind].
        destruct (HX s) as (s' & HX1 & HX2).
        match goal with |- context [add_dims proj ds rot ?x] => replace x with s' by (rewrite HX2; reflexivity) end.
        rewrite HX1. cbn [obind negb]. eexists. split; [reflexivity|].
        cbn [unexpected log_all shift v_page v_log]. split; [reflexivity|]. rewrite !app_assoc. reflexivity.
    - exists (v_page s2), (lg ++ dl1 ++ dl2 ++ v_log s2), ds', false. intro s.
      rewrite HS. cbv iota beta. rewrite HV. cbn [obind]. rewrite HR. cbn [obind]. fold proj. rewrite HT. cbn [obind].
      destruct (HX s) as (s' & HX1 & HX2).
        match goal with |- context [add_dims proj ds rot ?x] => replace x with s' by (rewrite HX2; reflexivity) end.
      rewrite HX1. cbn [obind negb]. eexists. split; [reflexivity|].
      simpl. rewrite !app_assoc. auto.
  Qed.

  Lemma text_indep l t ml :
    (exists e, forall s, visit_text l t ml s = Abort e) \/
    (exists dp dl ok, forall s, exists s',
        visit_text l t ml s = Ret (s', ok) /\
        v_page s' = papp (v_page s) dp /\ v_log s' = v_log s ++ dl).
  Proof.
    unfold visit_text. destruct (flatten "draw" ml) as [[ok0 m0] lg].
    destruct ok0; cbn [negb].
    2:{ right. exists opage_empty, lg, false. intro s. eexists. split; [reflexivity|].
        simpl. rewrite papp_empty. auto. }
    destruct (take "@" m0) as [p1 m1].
    match goal with |- context [obind ?x _] => destruct x as [at0|e] end.
    2:{ left. exists e. reflexivity. }
    cbn [obind]. right. destruct m1 as [|x m1].
    - exists (OPage [] [] (text_lines (add2 at0 page_mid) (split_on LF t))), lg, true. intro s.
      eexists. split; [reflexivity|]. unfold papp; simpl. rewrite !app_nil_r. auto.
    - exists (OPage [] [] (text_lines (add2 at0 page_mid) (split_on LF t))),
        (lg ++ DSym l (B "Unexepcted properties for " ++ B "text") :: list_unknown ml (x :: m1)), false. intro s.
      eexists. split; [reflexivity|]. unfold papp; cbn [unexpected log_all set_page v_page v_log o_lines o_arcs o_text].
      rewrite !app_nil_r, <- app_assoc. auto.
  Qed.

  (** Item d always adds dp to the page and dl to the log, with verdict ok. *)
  Record effect := Eff { e_page : opage; e_log : list diag; e_item : drawable; e_ok : bool }.
  Definition item_gives (files : stl_map) (d : drawable) (r : effect) : Prop :=
    forall s, exists s', visit_drawable files d s = Ret (s', e_item r, e_ok r) /\
      v_page s' = papp (v_page s) (e_page r) /\ v_log s' = v_log s ++ e_log r.

  Lemma drawable_indep files d :
    (exists e, forall s, visit_drawable files d s = Abort e) \/ (exists r, item_gives files d r).
  Proof.
    destruct d as [l n ml ds|l t ml]; simpl.
    - destruct (draw_indep files l n ml ds) as [[e He]|(dp & dl & ds' & ok & H)].
      + left. exists e. intro s. simpl. rewrite He. reflexivity.
      + right. exists (Eff dp dl (DDraw l n ml ds') ok). intro s. destruct (H s) as (s' & H1 & H2 & H3).
        exists s'. simpl. rewrite H1. auto.
    - destruct (text_indep l t ml) as [[e He]|(dp & dl & ok & H)].
      + left. exists e. intro s. simpl. rewrite He. reflexivity.
      + right. exists (Eff dp dl (DText l t ml) ok). intro s. destruct (H s) as (s' & H1 & H2 & H3).
        exists s'. simpl. rewrite H1. auto.
  Qed.

  Lemma item_gives_fun files d r1 r2 : item_gives files d r1 -> item_gives files d r2 -> r1 = r2.
  Proof.
    intros H1 H2. destruct (H1 vst_init) as (s1 & E1 & P1 & L1). destruct (H2 vst_init) as (s2 & E2 & P2 & L2).
    rewrite E1 in E2. injection E2 as <- I O. rewrite P1 in P2. rewrite L1 in L2.
    destruct r1 as [[a b c] l1 i1 o1], r2 as [[a' b' c'] l2 i2 o2]; simpl in *.
    unfold papp in P2; simpl in P2. injection P2 as -> -> ->. subst. reflexivity.
  Qed.

  Definition pages_of (rs : list effect) : opage := fold_right papp opage_empty (map e_page rs).
  Definition logs_of (rs : list effect) : list diag := concat (map e_log rs).

  Lemma papp_empty_l p : papp opage_empty p = p.
  Proof. destruct p; reflexivity. Qed.

  Lemma drawables_indep files ds :
    (exists e, forall s, visit_drawables files ds s = Abort e) \/
    (exists rs, Forall2 (item_gives files) ds rs /\ forall s, exists s',
       visit_drawables files ds s = Ret (s', map e_item rs, forallb e_ok rs) /\
       v_page s' = papp (v_page s) (pages_of rs) /\ v_log s' = v_log s ++ logs_of rs).
  Proof.
    induction ds as [|d ds IH].
    - right. exists []. split; [constructor|]. intro s. exists s. split; [reflexivity|].
      unfold pages_of, logs_of; simpl. rewrite papp_empty, app_nil_r. auto.
    - destruct (drawable_indep files d) as [[e He]|[r Hr]].
      { left. exists e. intro s. cbn [visit_drawables]. rewrite He. reflexivity. }
      destruct IH as [[e He]|(rs & HF & H)].
      { left. exists e. intro s. cbn [visit_drawables]. destruct (Hr s) as (s1 & E1 & _).
        rewrite E1. cbn [obind]. rewrite He. reflexivity. }
      right. exists (r :: rs). split; [constructor; assumption|]. intro s.
      destruct (Hr s) as (s1 & E1 & P1 & L1). destruct (H s1) as (s2 & E2 & P2 & L2).
      exists s2. cbn [visit_drawables]. rewrite E1. cbn [obind]. rewrite E2. cbn [obind].
      split; [reflexivity|]. rewrite P2, P1, L2, L1. unfold pages_of, logs_of. simpl.
      rewrite papp_assoc, app_assoc. auto.
  Qed.

  (** A page: its items in order, then the title box. *)
  Record peffect := PEff { pe_page : opage; pe_log : list diag; pe_pg : page; pe_ok : bool }.
  Definition page_gives (files : stl_map) (n : nat) (pg : page) (r : peffect) : Prop :=
    forall s, exists s', gen_page files n pg s = Ret (s', pe_pg r, pe_ok r) /\
      v_page s' = pe_page r /\ v_log s' = v_log s ++ pe_log r.

  Definition title_of (pg : page) : bytes :=
    match prop "name" (pg_meta pg) with
    | None => []
    | Some i => match nth_error (pg_meta pg) i with
                | Some m => match as_str m with Some nm => nm | None => [] end
                | None => [] end
    end.

  Lemma page_indep files n pg :
    (exists e, forall s, gen_page files n pg s = Abort e) \/
    (exists r rs pre post ok0, page_gives files n pg r /\
       Forall2 (item_gives files) (pg_draws pg) rs /\
       pe_page r = add_header (pages_of rs) (title_of pg) /\
       pe_log r = pre ++ logs_of rs ++ post /\
       pe_pg r = Page (pg_loc pg) (pg_meta pg) (map e_item rs) /\
       pe_ok r = ok0 && forallb e_ok rs /\ (ok0 = false -> pre ++ post <> [])).
  Proof.
    unfold gen_page, page_gives, title_of.
    destruct (flatten_spec "page" (pg_meta pg)) as (m0 & HF & W & F). unfold gen_page. rewrite HF.
    destruct (take_spec "name" W) as (T1 & W1 & F1). destruct (take "name" m0) as [p_name m1]. simpl in T1, W1, F1.
    rewrite F in T1. fold (prop "name" (pg_meta pg)) in T1. subst p_name.
    set (ml := pg_meta pg) in *. set (lg := dup_diags (B "page") [] ml) in *.
    assert (HN : exists dl ok1, (ok1 = false -> dl <> []) /\ forall s : vst, match prop "name" ml with
      | None => (s, [], true)
      | Some i =>
          match nth_error ml i with
          | None => (s, [], false)
          | Some m =>
              match as_str m with
              | Some nm => (s, nm, true)
              | None => (err (m_loc m) (B "Expected document name to be a string, got '"
                                          ++ type_name (mkind (m_val m)) ++ B "'") s, [], false)
              end
          end
      end = (log_all dl s, match prop "name" ml with
        | None => []
        | Some i => match nth_error ml i with
                | Some m => match as_str m with Some nm => nm | None => [] end
                | None => [] end end, ok1)).
    { assert (L0 : forall s, log_all [] s = s) by (intros []; unfold log_all; simpl; rewrite app_nil_r; reflexivity).
      destruct (prop "name" ml) as [i|] eqn:HP.
      - apply prop_some in HP. destruct HP as (m & HP & _). rewrite HP.
        destruct (as_str m) as [nm|].
        + exists [], true. split; [discriminate|]. intro s. rewrite L0. reflexivity.
        + eexists [_], false. split; [discriminate|]. intro s. reflexivity.
      - exists [], true. split; [discriminate|]. intro s. rewrite L0. reflexivity. }
    destruct HN as (dl1 & ok1 & HN0 & HN).
    destruct (drawables_indep files (pg_draws pg)) as [[e He]|(rs & HR & H)].
    { left. exists e. intro s. rewrite HN. rewrite He. reflexivity. }
    right.
    set (nm := match prop "name" ml with Some i => _ | None => _ end) in *.
    set (post := match m1 with [] => [] | _ => DSym (pg_loc pg) (B "Unexepcted properties for page " ++ dec_of_nat n) :: list_unknown ml m1 end).
    exists (PEff (add_header (pages_of rs) nm) ((lg ++ dl1) ++ logs_of rs ++ post)
              (Page (pg_loc pg) ml (map e_item rs)) (nilb lg && ok1 && forallb e_ok rs && nilb m1)), rs, (lg ++ dl1), post,
      (nilb lg && ok1 && nilb m1).
    split; [|split; [exact HR|split; [reflexivity|split; [reflexivity|split; [reflexivity|split]]]]].
    - intro s. rewrite HN. destruct (H (log_all dl1 (set_page opage_empty (log_all lg s)))) as (s2 & E2 & P2 & L2).
      rewrite E2. cbn [obind]. destruct m1 as [|x m1].
      + eexists. split; [cbn [pe_pg pe_ok nilb]; reflexivity|]. simpl. rewrite P2, L2. simpl.
        rewrite papp_empty_l, app_nil_r, !app_assoc. auto.
      + eexists. split; [cbn [pe_pg pe_ok nilb]; reflexivity|].
        cbn [log_all set_page v_page v_log pe_page pe_log]. rewrite P2, L2.
        cbn [log_all set_page v_page v_log]. rewrite papp_empty_l, <- !app_assoc. auto.
    - cbn [pe_ok]. destruct (nilb lg), ok1, (nilb m1), (forallb e_ok rs); reflexivity.
    - intros H0 HX. apply app_eq_nil in HX. destruct HX as [HX HY]. apply app_eq_nil in HX. destruct HX as [HX HZ].
      rewrite HX in H0. destruct m1; [|discriminate HY]. destruct ok1; [discriminate H0|]. apply HN0; auto.
  Qed.

  Lemma gen_pages_indep files : forall pgs n,
    (exists e, forall s, gen_pages files n pgs s = Abort e) \/
    (exists rs, Forall2 (fun ip r => page_gives files (fst ip) (snd ip) r) (combine (seq n (length pgs)) pgs) rs /\
      forall s, exists s', gen_pages files n pgs s = Ret (s', map pe_pg rs, map pe_page rs, forallb pe_ok rs) /\
        v_log s' = v_log s ++ concat (map pe_log rs)).
  Proof.
    induction pgs as [|pg pgs IH]; intro n.
    - right. exists []. split; [constructor|]. intro s. exists s. simpl. rewrite app_nil_r. auto.
    - destruct (page_indep files n pg) as [[e He]|(r & _ & _ & _ & _ & Hr & _)].
      { left. exists e. intro s. cbn [gen_pages]. rewrite He. reflexivity. }
      destruct (IH (S n)) as [[e He]|(rs & HF & H)].
      { left. exists e. intro s. cbn [gen_pages]. destruct (Hr s) as (s1 & E1 & _). rewrite E1. cbn [obind].
        rewrite He. reflexivity. }
      right. exists (r :: rs). split; [constructor; assumption|]. intro s.
      destruct (Hr s) as (s1 & E1 & P1 & L1). destruct (H s1) as (s2 & E2 & L2).
      exists s2. cbn [gen_pages]. rewrite E1. cbn [obind]. rewrite E2. cbn [obind].
      rewrite P1. split; [reflexivity|]. rewrite L2, L1. simpl. rewrite app_assoc. reflexivity.
  Qed.
End Indep.
