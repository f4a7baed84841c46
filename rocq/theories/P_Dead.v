(** P_Dead.v - the reasons for which a conversion can end the process. *)
From Verif Require Import Base Num Geo Stl StlRead Env Ast Lexer Parser Ps Draw Main
  P_Base P_Meta P_Frame P_Dims P_Doc DocSpec P_Script P_Script2 P_Hide P_Geo1 P_Part.

Local Unset Implicit Arguments.
Section Dead.
  Context {A : Arith} {E : Env}.
  Definition null_rot : abort := ACheck "Null rotation".
  Definition no_set : abort := AUB "std::set without a strict weak ordering".

  Lemma base_dim_abort d s e : visit_base_dim d s = Abort e -> eqm (v_rot s) zerom = true /\ e = null_rot.
  Proof.
    destruct (eqm (v_rot s) zerom) eqn:HN.
    2:{ intro H. destruct (base_dim_spec d s HN) as (s' & d' & ok & H1 & _). rewrite H1 in H. discriminate H. }
    intro H0. split; [reflexivity|]. revert H0. unfold visit_base_dim.
    assert (HX : forall r : vret, (r = Abort e -> e = null_rot) -> (do! '(s', ml, ok) <- r; Ret (s', Dim (d_kind d) (d_loc d) ml, ok)) = Abort e -> e = null_rot).
    { intros r Hr H. apply obind_abort in H. destruct H as [H|([[s1 ml1] o1] & _ & H)]; [exact (Hr H)|discriminate H]. }
    apply HX. clear HX.
    assert (HR : forall i dl ml, get_rotated i (log_all dl s, ml) = Abort (ACheck "Null rotation")) by (intros; apply get_rotated_null; exact HN).
    assert (HC : forall what draw, visit_circ what draw d s = Abort e -> e = null_rot).
    { intros what draw. unfold visit_circ. destruct (flatten _ _) as [[ok0 m0] lg].
      destruct ok0; cbn [negb]; [|intro H; discriminate H]. unfold get_center.
      destruct (take "at" m0) as [p1 m1], (take "dir" m1) as [p2 m2], (take "center" m2) as [p3 m3_].
      rewrite !need_spec, !log_all_app.
      destruct p1 as [i1|]; [|cbn [obind]; intro H; discriminate H]. destruct p2 as [i2|]; [|cbn [obind]; intro H; discriminate H]. destruct p3 as [i3|]; [|cbn [obind]; intro H; discriminate H].
      destruct (_ <? _); [rewrite err_log, log_all_app; cbn [obind]; intro H; discriminate H|]. rewrite HR. cbn [obind]. intro H; injection H as <-. reflexivity. }
    destruct (d_kind d); [|apply HC| |apply HC].
    - unfold visit_angle. destruct (flatten _ _) as [[ok0 m0] lg].
      destruct (take "at" m0) as [p1 m1], (take "apex" m1) as [p2 m2], (take "from_dir" m2) as [p3 m3_], (take "from_point" m3_) as [p4 m4], (take "to_dir" m4) as [p5 m5], (take "to_point" m5) as [p6 m6], (take "fmt" m6) as [p7 m7].
      destruct m7; [|unfold unexpected; rewrite log_all_app; intro H; discriminate H].
      rewrite (need_spec (d_loc d) p1). cbv iota beta. rewrite (need_spec (d_loc d) p2). cbv iota beta. rewrite !log_all_app.
      assert (HI : forall (o : option nat) p dl msg, exists dl' k, (if is_some o then (log_all dl s, true) else need (d_loc d) p msg (log_all dl s)) = (log_all dl' s, k)).
      { intros [i|] p dl msg; simpl; [eauto|]. rewrite need_spec, log_all_app. eauto. }
      match goal with |- context [if is_some p3 then (log_all ?dl s, true) else need _ _ ?m _] => destruct (HI p3 p4 dl m) as (dl1 & k1 & ->) end. cbv iota beta.
      match goal with |- context [if is_some p5 then (log_all ?dl s, true) else need _ _ ?m _] => destruct (HI p5 p6 dl m) as (dl2 & k2 & ->) end. cbv iota beta.
      destruct (negb _) eqn:HK; [intro H; discriminate H|]. apply negb_false_iff in HK. rewrite !andb_true_iff in HK.
      assert (HE : forall (o : option nat) (b : bool) m dl, exists dl', match o with Some i => if b then err (mloc (d_meta d) i) m (log_all dl s) else log_all dl s | None => log_all dl s end = log_all dl' s).
      { intros [j|] [] m' dl; rewrite ?err_log, ?log_all_app; eauto. }
      match goal with |- context [match p3 with Some i => if ?b then err _ ?m (log_all ?dl s) else _ | None => _ end] => destruct (HE p3 b m dl) as (dl3 & ->) end.
      match goal with |- context [match p5 with Some i => if ?b then err _ ?m (log_all ?dl s) else _ | None => _ end] => destruct (HE p5 b m dl) as (dl4 & ->) end.
      destruct (_ || _); [intro H; discriminate H|].
      destruct p1 as [i1|]; [|cbn in HK; intuition discriminate]. destruct p2 as [i2|]; [|cbn in HK; intuition discriminate]. rewrite HR. cbn [obind]. intro H; injection H as <-. reflexivity.
    - unfold visit_dim. destruct (flatten _ _) as [[ok0 m0] lg].
      destruct (take "at" m0) as [p1 m1], (take "dir" m1) as [p2 m2], (take "from" m2) as [p3 m3_], (take "to" m3_) as [p4 m4], (take "fmt" m4) as [p5 m5].
      destruct m5; [|unfold unexpected; rewrite log_all_app; intro H; discriminate H]. rewrite !need_spec, !log_all_app.
      destruct (negb _) eqn:HK; [intro H; discriminate H|]. apply negb_false_iff in HK. rewrite !andb_true_iff in HK.
      destruct p1 as [i1|]; [|cbn in HK; intuition discriminate]. destruct p2 as [i2|]; [|cbn in HK; intuition discriminate].
      destruct p3 as [i3|]; [|cbn in HK; intuition discriminate]. destruct p4 as [i4|]; [|cbn in HK; intuition discriminate]. rewrite HR. cbn [obind]. intro H; injection H as <-. reflexivity.
  Qed.
  Lemma dims_abort ds : forall s e, visit_dims ds s = Abort e -> ds <> [] /\ eqm (v_rot s) zerom = true /\ e = null_rot.
  Proof.
    induction ds as [|d ds IH]; intros s e H; cbn [visit_dims] in H; [discriminate H|]. split; [discriminate|]. apply obind_abort in H. destruct H as [H|([[s1 d1] o1] & H1 & H)]; [exact (base_dim_abort _ _ _ H)|].
    apply obind_abort in H. destruct H as [H|([[s2 d2] o2] & _ & H)]; [|discriminate H]. apply IH in H. destruct H as (_ & H & ->). split; [|reflexivity].
    replace (v_rot s) with (v_rot s1); [exact H|]. destruct (eqm (v_rot s) zerom) eqn:HN.
    - destruct (base_dim_null d s HN H1) as (_ & _ & dl & ->). reflexivity.
    - destruct (base_dim_spec d s HN) as (s' & d' & ok & H2 & _ & HF & HT). rewrite H1 in H2. injection H2 as <- <- <-. destruct o1; [destruct (HT eq_refl) as [_ D]; destruct (draws_grows D) as (p & dl & ->); reflexivity|]. destruct (HF eq_refl) as [(dl & ->) _]. reflexivity.
  Qed.
  (** ** Drawings *)
  Inductive draw_dies (st : stl_map) (n : bytes) (ml : list meta) (ds : list dim) : abort -> Prop :=
  | DD_at : place_of ml = None -> draw_dies st n ml ds (ACheck "@ is not a location")
  | DD_null : smap_find bytes_ltb n st = Some None -> draw_dies st n ml ds (AUB "null STLFile")
  | DD_turn f r e : model_of st n = Some f -> view_of ml = Some r -> rotate f r = Abort e -> draw_dies st n ml ds e
  | DD_lines f r p e : model_of st n = Some f -> view_of ml = Some r -> rotate f r = Ret p -> to_lines (cull_back_face p) = Abort e -> draw_dies st n ml ds e
  | DD_set f r p : model_of st n = Some f -> view_of ml = Some r -> rotate f r = Ret p -> strict_weak order (flat_map fverts (facets (cull_back_face p))) = false -> draw_dies st n ml ds no_set
  | DD_dims f r : model_of st n = Some f -> view_of ml = Some r -> ds <> [] -> eqm r zerom = true -> draw_dies st n ml ds null_rot.

  Lemma draw_abort st l n ml ds s e : visit_draw st l n ml ds s = Abort e -> draw_dies st n ml ds e.
  Proof.
    unfold visit_draw.
    destruct (flatten_spec "draw" ml) as (m0 & HF & W & F). rewrite HF. clear HF.
    set (dd := dup_diags (B "draw") [] ml) in *.
    destruct (nilb dd) eqn:HD; cbn [negb]; [|intro H; discriminate H].
    assert (Hdd : dd = []) by (destruct dd; [reflexivity|discriminate HD]). rewrite Hdd, log_all_nil.
    assert (F0 : forall n, fnd m0 n = drop [] n (index_of n (names ml))) by exact F.
    destruct (@take_chain _ "scale"%string _ m0 _ W F0 eq_refl) as (m1 & -> & W1 & F1).
    destruct (get_scale_spec ml s) as (dl1 & -> & HS). destruct (scale_of ml) as [ab|]; [|intro H; discriminate H].
    rewrite (HS ltac:(discriminate)), log_all_nil. clear HS dl1.
    destruct (smap_find bytes_ltb n st) as [fo|] eqn:MF; [|intro H; discriminate H].
    destruct (@take_chain _ "view"%string _ m1 _ W1 F1 eq_refl) as (m2 & -> & W2 & F2).
    match goal with |- context [get_view ml _ ?s0] => destruct (get_view_spec ml s0) as (dl2 & -> & HS) end.
    destruct (view_of ml) as [rot|] eqn:VW; [|intro H; discriminate H].
    rewrite (HS ltac:(discriminate)), log_all_nil. clear HS dl2.
    destruct (@take_chain _ "@"%string _ m2 _ W2 F2 eq_refl) as (m3_ & -> & W3 & F3).
    rewrite get_at_spec. destruct (place_of ml) as [pl|] eqn:PL; [|intro H; injection H as <-; apply DD_at; exact PL]. cbn [obind].
    destruct fo as [file|]; [|intro H; injection H as <-; apply DD_null; exact MF].
    assert (HM : model_of st n = Some file) by (unfold model_of; rewrite MF; reflexivity).
    destruct (rotate file rot) as [proj|e'] eqn:RO; [|intro H; injection H as <-; exact (DD_turn _ _ _ _ _ _ _ HM VW RO)]. cbn [obind].
    destruct (to_lines (cull_back_face proj)) as [ls|e'] eqn:TL; [|intro H; injection H as <-; exact (DD_lines _ _ _ _ _ _ _ _ HM VW RO TL)]. cbn [obind].
    unfold add_dims.
    destruct (strict_weak order (flat_map fverts (facets (cull_back_face proj)))) eqn:SO; [|intro H; injection H as <-; exact (DD_set _ _ _ _ _ _ _ HM VW RO SO)].
    match goal with |- context [visit_dims ds ?x] => change x with (draw_state ab rot pl (cull_back_face proj) ls s) end.
    destruct (visit_dims ds _) as [[[s1 ds1] ok1]|e'] eqn:VD; cbn [obind].
    - destruct ok1; cbn [negb]; [|intro H; discriminate H]. destruct m3_; intro H; discriminate H.
    - intro H; injection H as <-. apply dims_abort in VD. destruct VD as (H1 & H2 & ->). exact (DD_dims _ _ _ _ _ _ HM VW H1 H2).
  Qed.
  Lemma text_abort l t ml s e : visit_text l t ml s = Abort e -> text_place_of ml = None /\ e = ACheck "@ is not a location".
  Proof.
    unfold visit_text. destruct (flatten_spec "draw" ml) as (m0 & HF & W & F). rewrite HF. clear HF.
    set (dd := dup_diags (B "draw") [] ml) in *.
    destruct (nilb dd) eqn:HD; cbn [negb]; [|intro H; discriminate H].
    assert (F0 : forall n, fnd m0 n = drop [] n (index_of n (names ml))) by exact F.
    destruct (@take_chain _ "@"%string _ m0 _ W F0 eq_refl) as (m1 & -> & W1 & F1).
    unfold text_place_of, get_at.
    destruct (arg_prop "@" ml) as [(i & x & -> & -> & _ & ->)|[-> ->]].
    - destruct (as_loc x) as [v|]; cbn [obind]; [destruct m1; intro H; discriminate H|]. intro H; injection H as <-. auto.
    - cbn [obind]. destruct m1; intro H; discriminate H.
  Qed.
  Inductive item_dies (st : stl_map) : drawable -> abort -> Prop :=
  | ID_draw l n ml ds e : draw_dies st n ml ds e -> item_dies st (DDraw l n ml ds) e
  | ID_text l t ml : text_place_of ml = None -> item_dies st (DText l t ml) (ACheck "@ is not a location").
  Lemma drawables_abort st ds : forall s e, visit_drawables st ds s = Abort e -> exists d, In d ds /\ item_dies st d e.
  Proof.
    induction ds as [|d ds IH]; intros s e H; cbn [visit_drawables] in H; [discriminate H|]. apply obind_abort in H. destruct H as [H|([[s1 d1] o1] & H1 & H)].
    - exists d. split; [left; reflexivity|]. unfold visit_drawable in H. destruct d as [l n ml dm|l t ml].
      + apply obind_abort in H. destruct H as [H|([[s1 d1] o1] & _ & H)]; [|discriminate H]. constructor. exact (draw_abort _ _ _ _ _ _ _ H).
      + apply obind_abort in H. destruct H as [H|([s1 o1] & _ & H)]; [|discriminate H]. apply text_abort in H. destruct H as [H ->]. constructor. exact H.
    - apply obind_abort in H. destruct H as [H|([[s2 d2] o2] & _ & H)]; [|discriminate H]. destruct (IH _ _ H) as (x & Hx & Q). exists x. split; [right; exact Hx|exact Q].
  Qed.
  Lemma page_abort st n pg s e : gen_page st n pg s = Abort e -> exists d, In d (pg_draws pg) /\ item_dies st d e.
  Proof.
    unfold gen_page. destruct (flatten "page" (pg_meta pg)) as [[ok0 m0] lg]. destruct (take "name" m0) as [p1 m1].
    assert (K : forall sx (nm : bytes) (ok1 : bool), (do! '(s2, ds, ok2) <- visit_drawables st (pg_draws pg) sx;
      let s3 := set_page (add_header (v_page s2) nm) s2 in
      let '(s4, ok3) := match m1 with [] => (s3, true) | _ :: _ => (log_all (DSym (pg_loc pg) (B "Unexepcted properties for page " ++ dec_of_nat n) :: list_unknown (pg_meta pg) m1) s3, false) end in
      Ret (s4, Page (pg_loc pg) (pg_meta pg) ds, ok0 && ok1 && ok2 && ok3)) = Abort e -> exists d, In d (pg_draws pg) /\ item_dies st d e).
    { intros sx nm ok1 H. apply obind_abort in H. destruct H as [H|([[s2 d2] o2] & _ & H)]; [exact (drawables_abort _ _ _ _ H)|]. destruct m1; discriminate H. }
    destruct p1 as [i|]; [|apply K]. destruct (nth_error (pg_meta pg) i) as [m|]; [|apply K]. destruct (as_str m) as [nm|]; apply K.
  Qed.
  Lemma pages_abort st : forall pgs n s e, gen_pages st n pgs s = Abort e -> exists pg d, In pg pgs /\ In d (pg_draws pg) /\ item_dies st d e.
  Proof.
    induction pgs as [|pg pgs IH]; intros n s e H; cbn [gen_pages] in H; [discriminate H|]. apply obind_abort in H. destruct H as [H|([[s1 p1] o1] & _ & H)].
    - destruct (page_abort _ _ _ _ _ H) as (d & H1 & H2). exists pg, d. split; [left; reflexivity|auto].
    - apply obind_abort in H. destruct H as [H|([[[s2 p2] os] o2] & _ & H)]; [|discriminate H]. destruct (IH _ _ _ H) as (pg' & d & H1 & H2). exists pg', d. split; [right; exact H1|exact H2].
  Qed.
  Lemma load_abort fs : forall ms st e, load_files fs ms st = Abort e -> exists m t, In m ms /\ resolves fs (mo_source m) t /\ stl_make t = Abort e.
  Proof.
    induction ms as [|m ms IH]; intros st e H; cbn [load_files] in H; [discriminate H|]. apply obind_abort in H. destruct H as [H|([[s1 p1] o1] & _ & H)].
    - unfold load_one in H. destruct (smap_find _ _ _); [discriminate H|]. destruct (first_open fs _) as [t|] eqn:O; [|discriminate H].
      apply obind_abort in H. destruct H as [H|([r lg] & _ & H)]; [|destruct r; discriminate H]. exists m, t. split; [left; reflexivity|]. split; [apply resolves_iff; exact O|exact H].
    - apply obind_abort in H. destruct H as [H|([[s2 p2] o2] & _ & H)]; [|discriminate H]. destruct (IH _ _ H) as (m' & t & H1 & H2). exists m', t. split; [right; exact H1|exact H2].
  Qed.
End Dead.
