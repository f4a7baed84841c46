(** P_Lookup.v - the checks of DrawLk.v: with the functions of Draw.v nothing is different, and the
    checks either do not change a conversion or end it. *)
From Coq Require Import List Bool Lia.
From Verif Require Import Base Num Geo Stl StlRead Env Ast Lexer Parser Ps Draw Main DrawLk
  P_Base P_Meta P_Frame P_Dims P_Doc DocSpec P_Script P_Script2 P_Lang P_Dead.
Import ListNotations.

Local Unset Implicit Arguments.

(** ** Without checks these are the functions of Draw.v and Main.v *)
Theorem by_same (A : Arith) (E : Env) : script_to_ps_by get_rotated (fun ps t => Ret (fit_circle ps t)) = script_to_ps.
Proof. reflexivity. Qed.

(** ** Equal, or ended by a check for the reason [Bad] *)
Section Sim.
  Context {A : Arith} {E : Env}.
  Variable Bad : Prop.
  Definition sim {X} (a b : outcome X) : Prop := a = b \/ (a = Abort bad_lookup /\ Bad).
  Lemma sim_refl {X} (a : outcome X) : sim a a. Proof. left; reflexivity. Qed.
  Lemma sim_bind {X Y} (a b : outcome X) (f g : X -> outcome Y) : sim a b -> (forall x, b = Ret x -> sim (f x) (g x)) -> sim (obind a f) (obind b g).
  Proof. intros [->|[-> H]] HF; [|right; split; [reflexivity|exact H]]. destruct b as [x|e]; [exact (HF x eq_refl)|left; reflexivity]. Qed.

  Variable fine : point_set -> m3 -> nat -> list meta -> Prop.
  Hypothesis fine_S : forall ps r n ml, fine ps r n ml -> fine ps r (S n) ml.
  Hypothesis fine_gr : forall ps r n ml i m p, n < 4 -> fine ps r n ml -> nth_error ml i = Some m -> as_point m = Some p ->
    (lookups_ok ps (point_rotate r p) = true \/ Bad) /\ fine ps r (S n) (set_nth i (Meta (m_name m) (MPoint (point_rotate r p)) (m_loc m)) ml).
  Hypothesis fine_fit : forall ps r n ml t, fine ps r n ml -> closest_ok 3 t [] (map xy ps) = true \/ Bad.

  Lemma gr_sim n i s ml : n < 4 -> fine (v_points s) (v_rot s) n ml -> sim (get_rotated_ck i (s, ml)) (get_rotated i (s, ml)).
  Proof.
    intros L F. unfold get_rotated_ck. cbn [fst snd]. destruct (get_rotated i (s, ml)) as [r|e] eqn:G; [|left; reflexivity]. cbn [obind].
    destruct (nth_error ml i) as [m|] eqn:N; [|left; reflexivity]. destruct (as_point m) as [p|] eqn:P; [|left; reflexivity].
    destruct (fine_gr _ _ _ _ _ _ _ L F N P) as [[->|H] _]; [left; reflexivity|]. destruct (lookups_ok _ _); [left; reflexivity|right; split; [reflexivity|exact H]].
  Qed.
  Lemma gr_next n i s ml s' ml' b v : n < 4 -> fine (v_points s) (v_rot s) n ml -> get_rotated i (s, ml) = Ret (s', ml', b, v) ->
    v_points s' = v_points s /\ v_rot s' = v_rot s /\ fine (v_points s') (v_rot s') (S n) ml'.
  Proof.
    intros L F H. unfold get_rotated in H. apply obind_ret in H. destruct H as (u & _ & H). destruct (nth_error ml i) as [m|] eqn:N; [|discriminate H].
    destruct (as_point m) as [p|] eqn:P.
    - pose proof (proj2 (fine_gr _ _ _ _ _ _ _ L F N P)) as F'. destruct (invoke _ _) as [lg [w|]]; injection H as <- <- <- <-; (split; [reflexivity|]); (split; [reflexivity|]); exact F'.
    - injection H as <- <- <- <-. split; [reflexivity|]. split; [reflexivity|]. apply fine_S. exact F.
  Qed.
  (** One evaluation and what follows. *)
  Lemma gr_bind {Y} n i s ml (f g : vst * list meta * bool * v3 -> outcome Y) : n < 4 -> fine (v_points s) (v_rot s) n ml ->
    (forall s' ml' b v, v_points s' = v_points s -> v_rot s' = v_rot s -> fine (v_points s') (v_rot s') (S n) ml' -> sim (f (s', ml', b, v)) (g (s', ml', b, v))) ->
    sim (obind (get_rotated_ck i (s, ml)) f) (obind (get_rotated i (s, ml)) g).
  Proof.
    intros L F H. apply sim_bind; [exact (gr_sim n i s ml L F)|]. intros [[[s' ml'] b] v] G. destruct (gr_next n i s ml s' ml' b v L F G) as (H1 & H2 & H3). apply H; assumption.
  Qed.

  Lemma dim_sim d s : fine (v_points s) (v_rot s) 0 (d_meta d) -> sim (visit_dim_by get_rotated_ck d s) (visit_dim d s).
  Proof.
    intro F. unfold visit_dim_by, visit_dim. destruct (flatten _ _) as [[ok0 m0] lg].
    destruct (take "at" m0) as [p1 m1], (take "dir" m1) as [p2 m2], (take "from" m2) as [p3 m3_], (take "to" m3_) as [p4 m4], (take "fmt" m4) as [p5 m5].
    destruct m5; [|apply sim_refl]. rewrite !need_spec, !log_all_app. destruct (negb _); [apply sim_refl|].
    destruct p1 as [i1|]; [|apply sim_refl]. destruct p2 as [i2|]; [|apply sim_refl]. destruct p3 as [i3|]; [|apply sim_refl]. destruct p4 as [i4|]; [|apply sim_refl].
    apply (gr_bind 0); [lia|exact F|]. clear F. intros s1 ml1 b1 v1 _ _ F. cbv beta iota.
    apply (gr_bind 1); [lia|exact F|]. clear F. intros s2 ml2 b2 v2 _ _ F. cbv beta iota.
    apply (gr_bind 2); [lia|exact F|]. clear F. intros s3 ml3 b3 v3 _ _ F. cbv beta iota.
    apply (gr_bind 3); [lia|exact F|]. intros. apply sim_refl.
  Qed.
  Lemma circ_sim what draw d s : fine (v_points s) (v_rot s) 0 (d_meta d) -> sim (visit_circ_by get_rotated_ck fit_ck what draw d s) (visit_circ what draw d s).
  Proof.
    intro F. unfold visit_circ_by, visit_circ. destruct (flatten _ _) as [[ok0 m0] lg]. destruct (negb ok0); [apply sim_refl|].
    apply sim_bind; [|intros; apply sim_refl]. unfold get_center_by, get_center.
    destruct (take "at" m0) as [p1 m1], (take "dir" m1) as [p2 m2], (take "center" m2) as [p3 m3_]. rewrite !need_spec, !log_all_app.
    destruct p1 as [i1|]; [|apply sim_refl]. destruct p2 as [i2|]; [|apply sim_refl]. destruct p3 as [i3|]; [|apply sim_refl].
    destruct (_ <? _); [apply sim_refl|].
    apply (gr_bind 0); [lia|exact F|]. clear F. intros s1 ml1 b1 v1 _ _ F. cbv beta iota.
    apply (gr_bind 1); [lia|exact F|]. clear F. intros s2 ml2 b2 v2 _ _ F. cbv beta iota.
    apply (gr_bind 2); [lia|exact F|]. clear F. intros s3 ml3 b3 v3 _ _ F. cbv beta iota.
    destruct (negb _); [apply sim_refl|]. unfold fit_ck. destruct (fine_fit _ _ _ _ (xy v2) F) as [H|H].
    - rewrite H. apply sim_refl.
    - destruct (closest_ok _ _ _ _); [apply sim_refl|]. right. split; [reflexivity|exact H].
  Qed.
  Lemma angle_sim d s : fine (v_points s) (v_rot s) 0 (d_meta d) -> sim (visit_angle_by get_rotated_ck d s) (visit_angle d s).
  Proof.
    intro F. unfold visit_angle_by, visit_angle. destruct (flatten _ _) as [[ok0 m0] lg].
    destruct (take "at" m0) as [p1 m1], (take "apex" m1) as [p2 m2], (take "from_dir" m2) as [p3 m3_], (take "from_point" m3_) as [p4 m4], (take "to_dir" m4) as [p5 m5], (take "to_point" m5) as [p6 m6], (take "fmt" m6) as [p7 m7].
    destruct m7; [|apply sim_refl].
    rewrite (need_spec (d_loc d) p1). cbv iota beta. rewrite (need_spec (d_loc d) p2). cbv iota beta. rewrite !log_all_app.
    assert (HI : forall (o : option nat) p dl msg, exists dl' k, (if is_some o then (log_all dl s, true) else need (d_loc d) p msg (log_all dl s)) = (log_all dl' s, k)).
    { intros [i|] p dl msg; simpl; [eauto|]. rewrite need_spec, log_all_app. eauto. }
    match goal with |- context [if is_some p3 then (log_all ?dl s, true) else need _ _ ?m _] => destruct (HI p3 p4 dl m) as (dl1 & k1 & ->) end. cbv iota beta.
    match goal with |- context [if is_some p5 then (log_all ?dl s, true) else need _ _ ?m _] => destruct (HI p5 p6 dl m) as (dl2 & k2 & ->) end. cbv iota beta.
    destruct (negb _); [apply sim_refl|].
    assert (HE : forall (o : option nat) (b : bool) m dl, exists dl', match o with Some i => if b then err (mloc (d_meta d) i) m (log_all dl s) else log_all dl s | None => log_all dl s end = log_all dl' s).
    { intros [j|] [] m' dl; rewrite ?err_log, ?log_all_app; eauto. }
    match goal with |- context [match p3 with Some i => if ?b then err _ ?m (log_all ?dl s) else _ | None => _ end] => destruct (HE p3 b m dl) as (dl3 & ->) end.
    match goal with |- context [match p5 with Some i => if ?b then err _ ?m (log_all ?dl s) else _ | None => _ end] => destruct (HE p5 b m dl) as (dl4 & ->) end.
    destruct (_ || _); [apply sim_refl|].
    destruct p1 as [i1|]; [|apply sim_refl]. destruct p2 as [i2|]; [|apply sim_refl].
    apply (gr_bind 0); [lia|exact F|]. clear F. intros s1 ml1 b1 v1 _ _ F. cbv beta iota.
    apply (gr_bind 1); [lia|exact F|]. clear F. intros s2 ml2 b2 v2 _ _ F. cbv beta iota.
    assert (SD : forall n s3 ml3 (o o' : option nat) (k k' : vst * list meta * bool * v3 * v3 -> vret), n < 4 -> fine (v_points s3) (v_rot s3) n ml3 ->
      (forall s4 ml4 b v w, fine (v_points s4) (v_rot s4) (S n) ml4 -> sim (k (s4, ml4, b, v, w)) (k' (s4, ml4, b, v, w))) ->
      sim (obind match o, o' with
                 | Some i, _ => do! '(s, ml, r, v) <- get_rotated_ck i (s3, ml3); Ret (s, ml, r, normalized3 v, v2)
                 | None, Some i => do! '(s, ml, r, v) <- get_rotated_ck i (s3, ml3); Ret (s, ml, r, normalized3 (sub3 v v2), v)
                 | None, None => Abort (AUB "null Meta*")
                 end k)
          (obind match o, o' with
                 | Some i, _ => do! '(s, ml, r, v) <- get_rotated i (s3, ml3); Ret (s, ml, r, normalized3 v, v2)
                 | None, Some i => do! '(s, ml, r, v) <- get_rotated i (s3, ml3); Ret (s, ml, r, normalized3 (sub3 v v2), v)
                 | None, None => Abort (AUB "null Meta*")
                 end k')).
    { intros n s3 ml3 o o' k k' L F3 K. destruct o as [i|]; [|destruct o' as [i|]; [|apply sim_refl]].
      - apply sim_bind.
        + apply (gr_bind n); [exact L|exact F3|]. intros; apply sim_refl.
        + intros [[[[s4 ml4] b] v] w] G. apply obind_ret in G. destruct G as ([[[s5 ml5] b5] v5] & G & Q). injection Q as -> -> _ _ _. apply K. exact (proj2 (proj2 (gr_next _ _ _ _ _ _ _ _ L F3 G))).
      - apply sim_bind.
        + apply (gr_bind n); [exact L|exact F3|]. intros; apply sim_refl.
        + intros [[[[s4 ml4] b] v] w] G. apply obind_ret in G. destruct G as ([[[s5 ml5] b5] v5] & G & Q). injection Q as -> -> _ _ _. apply K. exact (proj2 (proj2 (gr_next _ _ _ _ _ _ _ _ L F3 G))). }
    apply (SD 2); [lia|exact F|]. clear F. intros s4 ml4 b4 v4 w4 F. cbv beta iota.
    apply (SD 3); [lia|exact F|]. intros. apply sim_refl.
  Qed.
  Lemma base_dim_sim d s : fine (v_points s) (v_rot s) 0 (d_meta d) -> sim (visit_base_dim_by get_rotated_ck fit_ck d s) (visit_base_dim d s).
  Proof.
    intro F. unfold visit_base_dim_by, visit_base_dim. apply sim_bind; [|intros; apply sim_refl].
    destruct (d_kind d); [exact (angle_sim d s F)|exact (circ_sim _ _ d s F)|exact (dim_sim d s F)|exact (circ_sim _ _ d s F)].
  Qed.
  Lemma base_dim_keeps d s s' d' o : visit_base_dim d s = Ret (s', d', o) -> v_points s' = v_points s /\ v_rot s' = v_rot s.
  Proof.
    intro H1. destruct (eqm (v_rot s) zerom) eqn:HN.
    - destruct (base_dim_null d s HN H1) as (_ & _ & dl & ->). split; reflexivity.
    - destruct (base_dim_spec d s HN) as (s2 & d2 & ok & H2 & _ & HF & HT). rewrite H1 in H2. injection H2 as <- <- <-.
      destruct o; [destruct (HT eq_refl) as [_ D]; destruct (draws_grows D) as (p & dl & ->); split; reflexivity|]. destruct (HF eq_refl) as [(dl & ->) _]. split; reflexivity.
  Qed.
  Lemma dims_sim ds : forall s, (forall d, In d ds -> fine (v_points s) (v_rot s) 0 (d_meta d)) -> sim (visit_dims_ck ds s) (visit_dims ds s).
  Proof.
    unfold visit_dims_ck. induction ds as [|d ds IH]; intros s F; cbn [visit_dims_by visit_dims]; [apply sim_refl|].
    apply sim_bind; [apply base_dim_sim, F; left; reflexivity|]. intros [[s1 d1] o1] H1. destruct (base_dim_keeps _ _ _ _ _ H1) as [K1 K2].
    apply sim_bind; [|intros; apply sim_refl]. apply IH. intros d' I. rewrite K1, K2. apply F. right; exact I.
  Qed.
  Lemma draw_sim st l n ml ds s : (forall f r p, model_of st n = Some f -> view_of ml = Some r -> rotate f r = Ret p ->
      forall d, In d ds -> fine (points (cull_back_face p)) r 0 (d_meta d)) ->
    sim (visit_draw_by get_rotated_ck fit_ck st l n ml ds s) (visit_draw st l n ml ds s).
  Proof.
    intro F. unfold visit_draw_by, visit_draw.
    destruct (flatten_spec "draw" ml) as (m0 & HF & W & FF). rewrite HF. clear HF.
    destruct (negb _); [apply sim_refl|].
    assert (F0 : forall n, fnd m0 n = drop [] n (index_of n (names ml))) by exact FF.
    destruct (@take_chain _ "scale"%string _ m0 _ W F0 eq_refl) as (m1 & -> & W1 & F1).
    destruct (get_scale _ _ _) as [s1 sc]. destruct sc as [ab|]; [|apply sim_refl].
    destruct (smap_find bytes_ltb n st) as [fo|] eqn:MF; [|apply sim_refl].
    destruct (@take_chain _ "view"%string _ m1 _ W1 F1 eq_refl) as (m2 & -> & W2 & F2).
    match goal with |- context [get_view ml _ ?s0] => destruct (get_view_spec ml s0) as (dl2 & -> & _) end.
    destruct (view_of ml) as [rot|] eqn:VW; [|apply sim_refl].
    destruct (take "@" m2) as [p3 m3_]. apply sim_bind; [apply sim_refl|]. intros pl _.
    destruct fo as [file|]; [|apply sim_refl].
    assert (HM : model_of st n = Some file) by (unfold model_of; rewrite MF; reflexivity).
    apply sim_bind; [apply sim_refl|]. intros proj RO. apply sim_bind; [apply sim_refl|]. intros ls _. apply sim_bind; [|intros; apply sim_refl].
    unfold add_dims_by, add_dims. destruct (strict_weak _ _); [|apply sim_refl]. apply dims_sim. exact (F _ _ _ HM eq_refl RO).
  Qed.
  Lemma drawables_sim st its : forall s, (forall l n ml ds f r p, In (DDraw l n ml ds) its -> model_of st n = Some f -> view_of ml = Some r -> rotate f r = Ret p ->
      forall d, In d ds -> fine (points (cull_back_face p)) r 0 (d_meta d)) ->
    sim (visit_drawables_by get_rotated_ck fit_ck st its s) (visit_drawables st its s).
  Proof.
    induction its as [|it its IH]; intros s F; cbn [visit_drawables_by visit_drawables]; [apply sim_refl|]. apply sim_bind.
    - unfold visit_drawable_by, visit_drawable. destruct it as [l n ml ds|l t ml]; [|apply sim_refl]. apply sim_bind; [|intros; apply sim_refl].
      apply draw_sim. intros f r p. exact (F l n ml ds f r p (or_introl eq_refl)).
    - intros [[s1 d1] o1] _. apply sim_bind; [|intros; apply sim_refl]. apply IH. intros l n ml ds f r p I. exact (F l n ml ds f r p (or_intror I)).
  Qed.
  Lemma page_sim st n pg s : (forall l n ml ds f r p, In (DDraw l n ml ds) (pg_draws pg) -> model_of st n = Some f -> view_of ml = Some r -> rotate f r = Ret p ->
      forall d, In d ds -> fine (points (cull_back_face p)) r 0 (d_meta d)) ->
    sim (gen_page_by get_rotated_ck fit_ck st n pg s) (gen_page st n pg s).
  Proof.
    intro F. unfold gen_page_by, gen_page. destruct (flatten "page" (pg_meta pg)) as [[ok0 m0] lg]. destruct (take "name" m0) as [p1 m1].
    match goal with |- context [match p1 with Some i => _ | None => _ end] => idtac end.
    destruct (match p1 with None => _ | Some i => _ end) as [[s1 nm] ok1]. apply sim_bind; [apply drawables_sim; exact F|intros; apply sim_refl].
  Qed.
  Lemma pages_sim st : forall pgs n s, (forall pg l n ml ds f r p, In pg pgs -> In (DDraw l n ml ds) (pg_draws pg) -> model_of st n = Some f -> view_of ml = Some r -> rotate f r = Ret p ->
      forall d, In d ds -> fine (points (cull_back_face p)) r 0 (d_meta d)) ->
    sim (gen_pages_by get_rotated_ck fit_ck st n pgs s) (gen_pages st n pgs s).
  Proof.
    induction pgs as [|pg pgs IH]; intros n s F; cbn [gen_pages_by gen_pages]; [apply sim_refl|]. apply sim_bind.
    - apply page_sim. intros l n' ml ds f r p. exact (F pg l n' ml ds f r p (or_introl eq_refl)).
    - intros [[s1 d1] o1] _. apply sim_bind; [|intros; apply sim_refl]. apply IH. intros pg' l n' ml ds f r p I. exact (F pg' l n' ml ds f r p (or_intror I)).
  Qed.
  (** A conversion *)
  Lemma script_sim fs src c : (forall f r ds p d, draws_model fs src c f r ds -> rotate f r = Ret p -> In d ds -> fine (points (cull_back_face p)) r 0 (d_meta d)) ->
    sim (script_to_ps_ck fs src c) (script_to_ps fs src c).
  Proof.
    intro F. unfold script_to_ps_ck, script_to_ps_by, script_to_ps. apply sim_bind; [apply sim_refl|]. intros [[rc d] lg] HP.
    destruct (rc =? 0) eqn:R; [|apply sim_refl]. apply Nat.eqb_eq in R. subst rc. assert (PS : parses src c d) by (exists lg; exact HP).
    apply sim_bind; [|intros; apply sim_refl]. unfold doc_to_ps_by, doc_to_ps. apply sim_bind; [apply sim_refl|]. intros [[st lg1] ok1] HL.
    destruct ok1; cbn [negb]; [|apply sim_refl]. apply sim_bind; [|intros; apply sim_refl]. unfold generate_pages_by, generate_pages.
    apply sim_bind; [|intros; apply sim_refl]. apply pages_sim. intros pg l n ml ds f r p Ipg Iit M V RO dm I.
    destruct (load_files_nil_ok _ _ HL) as (_ & _ & HM & _). refine (F f r ds p dm _ RO I).
    destruct (HM _ _ M) as (m & t & lgm & H1 & H2 & H3 & H4). exists d, pg, l, n, ml, m, t, lgm. repeat (split; [assumption|]). split; [apply view_of_asks; exact V|]. auto.
  Qed.
End Sim.

(** Whatever the input, the checks only ever end a conversion. *)
Theorem checks_only_end (A : Arith) (E : Env) fs src c :
  script_to_ps_ck fs src c = script_to_ps fs src c \/ script_to_ps_ck fs src c = Abort bad_lookup.
Proof.
  destruct (script_sim True (fun _ _ _ _ => True) (fun _ _ _ _ H => H) (fun _ _ _ _ _ _ _ _ _ _ _ => conj (or_intror I) I) (fun _ _ _ _ _ _ => or_intror I) fs src c (fun _ _ _ _ _ _ _ _ => I)) as [H|[H _]]; [left; exact H|right; exact H].
Qed.
