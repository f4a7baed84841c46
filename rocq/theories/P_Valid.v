(** P_Valid.v - exactly the good documents are converted. *)
From Verif Require Import Base Num Geo Stl StlRead Env Ast Lexer Parser Ps Draw Main DocSpec GeoSpec ValidSpec
  P_Base P_Geo1 P_Meta P_Frame P_Dims P_Doc P_Script P_Script2 P_Script3 P_Script4 P_Dead P_Lang P_Value P_Mark.

Local Unset Implicit Arguments.
Local Open Scope string_scope.
Local Open Scope list_scope.
Section Valid.
  Context {A : Arith} {E : Env}.
  Lemma tidy_iff k ml : tidy k ml <-> NoDup (names ml) /\ only (block_keys k) ml.
  Proof.
    unfold tidy, only, names. split; intros [N O]; split; try exact N; intros n I.
    - specialize (O n I). apply in_map_iff in O. destruct O as (s & <- & Is). exists s. split; [|reflexivity]. destruct k as [| | |[]]; cbn in *; tauto.
    - destruct (O n I) as (s & Is & ->). apply in_map, keys_documented, Is.
  Qed.
  Lemma fmt_iff dflt ml : NoDup (names ml) -> ((exists fm, fmt_arg dflt ml = Some fm) <-> exists fm, format_used ml dflt fm).
  Proof.
    intro N. split; intros [fm H].
    - exists fm. exact (fmt_used _ _ H).
    - exists fm. unfold fmt_arg. destruct H as [(x & I & Q & V & P)|[H ->]].
      + rewrite (arg_unique "fmt" ml x N I Q). unfold as_str. rewrite V, P. reflexivity.
      + rewrite (proj2 (arg_none "fmt" ml) H). reflexivity.
  Qed.
  Lemma arg_has n ml : arg n ml <> None <-> has ml n.
  Proof.
    unfold has. fold (names ml). destruct (arg n ml) as [x|] eqn:G.
    - split; [|discriminate]. intros _. destruct (arg_in _ _ G) as [I Q]. unfold names. rewrite <- Q. apply in_map, I.
    - split; [congruence|]. intro H. exfalso. exact (proj1 (arg_none n ml) G H).
  Qed.
  Lemma side_iff ps r kd kp ml p f : NoDup (names ml) -> (side_arg ps r kd kp ml p = Some f <-> one_side ps r ml kd kp p f).
  Proof.
    intro N. split.
    - intro H. split; [exact (side_arg_used _ _ _ _ _ _ H)|]. unfold side_arg in H. rewrite <- !arg_has. destruct (arg kd ml), (arg kp ml); try discriminate H; intuition congruence.
    - intros [[(v & EV & ->)|(v & EV & ->)] NB]; pose proof (evaluates_arg _ _ _ _ _ N EV) as P; unfold point_arg in P; unfold side_arg; rewrite <- !arg_has in NB.
      + destruct (arg kd ml) as [x|] eqn:G; [|discriminate P]. destruct (arg kp ml) as [y|] eqn:G'; [exfalso; apply NB; split; congruence|]. rewrite P. reflexivity.
      + destruct (arg kp ml) as [x|] eqn:G; [|discriminate P]. destruct (arg kd ml) as [y|] eqn:G'; [exfalso; apply NB; split; congruence|]. rewrite P. reflexivity.
  Qed.
  Lemma dim_iff ps r dm : dim_valid ps r dm <-> dim_good ps r dm.
  Proof.
    unfold dim_good, dim_valid. cbv zeta. rewrite tidy_iff. change (block_keys (BDim (d_kind dm))) with (keys_of (d_kind dm)).
    cut (NoDup (names (d_meta dm)) -> (args_ok ps r dm <-> match d_kind dm with
      | KDim => exists fm a dd f t, format_used (d_meta dm) "%.3f" fm /\ evaluates ps r (d_meta dm) "at" a /\ evaluates ps r (d_meta dm) "dir" dd /\ evaluates ps r (d_meta dm) "from" f /\ evaluates ps r (d_meta dm) "to" t /\ eq3 dd zero3 = false
      | KDia | KRad => exists fm a dd c ce rr, format_used (d_meta dm) "%.3f" fm /\ evaluates ps r (d_meta dm) "at" a /\ evaluates ps r (d_meta dm) "dir" dd /\ evaluates ps r (d_meta dm) "center" c /\
          3 <= length ps /\ fit_circle ps (xy c) = Some (ce, rr)
      | KAngle => exists fm a p f t, format_used (d_meta dm) "%.1f" fm /\ evaluates ps r (d_meta dm) "at" a /\ evaluates ps r (d_meta dm) "apex" p /\
          one_side ps r (d_meta dm) "from_dir" "from_point" p f /\ one_side ps r (d_meta dm) "to_dir" "to_point" p t /\ neq (z3 (cross3 (fst t) (fst f))) nz = false
      end%string)); [intro K; split; intros [N [O X]] || intros [[N O] X]; intuition|].
    intro N. set (ml := d_meta dm) in *. unfold args_ok. fold ml. clearbody ml.
    assert (CI : circ_args ps r ml <> None <-> exists fm a dd c ce rr, format_used ml "%.3f" fm /\ evaluates ps r ml "at" a /\ evaluates ps r ml "dir" dd /\ evaluates ps r ml "center" c /\
          3 <= length ps /\ fit_circle ps (xy c) = Some (ce, rr)).
    { unfold circ_args. split.
      - destruct (point_arg ps r "at" ml) as [a|] eqn:P1; [|congruence]. destruct (point_arg ps r "dir" ml) as [dd|] eqn:P2; [|congruence]. destruct (point_arg ps r "center" ml) as [c|] eqn:P3; [|congruence].
        destruct (fmt_arg "%.3f" ml) as [fm|] eqn:PF; [|congruence]. destruct (Nat.ltb_spec (length ps) 3) as [|L]; [congruence|]. destruct (fit_circle ps (xy c)) as [[ce rr]|] eqn:FC; [|congruence]. intros _.
        exists fm, a, dd, c, ce, rr. split; [exact (fmt_used _ _ PF)|]. repeat split; auto using ev_evaluates.
      - intros (fm & a & dd & c & ce & rr & F & Ea & Ed & Ec & L & FC). destruct (proj2 (fmt_iff "%.3f" ml N) (ex_intro _ fm F)) as [fm' ->].
        rewrite (evaluates_arg _ _ _ _ _ N Ea), (evaluates_arg _ _ _ _ _ N Ed), (evaluates_arg _ _ _ _ _ N Ec), FC. destruct (Nat.ltb_spec (length ps) 3); [lia|discriminate]. }
    destruct (d_kind dm); [|exact CI| |exact CI].
    - unfold angle_args. split.
      + destruct (point_arg ps r "at" ml) as [a|] eqn:P1; [|congruence]. destruct (point_arg ps r "apex" ml) as [p|] eqn:P2; [|congruence].
        destruct (side_arg ps r "from_dir" "from_point" ml p) as [f|] eqn:P3; [|congruence]. destruct (side_arg ps r "to_dir" "to_point" ml p) as [t|] eqn:P4; [|congruence].
        destruct (fmt_arg "%.1f" ml) as [fm|] eqn:PF; [|congruence]. destruct (neq _ _) eqn:Z; [congruence|]. intros _.
        exists fm, a, p, f, t. split; [exact (fmt_used _ _ PF)|]. split; [apply ev_evaluates; exact P1|]. split; [apply ev_evaluates; exact P2|].
        split; [apply (side_iff _ _ _ _ _ _ _ N); exact P3|]. split; [apply (side_iff _ _ _ _ _ _ _ N); exact P4|exact Z].
      + intros (fm & a & p & f & t & F & Ea & Ep & S1 & S2 & Z). destruct (proj2 (fmt_iff "%.1f" ml N) (ex_intro _ fm F)) as [fm' ->].
        rewrite (evaluates_arg _ _ _ _ _ N Ea), (evaluates_arg _ _ _ _ _ N Ep), (proj2 (side_iff _ _ _ _ _ _ _ N) S1), (proj2 (side_iff _ _ _ _ _ _ _ N) S2), Z. discriminate.
    - unfold dim_args. split.
      + destruct (point_arg ps r "at" ml) as [a|] eqn:P1; [|congruence]. destruct (point_arg ps r "dir" ml) as [dd|] eqn:P2; [|congruence]. destruct (point_arg ps r "from" ml) as [f|] eqn:P3; [|congruence].
        destruct (point_arg ps r "to" ml) as [t|] eqn:P4; [|congruence]. destruct (fmt_arg "%.3f" ml) as [fm|] eqn:PF; [|congruence]. destruct (eq3 dd zero3) eqn:Z; [congruence|]. intros _.
        exists fm, a, dd, f, t. split; [exact (fmt_used _ _ PF)|]. repeat split; auto using ev_evaluates.
      + intros (fm & a & dd & f & t & F & Ea & Ed & Ef & Et & Z). destruct (proj2 (fmt_iff "%.3f" ml N) (ex_intro _ fm F)) as [fm' ->].
        rewrite (evaluates_arg _ _ _ _ _ N Ea), (evaluates_arg _ _ _ _ _ N Ed), (evaluates_arg _ _ _ _ _ N Ef), (evaluates_arg _ _ _ _ _ N Et), Z. discriminate.
  Qed.

  (** ** Properties of draws *)
  Lemma scale_iff ml : NoDup (names ml) -> forall a b, asks_scale ml a b -> scale_of ml = Some (a, b).
  Proof.
    intros N a b [H|x a' b' I Q V]; unfold scale_of.
    - rewrite (proj2 (arg_none "scale" ml) H). reflexivity.
    - rewrite (arg_unique "scale" ml x N I Q). unfold as_scale. rewrite V. reflexivity.
  Qed.
  Lemma view_iff ml : NoDup (names ml) -> forall r, asks_view ml r -> view_of ml = Some r.
  Proof.
    intros N r [H|x a I Q V|x n r' I Q V C]; unfold view_of.
    - rewrite (proj2 (arg_none "view" ml) H). reflexivity.
    - rewrite (arg_unique "view" ml x N I Q). unfold as_loc. rewrite V. reflexivity.
    - rewrite (arg_unique "view" ml x N I Q). unfold as_loc, as_str. rewrite V. cbn [view_names map combine] in C.
      repeat destruct C as [C|C]; try (injection C as <- <-; reflexivity). destruct C.
  Qed.
  Lemma title_iff pg : NoDup (names (pg_meta pg)) -> ((exists t, titled pg t) <-> forall x, arg "name" (pg_meta pg) = Some x -> as_str x <> None).
  Proof.
    intro N. split.
    - intros [t [H|x t' I Q V]] y Hy.
      + rewrite (proj2 (arg_none "name" _) H) in Hy. discriminate.
      + rewrite (arg_unique "name" _ x N I Q) in Hy. injection Hy as <-. unfold as_str. rewrite V. discriminate.
    - intro H. destruct (arg "name" (pg_meta pg)) as [x|] eqn:G.
      + specialize (H x eq_refl). unfold as_str in H. destruct (m_val x) eqn:V; try congruence. destruct (arg_in _ _ G) as [I Q]. eexists. eapply T_some; eassumption.
      + exists []. apply T_none. apply arg_none, G.
  Qed.

  (** ** Loading *)
  Lemma load_complete fs ms : forall st, ssorted bytes_ltb (map fst st) -> Forall (model_good fs) ms -> NoDup (map mo_name ms) ->
    (forall m, In m ms -> smap_find bytes_ltb (mo_name m) st = None) -> exists st' lg, load_files fs ms st = Ret (st', lg, true).
  Proof.
    induction ms as [|m ms IH]; intros st SS F N D; cbn [load_files]; [eauto|]. inversion F as [|? ? (c & f & lg & O & M) F']; subst. inversion N as [|? ? N1 N2]; subst.
    assert (L1 : load_one fs m st = Ret (smap_emplace bytes_ltb (mo_name m) (Some f) st, lg, true)) by (unfold load_one; rewrite (D m (or_introl eq_refl)), O, M; reflexivity).
    assert (L2 : load_files fs [m] st = Ret (smap_emplace bytes_ltb (mo_name m) (Some f) st, lg ++ [], true)) by (cbn [load_files]; rewrite L1; reflexivity).
    destruct (load_files_ok fs _ _ SS L2) as (SS' & _ & _ & _ & FD).
    rewrite L1. cbn [obind]. destruct (IH (smap_emplace bytes_ltb (mo_name m) (Some f) st) SS' F' N2) as (st' & lg' & ->).
    - intros m' I. rewrite FD. rewrite (D m' (or_intror I)). cbn [find]. destruct (bytes_eqb (mo_name m) (mo_name m')) eqn:Q; [|reflexivity].
      apply bytes_eqb_eq in Q. exfalso. apply N1. rewrite Q. apply in_map, I.
    - cbn [obind]. eauto.
  Qed.
  Lemma good_models fs d : NoDup (map mo_name (doc_models d)) -> (forall m, In m (doc_models d) -> exists f, reads_as fs d (mo_name m) f) -> Forall (model_good fs) (doc_models d).
  Proof.
    intros N H. apply Forall_forall. intros m I. destruct (H m I) as (f & m' & t & lg & I' & Q & R & M).
    assert (m' = m) as ->.
    { clear - N I I' Q. induction (doc_models d) as [|x l IH]; [destruct I|]. inversion N as [|? ? N1 N2]; subst. destruct I as [->|I], I' as [->|I']; try reflexivity.
      - exfalso. apply N1. rewrite <- Q. apply in_map, I'.
      - exfalso. apply N1. rewrite Q. apply in_map, I.
      - auto. }
    exists t, f, lg. split; [apply resolves_iff; exact R|exact M].
  Qed.

  (** ** Pages *)
  Lemma item_complete st d s : item_at_ok d -> (match d with
      | DText _ _ ml => tidy BText ml
      | DDraw _ n ml ds => tidy BDraw ml /\ (exists a b, asks_scale ml a b) /\
          exists f r p ls, model_of st n = Some f /\ asks_view ml r /\ rotate f r = Ret p /\ to_lines (cull_back_face p) = Ret ls /\
            strict_weak_order (fun v => In v (vertices (cull_back_face p))) order /\ (ds = [] \/ eqm r zerom = false) /\ Forall (dim_good (points (cull_back_face p)) r) ds
      end) -> exists s' d', visit_drawable st d s = Ret (s', d', true).
  Proof.
    destruct d as [l n ml ds|l t ml]; intros AT H.
    - destruct H as (T & (a & b & SC) & f & r & p & ls & M & V & R & L & SO & Z & D). apply tidy_iff in T. destruct T as [N O].
      pose proof (scale_iff _ N _ _ SC) as SC'. pose proof (view_iff _ N _ V) as V'. destruct (at_ok_place _ AT) as [PL _]. destruct (place_of ml) as [pl|] eqn:HP; [|congruence].
      assert (VD : exists s' ds', visit_dims ds (draw_state (a, b) r pl (cull_back_face p) ls s) = Ret (s', ds', true)).
      { destruct (visit_dims ds _) as [[[s' ds'] ok]|e] eqn:VD.
        - destruct (visit_dims_spec _ _ VD) as (_ & _ & OK & _). assert (ok = true) as ->; [|eauto]. apply OK. split; [exact Z|]. cbn [draw_state add_lines set_page v_points v_rot].
          eapply Forall_impl; [|exact D]. intros dm Hd. apply dim_iff. exact Hd.
        - exfalso. destruct (dims_abort _ _ _ VD) as (K1 & K2 & _). cbn in K2. destruct Z as [Z|Z]; congruence. }
      destruct VD as (s' & ds' & VD).
      assert (SO' : strict_weak order (flat_map fverts (facets (cull_back_face p))) = true) by (apply strict_weak_iff, strict_swo; exact SO).
      assert (DR : draw_run st n ml ds s s' ds') by (econstructor; eassumption).
      cbn [visit_drawable]. destruct (visit_draw st l n ml ds s) as [[[s1 ds1] ok]|e] eqn:HV.
      + destruct ok; [cbn [obind]; eauto|]. destruct (visit_draw_full _ _ _ _ _ _ HV) as [K _]. exfalso. exact (K eq_refl _ _ DR).
      + exfalso. destruct (draw_abort _ _ _ _ _ _ _ HV) as [K|K|f' r' e K1 K2 K3|f' r' p' e K1 K2 K3 K4|f' r' p' K1 K2 K3 K4|f' r' K1 K2 K3 K4].
        * congruence.
        * unfold model_of in M. rewrite K in M. discriminate.
        * congruence.
        * rewrite M in K1. injection K1 as <-. rewrite V' in K2. injection K2 as <-. rewrite R in K3. injection K3 as <-. congruence.
        * rewrite M in K1. injection K1 as <-. rewrite V' in K2. injection K2 as <-. rewrite R in K3. injection K3 as <-. congruence.
        * rewrite V' in K2. injection K2 as <-. destruct Z as [Z|Z]; congruence.
    - apply tidy_iff in H. destruct (at_ok_place _ AT) as [_ PL]. cbn [visit_drawable]. destruct (visit_text l t ml s) as [[s1 ok]|e] eqn:HV.
      + destruct (visit_text_spec _ _ _ _ HV) as [OK _]. rewrite (proj2 OK H). cbn [obind]. eauto.
      + exfalso. destruct (text_abort _ _ _ _ _ HV) as [K _]. congruence.
  Qed.
  Lemma items_complete st ds : Forall (fun d => forall s, exists s' d', visit_drawable st d s = Ret (s', d', true)) ds ->
    forall s, exists s' ds', visit_drawables st ds s = Ret (s', ds', true).
  Proof.
    induction 1 as [|d ds H F IH]; intro s; cbn [visit_drawables]; [eauto|]. destruct (H s) as (s1 & d1 & ->). cbn [obind]. destruct (IH s1) as (s2 & t & ->). cbn [obind andb]. eauto.
  Qed.
  Lemma page_complete st n pg : tidy BPage (pg_meta pg) -> (exists t, titled pg t) ->
    Forall (fun d => forall s, exists s' d', visit_drawable st d s = Ret (s', d', true)) (pg_draws pg) ->
    forall s, exists s' pg', gen_page st n pg s = Ret (s', pg', true).
  Proof.
    intros T TI F s. apply tidy_iff in T. destruct T as [N O]. pose proof (proj1 (title_iff pg N) TI) as TT. clear TI.
    unfold gen_page. set (ml := pg_meta pg) in *.
    destruct (flatten_spec "page" ml) as (m0 & HF & W & FF). rewrite HF. clear HF.
    pose proof (nilb_nodup (B "page") ml) as ND.
    set (dd := dup_diags (B "page") [] ml) in *.
    assert (F0 : forall n, fnd m0 n = drop [] n (index_of n (names ml))) by exact FF.
    destruct (@take_chain _ "name"%string _ m0 _ W F0 eq_refl) as (m1 & -> & W1 & F1).
    assert (HK : m1 = [] <-> only page_keys ml) by (rewrite (chain_nil _ _ W1 F1); split; apply only_ext; intro k; simpl; tauto).
    rewrite (proj2 HK O). rewrite (proj2 ND N).
    match goal with |- context [let '(_, _) := ?x in _] => destruct x as [[s1 nm] ok1] eqn:HN end.
    assert (ok1 = true) as ->.
    { destruct (arg_prop "name" ml) as [(i & x & P & Nx & _ & AE)|[P AE]].
      - rewrite P, Nx in HN. specialize (TT x AE). destruct (as_str x); [injection HN as _ _ <-; reflexivity|congruence].
      - rewrite P in HN. injection HN as _ _ <-. reflexivity. }
    destruct (items_complete st _ F s1) as (s2 & ds2 & ->). cbn [obind andb]. eauto.
  Qed.
  Lemma pages_complete st pgs : (forall pg n s, In pg pgs -> exists s' pg', gen_page st n pg s = Ret (s', pg', true)) ->
    forall n s, exists s' pgs' os, gen_pages st n pgs s = Ret (s', pgs', os, true).
  Proof.
    induction pgs as [|pg pgs IH]; intros H n s; cbn [gen_pages]; [eauto|]. destruct (H pg n s (or_introl eq_refl)) as (s1 & p1 & ->). cbn [obind].
    destruct (IH (fun q m t I => H q m t (or_intror I)) (S n) s1) as (s2 & t & os & ->). cbn [obind andb]. eauto.
  Qed.

  (** ** Documents *)
  Theorem convertible fs src c : converts fs src c <-> exists d, parses src c d /\ doc_good fs d.
  Proof.
    split.
    - intros (r & H & K). destruct (script_ok _ _ _ H K) as (d & r' & HP & (st & lg1 & os & d' & lg2 & HL & HG & _) & _). exists d. split; [exact HP|].
      destruct (load_files_nil_ok _ _ HL) as (_ & N & M1 & M2). destruct (generate_pages_spec _ _ HG) as (_ & _ & _ & OK). destruct (OK eq_refl) as [DO _].
      split; [exact N|]. split.
      { intros m I. destruct (M2 m I) as (t & f & lg & R & M & _). exists f, m, t, lg. auto. }
      unfold doc_ok in DO. eapply Forall_impl; [|exact DO]. intros pg (N1 & O1 & T1 & F1). split; [apply tidy_iff; auto|]. split; [apply title_iff; assumption|].
      eapply Forall_impl; [|exact F1]. intros [l n ml ds|l t ml] I; cbn [item_ok item_good] in *.
      + destruct I as (s & s' & ds' & [[a b] f rot pl proj ls Q1 Q2 Q3 Q4 Q5 Q6 Q7 Q8 QO Q9]). split; [apply tidy_iff; auto|]. split; [exists a, b; apply scale_asks; exact Q3|].
        exists f, rot, proj, ls. split; [destruct (M1 _ _ Q4) as (m & t & lgm & H1 & H2 & H3 & H4); exists m, t, lgm; auto|]. split; [apply view_of_asks; exact Q5|]. split; [exact Q7|]. split; [exact Q8|]. split; [apply swo_strict, strict_weak_iff; exact QO|].
        destruct (visit_dims_spec _ _ Q9) as (_ & _ & OKD & _). destruct (proj1 OKD eq_refl) as [Z FD]. split; [exact Z|]. eapply Forall_impl; [|exact FD]. intros dm Hd. apply dim_iff. exact Hd.
      + apply tidy_iff. tauto.
    - intros (d & HP & N & M & F). pose proof (good_models fs d N M) as GM. destruct (load_complete fs (doc_models d) [] (Sorted.SSorted_nil _) GM N (fun _ _ => eq_refl)) as (st & lg & HL).
      destruct (load_files_nil_ok _ _ HL) as (_ & _ & _ & M2). pose proof (parsed_at_ok _ _ _ HP) as AT. rewrite Forall_forall in AT, F.
      destruct (pages_complete st (doc_pages d)) with (n := 1) (s := vst_init) as (s' & pgs' & os & HG).
      { intros pg n s I. destruct (F pg I) as (T & TI & FI). apply page_complete; [exact T|exact TI|]. specialize (AT pg I). rewrite Forall_forall in AT, FI |- *. intros i Ii s0. specialize (AT i Ii). specialize (FI i Ii).
        apply item_complete; [exact AT|]. destruct i as [l k ml ds|l t ml]; [|exact FI]. destruct FI as (T1 & SC & f & r & p & ls & RA & V & R). split; [exact T1|]. split; [exact SC|]. exists f, r, p, ls. split; [|auto].
        destruct RA as (m & t & lgm & Im & Q & RS & MK). destruct (M2 m Im) as (t' & f' & lg' & RS' & MK' & Q'). rewrite (resolves_fun RS RS') in MK. rewrite MK' in MK. injection MK as <- _. rewrite <- Q. exact Q'. }
      destruct HP as [lgp HP]. unfold converts, script_to_ps. rewrite HP. cbn [obind Nat.eqb]. unfold doc_to_ps. rewrite HL. cbn [obind negb]. unfold generate_pages. rewrite HG. cbn [obind negb].
      eexists. split; reflexivity.
  Qed.
End Valid.
