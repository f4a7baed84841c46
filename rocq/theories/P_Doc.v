(** P_Doc.v - when drawings, pages and documents are accepted, and what is done
    to the document on the way. *)
From Verif Require Import Base Num Geo Stl StlRead Env Ast Ps Draw P_Base P_Meta P_Frame P_Dims.

Section Doc.
  Context {A : Arith} {E : Env}.

  (** ** One dimension *)
  Definition keys_of (k : dkind) : list string :=
    match k with KAngle => angle_keys | KDia => circ_keys | KDim => dim_keys | KRad => circ_keys end.
  Definition args_ok (ps : point_set) (r : m3) (d : dim) : Prop :=
    match d_kind d with
    | KAngle => angle_args ps r (d_meta d) <> None
    | KDia | KRad => circ_args ps r (d_meta d) <> None
    | KDim => dim_args ps r (d_meta d) <> None
    end.
  Definition dim_valid (ps : point_set) (r : m3) (d : dim) : Prop :=
    NoDup (names (d_meta d)) /\ only (keys_of (d_kind d)) (d_meta d) /\ args_ok ps r d.

  Definition rot_dim (r : m3) (d : dim) : dim := Dim (d_kind d) (d_loc d) (map (rot_meta r) (d_meta d)).
  (** d' is d with some coordinates rotated, each at most once. *)
  Definition dim_touched (r : m3) (d d' : dim) : Prop :=
    exists R, d' = Dim (d_kind d) (d_loc d) (rot_at r R (d_meta d)).

  Lemma dim_eta d : Dim (d_kind d) (d_loc d) (d_meta d) = d.
  Proof. destruct d; reflexivity. Qed.
  Lemma dim_touched_refl r d : dim_touched r d d.
  Proof. exists []. rewrite rot_at_nil, dim_eta. reflexivity. Qed.

  (** Number of lines, arcs and texts of a dimension. *)
  Definition parts_of (k : dkind) : nat * nat * nat :=
    match k with KAngle => (6, 1, 1) | KDia => (6, 0, 1) | KDim => (8, 0, 1) | KRad => (4, 0, 1) end.
  Definition sizes (p : opage) : nat * nat * nat := (length (o_lines p), length (o_arcs p), length (o_text p)).

  (** s' is s with p added to the page. *)
  Definition adds (s s' : vst) (p : opage) : Prop :=
    s' = Vst (v_points s) (v_rot s) (v_scale s) (v_d s) (papp (v_page s) p) (v_log s).

  Lemma adds_lines s ls : exists ls', length ls' = length ls /\ adds s (add_lines ls s) (OPage ls' [] []).
  Proof.
    eexists. split; [apply map_length|]. unfold adds, add_lines, set_page, papp; simpl. rewrite !app_nil_r. reflexivity.
  Qed.
  Lemma adds_arcs s ls : exists ls', length ls' = length ls /\ adds s (add_arcs ls s) (OPage [] ls' []).
  Proof.
    eexists. split; [apply map_length|]. unfold adds, add_arcs, set_page, papp; simpl. rewrite !app_nil_r. reflexivity.
  Qed.
  Lemma adds_text s ls : exists ls', length ls' = length ls /\ adds s (add_text ls s) (OPage [] [] ls').
  Proof.
    eexists. split; [apply map_length|]. unfold adds, add_text, set_page, papp; simpl. rewrite !app_nil_r. reflexivity.
  Qed.
  Lemma adds_trans s1 s2 s3 p q : adds s1 s2 p -> adds s2 s3 q -> adds s1 s3 (papp p q).
  Proof. unfold adds. intros -> ->. simpl. rewrite papp_assoc. reflexivity. Qed.
  Lemma sizes_papp p q : sizes (papp p q) =
    (length (o_lines p) + length (o_lines q), length (o_arcs p) + length (o_arcs q), length (o_text p) + length (o_text q)).
  Proof. unfold sizes, papp; simpl. rewrite !app_length. reflexivity. Qed.

  Definition draws (k : dkind) (s s' : vst) : Prop := exists p, adds s s' p /\ sizes p = parts_of k.

  Lemma draw_dim_draws fm a dd f t s : draws KDim s (draw_dim fm a dd f t s).
  Proof.
    unfold draw_dim. cbv zeta.
    match goal with |- context [add_text ?l s] => destruct (adds_text s l) as (l1 & L1 & H1); set (s1 := add_text l s) in * end.
    match goal with |- context [if ?c then add_lines ?x s1 else add_lines ?y s1] =>
      assert (HS : exists s2 l2, (if c then add_lines x s1 else add_lines y s1) = s2 /\ length l2 = 2 /\ adds s1 s2 (OPage l2 [] []));
      [destruct c; [destruct (adds_lines s1 x) as (l2 & L2 & H2)|destruct (adds_lines s1 y) as (l2 & L2 & H2)];
       eexists; exists l2; (split; [reflexivity|]); split; assumption|]
    end.
    destruct HS as (s2 & l2 & -> & L2 & H2).
    match goal with |- context [add_lines ?l s2] => destruct (adds_lines s2 l) as (l3 & L3 & H3); set (s3 := add_lines l s2) in * end.
    eexists. split; [exact (adds_trans (adds_trans H1 H2) H3)|].
    unfold sizes, papp; simpl. rewrite !app_length; simpl. rewrite ?L1, ?L2, ?L3. reflexivity.
  Qed.

  Lemma draw_circ_draws s ln x y z t k : length x = 2 -> length y = 2 -> length t = 1 ->
    parts_of k = (2 + length z, 0, 1) ->
    draws k s (add_text t (add_lines z (if ln : bool then add_lines x s else add_lines y s))).
  Proof.
    intros Lx Ly Lt K.
    assert (HS : exists s2 l2, (if ln then add_lines x s else add_lines y s) = s2 /\ length l2 = 2 /\ adds s s2 (OPage l2 [] [])).
    { destruct ln; [destruct (adds_lines s x) as (l2 & L2 & H2)|destruct (adds_lines s y) as (l2 & L2 & H2)];
       eexists; exists l2; (split; [reflexivity|]); split; congruence. }
    destruct HS as (s2 & l2 & -> & L2 & H2).
    destruct (adds_lines s2 z) as (l3 & L3 & H3). set (s3 := add_lines z s2) in *.
    destruct (adds_text s3 t) as (l4 & L4 & H4).
    eexists. split; [exact (adds_trans (adds_trans H2 H3) H4)|].
    unfold sizes, papp; simpl. rewrite !app_length; simpl. rewrite ?L2, ?L3, ?L4, K, ?Lt. simpl. repeat f_equal; lia.
  Qed.
  Lemma draw_dia_draws fm a b c r s : draws KDia s (draw_dia fm a b c r s).
  Proof. unfold draw_dia. cbv zeta. apply draw_circ_draws; reflexivity. Qed.
  Lemma draw_rad_draws fm a b c r s : draws KRad s (draw_rad fm a b c r s).
  Proof. unfold draw_rad. cbv zeta. apply draw_circ_draws; reflexivity. Qed.
  Lemma draw_angle_draws l fm a b c d e f s s' : (s', true) = draw_angle l fm a b c d e f s -> draws KAngle s s'.
  Proof.
    unfold draw_angle. cbv zeta. destruct (neq _ _); [discriminate|]. intro H. injection H as ->.
    match goal with |- context [add_lines ?l s] => destruct (adds_lines s l) as (l1 & L1 & H1); set (s1 := add_lines l s) in * end.
    match goal with |- context [add_arcs ?l s1] => destruct (adds_arcs s1 l) as (l2 & L2 & H2); set (s2 := add_arcs l s1) in * end.
    match goal with |- context [add_text ?l s2] => destruct (adds_text s2 l) as (l3 & L3 & H3); set (s3 := add_text l s2) in * end.
    eexists. split; [exact (adds_trans (adds_trans H1 H2) H3)|].
    unfold sizes, papp; simpl. rewrite !app_length; simpl. rewrite ?L1, ?L2, ?L3. reflexivity.
  Qed.

  Lemma base_dim_spec d s : eqm (v_rot s) zerom = false ->
    exists s' d' ok, visit_base_dim d s = Ret (s', d', ok) /\
      (ok = true <-> dim_valid (v_points s) (v_rot s) d) /\
      (ok = false -> (exists dl, s' = log_all dl s) /\ dim_touched (v_rot s) d d') /\
      (ok = true -> d' = rot_dim (v_rot s) d /\ draws (d_kind d) s s').
  Proof.
    intro HN. unfold visit_base_dim, dim_valid, args_ok, keys_of.
    assert (HT : forall s' ml', failed s s' (d_meta d) ml' ->
              (exists dl, s' = log_all dl s) /\ dim_touched (v_rot s) d (Dim (d_kind d) (d_loc d) ml')).
    { intros s' ml' [H1 [R H2]]. split; [exact H1|]. exists R. rewrite H2. reflexivity. }
    destruct (d_kind d) eqn:K.
    - destruct (visit_angle_spec d s HN) as (s' & ml' & ok & H1 & H2 & H3 & H4). rewrite H1. cbn [obind].
      do 3 eexists. split; [reflexivity|]. split; [exact H2|]. split; [intro O; apply HT; auto|].
      intro O. destruct (H4 O) as (-> & fm & a & p & f & t & _ & H). split; [unfold rot_dim; rewrite K; reflexivity|].
      eapply draw_angle_draws; exact H.
    - unfold visit_dia. destruct (@visit_circ_spec _ _ "dia" draw_dia d s HN) as (s' & ml' & ok & H1 & H2 & H3 & H4). rewrite H1. cbn [obind].
      do 3 eexists. split; [reflexivity|]. split; [exact H2|]. split; [intro O; apply HT; auto|].
      intro O. destruct (H4 O) as (-> & fm & a & p & f & t & _ & H). split; [unfold rot_dim; rewrite K; reflexivity|].
      rewrite H. apply draw_dia_draws.
    - destruct (visit_dim_spec d s HN) as (s' & ml' & ok & H1 & H2 & H3 & H4). rewrite H1. cbn [obind].
      do 3 eexists. split; [reflexivity|]. split; [exact H2|]. split; [intro O; apply HT; auto|].
      intro O. destruct (H4 O) as (-> & fm & a & p & f & t & _ & H). split; [unfold rot_dim; rewrite K; reflexivity|].
      rewrite H. apply draw_dim_draws.
    - unfold visit_rad. destruct (@visit_circ_spec _ _ "rad" draw_rad d s HN) as (s' & ml' & ok & H1 & H2 & H3 & H4). rewrite H1. cbn [obind].
      do 3 eexists. split; [reflexivity|]. split; [exact H2|]. split; [intro O; apply HT; auto|].
      intro O. destruct (H4 O) as (-> & fm & a & p & f & t & _ & H). split; [unfold rot_dim; rewrite K; reflexivity|].
      rewrite H. apply draw_rad_draws.
  Qed.

  (** With a null view matrix the program aborts as soon as it evaluates a point. *)
  Lemma base_dim_null d s s' d' ok : eqm (v_rot s) zerom = true ->
    visit_base_dim d s = Ret (s', d', ok) -> ok = false /\ d' = d /\ exists dl, s' = log_all dl s.
  Proof.
    intros HN. unfold visit_base_dim.
    assert (HX : forall r : vret, (forall s1 ml1 o1, r = Ret (s1, ml1, o1) -> o1 = false /\ ml1 = d_meta d /\ exists dl, s1 = log_all dl s) ->
      (do! '(s', ml, ok) <- r; Ret (s', Dim (d_kind d) (d_loc d) ml, ok)) = Ret (s', d', ok) ->
      ok = false /\ d' = d /\ exists dl, s' = log_all dl s).
    { intros r Hr H. destruct r as [[[s1 ml1] o1]|]; [|discriminate]. destruct (Hr _ _ _ eq_refl) as (-> & -> & Hd).
      cbn [obind] in H. injection H as <- <- <-. rewrite dim_eta. auto. }
    apply HX. clear HX. intros s1 ml1 o1.
    assert (HR : forall i dl ml, get_rotated i (log_all dl s, ml) = Abort (ACheck "Null rotation"))
      by (intros; apply get_rotated_null; exact HN).
    assert (HC : forall what draw, visit_circ what draw d s = Ret (s1, ml1, o1) -> o1 = false /\ ml1 = d_meta d /\ exists dl, s1 = log_all dl s).
    { intros what draw. unfold visit_circ. destruct (flatten _ _) as [[ok0 m0] lg].
      destruct ok0; cbn [negb]; [|intro H; injection H as <- <- <-; eauto]. unfold get_center.
      destruct (take "at" m0) as [p1 m1], (take "dir" m1) as [p2 m2], (take "center" m2) as [p3 m3_].
      rewrite !need_spec, !log_all_app.
      destruct p1 as [i1|]; [|cbn [obind]; intro H; injection H as <- <- <-; eauto].
      destruct p2 as [i2|]; [|cbn [obind]; intro H; injection H as <- <- <-; eauto].
      destruct p3 as [i3|]; [|cbn [obind]; intro H; injection H as <- <- <-; eauto].
      destruct (_ <? _); [rewrite err_log, log_all_app; cbn [obind]; intro H; injection H as <- <- <-; eauto|].
      rewrite HR. discriminate. }
    destruct (d_kind d); [|apply HC| |apply HC].
    - unfold visit_angle. destruct (flatten _ _) as [[ok0 m0] lg].
      destruct (take "at" m0) as [p1 m1], (take "apex" m1) as [p2 m2], (take "from_dir" m2) as [p3 m3_],
        (take "from_point" m3_) as [p4 m4], (take "to_dir" m4) as [p5 m5], (take "to_point" m5) as [p6 m6],
        (take "fmt" m6) as [p7 m7].
      destruct m7; [|unfold unexpected; rewrite log_all_app; intro H; injection H as <- <- <-; eauto].
      rewrite (need_spec (d_loc d) p1). cbv iota beta. rewrite (need_spec (d_loc d) p2). cbv iota beta. rewrite !log_all_app.
      assert (HI : forall (o : option nat) p dl msg, exists dl' k, (if is_some o then (log_all dl s, true) else need (d_loc d) p msg (log_all dl s))
        = (log_all dl' s, k)).
      { intros [i|] p dl msg; simpl; [eauto|]. rewrite need_spec, log_all_app. eauto. }
      match goal with |- context [if is_some p3 then (log_all ?dl s, true) else need _ _ ?m _] => destruct (HI p3 p4 dl m) as (dl1 & k1 & ->) end.
      cbv iota beta.
      match goal with |- context [if is_some p5 then (log_all ?dl s, true) else need _ _ ?m _] => destruct (HI p5 p6 dl m) as (dl2 & k2 & ->) end.
      cbv iota beta.
      destruct (negb _); [intro H; injection H as <- <- <-; eauto|].
      assert (HE : forall (o : option nat) (b : bool) m dl, exists dl',
               match o with Some i => if b then err (mloc (d_meta d) i) m (log_all dl s) else log_all dl s | None => log_all dl s end =
               log_all dl' s).
      { intros [j|] [] m' dl; rewrite ?err_log, ?log_all_app; eauto. }
      match goal with |- context [match p3 with Some i => if ?b then err _ ?m (log_all ?dl s) else _ | None => _ end] => destruct (HE p3 b m dl) as (dl3 & ->) end.
      match goal with |- context [match p5 with Some i => if ?b then err _ ?m (log_all ?dl s) else _ | None => _ end] => destruct (HE p5 b m dl) as (dl4 & ->) end.
      destruct (_ || _); [intro H; injection H as <- <- <-; eauto|].
      destruct p1 as [i1|]; [|discriminate]. destruct p2 as [i2|]; [|discriminate].
      rewrite HR. discriminate.
    - unfold visit_dim. destruct (flatten _ _) as [[ok0 m0] lg].
      destruct (take "at" m0) as [p1 m1], (take "dir" m1) as [p2 m2], (take "from" m2) as [p3 m3_],
        (take "to" m3_) as [p4 m4], (take "fmt" m4) as [p5 m5].
      destruct m5; [|unfold unexpected; rewrite log_all_app; intro H; injection H as <- <- <-; eauto].
      rewrite !need_spec, !log_all_app.
      destruct (negb _); [intro H; injection H as <- <- <-; eauto|].
      destruct p1 as [i1|]; [|discriminate]. destruct p2 as [i2|]; [|discriminate].
      destruct p3 as [i3|]; [|discriminate]. destruct p4 as [i4|]; [|discriminate].
      rewrite HR. discriminate.
  Qed.

  (** ** The dimensions of a drawing *)
  Definition grows (s s' : vst) : Prop :=
    exists p dl, s' = Vst (v_points s) (v_rot s) (v_scale s) (v_d s) (papp (v_page s) p) (v_log s ++ dl).
  Lemma grows_refl s : grows s s.
  Proof. exists opage_empty, []. rewrite papp_empty, app_nil_r. destruct s; reflexivity. Qed.
  Lemma grows_trans a b c : grows a b -> grows b c -> grows a c.
  Proof.
    intros (p & dl & ->) (q & dl' & ->). simpl. exists (papp p q), (dl ++ dl').
    rewrite papp_assoc, app_assoc. reflexivity.
  Qed.
  Lemma grows_log dl s : grows s (log_all dl s).
  Proof. exists opage_empty, dl. rewrite papp_empty. reflexivity. Qed.
  Lemma draws_grows k s s' : draws k s s' -> grows s s'.
  Proof. intros (p & -> & _). exists p, []. rewrite app_nil_r. reflexivity. Qed.

  Lemma visit_dims_spec ds : forall s s' ds' ok, visit_dims ds s = Ret (s', ds', ok) ->
    grows s s' /\ Forall2 (dim_touched (v_rot s)) ds ds' /\
    (ok = true <-> (ds = [] \/ eqm (v_rot s) zerom = false) /\ Forall (dim_valid (v_points s) (v_rot s)) ds) /\
    (ok = true -> ds' = map (rot_dim (v_rot s)) ds).
  Proof.
    induction ds as [|d ds IH]; intros s s' ds' ok; cbn [visit_dims].
    - intro H; injection H as <- <- <-. split; [apply grows_refl|]. split; [constructor|].
      split; [|reflexivity]. split; [|reflexivity]. split; [left; reflexivity|constructor].
    - rewrite obind_ret. intros ([[s1 d1] ok1] & H1 & H). rewrite obind_ret in H.
      destruct H as ([[s2 t] ok2] & H2 & H). injection H as <- <- <-.
      destruct (eqm (v_rot s) zerom) eqn:Z.
      + destruct (base_dim_null _ _ Z H1) as (-> & -> & dl & ->).
        destruct (IH _ _ _ _ H2) as (G & T & O & S). change (v_rot (log_all dl s)) with (v_rot s) in *.
        split; [exact (grows_trans (grows_log dl s) G)|].
        split; [constructor; [apply dim_touched_refl|exact T]|]. cbn [andb].
        split; [|discriminate]. split; [discriminate|]. intros [[?|?] _]; discriminate.
      + destruct (base_dim_spec d s Z) as (s1' & d1' & ok1' & H1' & O1 & F1 & S1). rewrite H1 in H1'. injection H1' as <- <- <-.
        assert (G1 : grows s s1).
        { destruct ok1; [destruct (S1 eq_refl) as [_ D]; eapply draws_grows; exact D|].
          destruct (F1 eq_refl) as [[dl ->] _]. apply grows_log. }
        assert (HV : v_rot s1 = v_rot s /\ v_points s1 = v_points s).
        { destruct G1 as (p & dl & ->). split; reflexivity. }
        destruct HV as [HV1 HV2].
        destruct (IH _ _ _ _ H2) as (G & T & O & S). rewrite HV1, HV2 in *.
        split; [exact (grows_trans G1 G)|].
        assert (T1 : dim_touched (v_rot s) d d1).
        { destruct ok1; [|apply F1; reflexivity]. destruct (S1 eq_refl) as [-> _].
          exists (seq 0 (length (d_meta d))). unfold rot_dim. f_equal. symmetry. apply rot_at_all.
          intros i x Hi. left. apply in_seq. split; [lia|]. apply nth_error_Some. simpl. congruence. }
        split; [constructor; assumption|].
        split.
        * rewrite andb_true_iff, O1, O. split.
          -- intros (Hv & _ & HF). split; [right; reflexivity|]. constructor; assumption.
          -- intros (_ & HF). inversion HF; subst. split; [assumption|]. split; [right; exact Z|assumption].
        * intro Hb. apply andb_true_iff in Hb. destruct Hb as [-> ->]. simpl.
          destruct (S1 eq_refl) as [-> _]. rewrite (S eq_refl). reflexivity.
  Qed.

  (** ** Drawings *)
  Definition draw_keys : list string := ["scale"; "view"; "@"]%string.
  Definition scale_of (ml : list meta) : option (Z * Z) :=
    match arg "scale" ml with None => Some (1, 1)%Z | Some x => as_scale x end.
  Definition view_of (ml : list meta) : option m3 :=
    match arg "view" ml with
    | None => Some mZP
    | Some x => match as_loc x with
                | Some a => Some (matrix_by_ang a)
                | None => match as_str x with Some n => matrix_by_name n | None => None end
                end
    end.
  (** Where the centre of a drawing goes: None if @ is not a location. *)
  Definition place_of (ml : list meta) : option v2 :=
    match arg "@" ml with
    | None => Some (V2 nz nz)
    | Some x => match as_loc x with Some v => Some (add2 (mul2 v (of_Z 72)) page_mid) | None => None end
    end.
  Definition model_of (st : stl_map) (n : bytes) : option stl :=
    match smap_find bytes_ltb n st with Some (Some f) => Some f | _ => None end.

  (** The state in which the dimensions of a drawing are visited. *)
  Definition draw_state (ab : Z * Z) (rot : m3) (pl : v2) (proj : stl) (ls : list line) (s : vst) : vst :=
    let sc := proj_scale ab in
    let d := sub2 pl (mul2 (div2 (add2 (lo (limits proj)) (lt_ (limits proj))) n2) sc) in
    add_lines ls (Vst (points proj) rot sc d (v_page s) (v_log s)).

  Lemma get_scale_spec ml s : exists dl, get_scale ml (prop "scale" ml) s = (log_all dl s, scale_of ml) /\
    (scale_of ml <> None -> dl = []).
  Proof.
    unfold get_scale, scale_of. destruct (arg_prop "scale" ml) as [(i & x & -> & -> & _ & ->)|[-> ->]].
    - destruct (as_scale x) as [ab|].
      + exists []. rewrite log_all_nil. auto.
      + eexists. rewrite err_log. split; [reflexivity|congruence].
    - exists []. rewrite log_all_nil. auto.
  Qed.
  Lemma get_view_spec ml s : exists dl, get_view ml (prop "view" ml) s = (log_all dl s, view_of ml) /\
    (view_of ml <> None -> dl = []).
  Proof.
    unfold get_view, view_of. destruct (arg_prop "view" ml) as [(i & x & -> & -> & _ & ->)|[-> ->]].
    - destruct (as_loc x) as [a|]; [exists []; rewrite log_all_nil; auto|].
      destruct (as_str x) as [n|]; [|eexists; rewrite err_log; split; [reflexivity|congruence]].
      destruct (matrix_by_name n); [exists []; rewrite log_all_nil; auto|].
      eexists; rewrite err_log; split; [reflexivity|congruence].
    - exists []. rewrite log_all_nil. auto.
  Qed.
  Lemma get_at_spec ml :
    match prop "@" ml with
    | None => Ret (V2 nz nz)
    | Some i => do! v <- get_at ml i; Ret (add2 (mul2 v (of_Z 72)) page_mid)
    end = match place_of ml with Some v => Ret v | None => Abort (ACheck "@ is not a location") end.
  Proof.
    unfold place_of, get_at. destruct (arg_prop "@" ml) as [(i & x & -> & -> & _ & ->)|[-> ->]]; [|reflexivity].
    destruct (as_loc x); reflexivity.
  Qed.

  Inductive draw_run (st : stl_map) (n : bytes) (ml : list meta) (ds : list dim) (s s' : vst) (ds' : list dim) : Prop :=
  | DrawRun ab file rot pl proj ls :
      NoDup (names ml) -> only draw_keys ml -> scale_of ml = Some ab -> model_of st n = Some file ->
      view_of ml = Some rot -> place_of ml = Some pl -> rotate file rot = Ret proj ->
      to_lines (cull_back_face proj) = Ret ls ->
      strict_weak order (flat_map fverts (facets (cull_back_face proj))) = true ->
      visit_dims ds (draw_state ab rot pl (cull_back_face proj) ls s) = Ret (s', ds', true) ->
      draw_run st n ml ds s s' ds'.

  Lemma visit_draw_full st l n ml ds s s' ds' ok : visit_draw st l n ml ds s = Ret (s', ds', ok) ->
    (ok = false -> forall s2 ds2, ~ draw_run st n ml ds s s2 ds2) /\
    (ok = true <-> draw_run st n ml ds s s' ds') /\
    (ds' = ds \/ exists rot, view_of ml = Some rot /\ Forall2 (dim_touched rot) ds ds') /\
    (ok = true -> exists rot, view_of ml = Some rot /\ ds' = map (rot_dim rot) ds).
  Proof.
    unfold visit_draw.
    destruct (flatten_spec "draw" ml) as (m0 & HF & W & F). rewrite HF. clear HF.
    pose proof (nilb_nodup (B "draw") ml) as ND.
    set (dd := dup_diags (B "draw") [] ml) in *.
    assert (HFail : forall s'', (forall s' ds', ~ draw_run st n ml ds s s' ds') ->
       @Ret (vst * list dim * bool) (s'', ds, false) = Ret (s', ds', ok) -> (ok = false -> forall s2 ds2, ~ draw_run st n ml ds s s2 ds2) /\ (ok = true <-> draw_run st n ml ds s s' ds') /\
       (ds' = ds \/ exists rot, view_of ml = Some rot /\ Forall2 (dim_touched rot) ds ds') /\
       (ok = true -> exists rot, view_of ml = Some rot /\ ds' = map (rot_dim rot) ds)).
    { intros s'' H H0. injection H0 as <- <- <-. split; [intros _; exact H|]. split; [split; [discriminate|intro D; exfalso; exact (H _ _ D)]|].
      split; [left; reflexivity|discriminate]. }
    destruct (nilb dd) eqn:HD; cbn [negb].
    2:{ apply HFail. intros ? ? []. assert (false = true) by (apply ND; assumption). discriminate. }
    assert (Hdd : dd = []) by (destruct dd; [reflexivity|discriminate HD]). rewrite Hdd, log_all_nil.
    assert (HND : NoDup (names ml)) by (apply ND; reflexivity).
    assert (F0 : forall n, fnd m0 n = drop [] n (index_of n (names ml))) by exact F.
    destruct (@take_chain _ "scale"%string _ m0 _ W F0 eq_refl) as (m1 & -> & W1 & F1).
    destruct (get_scale_spec ml s) as (dl1 & -> & HS). destruct (scale_of ml) as [ab|] eqn:SC.
    2:{ apply HFail. intros ? ? []. congruence. }
    rewrite (HS ltac:(discriminate)), log_all_nil. clear HS dl1.
    destruct (smap_find bytes_ltb n st) as [fo|] eqn:MF.
    2:{ apply HFail. intros ? ? [? ? ? ? ? ? ? ? ? HM]. unfold model_of in HM. rewrite MF in HM. discriminate. }
    destruct (@take_chain _ "view"%string _ m1 _ W1 F1 eq_refl) as (m2 & -> & W2 & F2).
    match goal with |- context [get_view ml _ ?s0] => destruct (get_view_spec ml s0) as (dl2 & -> & HS) end.
    destruct (view_of ml) as [rot|] eqn:VW.
    2:{ apply HFail. intros ? ? []. congruence. }
    rewrite (HS ltac:(discriminate)), log_all_nil. clear HS dl2.
    destruct (@take_chain _ "@"%string _ m2 _ W2 F2 eq_refl) as (m3_ & -> & W3 & F3).
    rewrite get_at_spec. destruct (place_of ml) as [pl|] eqn:PL; [|discriminate]. cbn [obind].
    destruct fo as [file|]; [|discriminate].
    destruct (rotate file rot) as [proj|] eqn:RO; [|discriminate]. cbn [obind].
    destruct (to_lines (cull_back_face proj)) as [ls|] eqn:TL; [|discriminate]. cbn [obind].
    unfold add_dims. destruct (strict_weak _ _) eqn:SO; [|discriminate].
    match goal with |- context [visit_dims ds ?x] => change x with (draw_state ab rot pl (cull_back_face proj) ls s) end.
    destruct (visit_dims ds _) as [[[s1 ds1] ok1]|] eqn:VD; [|discriminate]. cbn [obind].
    destruct (visit_dims_spec _ _ VD) as (G & T & O & S).
    change (v_rot (draw_state ab rot pl (cull_back_face proj) ls s)) with rot in *.
    assert (HM : model_of st n = Some file) by (unfold model_of; rewrite MF; reflexivity).
    assert (HDR : forall s' ds', draw_run st n ml ds s s' ds' -> visit_dims ds (draw_state ab rot pl (cull_back_face proj) ls s) = Ret (s', ds', true) /\ only draw_keys ml).
    { intros s2 ds2 [ab' file' rot' pl' proj' ls' Q1 Q2 Q3 Q4 Q5 Q6 Q7 Q8 QO Q9]. rewrite Q3 in SC. rewrite Q5 in VW. rewrite Q6 in PL.
      rewrite Q4 in HM. injection SC as ->. injection VW as ->. injection PL as ->. injection HM as ->.
      rewrite Q7 in RO. injection RO as ->. rewrite Q8 in TL. injection TL as ->. split; assumption. }
    assert (HK : m3_ = [] <-> only draw_keys ml).
    { rewrite (chain_nil _ _ W3 F3). split; apply only_ext; intro k; simpl; tauto. }
    destruct ok1; cbn [negb].
    - destruct m3_ as [|y m3_].
      + intro H; injection H as <- <- <-. split; [discriminate|]. split; [|split].
        * split; [|reflexivity]. intros _. econstructor; try eassumption. apply HK; reflexivity.
        * right. exists rot. auto.
        * intros _. exists rot. auto.
      + intro H; injection H as <- <- <-. split; [intros _ s2 ds2 D; apply HDR in D; destruct D as [_ D]; apply HK in D; discriminate|]. split; [|split; [right; exists rot; auto|discriminate]].
        split; [discriminate|]. intro D. apply HDR in D. destruct D as [_ D]. apply HK in D. discriminate.
    - intro H; injection H as <- <- <-. split; [intros _ s2 ds2 D; apply HDR in D; destruct D as [D _]; rewrite VD in D; discriminate|]. split; [|split; [right; exists rot; auto|discriminate]].
      split; [discriminate|]. intro D. apply HDR in D. destruct D as [D _]. rewrite VD in D. discriminate.
  Qed.
  Lemma visit_draw_spec st l n ml ds s s' ds' ok : visit_draw st l n ml ds s = Ret (s', ds', ok) ->
    (ok = true <-> draw_run st n ml ds s s' ds') /\
    (ds' = ds \/ exists rot, view_of ml = Some rot /\ Forall2 (dim_touched rot) ds ds') /\
    (ok = true -> exists rot, view_of ml = Some rot /\ ds' = map (rot_dim rot) ds).
  Proof. intro H. exact (proj2 (visit_draw_full _ _ _ _ _ _ H)). Qed.

  (** ** Texts *)
  Definition text_keys : list string := ["@"]%string.
  Definition text_place_of (ml : list meta) : option v2 :=
    match arg "@" ml with
    | None => Some (add2 (V2 nz nz) page_mid)
    | Some x => match as_loc x with Some v => Some (add2 (add2 (V2 nz nz) (mul2 v (of_Z 72))) page_mid) | None => None end
    end.
  Lemma visit_text_spec l t ml s s' ok : visit_text l t ml s = Ret (s', ok) ->
    (ok = true <-> NoDup (names ml) /\ only text_keys ml) /\
    (ok = true -> exists pl, text_place_of ml = Some pl /\ adds s s' (OPage [] [] (text_lines pl (split_on LF t)))).
  Proof.
    unfold visit_text. destruct (flatten_spec "draw" ml) as (m0 & HF & W & F). rewrite HF. clear HF.
    pose proof (nilb_nodup (B "draw") ml) as ND.
    set (dd := dup_diags (B "draw") [] ml) in *.
    destruct (nilb dd) eqn:HD; cbn [negb].
    2:{ intro H; injection H as <- <-. split; [|discriminate]. split; [discriminate|].
        intros [H _]. apply ND in H. discriminate. }
    assert (Hdd : dd = []) by (destruct dd; [reflexivity|discriminate HD]). rewrite Hdd, log_all_nil.
    assert (HND : NoDup (names ml)) by (apply ND; reflexivity).
    assert (F0 : forall n, fnd m0 n = drop [] n (index_of n (names ml))) by exact F.
    destruct (@take_chain _ "@"%string _ m0 _ W F0 eq_refl) as (m1 & -> & W1 & F1).
    assert (HK : m1 = [] <-> only text_keys ml) by (rewrite (chain_nil _ _ W1 F1); split; apply only_ext; intro k; simpl; tauto).
    unfold text_place_of, get_at.
    destruct (arg_prop "@" ml) as [(i & x & -> & -> & _ & ->)|[-> ->]].
    - destruct (as_loc x) as [v|]; [|discriminate]. cbn [obind].
      destruct m1 as [|y m1]; intro H; injection H as <- <-.
      + split; [split; [intros _; split; [exact HND|apply HK; reflexivity]|reflexivity]|]. intros _.
        eexists. split; [reflexivity|]. unfold adds, set_page, papp; simpl. rewrite !app_nil_r. reflexivity.
      + split; [|discriminate]. split; [discriminate|]. intros [_ H]. apply HK in H. discriminate.
    - cbn [obind].
      destruct m1 as [|y m1]; intro H; injection H as <- <-.
      + split; [split; [intros _; split; [exact HND|apply HK; reflexivity]|reflexivity]|]. intros _.
        eexists. split; [reflexivity|]. unfold adds, set_page, papp; simpl. rewrite !app_nil_r. reflexivity.
      + split; [|discriminate]. split; [discriminate|]. intros [_ H]. apply HK in H. discriminate.
  Qed.

  (** ** Items, pages, documents *)
  Definition item_ok (st : stl_map) (d : drawable) : Prop :=
    match d with
    | DDraw l n ml ds => exists s s' ds', draw_run st n ml ds s s' ds'
    | DText l t ml => NoDup (names ml) /\ only text_keys ml /\ text_place_of ml <> None
    end.
  (** What a page generation may do to an item: nothing, or rotate coordinates
      of dimensions of a draw by the view of that draw, each at most once. *)
  Definition item_touched (d d' : drawable) : Prop :=
    d' = d \/
    exists l n ml ds ds' rot, d = DDraw l n ml ds /\ d' = DDraw l n ml ds' /\ view_of ml = Some rot /\
      Forall2 (dim_touched rot) ds ds'.
  Definition item_rotated (d d' : drawable) : Prop :=
    match d with
    | DDraw l n ml ds => exists rot, view_of ml = Some rot /\ d' = DDraw l n ml (map (rot_dim rot) ds)
    | DText _ _ _ => d' = d
    end.

  Lemma drawable_spec st d s s' d' ok : visit_drawable st d s = Ret (s', d', ok) ->
    item_touched d d' /\ (ok = true -> item_ok st d /\ item_rotated d d').
  Proof.
    destruct d as [l n ml ds|l t ml]; cbn [visit_drawable].
    - rewrite obind_ret. intros ([[s1 ds1] ok1] & H1 & H). injection H as <- <- <-.
      destruct (visit_draw_spec _ _ _ _ _ _ H1) as (O & T & R). split.
      + destruct T as [->|(rot & V & T)]; [left; reflexivity|right]. exists l, n, ml, ds, ds1, rot. auto.
      + intro K. split; [simpl; apply O in K; eauto|]. destruct (R K) as (rot & V & ->). simpl. eauto.
    - rewrite obind_ret. intros ([s1 ok1] & H1 & H). injection H as <- <- <-.
      destruct (visit_text_spec _ _ _ _ H1) as (O & R). split; [left; reflexivity|]. intro K.
      split; [|reflexivity]. simpl. destruct (proj1 O K) as [N1 N2]. split; [exact N1|]. split; [exact N2|].
      destruct (R K) as (pl & -> & _). discriminate.
  Qed.
  Lemma drawables_spec st : forall ds s s' ds' ok, visit_drawables st ds s = Ret (s', ds', ok) ->
    Forall2 item_touched ds ds' /\ (ok = true -> Forall (item_ok st) ds /\ Forall2 item_rotated ds ds').
  Proof.
    induction ds as [|d ds IH]; intros s s' ds' ok; cbn [visit_drawables].
    - intro H; injection H as <- <- <-. split; [constructor|]. intros _. split; constructor.
    - rewrite obind_ret. intros ([[s1 d1] ok1] & H1 & H). rewrite obind_ret in H.
      destruct H as ([[s2 t] ok2] & H2 & H). injection H as <- <- <-.
      destruct (drawable_spec _ _ _ H1) as (T1 & O1). destruct (IH _ _ _ _ H2) as (T2 & O2).
      split; [constructor; assumption|]. intro K. apply andb_true_iff in K. destruct K as [K1 K2].
      destruct (O1 K1), (O2 K2). split; constructor; assumption.
  Qed.

  Definition page_keys : list string := ["name"]%string.
  Definition page_ok (st : stl_map) (pg : page) : Prop :=
    NoDup (names (pg_meta pg)) /\ only page_keys (pg_meta pg) /\
    (forall x, arg "name" (pg_meta pg) = Some x -> as_str x <> None) /\
    Forall (item_ok st) (pg_draws pg).
  Definition page_touched (pg pg' : page) : Prop :=
    pg_loc pg' = pg_loc pg /\ pg_meta pg' = pg_meta pg /\ Forall2 item_touched (pg_draws pg) (pg_draws pg').
  Definition page_rotated (pg pg' : page) : Prop :=
    pg_loc pg' = pg_loc pg /\ pg_meta pg' = pg_meta pg /\ Forall2 item_rotated (pg_draws pg) (pg_draws pg').

  Lemma gen_page_spec st n pg s s' pg' ok : gen_page st n pg s = Ret (s', pg', ok) ->
    page_touched pg pg' /\ (ok = true -> page_ok st pg /\ page_rotated pg pg').
  Proof.
    unfold gen_page, page_touched, page_rotated, page_ok. set (ml := pg_meta pg).
    destruct (flatten_spec "page" ml) as (m0 & HF & W & F). rewrite HF. clear HF.
    pose proof (nilb_nodup (B "page") ml) as ND.
    set (dd := dup_diags (B "page") [] ml) in *.
    assert (F0 : forall n, fnd m0 n = drop [] n (index_of n (names ml))) by exact F.
    destruct (@take_chain _ "name"%string _ m0 _ W F0 eq_refl) as (m1 & -> & W1 & F1).
    assert (HK : m1 = [] <-> only page_keys ml) by (rewrite (chain_nil _ _ W1 F1); split; apply only_ext; intro k; simpl; tauto).
    match goal with |- (let '(_, _) := ?x in _) = _ -> _ => destruct x as [[s1 nm] ok1] eqn:HN end.
    assert (HNM : ok1 = true -> forall x, arg "name" ml = Some x -> as_str x <> None).
    { destruct (arg_prop "name" ml) as [(i & x & P & Nx & _ & AE)|[P AE]].
      - rewrite P, Nx in HN. rewrite AE. intros -> y Hy. injection Hy as <-.
        destruct (as_str x); [discriminate|injection HN as _ _ HN; discriminate].
      - rewrite AE. discriminate. }
    rewrite obind_ret. intros ([[s2 ds2] ok2] & H2 & H). destruct (drawables_spec _ _ _ H2) as (T & O).
    match type of H with (let '(_, _) := ?x in _) = _ => destruct x as [s3 ok3] eqn:H3 end.
    injection H as <- <- <-. simpl. split; [auto|]. intro K.
    rewrite !andb_true_iff in K. destruct K as [[[K0 K1] K2] K3]. destruct (O K2) as [O1 O2].
    repeat split; auto.
    - apply ND; exact K0.
    - apply HK. destruct m1; [reflexivity|]. injection H3 as _ H3. congruence.
  Qed.
  Lemma gen_pages_spec st : forall pgs n s s' pgs' os ok, gen_pages st n pgs s = Ret (s', pgs', os, ok) ->
    length os = length pgs /\ Forall2 page_touched pgs pgs' /\
    (ok = true -> Forall (page_ok st) pgs /\ Forall2 page_rotated pgs pgs').
  Proof.
    induction pgs as [|pg pgs IH]; intros n s s' pgs' os ok; cbn [gen_pages].
    - intro H; injection H as <- <- <- <-. split; [reflexivity|]. split; [constructor|]. intros _. split; constructor.
    - rewrite obind_ret. intros ([[s1 p1] ok1] & H1 & H). rewrite obind_ret in H.
      destruct H as ([[[s2 t] os2] ok2] & H2 & H). injection H as <- <- <- <-.
      destruct (gen_page_spec _ _ _ _ H1) as (T1 & O1). destruct (IH _ _ _ _ _ _ H2) as (L & T2 & O2).
      split; [simpl; congruence|]. split; [constructor; assumption|]. intro K. apply andb_true_iff in K. destruct K as [K1 K2].
      destruct (O1 K1), (O2 K2). split; constructor; assumption.
  Qed.
  Definition doc_ok (st : stl_map) (d : document) : Prop := Forall (page_ok st) (doc_pages d).
  Lemma generate_pages_spec st d os d' lg ok : generate_pages st d = Ret (os, d', lg, ok) ->
    length os = length (doc_pages d) /\ doc_models d' = doc_models d /\
    Forall2 page_touched (doc_pages d) (doc_pages d') /\
    (ok = true -> doc_ok st d /\ Forall2 page_rotated (doc_pages d) (doc_pages d')).
  Proof.
    unfold generate_pages. rewrite obind_ret. intros ([[[s pgs] os'] ok'] & H & H').
    injection H' as <- <- <- <-. destruct (gen_pages_spec _ _ _ _ H) as (L & T & O). auto.
  Qed.
End Doc.
