(** P_Dims.v - what the visits of angle, dia, dim and rad do, equation by
    equation: which arguments they accept, which coordinates they rotate and
    what they draw. *)
From Verif Require Import Base Num Geo Stl StlRead Env Ast Ps Draw P_Base P_Meta P_Frame.

Section Dims.
  Context {A : Arith} {E : Env}.

  Lemma log_all_nil s : log_all [] s = s.
  Proof. destruct s; unfold log_all; simpl. rewrite app_nil_r. reflexivity. Qed.
  Lemma log_all_app a b s : log_all b (log_all a s) = log_all (a ++ b) s.
  Proof. unfold log_all; simpl. rewrite app_assoc. reflexivity. Qed.

  Lemma err_log l m s : err l m s = log_all [DSym l m] s.
  Proof. reflexivity. Qed.

  (** ** Rotating some of the metas of a list *)
  Definition rot_meta (r : m3) (x : meta) : meta :=
    match as_point x with
    | Some p => Meta (m_name x) (MPoint (point_rotate r p)) (m_loc x)
    | None => x
    end.
  Lemma rot_meta_name r x : m_name (rot_meta r x) = m_name x.
  Proof. unfold rot_meta. destruct (as_point x); reflexivity. Qed.
  Lemma rot_meta_loc r x : m_loc (rot_meta r x) = m_loc x.
  Proof. unfold rot_meta. destruct (as_point x); reflexivity. Qed.
  Lemma rot_meta_str r x : as_str (rot_meta r x) = as_str x.
  Proof. unfold rot_meta, as_point, as_str. destruct (m_val x) eqn:V; simpl; rewrite ?V; reflexivity. Qed.

  Definition memb (i : nat) (R : list nat) : bool := existsb (Nat.eqb i) R.
  Lemma memb_in i R : memb i R = true <-> In i R.
  Proof.
    unfold memb. rewrite existsb_exists. split.
    - intros (x & Hin & Hx). apply Nat.eqb_eq in Hx. subst; exact Hin.
    - intro H. exists i. split; [exact H|apply Nat.eqb_refl].
  Qed.
  Definition rot_at (r : m3) (R : list nat) (ml : list meta) : list meta :=
    map (fun ix => if memb (fst ix) R then rot_meta r (snd ix) else snd ix) (combine (seq 0 (length ml)) ml).

  Lemma nth_combine_seq {X} (l : list X) : forall k i,
    nth_error (combine (seq k (length l)) l) i = option_map (fun x => (k + i, x)) (nth_error l i).
  Proof.
    induction l as [|x l IH]; intros k [|i]; simpl; try reflexivity.
    - rewrite Nat.add_0_r. reflexivity.
    - rewrite IH. destruct (nth_error l i); simpl; [|reflexivity]. do 2 f_equal. lia.
  Qed.
  Lemma nth_rot_at r R ml i :
    nth_error (rot_at r R ml) i = option_map (fun x => if memb i R then rot_meta r x else x) (nth_error ml i).
  Proof.
    unfold rot_at. rewrite nth_error_map, nth_combine_seq. destruct (nth_error ml i); reflexivity.
  Qed.
  Lemma rot_at_length r R ml : length (rot_at r R ml) = length ml.
  Proof. unfold rot_at. rewrite map_length, combine_length, seq_length. apply Nat.min_id. Qed.
  Lemma rot_at_nil r ml : rot_at r [] ml = ml.
  Proof. apply nth_error_ext. intro k. rewrite nth_rot_at. simpl. destruct (nth_error ml k); reflexivity. Qed.
  Lemma rot_at_all r R ml :
    (forall i x, nth_error ml i = Some x -> In i R \/ as_point x = None) -> rot_at r R ml = map (rot_meta r) ml.
  Proof.
    intro H. apply nth_error_ext. intro k. rewrite nth_rot_at, nth_error_map.
    destruct (nth_error ml k) as [x|] eqn:N; [|reflexivity]. simpl. f_equal.
    destruct (memb k R) eqn:M; [reflexivity|]. destruct (H k x N) as [HI|HI].
    - apply memb_in in HI. congruence.
    - unfold rot_meta. rewrite HI. reflexivity.
  Qed.
  Lemma rot_at_mloc r R ml i : mloc (rot_at r R ml) i = mloc ml i.
  Proof.
    unfold mloc. rewrite nth_rot_at. destruct (nth_error ml i) as [x|]; [|reflexivity].
    simpl. destruct (memb i R); [apply rot_meta_loc|reflexivity].
  Qed.

  (** ** Evaluating one argument *)
  Definition ev (ps : point_set) (r : m3) (x : meta) : option v3 :=
    match as_point x with Some p => snd (invoke ps (point_rotate r p)) | None => None end.
  Definition ev_log (ps : point_set) (r : m3) (x : meta) : list diag :=
    match as_point x with
    | Some p => fst (invoke ps (point_rotate r p))
    | None => [DSym (m_loc x) (B "Expected point for '" ++ m_name x ++ B "' got " ++ type_name (mkind (m_val x)))]
    end.
  Definition or_zero (o : option v3) : v3 := match o with Some v => v | None => zero3 end.

  Lemma invoke_some_nolog ps p v : forall lg, invoke ps p = (lg, Some v) -> lg = [].
  Proof.
    revert v. induction p as [w l|n q IH l]; intros v lg; cbn [invoke].
    - intro H; injection H as <- _; reflexivity.
    - destruct (bytes_eqb n (B "near")).
      + destruct ps; [discriminate|]. destruct (invoke _ q) as [lg1 [t|]] eqn:I; [|discriminate].
        intro H; injection H as <- _. eapply IH; reflexivity.
      + destruct (bytes_eqb n (B "center")); [|discriminate].
        destruct (_ <? _); [discriminate|]. destruct (invoke _ q) as [lg1 [t|]] eqn:I; [|discriminate].
        destruct (fit_circle _ _) as [[c r]|]; [|discriminate].
        intro H; injection H as <- _. eapply IH; reflexivity.
  Qed.
  Lemma ev_some_nolog ps r x v : ev ps r x = Some v -> ev_log ps r x = [].
  Proof.
    unfold ev, ev_log. destruct (as_point x) as [p|]; [|discriminate].
    destruct (invoke ps (point_rotate r p)) as [lg o] eqn:I. simpl. intros ->.
    eapply invoke_some_nolog; exact I.
  Qed.

  Lemma get_rotated_spec i s ml x R :
    eqm (v_rot s) zerom = false -> nth_error ml i = Some x -> ~ In i R ->
    get_rotated i (s, rot_at (v_rot s) R ml) =
    Ret (log_all (ev_log (v_points s) (v_rot s) x) s, rot_at (v_rot s) (i :: R) ml,
         is_some (ev (v_points s) (v_rot s) x), or_zero (ev (v_points s) (v_rot s) x)).
  Proof.
    intros HN HX HR. unfold get_rotated. rewrite HN. cbn [negb check obind].
    assert (M : memb i R = false) by (destruct (memb i R) eqn:M; [apply memb_in in M; tauto|reflexivity]).
    rewrite nth_rot_at, HX. cbn [option_map]. rewrite M. unfold ev, ev_log.
    assert (HC : forall k, memb k (i :: R) = (k =? i) || memb k R) by reflexivity.
    destruct (as_point x) as [p|] eqn:HP.
    - assert (HML : set_nth i (Meta (m_name x) (MPoint (point_rotate (v_rot s) p)) (m_loc x)) (rot_at (v_rot s) R ml) =
               rot_at (v_rot s) (i :: R) ml).
      { apply nth_error_ext. intro k. rewrite nth_error_set_nth, !nth_rot_at, rot_at_length, HC.
        assert (L : i < length ml) by (apply nth_error_Some; congruence). apply Nat.ltb_lt in L. rewrite L, andb_true_r.
        destruct (Nat.eqb_spec k i) as [->|K]; [|reflexivity].
        rewrite HX. simpl. unfold rot_meta. rewrite HP. reflexivity. }
      rewrite HML. destruct (invoke _ _) as [lg [v|]]; reflexivity.
    - assert (HML : rot_at (v_rot s) R ml = rot_at (v_rot s) (i :: R) ml).
      { apply nth_error_ext. intro k. rewrite !nth_rot_at, HC. destruct (Nat.eqb_spec k i) as [->|K]; [|reflexivity].
        rewrite HX. simpl. rewrite M. unfold rot_meta. rewrite HP. reflexivity. }
      rewrite HML. reflexivity.
  Qed.
  Lemma get_rotated_null i s ml : eqm (v_rot s) zerom = true ->
    get_rotated i (s, ml) = Abort (ACheck "Null rotation").
  Proof. intro H. unfold get_rotated. rewrite H. reflexivity. Qed.

  (** ** Arguments by name *)
  Definition arg (n : string) (ml : list meta) : option meta :=
    match prop n ml with Some i => nth_error ml i | None => None end.
  Lemma arg_prop n ml : (exists i x, prop n ml = Some i /\ nth_error ml i = Some x /\ m_name x = B n /\ arg n ml = Some x)
                        \/ (prop n ml = None /\ arg n ml = None).
  Proof.
    unfold arg. destruct (prop n ml) as [i|] eqn:P.
    - destruct (prop_some _ _ P) as (x & Hx & Hn). left. exists i, x. auto.
    - right. auto.
  Qed.
  Lemma arg_in n ml x : arg n ml = Some x -> In x ml /\ m_name x = B n.
  Proof.
    destruct (arg_prop n ml) as [(i & y & _ & HN & Hy & Ha)|[_ Ha]]; rewrite Ha; [|discriminate].
    intro H; injection H as ->. split; [eapply nth_error_In; exact HN|exact Hy].
  Qed.
  Definition point_arg (ps : point_set) (r : m3) (n : string) (ml : list meta) : option v3 :=
    match arg n ml with Some x => ev ps r x | None => None end.
  Definition fmt_arg (dflt : string) (ml : list meta) : option bytes :=
    match arg "fmt" ml with
    | None => Some (B dflt)
    | Some x => match as_str x with Some f => if pf_ok f then Some f else None | None => None end
    end.
  Definition only (ks : list string) (ml : list meta) : Prop :=
    forall n, In n (names ml) -> exists k, In k ks /\ n = B k.

  Lemma get_fmt_spec what dflt s ml r R : exists dl,
    get_fmt what dflt (prop "fmt" ml) (s, rot_at r R ml) = (log_all dl s, fmt_arg dflt ml) /\
    (dl = [] <-> fmt_arg dflt ml <> None).
  Proof.
    unfold get_fmt, fmt_arg.
    destruct (arg_prop "fmt" ml) as [(i & x & -> & HN & _ & ->)|[-> ->]].
    - rewrite nth_rot_at, HN. cbn [option_map].
      assert (HS : as_str (if memb i R then rot_meta r x else x) = as_str x)
        by (destruct (memb i R); [apply rot_meta_str|reflexivity]).
      rewrite HS. destruct (as_str x) as [f|].
      + destruct (pf_ok f); [exists []; rewrite log_all_nil; split; [reflexivity|split; congruence]|].
        eexists [_]. split; [reflexivity|]. split; [discriminate|congruence].
      + eexists [_]. split; [reflexivity|]. split; [discriminate|congruence].
    - exists []. rewrite log_all_nil. split; [reflexivity|split; congruence].
  Qed.

  Lemma prop_neq a b ml i j : prop a ml = Some i -> prop b ml = Some j -> B a <> B b -> i <> j.
  Proof.
    intros Ha Hb N ->. apply prop_some in Ha, Hb. destruct Ha as (x & Hx & Ex), Hb as (y & Hy & Ey).
    rewrite Hx in Hy. injection Hy as ->. congruence.
  Qed.

  Lemma need_spec l p m s : need l p m s = (log_all (if is_some p then [] else [DSym l (B m)]) s, is_some p).
  Proof. destruct p; simpl; [rewrite log_all_nil|]; reflexivity. Qed.

  (** The keys in the map after Flatten and some Takes. *)
  Lemma drop_cons k ks n o : (if bytes_eqb n (B k) then None else drop ks n o) = drop (k :: ks) n o.
  Proof. unfold drop; simpl. destruct (bytes_eqb n (B k)); reflexivity. Qed.
  Lemma take_chain nm ks m ml : wfs m -> (forall n, fnd m n = drop ks n (index_of n (names ml))) ->
    existsb (fun k => bytes_eqb (B nm) (B k)) ks = false ->
    exists m', take nm m = (prop nm ml, m') /\ wfs m' /\ (forall n, fnd m' n = drop (nm :: ks) n (index_of n (names ml))).
  Proof.
    intros W F N. destruct (take_spec nm W) as (T1 & W1 & F1).
    exists (snd (take nm m)). split; [|split; [exact W1|]].
    - rewrite (surjective_pairing (take nm m)), T1, F. unfold drop. rewrite N. reflexivity.
    - intro n. rewrite F1, F. apply drop_cons.
  Qed.
  Lemma chain_nil ks m ml : wfs m -> (forall n, fnd m n = drop ks n (index_of n (names ml))) ->
    (m = [] <-> only ks ml).
  Proof.
    intros W F. rewrite (wfs_nil W). unfold only. rewrite <- drop_none.
    split; intros H n; specialize (H n); rewrite F in *; exact H.
  Qed.
  Lemma chain_cons ks m ml x t : wfs m -> (forall n, fnd m n = drop ks n (index_of n (names ml))) ->
    m = x :: t -> ~ only ks ml.
  Proof. intros W F -> H. apply (chain_nil _ _ W F) in H. discriminate. Qed.
  Lemma only_ext ks ks' ml : (forall k, In k ks <-> In k ks') -> only ks ml -> only ks' ml.
  Proof. intros H HO n Hn. destruct (HO n Hn) as (k & Hk & ->). exists k. split; [apply H; exact Hk|reflexivity]. Qed.

  Definition dup_ok (ml : list meta) : Prop := NoDup (names ml).

  (** ** dim *)
  Definition dim_keys : list string := ["at"; "dir"; "from"; "to"; "fmt"]%string.
  Definition dim_args (ps : point_set) (r : m3) (ml : list meta) : option (bytes * v3 * v3 * v3 * v3) :=
    match point_arg ps r "at" ml, point_arg ps r "dir" ml, point_arg ps r "from" ml, point_arg ps r "to" ml,
          fmt_arg "%.3f" ml with
    | Some a, Some d, Some f, Some t, Some fm => if eq3 d zero3 then None else Some (fm, a, d, f, t)
    | _, _, _, _, _ => None
    end.

  (** A visit that reports failure leaves everything but the log (which gets
      longer) and possibly rotated arguments. *)
  Definition failed (s s' : vst) (ml ml' : list meta) : Prop :=
    (exists dl, s' = log_all dl s) /\ (exists R, ml' = rot_at (v_rot s) R ml).

  Lemma failed_refl s dl ml : failed s (log_all dl s) ml ml.
  Proof. split; [eexists; reflexivity|exists []; rewrite rot_at_nil; reflexivity]. Qed.

  Ltac tk nm W F :=
    match goal with
    | |- context [take nm ?m] =>
        let m' := fresh "m" in let T := fresh "T" in let W' := fresh "W" in let F' := fresh "F" in
        destruct (@take_chain nm _ m _ W F eq_refl) as (m' & T & W' & F'); rewrite T; clear T
    end.

  (** Rewrite with get_rotated_spec; the side conditions come from hypotheses. *)
  Lemma gr_spec i s dl ml x R :
    eqm (v_rot s) zerom = false -> nth_error ml i = Some x -> ~ In i R ->
    get_rotated i (log_all dl s, rot_at (v_rot s) R ml) =
    Ret (log_all (dl ++ ev_log (v_points s) (v_rot s) x) s, rot_at (v_rot s) (i :: R) ml,
         is_some (ev (v_points s) (v_rot s) x), or_zero (ev (v_points s) (v_rot s) x)).
  Proof.
    intros H1 H2 H3. etransitivity; [exact (@get_rotated_spec i (log_all dl s) ml x R H1 H2 H3)|].
    rewrite log_all_app. reflexivity.
  Qed.

  Lemma gr_spec0 i s dl ml x : eqm (v_rot s) zerom = false -> nth_error ml i = Some x ->
    get_rotated i (log_all dl s, ml) =
    Ret (log_all (dl ++ ev_log (v_points s) (v_rot s) x) s, rot_at (v_rot s) [i] ml,
         is_some (ev (v_points s) (v_rot s) x), or_zero (ev (v_points s) (v_rot s) x)).
  Proof.
    intros H1 H2. rewrite <- (@gr_spec i s dl ml x [] H1 H2 (fun H => H)), rot_at_nil. reflexivity.
  Qed.

  Ltac argcase n ml :=
    let i := fresh "i" in let x := fresh "x" in let P := fresh "P" in let N := fresh "N" in
    let Q := fresh "Q" in let AE := fresh "AE" in
    destruct (arg_prop n ml) as [(i & x & P & N & Q & AE)|[P AE]]; rewrite ?P.

  Ltac notin := simpl; intros ?; repeat match goal with H : _ \/ _ |- _ => destruct H end; try contradiction; subst;
    match goal with
    | H1 : prop ?a ?ml = Some ?i, H2 : prop ?b ?ml = Some ?i |- _ =>
        exact (@prop_neq a b ml i i H1 H2 ltac:(discriminate) eq_refl)
    end.

  (** All metas are covered by R when every name is one of the keys. *)
  Lemma covered ks ml (R : list nat) : NoDup (names ml) -> only ks ml ->
    (forall k, In k ks -> match prop k ml with Some i => In i R | None => True end \/
                          (forall x, arg k ml = Some x -> as_point x = None)) ->
    forall i x, nth_error ml i = Some x -> In i R \/ as_point x = None.
  Proof.
    intros ND HO HK i x HX.
    destruct (HO (m_name x)) as (k & Hk & En). { apply in_map. eapply nth_error_In; exact HX. }
    assert (HP : prop k ml = Some i).
    { unfold prop. destruct (index_of (B k) (names ml)) as [j|] eqn:I.
      - apply index_of_some in I. f_equal. apply (proj1 (NoDup_nth_error (names ml)) ND).
        + apply nth_error_Some. congruence.
        + rewrite I. unfold names. rewrite nth_error_map, HX. simpl. congruence.
      - apply index_of_none in I. exfalso. apply I. rewrite <- En. apply in_map. eapply nth_error_In; exact HX. }
    destruct (HK k Hk) as [H|H].
    - rewrite HP in H. left; exact H.
    - right. apply H. unfold arg. rewrite HP. exact HX.
  Qed.
  Lemma fmt_not_point dflt ml : fmt_arg dflt ml <> None -> forall x, arg "fmt" ml = Some x -> as_point x = None.
  Proof.
    unfold fmt_arg. intros H x HX. rewrite HX in H. unfold as_point, as_str in *.
    destruct (m_val x); try reflexivity; congruence.
  Qed.

  Ltac evc H := repeat match type of H with context [ev ?a ?b ?c] => destruct (ev a b c) end; congruence.

  Lemma visit_dim_spec d s : eqm (v_rot s) zerom = false ->
    exists s' ml' ok, visit_dim d s = Ret (s', ml', ok) /\
      (ok = true <-> NoDup (names (d_meta d)) /\ only dim_keys (d_meta d) /\
                     dim_args (v_points s) (v_rot s) (d_meta d) <> None) /\
      (ok = false -> failed s s' (d_meta d) ml') /\
      (ok = true -> ml' = map (rot_meta (v_rot s)) (d_meta d) /\
         exists fm a dd f t, dim_args (v_points s) (v_rot s) (d_meta d) = Some (fm, a, dd, f, t) /\
           s' = draw_dim fm a (normalized3 dd) f t s).
  Proof.
    intro HN. unfold visit_dim. set (ml := d_meta d). clearbody ml.
    destruct (flatten_spec "dim" ml) as (m0 & HF & W & F). rewrite HF. clear HF.
    pose proof (nilb_nodup (B "dim") ml) as ND.
    set (dd := dup_diags (B "dim") [] ml) in *.
    assert (F0 : forall n, fnd m0 n = drop [] n (index_of n (names ml))) by exact F.
    tk "at"%string W F0. tk "dir"%string W0 F1. tk "from"%string W1 F2. tk "to"%string W2 F3. tk "fmt"%string W3 F4.
    destruct m4 as [|x4 m4].
    2:{ do 3 eexists. split; [reflexivity|]. repeat split; try discriminate.
        - intros (_ & HO & _). exfalso. apply (@chain_cons _ _ _ _ _ W4 F5 eq_refl).
          revert HO. apply only_ext. intro k. simpl. tauto.
        - unfold unexpected. rewrite log_all_app. eexists; reflexivity.
        - exists []. rewrite rot_at_nil. reflexivity. }
    assert (HO : only dim_keys ml).
    { pose proof (proj1 (chain_nil _ _ W4 F5) eq_refl) as HO. revert HO. apply only_ext. intro k. simpl. tauto. }
    clear W F F0 W0 F1 W1 F2 W2 F3 W3 F4 W4 F5.
    rewrite !need_spec, !log_all_app.
    match goal with |- context [log_all ?dl s] => remember dl as lg eqn:HL end.
    assert (DA : dim_args (v_points s) (v_rot s) ml = dim_args (v_points s) (v_rot s) ml) by reflexivity.
    unfold dim_args at 2, point_arg in DA.
    destruct (negb _) eqn:HK.
    { do 3 eexists. split; [reflexivity|]. split; [|split; [intros _; apply failed_refl|discriminate]].
      split; [discriminate|]. intros (HND & _ & HA). exfalso.
      apply ND in HND. rewrite HND in HK.
      argcase "at"%string ml; [|rewrite AE in DA; evc DA]. rewrite AE in DA. rewrite P in HK.
      argcase "dir"%string ml; [|rewrite AE0 in DA; evc DA]. rewrite AE0 in DA. rewrite P0 in HK.
      argcase "from"%string ml; [|rewrite AE1 in DA; evc DA]. rewrite AE1 in DA. rewrite P1 in HK.
      argcase "to"%string ml; [|rewrite AE2 in DA; evc DA]. rewrite P2 in HK.
      discriminate HK. }
    argcase "at"%string ml; rewrite P in HK, HL; [|destruct (nilb dd); discriminate HK].
    argcase "dir"%string ml; rewrite P0 in HK, HL; [|destruct (nilb dd); discriminate HK].
    argcase "from"%string ml; rewrite P1 in HK, HL; [|destruct (nilb dd); discriminate HK].
    argcase "to"%string ml; rewrite P2 in HK, HL; [|destruct (nilb dd); discriminate HK].
    rewrite AE, AE0, AE1, AE2 in DA.
    simpl is_some in HL. rewrite !app_nil_r in HL.
    assert (HND : NoDup (names ml)). { apply ND. destruct (nilb dd); [reflexivity|discriminate HK]. }
    assert (Hlg : lg = []). { rewrite HL. unfold dd. apply dup_diags_nil; [constructor|exact HND]. }
    rewrite Hlg. clear Hlg HL HK ND dd lg.
    rewrite (@gr_spec0 i s [] ml x) by assumption. cbn [obind].
    rewrite (@gr_spec i0 s _ ml x0) by (assumption || notin). cbn [obind].
    rewrite (@gr_spec i1 s _ ml x1) by (assumption || notin). cbn [obind].
    rewrite (@gr_spec i2 s _ ml x2) by (assumption || notin). cbn [obind].
    match goal with |- context [log_all ?l s] => set (lg := l) end.
    match goal with |- context [rot_at (v_rot s) ?r ml] => set (R := r) end.
    destruct (@get_fmt_spec "dim" "%.3f" (log_all lg s) ml (v_rot s) R) as (dl & HG & Hdl).
    destruct (dim_args (v_points s) (v_rot s) ml) as [[[[[fm va] vd] vf] vt]|] eqn:DA'.
    - assert (HX : ev (v_points s) (v_rot s) x = Some va /\ ev (v_points s) (v_rot s) x0 = Some vd /\
                   ev (v_points s) (v_rot s) x1 = Some vf /\ ev (v_points s) (v_rot s) x2 = Some vt /\
                   fmt_arg "%.3f" ml = Some fm /\ eq3 vd zero3 = false).
      { destruct (ev (v_points s) (v_rot s) x), (ev (v_points s) (v_rot s) x0), (ev (v_points s) (v_rot s) x1),
          (ev (v_points s) (v_rot s) x2), (fmt_arg "%.3f" ml); try discriminate DA.
        destruct (eq3 v0 zero3) eqn:Z; [discriminate DA|]. injection DA as -> -> -> -> ->. auto 10. }
      destruct HX as (X1 & X2 & X3 & X4 & X5 & X6).
      rewrite X1, X2, X3, X4. cbn [or_zero is_some]. rewrite X6, HG, X5. cbn [negb andb].
      assert (lg = []) as ->.
      { unfold lg. rewrite (ev_some_nolog _ _ _ X1), (ev_some_nolog _ _ _ X2), (ev_some_nolog _ _ _ X3), (ev_some_nolog _ _ _ X4). reflexivity. }
      assert (dl = []) as -> by (apply Hdl; congruence).
      rewrite !log_all_nil.
      do 3 eexists. split; [reflexivity|]. split; [|split; [discriminate|]].
      + split; [|reflexivity]. intros _. split; [exact HND|]. split; [exact HO|discriminate].
      + intros _. split; [|do 5 eexists; split; reflexivity].
        apply rot_at_all. apply covered with (ks := dim_keys); [exact HND|exact HO|].
        intros k Hk. simpl in Hk. unfold R.
        destruct Hk as [<-|[<-|[<-|[<-|[<-|[]]]]]]; rewrite ?P, ?P0, ?P1, ?P2; simpl; auto 6.
        right. apply (@fmt_not_point "%.3f"). congruence.
    - assert (HFF : forall dl' (b : bool), b = false -> exists s' ml' ok,
        Ret (log_all dl' s, rot_at (v_rot s) R ml, b) = Ret (s', ml', ok) /\
        (ok = true <-> NoDup (names ml) /\ only dim_keys ml /\ @None (bytes * v3 * v3 * v3 * v3) <> None) /\
        (ok = false -> failed s s' ml ml') /\
        (ok = true -> ml' = map (rot_meta (v_rot s)) ml /\
         exists fm a dd f t, @None (bytes * v3 * v3 * v3 * v3) = Some (fm, a, dd, f, t) /\
           s' = draw_dim fm a (normalized3 dd) f t s)).
      { intros dl' b ->. do 3 eexists. split; [reflexivity|]. split; [split; [discriminate|tauto]|].
        split; [|discriminate]. intros _. split; eexists; reflexivity. }
      destruct (eq3 _ _) eqn:Z.
      + unfold err, say. change (Vst _ _ _ _ _ _) with (log_all [DSym (mloc (rot_at (v_rot s) R ml) i0) (B "Dimention's 'dir' must not be the zero vector")] (log_all lg s)) at 1.
        rewrite log_all_app. apply HFF; reflexivity.
      + rewrite HG, log_all_app. destruct (fmt_arg "%.3f" ml) as [fm|]; [|apply HFF; reflexivity].
        destruct (negb _) eqn:K; [apply HFF; reflexivity|]. exfalso.
        destruct (ev (v_points s) (v_rot s) x), (ev (v_points s) (v_rot s) x0), (ev (v_points s) (v_rot s) x1),
          (ev (v_points s) (v_rot s) x2); try discriminate K.
        simpl in Z. rewrite Z in DA. discriminate DA.
  Qed.

  (** ** dia and rad *)
  Definition circ_keys : list string := ["at"; "dir"; "center"; "fmt"]%string.
  Definition circ_args (ps : point_set) (r : m3) (ml : list meta) : option (bytes * v2 * v2 * v2 * num) :=
    match point_arg ps r "at" ml, point_arg ps r "dir" ml, point_arg ps r "center" ml, fmt_arg "%.3f" ml with
    | Some a, Some d, Some c, Some fm =>
        if (length ps <? 3)%nat then None
        else match fit_circle ps (xy c) with
             | Some (ce, rad) => Some (fm, ce, xy a, xy d, rad)
             | None => None
             end
    | _, _, _, _ => None
    end.

  Ltac evg := repeat match goal with |- context [ev ?a ?b ?c] => destruct (ev a b c) | |- context [fmt_arg ?a ?b] => destruct (fmt_arg a b) end; reflexivity.

  Lemma visit_circ_spec what draw d s : eqm (v_rot s) zerom = false ->
    exists s' ml' ok, visit_circ what draw d s = Ret (s', ml', ok) /\
      (ok = true <-> NoDup (names (d_meta d)) /\ only circ_keys (d_meta d) /\
                     circ_args (v_points s) (v_rot s) (d_meta d) <> None) /\
      (ok = false -> failed s s' (d_meta d) ml') /\
      (ok = true -> ml' = map (rot_meta (v_rot s)) (d_meta d) /\
         exists fm ce a dd r, circ_args (v_points s) (v_rot s) (d_meta d) = Some (fm, ce, a, dd, r) /\
           s' = draw fm ce a dd r s).
  Proof.
    intro HN. unfold visit_circ. set (ml := d_meta d). clearbody ml.
    destruct (flatten_spec what ml) as (m0 & HF & W & F). rewrite HF. clear HF.
    pose proof (nilb_nodup (B what) ml) as ND.
    set (dd := dup_diags (B what) [] ml) in *.
    destruct (nilb dd) eqn:HD; cbn [negb].
    2:{ do 3 eexists. split; [reflexivity|]. split; [|split; [intros _; apply failed_refl|discriminate]].
        split; [discriminate|]. intros (H & _). apply ND in H. discriminate. }
    assert (HND : NoDup (names ml)) by (apply ND; reflexivity).
    assert (Hdd : dd = []) by (destruct dd; [reflexivity|discriminate HD]).
    rewrite Hdd. clear Hdd HD ND dd.
    assert (F0 : forall n, fnd m0 n = drop [] n (index_of n (names ml))) by exact F.
    unfold get_center.
    tk "at"%string W F0. tk "dir"%string W0 F1. tk "center"%string W1 F2.
    rewrite !need_spec, !log_all_app.
    match goal with |- context [log_all ?dl s] => remember dl as lg eqn:HL end.
    assert (DA : circ_args (v_points s) (v_rot s) ml = circ_args (v_points s) (v_rot s) ml) by reflexivity.
    unfold circ_args at 2, point_arg in DA.
    assert (HFF : forall dl' R, circ_args (v_points s) (v_rot s) ml = None \/ ~ only circ_keys ml -> exists s' ml' ok,
        @Ret (vst * list meta * bool) (log_all dl' s, rot_at (v_rot s) R ml, false) = Ret (s', ml', ok) /\
        (ok = true <-> NoDup (names ml) /\ only circ_keys ml /\ circ_args (v_points s) (v_rot s) ml <> None) /\
        (ok = false -> failed s s' ml ml') /\
        (ok = true -> ml' = map (rot_meta (v_rot s)) ml /\
         exists fm ce a dd r, circ_args (v_points s) (v_rot s) ml = Some (fm, ce, a, dd, r) /\
           s' = draw fm ce a dd r s)).
    { intros dl' R H. do 3 eexists. split; [reflexivity|]. split; [split; [discriminate|tauto]|].
      split; [|discriminate]. intros _. split; eexists; reflexivity. }
    assert (HFF0 : forall dl', circ_args (v_points s) (v_rot s) ml = None -> exists s' ml' ok,
        @Ret (vst * list meta * bool) (log_all dl' s, ml, false) = Ret (s', ml', ok) /\
        (ok = true <-> NoDup (names ml) /\ only circ_keys ml /\ circ_args (v_points s) (v_rot s) ml <> None) /\
        (ok = false -> failed s s' ml ml') /\
        (ok = true -> ml' = map (rot_meta (v_rot s)) ml /\
         exists fm ce a dd r, circ_args (v_points s) (v_rot s) ml = Some (fm, ce, a, dd, r) /\
           s' = draw fm ce a dd r s)).
    { intros dl' H. specialize (HFF dl' [] (or_introl H)). rewrite rot_at_nil in HFF. exact HFF. }
    argcase "at"%string ml; [|apply HFF0; rewrite DA, AE; reflexivity].
    argcase "dir"%string ml; [|apply HFF0; rewrite AE, AE0 in DA; rewrite DA; evg].
    argcase "center"%string ml; [|apply HFF0; rewrite AE, AE0, AE1 in DA; rewrite DA; evg].
    rewrite AE, AE0, AE1 in DA.
    rewrite P, P0, P1 in HL. cbn [is_some app] in HL. rewrite HL. clear HL lg.
    change (v_points (log_all [] s)) with (v_points s).
    destruct (length (v_points s) <? 3) eqn:H3.
    { cbn [obind]. rewrite err_log, log_all_app. apply HFF0. rewrite DA. evg. }
    rewrite (@gr_spec0 i s [] ml x) by assumption. cbn [obind].
    rewrite (@gr_spec i1 s _ ml x1) by (assumption || notin). cbn [obind].
    rewrite (@gr_spec i0 s _ ml x0) by (assumption || notin). cbn [obind].
    match goal with |- context [log_all ?l s] => set (lg := l) end.
    match goal with |- context [rot_at (v_rot s) ?r ml] => set (R := r) end.
    destruct (ev (v_points s) (v_rot s) x) as [va|] eqn:X1; [|apply HFF; left; rewrite DA; reflexivity].
    destruct (ev (v_points s) (v_rot s) x1) as [vc|] eqn:X3;
      [|cbn [is_some negb andb]; apply HFF; left; rewrite DA; evg].
    destruct (ev (v_points s) (v_rot s) x0) as [vd|] eqn:X2; [|apply HFF; left; rewrite DA; reflexivity].
    cbn [is_some or_zero negb andb].
    assert (lg = []) as ->.
    { unfold lg. rewrite (ev_some_nolog _ _ _ X1), (ev_some_nolog _ _ _ X2), (ev_some_nolog _ _ _ X3). reflexivity. }
    rewrite log_all_nil.
    destruct (fit_circle (v_points s) (xy vc)) as [[ce rad]|] eqn:FC; cbn [obind].
    2:{ rewrite err_log. apply HFF. left. rewrite DA. destruct (fmt_arg _ _); reflexivity. }
    tk "fmt"%string W2 F3.
    destruct m3 as [|y m3].
    2:{ unfold unexpected. apply HFF. right. intro HO. apply (@chain_cons _ _ _ _ _ W3 F4 eq_refl).
        revert HO. apply only_ext. intro k. simpl. tauto. }
    assert (HO : only circ_keys ml).
    { pose proof (proj1 (chain_nil _ _ W3 F4) eq_refl) as HO. revert HO. apply only_ext. intro k. simpl. tauto. }
    destruct (@get_fmt_spec what "%.3f" s ml (v_rot s) R) as (dl & HG & Hdl). rewrite HG.
    destruct (fmt_arg "%.3f" ml) as [fm|] eqn:FA; [|apply HFF; left; rewrite DA; reflexivity].
    assert (dl = []) as -> by (apply Hdl; discriminate). rewrite log_all_nil.
    do 3 eexists. split; [reflexivity|]. split; [|split; [discriminate|]].
    - split; [|reflexivity]. intros _. split; [exact HND|]. split; [exact HO|rewrite DA; discriminate].
    - intros _. split; [|do 5 eexists; split; [exact DA|reflexivity]].
      apply rot_at_all. apply covered with (ks := circ_keys); [exact HND|exact HO|].
      intros k Hk. simpl in Hk. unfold R.
      destruct Hk as [<-|[<-|[<-|[<-|[]]]]]; rewrite ?P, ?P0, ?P1; simpl; auto 6.
      right. apply (@fmt_not_point "%.3f"). congruence.
  Qed.

  (** ** angle *)
  Definition angle_keys : list string :=
    ["at"; "apex"; "from_dir"; "from_point"; "to_dir"; "to_point"; "fmt"]%string.
  (** One side of the angle: its direction and a point on it, from exactly one
      of the two properties. *)
  Definition side_arg (ps : point_set) (r : m3) (kd kp : string) (ml : list meta) (apex : v3) : option (v3 * v3) :=
    match arg kd ml, arg kp ml with
    | Some x, None => match ev ps r x with Some v => Some (normalized3 v, apex) | None => None end
    | None, Some x => match ev ps r x with Some v => Some (normalized3 (sub3 v apex), v) | None => None end
    | _, _ => None
    end.
  Definition angle_args (ps : point_set) (r : m3) (ml : list meta)
    : option (bytes * v3 * v3 * (v3 * v3) * (v3 * v3)) :=
    match point_arg ps r "at" ml, point_arg ps r "apex" ml with
    | Some a, Some p =>
        match side_arg ps r "from_dir" "from_point" ml p, side_arg ps r "to_dir" "to_point" ml p, fmt_arg "%.1f" ml with
        | Some f, Some t, Some fm =>
            if neq (z3 (cross3 (fst t) (fst f))) nz then None else Some (fm, a, p, f, t)
        | _, _, _ => None
        end
    | _, _ => None
    end.

  Lemma visit_angle_spec d s : eqm (v_rot s) zerom = false ->
    exists s' ml' ok, visit_angle d s = Ret (s', ml', ok) /\
      (ok = true <-> NoDup (names (d_meta d)) /\ only angle_keys (d_meta d) /\
                     angle_args (v_points s) (v_rot s) (d_meta d) <> None) /\
      (ok = false -> failed s s' (d_meta d) ml') /\
      (ok = true -> ml' = map (rot_meta (v_rot s)) (d_meta d) /\
         exists fm a p f t, angle_args (v_points s) (v_rot s) (d_meta d) = Some (fm, a, p, f, t) /\
           (s', true) = draw_angle (d_loc d) fm a p (fst f) (snd f) (fst t) (snd t) s).
  Proof.
    intro HN. unfold visit_angle. set (ml := d_meta d). clearbody ml. set (l := d_loc d). clearbody l. clear d.
    destruct (flatten_spec "angle" ml) as (m0 & HF & W & F). rewrite HF. clear HF.
    pose proof (nilb_nodup (B "angle") ml) as ND.
    set (dd := dup_diags (B "angle") [] ml) in *.
    assert (F0 : forall n, fnd m0 n = drop [] n (index_of n (names ml))) by exact F.
    tk "at"%string W F0. tk "apex"%string W0 F1. tk "from_dir"%string W1 F2. tk "from_point"%string W2 F3.
    tk "to_dir"%string W3 F4. tk "to_point"%string W4 F5. tk "fmt"%string W5 F6.
    assert (HFF : forall dl' R, angle_args (v_points s) (v_rot s) ml = None \/ ~ only angle_keys ml \/ ~ NoDup (names ml) -> exists s' ml' ok,
        @Ret (vst * list meta * bool) (log_all dl' s, rot_at (v_rot s) R ml, false) = Ret (s', ml', ok) /\
        (ok = true <-> NoDup (names ml) /\ only angle_keys ml /\ angle_args (v_points s) (v_rot s) ml <> None) /\
        (ok = false -> failed s s' ml ml') /\
        (ok = true -> ml' = map (rot_meta (v_rot s)) ml /\
         exists fm a p f t, angle_args (v_points s) (v_rot s) ml = Some (fm, a, p, f, t) /\
           (s', true) = draw_angle l fm a p (fst f) (snd f) (fst t) (snd t) s)).
    { intros dl' R H. do 3 eexists. split; [reflexivity|]. split; [split; [discriminate|tauto]|].
      split; [|discriminate]. intros _. split; eexists; reflexivity. }
    assert (HFF0 : forall dl', angle_args (v_points s) (v_rot s) ml = None \/ ~ only angle_keys ml \/ ~ NoDup (names ml) -> exists s' ml' ok,
        @Ret (vst * list meta * bool) (log_all dl' s, ml, false) = Ret (s', ml', ok) /\
        (ok = true <-> NoDup (names ml) /\ only angle_keys ml /\ angle_args (v_points s) (v_rot s) ml <> None) /\
        (ok = false -> failed s s' ml ml') /\
        (ok = true -> ml' = map (rot_meta (v_rot s)) ml /\
         exists fm a p f t, angle_args (v_points s) (v_rot s) ml = Some (fm, a, p, f, t) /\
           (s', true) = draw_angle l fm a p (fst f) (snd f) (fst t) (snd t) s)).
    { intros dl' H. specialize (HFF dl' [] H). rewrite rot_at_nil in HFF. exact HFF. }
    destruct m6 as [|y m6].
    2:{ unfold unexpected. rewrite log_all_app. apply HFF0. right; left. intro HO. apply (@chain_cons _ _ _ _ _ W6 F7 eq_refl).
        revert HO. apply only_ext. intro k. simpl. tauto. }
    assert (HO : only angle_keys ml).
    { pose proof (proj1 (chain_nil _ _ W6 F7) eq_refl) as HO. revert HO. apply only_ext. intro k. simpl. tauto. }
    clear W F F0 W0 F1 W1 F2 W2 F3 W3 F4 W4 F5 W5 F6 W6 F7.
    rewrite (need_spec l (prop "at" ml)). cbv iota beta. rewrite (need_spec l (prop "apex" ml)). cbv iota beta.
    rewrite !log_all_app.
    assert (DA : angle_args (v_points s) (v_rot s) ml = angle_args (v_points s) (v_rot s) ml) by reflexivity.
    unfold angle_args at 2, point_arg, side_arg in DA.
    assert (HI : forall (o : option nat) p dl msg, (if is_some o then (log_all dl s, true) else need l p msg (log_all dl s))
        = (log_all (dl ++ if is_some o || is_some p then [] else [DSym l (B msg)]) s, is_some o || is_some p)).
    { intros [i|] p dl msg; simpl; [rewrite app_nil_r; reflexivity|]. rewrite need_spec, log_all_app. reflexivity. }
    rewrite HI. cbv iota beta. rewrite HI. cbv iota beta.
    match goal with |- context [log_all ?dl s] => remember dl as lg eqn:HL end.
    destruct (nilb dd) eqn:HD; cbn [andb negb].
    2:{ apply HFF0. right; right. intro H. apply ND in H. discriminate. }
    assert (HND : NoDup (names ml)) by (apply ND; reflexivity).
    assert (Hdd : dd = []) by (destruct dd; [reflexivity|discriminate HD]).
    argcase "at"%string ml; [|apply HFF0; rewrite DA, AE; auto]. cbn [is_some andb].
    argcase "apex"%string ml; [|apply HFF0; left; rewrite DA, AE, AE0; evg]. cbn [is_some andb].
    rewrite AE, AE0 in DA. rewrite Hdd, P, P0 in HL. cbn [is_some app] in HL.
    clear ND HD Hdd dd.
    assert (HE : forall (o : option nat) (b : bool) m dl, exists dl', 
               match o with Some i => if b then err (mloc ml i) m (log_all dl s) else log_all dl s | None => log_all dl s end =
               log_all dl' s /\ (b = false -> dl' = dl)).
    { intros [j|] [] m' dl; unfold err, say.
      - eexists (_ ++ [_]). split; [apply (log_all_app _ [_])|discriminate].
      - eexists; split; [reflexivity|auto].
      - eexists; split; [reflexivity|discriminate].
      - eexists; split; [reflexivity|auto]. }
    assert (HB : forall a b : bool, a = true \/ b = true -> a || b = true) by (intros [] []; intuition).
    destruct (is_some (prop "from_dir" ml) || is_some (prop "from_point" ml)) eqn:B1.
    2:{ cbn [andb negb]. apply HFF0. left. rewrite DA. unfold arg in *.
        destruct (prop "from_dir" ml), (prop "from_point" ml); try discriminate B1. evg. }
    destruct (is_some (prop "to_dir" ml) || is_some (prop "to_point" ml)) eqn:B2.
    2:{ cbn [andb negb]. apply HFF0. left. rewrite DA.
        assert (HT : arg "to_dir" ml = None /\ arg "to_point" ml = None).
        { unfold arg. destruct (prop "to_dir" ml), (prop "to_point" ml); try discriminate B2. auto. }
        destruct HT as [-> ->].
        destruct (arg "from_dir" ml), (arg "from_point" ml); evg. }
    cbn [andb negb] in *. rewrite app_nil_r in HL.
    destruct (HE (prop "from_dir" ml) (is_some (prop "from_dir" ml) && is_some (prop "from_point" ml))
                 (B "Both 'from_{dir,point}' provided") lg) as (dl1 & E1 & D1). rewrite E1.
    destruct (HE (prop "to_dir" ml) (is_some (prop "to_dir" ml) && is_some (prop "to_point" ml))
                 (B "Both 'to_{dir,point}' provided") dl1) as (dl2 & E2 & D2). rewrite E2. clear E1 E2 HE.
    destruct (is_some (prop "from_dir" ml) && is_some (prop "from_point" ml)) eqn:B3.
    { cbn [orb]. apply HFF0. left. rewrite DA.
      assert (HT : exists y z, arg "from_dir" ml = Some y /\ arg "from_point" ml = Some z).
      { argcase "from_dir"%string ml; [|rewrite P1 in B3; discriminate B3].
        argcase "from_point"%string ml; [|rewrite P1, P2 in B3; discriminate B3]. eauto. }
      destruct HT as (y & z & -> & ->). evg. }
    destruct (is_some (prop "to_dir" ml) && is_some (prop "to_point" ml)) eqn:B4.
    { cbn [orb]. apply HFF0. left. rewrite DA.
      assert (HT : exists y z, arg "to_dir" ml = Some y /\ arg "to_point" ml = Some z).
      { argcase "to_dir"%string ml; [|rewrite P1 in B4; discriminate B4].
        argcase "to_point"%string ml; [|rewrite P1, P2 in B4; discriminate B4]. eauto. }
      destruct HT as (y & z & -> & ->).
      destruct (arg "from_dir" ml), (arg "from_point" ml); evg. }
    cbn [orb]. rewrite (D2 eq_refl), (D1 eq_refl). subst lg. clear dl1 dl2 D1 D2 HB HI.
    rewrite (@gr_spec0 i s [] ml x) by assumption. cbn [obind app].
    rewrite (@gr_spec i0 s _ ml x0) by (assumption || notin). cbn [obind].
    (* which property gives the first side *)
    assert (SF : exists kf j y isd, In kf ["from_dir"; "from_point"]%string /\ prop kf ml = Some j /\ nth_error ml j = Some y /\
      (forall k, In k ["from_dir"; "from_point"]%string -> match prop k ml with Some q => q = j | None => True end) /\
      (forall z, (match arg "from_dir" ml, arg "from_point" ml with
        | Some x, None => match ev (v_points s) (v_rot s) x with Some v => Some (normalized3 v, z) | None => None end
        | None, Some x => match ev (v_points s) (v_rot s) x with Some v => Some (normalized3 (sub3 v z), v) | None => None end
        | _, _ => None end) =
       (match ev (v_points s) (v_rot s) y with
        | Some v => Some (if isd : bool then (normalized3 v, z) else (normalized3 (sub3 v z), v)) | None => None end)) /\
      (forall (apex : v3) (w : vst * list meta), match prop "from_dir" ml, prop "from_point" ml with
                  | Some i, _ =>
                      do! '(s, ml, r, v) <- get_rotated i w;
                      Ret (s, ml, r, normalized3 v, apex)
                  | None, Some i =>
                      do! '(s, ml, r, v) <- get_rotated i w;
                      Ret (s, ml, r, normalized3 (sub3 v apex), v)
                  | None, None => Abort (AUB "null Meta*")
                  end = do! '(s, ml, r, v) <- get_rotated j w;
                      Ret (s, ml, r, if isd then normalized3 v else normalized3 (sub3 v apex), if isd then apex else v))).
    { argcase "from_dir"%string ml; rewrite P1 in B1, B3.
      - argcase "from_point"%string ml; rewrite P2 in B1, B3; [discriminate B3|].
        exists "from_dir"%string, i1, x1, true. rewrite AE1, AE2.
        repeat split; try assumption; [left; reflexivity|].
        intros k [<-|[<-|[]]]; rewrite ?P1, ?P2; auto.
      - argcase "from_point"%string ml; rewrite P2 in B1, B3; [|discriminate B1].
        exists "from_point"%string, i1, x1, false. rewrite AE1, AE2.
        repeat split; try assumption; [right; left; reflexivity|].
        intros k [<-|[<-|[]]]; rewrite ?P1, ?P2; auto. }
    assert (ST : exists kf j y isd, In kf ["to_dir"; "to_point"]%string /\ prop kf ml = Some j /\ nth_error ml j = Some y /\
      (forall k, In k ["to_dir"; "to_point"]%string -> match prop k ml with Some q => q = j | None => True end) /\
      (forall z, (match arg "to_dir" ml, arg "to_point" ml with
        | Some x, None => match ev (v_points s) (v_rot s) x with Some v => Some (normalized3 v, z) | None => None end
        | None, Some x => match ev (v_points s) (v_rot s) x with Some v => Some (normalized3 (sub3 v z), v) | None => None end
        | _, _ => None end) =
       (match ev (v_points s) (v_rot s) y with
        | Some v => Some (if isd : bool then (normalized3 v, z) else (normalized3 (sub3 v z), v)) | None => None end)) /\
      (forall (apex : v3) (w : vst * list meta), match prop "to_dir" ml, prop "to_point" ml with
                  | Some i, _ =>
                      do! '(s, ml, r, v) <- get_rotated i w;
                      Ret (s, ml, r, normalized3 v, apex)
                  | None, Some i =>
                      do! '(s, ml, r, v) <- get_rotated i w;
                      Ret (s, ml, r, normalized3 (sub3 v apex), v)
                  | None, None => Abort (AUB "null Meta*")
                  end = do! '(s, ml, r, v) <- get_rotated j w;
                      Ret (s, ml, r, if isd then normalized3 v else normalized3 (sub3 v apex), if isd then apex else v))).
    { argcase "to_dir"%string ml; rewrite P1 in B2, B4.
      - argcase "to_point"%string ml; rewrite P2 in B2, B4; [discriminate B4|].
        exists "to_dir"%string, i1, x1, true. rewrite AE1, AE2.
        repeat split; try assumption; [left; reflexivity|].
        intros k [<-|[<-|[]]]; rewrite ?P1, ?P2; auto.
      - argcase "to_point"%string ml; rewrite P2 in B2, B4; [|discriminate B2].
        exists "to_point"%string, i1, x1, false. rewrite AE1, AE2.
        repeat split; try assumption; [right; left; reflexivity|].
        intros k [<-|[<-|[]]]; rewrite ?P1, ?P2; auto. }
    destruct SF as (kf & jf & yf & df & Kf & Pf & Nf & Cf & Af & Gf).
    destruct ST as (kt & jt & yt & dt & Kt & Pt & Nt & Ct & At & Gt).
    assert (DA2 : angle_args (v_points s) (v_rot s) ml =
       match ev (v_points s) (v_rot s) x with
       | Some a => match ev (v_points s) (v_rot s) x0 with
         | Some p =>
            match (match ev (v_points s) (v_rot s) yf with
                   | Some v => Some (if df then (normalized3 v, p) else (normalized3 (sub3 v p), v)) | None => None end),
                  (match ev (v_points s) (v_rot s) yt with
                   | Some v => Some (if dt then (normalized3 v, p) else (normalized3 (sub3 v p), v)) | None => None end),
                  fmt_arg "%.1f" ml with
            | Some f, Some t, Some fm =>
              if neq (z3 (cross3 (fst t) (fst f))) nz then None else Some (fm, a, p, f, t)
            | _, _, _ => None
            end
         | None => None end | None => None end).
    { rewrite DA. destruct (ev _ _ x); [|reflexivity]. destruct (ev _ _ x0); [|reflexivity]. rewrite Af, At. reflexivity. }
    clear DA Af At. rewrite Gf. clear Gf.
    assert (NF : ~ In jf [i0; i]).
    { simpl in Kf. destruct Kf as [<-|[<-|[]]]; notin. }
    rewrite (@gr_spec jf s _ ml yf) by assumption. cbn [obind]. rewrite Gt. clear Gt.
    assert (NT : ~ In jt [jf; i0; i]).
    { simpl in Kf, Kt. destruct Kf as [<-|[<-|[]]]; destruct Kt as [<-|[<-|[]]]; notin. }
    rewrite (@gr_spec jt s _ ml yt) by assumption. cbn [obind].
    match goal with |- context [log_all ?l s] => set (lg := l) end.
    match goal with |- context [rot_at (v_rot s) ?r ml] => set (R := r) end.
    destruct (@get_fmt_spec "angle" "%.1f" (log_all lg s) ml (v_rot s) R) as (dl & HG & Hdl).
    rewrite HG, log_all_app.
    destruct (fmt_arg "%.1f" ml) as [fm|] eqn:FA; [|apply HFF; left; rewrite DA2; evg].
    destruct (ev (v_points s) (v_rot s) x) as [va|] eqn:X1; [|apply HFF; left; rewrite DA2; reflexivity].
    destruct (ev (v_points s) (v_rot s) x0) as [vp|] eqn:X2; [|apply HFF; left; rewrite DA2; reflexivity].
    destruct (ev (v_points s) (v_rot s) yf) as [vf|] eqn:X3; [|apply HFF; left; rewrite DA2; reflexivity].
    destruct (ev (v_points s) (v_rot s) yt) as [vt|] eqn:X4; [|apply HFF; left; rewrite DA2; reflexivity].
    cbn [is_some or_zero negb andb].
    assert (lg = []) as ->.
    { unfold lg. rewrite (ev_some_nolog _ _ _ X1), (ev_some_nolog _ _ _ X2), (ev_some_nolog _ _ _ X3), (ev_some_nolog _ _ _ X4). reflexivity. }
    assert (dl = []) as -> by (apply Hdl; discriminate). cbn [app]. rewrite log_all_nil.
    set (fd := if df then normalized3 vf else normalized3 (sub3 vf vp)).
    set (fp := if df then vp else vf).
    set (td := if dt then normalized3 vt else normalized3 (sub3 vt vp)).
    set (tp := if dt then vp else vt).
    assert (EF : (if df then (normalized3 vf, vp) else (normalized3 (sub3 vf vp), vf)) = (fd, fp)) by (unfold fd, fp; destruct df; reflexivity).
    assert (ET : (if dt then (normalized3 vt, vp) else (normalized3 (sub3 vt vp), vt)) = (td, tp)) by (unfold td, tp; destruct dt; reflexivity).
    rewrite EF, ET in DA2. cbn [fst] in DA2.
    unfold draw_angle. cbv zeta.
    destruct (neq (z3 (cross3 td fd)) nz) eqn:Z.
    { change (err l (B "Degenerate angle provided.") s) with (log_all [DSym l (B "Degenerate angle provided.")] s).
      apply HFF. left. exact DA2. }
    do 3 eexists. split; [reflexivity|]. split; [|split; [discriminate|]].
    - split; [|reflexivity]. intros _. split; [exact HND|]. split; [exact HO|rewrite DA2; discriminate].
    - intros _. split; [|do 5 eexists; split; [exact DA2|cbn [fst snd]; rewrite Z; reflexivity]].
      apply rot_at_all. apply covered with (ks := angle_keys); [exact HND|exact HO|].
      intros k Hk. simpl in Hk. unfold R.
      destruct Hk as [<-|[<-|[<-|[<-|[<-|[<-|[<-|[]]]]]]]].
      + rewrite P; simpl; auto 6.
      + rewrite P0; simpl; auto 6.
      + left. specialize (Cf "from_dir"%string (or_introl eq_refl)). destruct (prop "from_dir" ml); [subst; simpl; auto|auto].
      + left. specialize (Cf "from_point"%string (or_intror (or_introl eq_refl))). destruct (prop "from_point" ml); [subst; simpl; auto|auto].
      + left. specialize (Ct "to_dir"%string (or_introl eq_refl)). destruct (prop "to_dir" ml); [subst; simpl; auto|auto].
      + left. specialize (Ct "to_point"%string (or_intror (or_introl eq_refl))). destruct (prop "to_point" ml); [subst; simpl; auto|auto].
      + right. apply (@fmt_not_point "%.1f"). congruence.
  Qed.
End Dims.
