(** P_Script2.v - references, file lookup and rotation at the document level. *)
From Coq Require Import Sorted.
From Verif Require Import Base Num Geo Stl StlRead Env Ast Lexer Parser Ps Draw Main
  P_Base P_Meta P_Frame P_Dims P_Doc DocSpec.

From Verif Require Import P_Script.

Section Script2.
  Context {A : Arith} {E : Env}.

  Lemma first_open_some fs ps c : first_open fs ps = Some c <-> first_of fs ps c.
  Proof.
    induction ps as [|p ps IH]; simpl.
    - split; [discriminate|inversion 1].
    - destruct (fs p) as [c'|] eqn:F.
      + split; [intro H; injection H as ->; apply FO_here; exact F|]. inversion 1; congruence.
      + rewrite IH. split; [apply FO_next; exact F|]. inversion 1; [congruence|assumption].
  Qed.
  Lemma first_open_none fs ps : first_open fs ps = None <-> forall p, In p ps -> fs p = None.
  Proof.
    induction ps as [|p ps IH]; simpl.
    - tauto.
    - destruct (fs p) as [c'|] eqn:F.
      + split; [discriminate|]. intro H. rewrite (H p) in F by (left; reflexivity). discriminate.
      + rewrite IH. split; [intros H q [<-|Hq]; auto|auto].
  Qed.
  Lemma absolute_iff f : absolute f = true <-> abs_path f.
  Proof.
    unfold absolute, abs_path. destruct f as [|c f]; [split; [discriminate|intros [t H]; discriminate]|].
    rewrite byte_eqb_eq. split; [intros ->; eauto|intros [t H]; congruence].
  Qed.
  Lemma split_app_nosep sep w s : ~ In sep w -> split_on sep (w ++ sep :: s) = w :: split_on sep s.
  Proof.
    induction w as [|c w IH]; simpl; intro H.
    - rewrite byte_eqb_refl. reflexivity.
    - rewrite (IH ltac:(tauto)). destruct (byte_eqb_spec c sep) as [->|_]; [tauto|reflexivity].
  Qed.
  Lemma split_nosep sep w : ~ In sep w -> split_on sep w = [w].
  Proof.
    induction w as [|c w IH]; simpl; intro H; [reflexivity|].
    rewrite (IH ltac:(tauto)). destruct (byte_eqb_spec c sep) as [->|_]; [tauto|reflexivity].
  Qed.
  Lemma split_join sep l : l <> [] -> Forall (fun e => ~ In sep e) l -> split_on sep (join [sep] l) = l.
  Proof.
    induction l as [|w l IH]; intros H F; [congruence|]. inversion F; subst.
    destruct l as [|w' l]; [cbn [join]; apply split_nosep; assumption|].
    assert (Q : join [sep] (w :: w' :: l) = w ++ sep :: join [sep] (w' :: l)) by reflexivity.
    rewrite Q, split_app_nosep by assumption. rewrite IH by (discriminate || assumption). reflexivity.
  Qed.
  Lemma entry_list_iff flag l : is_entry_list flag l <-> l = split_on "," flag.
  Proof.
    unfold is_entry_list. split.
    - intros (H & F & N). rewrite <- H. symmetry. apply (@split_join ","%char); assumption.
    - intros ->. split; [exact (join_split "," flag)|]. split; [|apply split_on_nonnil].
      apply Forall_forall. apply split_on_pieces.
  Qed.
  Lemma resolves_iff fs f c : resolves fs f c <-> first_open fs (candidates f) = Some c.
  Proof.
    unfold resolves, candidates. destruct (absolute f) eqn:Ab.
    - apply absolute_iff in Ab. simpl. split.
      + intros [[_ H]|[H _]]; [rewrite H; reflexivity|tauto].
      + intro H. left. split; [exact Ab|]. destruct (fs f); congruence.
    - assert (NA : ~ abs_path f) by (rewrite <- absolute_iff; congruence). rewrite first_open_some. split.
      + intros [[H _]|(_ & es & HE & H)]; [tauto|]. apply entry_list_iff in HE. subst es. exact H.
      + intro H. right. split; [exact NA|]. exists (split_on "," flag_load_path). split; [apply entry_list_iff; reflexivity|exact H].
  Qed.

  Lemma load_files_nil_ok fs ms st lg : load_files fs ms [] = Ret (st, lg, true) ->
    Forall (model_good fs) ms /\ NoDup (map mo_name ms) /\
    (forall n f, model_of st n = Some f -> exists m c lgm, In m ms /\ mo_name m = n /\ resolves fs (mo_source m) c /\ stl_make c = Ret (Some f, lgm)) /\
    (forall m, In m ms -> exists c f lgm, resolves fs (mo_source m) c /\ stl_make c = Ret (Some f, lgm) /\ model_of st (mo_name m) = Some f).
  Proof.
    intro H. destruct (load_files_ok fs ms [] (SSorted_nil _) H) as (_ & G & N & _ & FD). split; [exact G|]. split; [exact N|].
    assert (HF : forall m, In m ms -> find (fun m' => bytes_eqb (mo_name m') (mo_name m)) ms = Some m).
    { intros m HI. clear - HI N. induction ms as [|m' ms IH]; [destruct HI|]. cbn [find]. inversion N; subst.
      destruct HI as [->|HI]; [rewrite bytes_eqb_refl; reflexivity|].
      destruct (bytes_eqb (mo_name m') (mo_name m)) eqn:Q; [|apply IH; assumption].
      apply bytes_eqb_eq in Q. exfalso. apply H1. rewrite Q. apply in_map. exact HI. }
    split.
    - intros n f. unfold model_of. rewrite FD. simpl.
      destruct (find _ ms) as [m|] eqn:Fi; [|discriminate].
      apply List.find_some in Fi. destruct Fi as [HI Hn]. apply bytes_eqb_eq in Hn.
      destruct (first_open _ _) as [c|] eqn:O; [|discriminate].
      destruct (stl_make c) as [[[f'|] lgm]|] eqn:M; try discriminate. intro Hf; injection Hf as ->.
      exists m, c, lgm. split; [exact HI|]. split; [exact Hn|]. split; [apply resolves_iff; exact O|exact M].
    - intros m HI. rewrite Forall_forall in G. destruct (G m HI) as (c & f & lgm & O & M). exists c, f, lgm.
      split; [apply resolves_iff; exact O|]. split; [exact M|]. unfold model_of. rewrite FD. simpl. rewrite (HF m HI), O, M. reflexivity.
  Qed.

  Lemma dup_model_rejected fs src c d : parses src c d -> ~ NoDup (map mo_name (doc_models d)) -> ~ converts fs src c.
  Proof.
    intros HP HN HC. destruct (converts_doc_ok HC HP) as (st & lg & HL & _). apply HN, (load_files_nil_ok _ _ HL).
  Qed.
  Lemma bad_model_rejected fs src c d m : parses src c d -> In m (doc_models d) ->
    (forall t, ~ resolves fs (mo_source m) t) \/ (exists t lg, resolves fs (mo_source m) t /\ stl_make t = Ret (None, lg)) ->
    ~ converts fs src c.
  Proof.
    intros HP HI HN HC. destruct (converts_doc_ok HC HP) as (st & lg & HL & _).
    destruct (load_files_nil_ok _ _ HL) as (_ & _ & _ & H). destruct (H m HI) as (t & f & lgm & R & M & _).
    destruct HN as [HN|(t' & lg' & R' & M')]; [exact (HN _ R)|].
    apply resolves_iff in R. apply resolves_iff in R'. congruence.
  Qed.
  Lemma draw_ok_of st d pg l n ml ds : doc_ok st d -> In pg (doc_pages d) -> In (DDraw l n ml ds) (pg_draws pg) ->
    exists s s' ds', draw_run st n ml ds s s' ds'.
  Proof.
    intros H Hp Hi. unfold doc_ok in H. rewrite Forall_forall in H. destruct (H _ Hp) as (_ & _ & _ & F).
    rewrite Forall_forall in F. exact (F _ Hi).
  Qed.
  Lemma unknown_model_rejected fs src c d pg l n ml ds : parses src c d -> In pg (doc_pages d) -> In (DDraw l n ml ds) (pg_draws pg) ->
    ~ In n (map mo_name (doc_models d)) -> ~ converts fs src c.
  Proof.
    intros HP Hp Hi HN HC. destruct (converts_doc_ok HC HP) as (st & lg & HL & HD).
    edestruct draw_ok_of as (s & s' & ds' & D); [exact HD|exact Hp|exact Hi|]. destruct D.
    destruct (load_files_nil_ok _ _ HL) as (_ & _ & HM & _). destruct (HM _ _ H2) as (m & cc & lgm & Hm & <- & _).
    apply HN, in_map, Hm.
  Qed.
  Lemma matrix_by_name_iff n r : matrix_by_name n = Some r <-> In (n, r) (combine view_names [mXP; mXN; mYP; mYN; mZP; mZN]).
  Proof.
    unfold matrix_by_name. unfold view_names. cbn [map combine].
    repeat match goal with |- context [bytes_eqb n ?b] => let Q := fresh "Q" in destruct (bytes_eqb n b) eqn:Q;
       [apply bytes_eqb_eq in Q; subst n|apply bytes_eqb_neq in Q] end.
    all: split; intro H.
    all: try (injection H as <-; cbn [In]; tauto).
    all: try discriminate H.
    all: cbn [In] in H; repeat (destruct H as [H|H];
      [pose proof (f_equal fst H) as H1; pose proof (f_equal snd H) as H2; cbn [fst snd] in H1, H2;
       first [subst r; reflexivity|exfalso; congruence|exfalso; revert H1; vm_compute; discriminate]|]); destruct H.
  Qed.
  Lemma view_of_asks ml r : view_of ml = Some r -> asks_view ml r.
  Proof.
    unfold view_of. destruct (arg "view" ml) as [x|] eqn:G.
    - destruct (arg_in _ _ G) as [HI Hn]. unfold as_loc, as_str.
      destruct (m_val x) eqn:V; try discriminate.
      + intro H. eapply AV_name; [exact HI|exact Hn|exact V|]. apply matrix_by_name_iff. exact H.
      + intro H; injection H as <-. eapply AV_angles; [exact HI|exact Hn|exact V].
    - intro H; injection H as <-. apply AV_default. apply arg_none. exact G.
  Qed.
  Lemma bad_view_rejected fs src c d pg l n ml ds x v : parses src c d -> In pg (doc_pages d) -> In (DDraw l n ml ds) (pg_draws pg) ->
    In x ml -> m_name x = B "view" -> m_val x = MStr v -> ~ In v view_names -> ~ converts fs src c.
  Proof.
    intros HP Hp Hi Hx Hn Hv HN HC. destruct (converts_doc_ok HC HP) as (st & lg & HL & HD).
    edestruct draw_ok_of as (s & s' & ds' & D); [exact HD|exact Hp|exact Hi|]. destruct D.
    assert (GV : arg "view" ml = Some x).
    { destruct (arg "view" ml) as [y|] eqn:G.
      - destruct (arg_in _ _ G) as [HI Hm]. f_equal. clear - H HI Hx Hn Hm. unfold names in H. induction ml as [|z ml IH]; [destruct HI|].
        simpl in H. inversion H; subst. destruct HI as [->|HI], Hx as [->|Hx]; auto.
        + exfalso. apply H2. rewrite Hm, <- Hn. apply in_map, Hx.
        + exfalso. apply H2. rewrite Hn, <- Hm. apply in_map, HI.
      - apply arg_none in G. exfalso. apply G. unfold has. rewrite <- Hn. apply in_map, Hx. }
    unfold view_of in H3. rewrite GV in H3. unfold as_loc, as_str in H3. rewrite Hv in H3.
    apply matrix_by_name_iff in H3. apply HN. exact (in_combine_l _ _ _ _ H3).
  Qed.

  (** ** Which files can matter *)
  Lemma first_open_agree fs1 fs2 ps : (forall p, In p ps -> fs1 p = fs2 p) -> first_open fs1 ps = first_open fs2 ps.
  Proof.
    induction ps as [|p ps IH]; simpl; intro H; [reflexivity|]. rewrite (H p) by (left; reflexivity).
    destruct (fs2 p); [reflexivity|]. apply IH. auto.
  Qed.
  Lemma load_files_agree fs1 fs2 : forall ms st,
    (forall m p, In m ms -> In p (candidates (mo_source m)) -> fs1 p = fs2 p) -> load_files fs1 ms st = load_files fs2 ms st.
  Proof.
    induction ms as [|m ms IH]; intros st H; cbn [load_files]; [reflexivity|].
    assert (H1 : load_one fs1 m st = load_one fs2 m st).
    { unfold load_one. rewrite (@first_open_agree fs1 fs2); [reflexivity|]. intros p. apply H. left; reflexivity. }
    rewrite H1. destruct (load_one fs2 m st) as [[[st1 lg1] ok1]|]; [|reflexivity]. cbn [obind].
    rewrite IH; [reflexivity|]. intros m' p Hm. apply H. right; exact Hm.
  Qed.
  Lemma stays_below fs1 fs2 src c d : parses src c d ->
    (forall es, is_entry_list flag_load_path es -> ~ In [] es) ->
    (forall m, In m (doc_models d) -> ~ abs_path (mo_source m) /\ no_dotdot (mo_source m)) ->
    (forall p, below p -> fs1 p = fs2 p) -> script_to_ps fs1 src c = script_to_ps fs2 src c.
  Proof.
    intros [lg HP] HE HM HF. unfold script_to_ps. rewrite HP. cbn [obind Nat.eqb]. unfold doc_to_ps.
    rewrite (@load_files_agree fs1 fs2); [reflexivity|].
    intros m p Hm Hp. apply HF. destruct (HM m Hm) as [NA ND]. unfold candidates in Hp.
    destruct (absolute (mo_source m)) eqn:Ab; [apply absolute_iff in Ab; tauto|].
    apply in_map_iff in Hp. destruct Hp as (dd & <- & Hd).
    exists dd, (split_on "," flag_load_path), (mo_source m). split; [apply entry_list_iff; reflexivity|].
    split; [destruct Hd as [<-|Hd]; auto|]. split; [|auto]. destruct Hd as [<-|Hd]; [discriminate|].
    intros ->. apply (HE (split_on "," flag_load_path)); [apply entry_list_iff; reflexivity|exact Hd].
  Qed.

  (** ** Rotations *)
  Lemma point_rotate_spec r p : multiplied_by r p (point_rotate r p).
  Proof.
    induction p as [v l|n q IH l]; unfold multiplied_by; simpl; [auto|].
    destruct IH as (H1 & H2 & H3). rewrite H1, H2, H3. auto.
  Qed.
  Lemma rot_meta_rel r x : meta_rel (multiplied_by r) x (rot_meta r x).
  Proof.
    unfold meta_rel. rewrite rot_meta_name, rot_meta_loc. split; [reflexivity|]. split; [reflexivity|].
    unfold rot_meta, as_point. destruct (m_val x) eqn:V; simpl; auto.
    eexists. split; [reflexivity|apply point_rotate_spec].
  Qed.
  Lemma meta_rel_refl (R : point -> point -> Prop) x : (forall p, R p p) -> meta_rel R x x.
  Proof. intro H. unfold meta_rel. destruct (m_val x); eauto. Qed.
  Lemma meta_rel_weaken (R S : point -> point -> Prop) x y : (forall p q, R p q -> S p q) -> meta_rel R x y -> meta_rel S x y.
  Proof.
    intros H (H1 & H2 & H3). split; [exact H1|]. split; [exact H2|]. destruct (m_val x); try exact H3.
    destruct H3 as (p' & H3 & H4). eauto.
  Qed.
  Lemma rot_dim_rel r d : dim_rel (multiplied_by r) d (rot_dim r d).
  Proof.
    unfold dim_rel, rot_dim; simpl. split; [reflexivity|]. split; [reflexivity|].
    induction (d_meta d); simpl; constructor; [apply rot_meta_rel|assumption].
  Qed.
  Lemma Forall2_nth {X Y} (R : X -> Y -> Prop) : forall l l', length l = length l' ->
    (forall i x y, nth_error l i = Some x -> nth_error l' i = Some y -> R x y) -> Forall2 R l l'.
  Proof.
    induction l as [|x l IH]; intros [|y l'] HL H; try discriminate; constructor.
    - exact (H 0 x y eq_refl eq_refl).
    - apply IH; [simpl in HL; congruence|]. intros i a b. exact (H (S i) a b).
  Qed.
  Lemma touched_dim_rel r d d' : dim_touched r d d' -> dim_rel (at_most_once r) d d'.
  Proof.
    intros [R ->]. unfold dim_rel; simpl. split; [reflexivity|]. split; [reflexivity|].
    apply Forall2_nth; [rewrite rot_at_length; reflexivity|]. intros i x y Hx. rewrite nth_rot_at, Hx. simpl.
    intro H; injection H as <-. destruct (memb i R).
    - eapply meta_rel_weaken; [|apply rot_meta_rel]. intros p q Hpq. right; exact Hpq.
    - apply meta_rel_refl. intro p. left; reflexivity.
  Qed.
  Lemma item_touched_rel d d' : item_touched d d' -> d' = d \/ item_rel at_most_once d d'.
  Proof.
    intros [->|(l & n & ml & ds & ds' & r & -> & -> & V & T)]; [left; reflexivity|right].
    apply IR_draw with r; [apply view_of_asks; exact V|].
    clear - T. induction T; constructor; [apply touched_dim_rel|]; assumption.
  Qed.
  Lemma item_rotated_rel d d' : item_rotated d d' -> item_rel multiplied_by d d'.
  Proof.
    destruct d as [l n ml ds|l t ml]; simpl.
    - intros (r & V & ->). apply IR_draw with r; [apply view_of_asks; exact V|].
      induction ds; simpl; constructor; [apply rot_dim_rel|assumption].
    - intros ->. constructor.
  Qed.
  Lemma Forall2_impl {X Y} (P Q : X -> Y -> Prop) l l' : (forall x y, P x y -> Q x y) -> Forall2 P l l' -> Forall2 Q l l'.
  Proof. intros H F. induction F; constructor; auto. Qed.
  Lemma generate_once st d os d' lg ok : generate_pages st d = Ret (os, d', lg, ok) ->
    doc_models d' = doc_models d /\ Forall2 (page_rel at_most_once) (doc_pages d) (doc_pages d') /\
    (ok = true -> Forall2 (page_rel_all multiplied_by) (doc_pages d) (doc_pages d')).
  Proof.
    intro H. destruct (generate_pages_spec _ _ H) as (_ & HM & T & O). split; [exact HM|]. split.
    - eapply Forall2_impl; [|exact T]. intros p p' (H1 & H2 & H3). split; [exact H1|]. split; [exact H2|].
      eapply Forall2_impl; [|exact H3]. apply item_touched_rel.
    - intro K. destruct (O K) as [_ R]. eapply Forall2_impl; [|exact R]. intros p p' (H1 & H2 & H3). split; [exact H1|]. split; [exact H2|].
      eapply Forall2_impl; [|exact H3]. apply item_rotated_rel.
  Qed.
  Lemma ev_evaluates ps r ml n v : point_arg ps r n ml = Some v -> evaluates ps r ml n v.
  Proof.
    unfold point_arg. destruct (arg n ml) as [x|] eqn:G; [|discriminate]. destruct (arg_in _ _ G) as [HI Hn].
    unfold ev, as_point. destruct (m_val x) eqn:V; try discriminate. intro H. exists x, p, (point_rotate r p).
    split; [exact HI|]. split; [exact Hn|]. split; [exact V|]. split; [apply point_rotate_spec|exact H].
  Qed.
  Lemma fmt_used dflt ml fm : fmt_arg dflt ml = Some fm -> format_used ml dflt fm.
  Proof.
    unfold fmt_arg. destruct (arg "fmt" ml) as [x|] eqn:G.
    - destruct (arg_in _ _ G) as [I Q]. destruct (as_str x) as [f|] eqn:F; [|discriminate]. destruct (pf_ok f) eqn:P; [|discriminate]. intro H; injection H as ->.
      left. exists x. split; [exact I|]. split; [exact Q|]. split; [|exact P]. unfold as_str in F. destruct (m_val x); congruence.
    - intro H; injection H as <-. right. split; [|reflexivity]. intro K. unfold has in K. apply in_map_iff in K. destruct K as (x & Q & I).
      destruct (arg_prop "fmt" ml) as [(i & y & P & NE & Q' & AE)|[P AE]]; [congruence|]. unfold prop in P. apply index_of_none in P. apply P. rewrite <- Q. unfold names. apply in_map, I.
  Qed.
  (** What a successful dim, dia or rad draws is a function of the values of
      its arguments, each rotated once. *)
  Lemma dim_used s d s' d' : eqm (v_rot s) zerom = false -> d_kind d = KDim -> visit_base_dim d s = Ret (s', d', true) ->
    exists fm a dd f t, format_used (d_meta d) "%.3f" fm /\ evaluates (v_points s) (v_rot s) (d_meta d) "at" a /\
      evaluates (v_points s) (v_rot s) (d_meta d) "dir" dd /\ evaluates (v_points s) (v_rot s) (d_meta d) "from" f /\
      evaluates (v_points s) (v_rot s) (d_meta d) "to" t /\ s' = draw_dim fm a (normalized3 dd) f t s.
  Proof.
    intros HN K H. unfold visit_base_dim in H. rewrite K in H.
    destruct (visit_dim_spec d s HN) as (s1 & ml' & ok & H1 & _ & _ & H4). rewrite H1 in H. injection H as -> _ ->.
    destruct (H4 eq_refl) as (_ & fm & a & dd & f & t & HA & HS). exists fm, a, dd, f, t.
    unfold dim_args in HA. destruct (point_arg _ _ "at" _) eqn:P1; [|discriminate]. destruct (point_arg _ _ "dir" _) eqn:P2; [|discriminate].
    destruct (point_arg _ _ "from" _) eqn:P3; [|discriminate]. destruct (point_arg _ _ "to" _) eqn:P4; [|discriminate].
    destruct (fmt_arg _ _) eqn:PF; [|discriminate]. destruct (eq3 _ _); [discriminate|]. injection HA as -> -> -> -> ->.
    split; [exact (fmt_used _ _ PF)|]. repeat split; auto using ev_evaluates.
  Qed.
End Script2.
