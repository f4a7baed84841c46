(** P_Script3.v - the output of whole conversions, its parts, and the process. *)
From Verif Require Import Base Num Geo Stl StlRead Env Ast Lexer Parser Ps Draw Main
  P_Base P_Meta P_Frame P_Dims P_Doc DocSpec P_Script P_Script2.

Section Script3.
  Context {A : Arith} {E : Env}.

  (** ** Items *)
  Lemma drawable_any files d : exists o, forall s, contributes files d o s.
  Proof.
    destruct (drawable_indep files d) as [[e H]|[r H]].
    - exists (Abort e). exact H.
    - exists (Ret (Contrib (e_page r) (e_log r) (e_item r) (e_ok r))). exact H.
  Qed.
  Definition contrib_of (r : effect) : contribution := Contrib (e_page r) (e_log r) (e_item r) (e_ok r).
  Lemma gives_adds st ds rs : Forall2 (item_gives st) ds rs -> Forall2 (always_adds st) ds (map contrib_of rs).
  Proof. intro H. induction H; simpl; constructor; [exact H|assumption]. Qed.
  Lemma sum_pages_of rs : sum_pages (map c_page (map contrib_of rs)) = pages_of rs.
  Proof. unfold sum_pages, pages_of. rewrite map_map. reflexivity. Qed.

  (** ** Pages *)
  Lemma title_titled pg : (forall x, arg "name" (pg_meta pg) = Some x -> as_str x <> None) -> titled pg (title_of pg).
  Proof.
    intro H. unfold title_of. destruct (prop "name" (pg_meta pg)) as [i|] eqn:P.
    - destruct (prop_some _ _ P) as (m & N & Hn). rewrite N.
      assert (HA : arg "name" (pg_meta pg) = Some m) by (unfold arg; rewrite P; exact N).
      specialize (H _ HA). unfold as_str in *. destruct (m_val m) eqn:V; try congruence.
      exact (T_some _ _ (nth_error_In _ _ N) Hn V).
    - apply T_none. apply arg_none. unfold arg. rewrite P. reflexivity.
  Qed.
  Lemma page_header_mid k n : exists mid, page_header k n =
    [LF] ++ B "%%%%%%%%% Start of page " ++ dec_of_nat k ++ B " of " ++ dec_of_nat n ++ [LF] ++ mid.
  Proof.
    unfold page_header. refine (ex_intro _ (B "<< /PageSize [792 612] >> setpagedevice % letter/landscape

.1 setlinewidth
% draw border
newpath 5 5 moveto 5 607 lineto 787 607 lineto 787 5 lineto 5 5 lineto stroke
" ++ _) _). reflexivity.
  Qed.
  Lemma page_block_of st n k pg s s' pg' : gen_page st k pg s = Ret (s', pg', true) ->
    page_block st k n pg (render_page n k (v_page s')).
  Proof.
    intro H. destruct (page_indep st k pg) as [[e HE]|(r & rs & pre & post & ok0 & HG & HI & HP & _ & _ & HO & _)]; [rewrite HE in H; discriminate|].
    destruct (gen_page_spec _ _ _ _ H) as [_ O]. destruct (O eq_refl) as [(_ & _ & HT & _) _].
    destruct (HG s) as (s1 & G1 & G2 & _). rewrite H in G1. injection G1 as <- _ HK. rewrite <- HK in HO. symmetry in HO.
    apply andb_true_iff in HO. destruct HO as [_ HO]. rewrite G2, HP.
    unfold render_page. destruct (page_header_mid k n) as [mid HM]. rewrite HM.
    exists (dec_of_nat k), (dec_of_nat n), mid, (map contrib_of rs),
      (add_header opage_empty (title_of pg)), (title_of pg).
    split; [apply dec_of_nat_spells|]. split; [apply dec_of_nat_spells|]. split; [apply gives_adds; exact HI|].
    split. { apply Forall_forall. intros c Hc. apply in_map_iff in Hc. destruct Hc as (e & <- & He). rewrite forallb_forall in HO. exact (HO _ He). }
    split; [apply title_titled; exact HT|]. split; [do 3 eexists; reflexivity|].
    cbv zeta. rewrite sum_pages_of.
    replace (plus_page (pages_of rs) (add_header opage_empty (title_of pg))) with (add_header (pages_of rs) (title_of pg))
      by (unfold plus_page, add_header; simpl; rewrite app_nil_r; reflexivity).
    set (pp := add_header _ _). clearbody pp. rewrite <- !app_assoc. reflexivity.
  Qed.
  Lemma gen_pages_blocks st total : forall pgs n s s' pgs' os, gen_pages st (S n) pgs s = Ret (s', pgs', os, true) ->
    exists bs, render_from total n os = concat bs /\ length bs = length pgs /\
      forall i pg b, nth_error pgs i = Some pg -> nth_error bs i = Some b -> page_block st (S n + i) total pg b.
  Proof.
    induction pgs as [|pg pgs IH]; intros n s s' pgs' os H; cbn [gen_pages] in H.
    - injection H as <- <- <-. exists []. split; [reflexivity|]. split; [reflexivity|]. intros [|i] ? ? H; discriminate.
    - rewrite obind_ret in H. destruct H as ([[s1 d1] ok1] & H1 & H). rewrite obind_ret in H. destruct H as ([[[s2 t2] os2] ok2] & H2 & H).
      injection H as <- <- <- HK. apply andb_true_iff in HK. destruct HK as [-> ->].
      destruct (IH _ _ _ _ _ H2) as (bs & HB & HL & HI). exists (render_page total (S n) (v_page s1) :: bs).
      split; [cbn [render_from concat]; rewrite HB; reflexivity|]. split; [simpl; congruence|].
      intros [|i] pg' b' Hp Hb.
      + injection Hp as <-. injection Hb as <-. rewrite Nat.add_0_r. eapply page_block_of; exact H1.
      + rewrite Nat.add_succ_r. exact (HI _ _ _ Hp Hb).
  Qed.
  Lemma output_blocks fs src c r : script_to_ps fs src c = Ret r -> r_ok r = true ->
    exists d st lg bs, parses src c d /\ load_files fs (doc_models d) [] = Ret (st, lg, true) /\
      r_out r = document_header src ++ concat bs /\ length bs = length (doc_pages d) /\
      forall i pg b, nth_error (doc_pages d) i = Some pg -> nth_error bs i = Some b ->
        page_block st (S i) (length (doc_pages d)) pg b.
  Proof.
    intros H HO. destruct (script_ok _ _ _ H HO) as (d & r' & HP & (st & lg1 & os & d' & lg2 & HL & HG & ->) & HR & _).
    destruct (generate_pages_spec _ _ HG) as (HLen & _).
    unfold generate_pages in HG. rewrite obind_ret in HG. destruct HG as ([[[s pgs'] os'] ok'] & HG & HQ). injection HQ as <- _ _ ->.
    destruct (@gen_pages_blocks st (length os') _ _ _ _ _ _ HG) as (bs & HB & HLB & HI).
    exists d, st, lg1, bs. split; [exact HP|]. split; [exact HL|]. split; [rewrite HR; simpl; unfold render_pages; rewrite HB; reflexivity|].
    split; [exact HLB|]. rewrite HLen in HI. exact HI.
  Qed.

  (** ** Diagnostics *)
  Lemma pages_say st d os d' lg ok : generate_pages st d = Ret (os, d', lg, ok) ->
    exists ls, lg = concat ls /\ Forall2 (page_says st) (doc_pages d) ls.
  Proof.
    unfold generate_pages. rewrite obind_ret. intros ([[[s pgs'] os'] ok'] & HG & HQ). injection HQ as _ _ <- _.
    destruct (gen_pages_indep st (doc_pages d) 1) as [[e HE]|(rs & HR & HA)]; [rewrite HE in HG; discriminate|].
    destruct (HA vst_init) as (s1 & H1 & H2). rewrite H1 in HG. injection HG as <- _ _ _.
    exists (map pe_log rs). split; [exact H2|]. clear HA H1 H2.
    revert rs HR. generalize 1. generalize (doc_pages d). induction l as [|pg pgs IH]; intros k rs HR; simpl in HR; inversion HR; subst; simpl; constructor.
    - simpl in H1. destruct (page_indep st k pg) as [[e HE]|(r & es & pre & post & ok0 & HG & HI & _ & HL & _)].
      + destruct (H1 vst_init) as (s2 & HS & _). rewrite HE in HS. discriminate.
      + destruct (H1 vst_init) as (s2 & HS & _ & HS2). destruct (HG vst_init) as (s3 & HT & _ & HT2).
        rewrite HS in HT. injection HT as -> _ _. rewrite HS2 in HT2. simpl in HT2. rewrite HT2, HL.
        exists (map contrib_of es), pre, post. split; [apply gives_adds; exact HI|]. unfold logs_of. rewrite map_map. reflexivity.
    - exact (IH _ _ H3).
  Qed.
  Lemma verdict_all st d os d' lg ok : generate_pages st d = Ret (os, d', lg, ok) -> ok = true ->
    forall pg, In pg (doc_pages d) -> exists cs, Forall2 (always_adds st) (pg_draws pg) cs /\ Forall (fun c => c_ok c = true) cs.
  Proof.
    unfold generate_pages. rewrite obind_ret. intros ([[[s pgs'] os'] ok'] & HG & HQ) K. injection HQ as _ _ _ ->. subst ok.
    generalize dependent 1. generalize dependent vst_init. revert s pgs' os'. generalize (doc_pages d).
    induction l as [|pg pgs IH]; intros s pgs' os' s0 k HG pg0 HI; [destruct HI|]. cbn [gen_pages] in HG.
    rewrite obind_ret in HG. destruct HG as ([[s1 d1] ok1] & H1 & H). rewrite obind_ret in H. destruct H as ([[[s2 t2] os2] ok2] & H2 & H).
    injection H as _ _ _ HK. apply andb_true_iff in HK. destruct HK as [-> ->].
    destruct HI as [->|HI]; [|exact (IH _ _ _ _ _ H2 _ HI)].
    destruct (@page_block_of _ 0 _ _ _ _ _ H1) as (_ & _ & _ & cs & _ & _ & _ & _ & HC & HK & _). eauto.
  Qed.

  (** ** The values used *)
  Lemma circ_used k dr s d s' ml' : eqm (v_rot s) zerom = false -> visit_circ k dr d s = Ret (s', ml', true) ->
    exists fm a dd c ce r, format_used (d_meta d) "%.3f" fm /\ evaluates (v_points s) (v_rot s) (d_meta d) "at" a /\
      evaluates (v_points s) (v_rot s) (d_meta d) "dir" dd /\ evaluates (v_points s) (v_rot s) (d_meta d) "center" c /\
      fit_circle (v_points s) (xy c) = Some (ce, r) /\ s' = dr fm ce (xy a) (xy dd) r s.
  Proof.
    intros HN H. destruct (visit_circ_spec k dr d s HN) as (s1 & ml1 & ok & H1 & _ & _ & H4). rewrite H1 in H. injection H as -> _ ->.
    destruct (H4 eq_refl) as (_ & fm & ce & a & dd & r & HA & HS).
    unfold circ_args in HA. destruct (point_arg _ _ "at" _) as [a'|] eqn:P1; [|discriminate]. destruct (point_arg _ _ "dir" _) as [d'|] eqn:P2; [|discriminate].
    destruct (point_arg _ _ "center" _) as [c'|] eqn:P3; [|discriminate]. destruct (fmt_arg _ _) eqn:PF; [|discriminate].
    destruct (_ <? _)%nat; [discriminate|]. destruct (fit_circle _ _) as [[ce' r']|] eqn:P4; [|discriminate]. injection HA as -> -> <- <- ->.
    exists fm, a', d', c', ce, r. split; [exact (fmt_used _ _ PF)|]. repeat split; auto using ev_evaluates.
  Qed.
  Lemma side_arg_used ps r kd kp ml ap f : side_arg ps r kd kp ml ap = Some f -> side_used ps r ml kd kp ap f.
  Proof.
    unfold side_arg. destruct (arg kd ml) as [x|] eqn:G1; destruct (arg kp ml) as [y|] eqn:G2; try discriminate.
    - destruct (ev ps r x) as [v|] eqn:V; [|discriminate]. intro H; injection H as <-. left. exists v. split; [|reflexivity].
      apply ev_evaluates. unfold point_arg. rewrite G1. exact V.
    - destruct (ev ps r y) as [v|] eqn:V; [|discriminate]. intro H; injection H as <-. right. exists v. split; [|reflexivity].
      apply ev_evaluates. unfold point_arg. rewrite G2. exact V.
  Qed.
  Lemma angle_used s d s' ml' : eqm (v_rot s) zerom = false -> visit_angle d s = Ret (s', ml', true) ->
    exists fm a p f t, format_used (d_meta d) "%.1f" fm /\ evaluates (v_points s) (v_rot s) (d_meta d) "at" a /\ evaluates (v_points s) (v_rot s) (d_meta d) "apex" p /\
      side_used (v_points s) (v_rot s) (d_meta d) "from_dir" "from_point" p f /\
      side_used (v_points s) (v_rot s) (d_meta d) "to_dir" "to_point" p t /\
      (s', true) = draw_angle (d_loc d) fm a p (fst f) (snd f) (fst t) (snd t) s.
  Proof.
    intros HN H. destruct (visit_angle_spec d s HN) as (s1 & ml1 & ok & H1 & _ & _ & H4). rewrite H1 in H. injection H as -> _ ->.
    destruct (H4 eq_refl) as (_ & fm & a & p & f & t & HA & HS). exists fm, a, p, f, t.
    unfold angle_args in HA. destruct (point_arg _ _ "at" _) as [a'|] eqn:P1; [|discriminate]. destruct (point_arg _ _ "apex" _) as [p'|] eqn:P2; [|discriminate].
    destruct (side_arg _ _ "from_dir" _ _ _) as [f'|] eqn:P3; [|discriminate]. destruct (side_arg _ _ "to_dir" _ _ _) as [t'|] eqn:P4; [|discriminate].
    destruct (fmt_arg _ _) eqn:PF; [|discriminate]. destruct (neq _ _); [discriminate|]. injection HA as -> -> -> -> ->.
    split; [exact (fmt_used _ _ PF)|]. repeat split; auto using ev_evaluates, side_arg_used.
  Qed.

  (** ** Placement *)
  Definition dadds (sc : num) (s s' : vst) (q : opage) : Prop := adds s s' (put_page sc (v_d s) q).
  Lemma put_papp sc off p q : put_page sc off (papp p q) = papp (put_page sc off p) (put_page sc off q).
  Proof. unfold put_page, papp; simpl. rewrite !map_app. reflexivity. Qed.
  Lemma dadds_lines s ls : dadds (v_scale s) s (add_lines ls s) (OPage ls [] []).
  Proof. unfold dadds, adds, add_lines, set_page, papp, put_page; simpl. rewrite !app_nil_r. reflexivity. Qed.
  Lemma dadds_arcs s ls : dadds (v_scale s) s (add_arcs ls s) (OPage [] ls []).
  Proof. unfold dadds, adds, add_arcs, set_page, papp, put_page; simpl. rewrite !app_nil_r. reflexivity. Qed.
  Lemma dadds_text s ls : dadds (v_scale s) s (add_text ls s) (OPage [] [] ls).
  Proof. unfold dadds, adds, add_text, set_page, papp, put_page; simpl. rewrite !app_nil_r. reflexivity. Qed.
  Lemma dadds_trans sc s1 s2 s3 p q : dadds sc s1 s2 p -> dadds sc s2 s3 q -> dadds sc s1 s3 (papp p q).
  Proof.
    unfold dadds. intros H1 H2. rewrite put_papp. apply (adds_trans H1). rewrite H1 in H2 |- *. exact H2.
  Qed.
  Lemma dadds_scale sc s s' q : dadds sc s s' q -> v_scale s' = v_scale s.
  Proof. intro H. rewrite H. reflexivity. Qed.

  Lemma if_lines (b : bool) x y s : (if b then add_lines x s else add_lines y s) = add_lines (if b then x else y) s.
  Proof. destruct b; reflexivity. Qed.
  Lemma scale_lines ls s : v_scale (add_lines ls s) = v_scale s. Proof. reflexivity. Qed.
  Lemma scale_arcs ls s : v_scale (add_arcs ls s) = v_scale s. Proof. reflexivity. Qed.
  Lemma scale_text ls s : v_scale (add_text ls s) = v_scale s. Proof. reflexivity. Qed.
  Lemma dl s ls sc : v_scale s = sc -> dadds sc s (add_lines ls s) (OPage ls [] []).
  Proof. intros <-. apply dadds_lines. Qed.
  Lemma da s ls sc : v_scale s = sc -> dadds sc s (add_arcs ls s) (OPage [] ls []).
  Proof. intros <-. apply dadds_arcs. Qed.
  Lemma dt s ls sc : v_scale s = sc -> dadds sc s (add_text ls s) (OPage [] [] ls).
  Proof. intros <-. apply dadds_text. Qed.
  Lemma draw_dim_put fm a dd f t sc : exists q, forall s, v_scale s = sc -> dadds sc s (draw_dim fm a dd f t s) q.
  Proof.
    eexists. intros s Hs. unfold draw_dim. rewrite Hs. cbv zeta. rewrite if_lines.
    eapply dadds_trans; [|apply dl; exact Hs]. eapply dadds_trans; [apply dt; exact Hs|]. apply dl; exact Hs.
  Qed.
  Lemma draw_dia_put fm a b c r sc : exists q, forall s, v_scale s = sc -> dadds sc s (draw_dia fm a b c r s) q.
  Proof.
    eexists. intros s Hs. unfold draw_dia. rewrite Hs. cbv zeta. rewrite if_lines.
    eapply dadds_trans; [|apply dt; exact Hs]. eapply dadds_trans; [apply dl; exact Hs|]. apply dl; exact Hs.
  Qed.
  Lemma draw_rad_put fm a b c r sc : exists q, forall s, v_scale s = sc -> dadds sc s (draw_rad fm a b c r s) q.
  Proof.
    eexists. intros s Hs. unfold draw_rad. rewrite Hs. cbv zeta. rewrite if_lines.
    eapply dadds_trans; [|apply dt; exact Hs]. eapply dadds_trans; [apply dl; exact Hs|]. apply dl; exact Hs.
  Qed.
  Lemma draw_angle_put l fm a b c d e f sc : exists q, forall s s', v_scale s = sc -> (s', true) = draw_angle l fm a b c d e f s -> dadds sc s s' q.
  Proof.
    unfold draw_angle. destruct (neq _ _); [exists opage_empty; discriminate|].
    eexists. intros s s' Hs H. rewrite Hs in H. injection H as ->. rewrite ?Hs.
    eapply dadds_trans; [|apply dt; exact Hs]. eapply dadds_trans; [apply dl; exact Hs|]. apply da; exact Hs.
  Qed.
  (** The state in which dimensions are visited differs only in offset, page and log. *)
  Definition same_view (ps : point_set) (r : m3) (sc : num) (s : vst) : Prop :=
    v_points s = ps /\ v_rot s = r /\ v_scale s = sc.
  Lemma base_dim_put d ps r sc : exists q, forall s s' d', same_view ps r sc s -> visit_base_dim d s = Ret (s', d', true) -> dadds sc s s' q.
  Proof.
    destruct (eqm r zerom) eqn:NZ.
    { exists opage_empty. intros s s' d' (_ & <- & _) H. destruct (base_dim_null _ _ NZ H). discriminate. }
    destruct (d_kind d) eqn:K.
    - destruct (angle_args ps r (d_meta d)) as [[[[[fm a] p] f] t]|] eqn:AA.
      + destruct (draw_angle_put (d_loc d) fm a p (fst f) (snd f) (fst t) (snd t) sc) as [q Hq]. exists q.
        intros s s' d' (<- & <- & Hs) H. unfold visit_base_dim in H. rewrite K in H.
        destruct (visit_angle_spec d s NZ) as (s1 & ml1 & ok1 & H1 & _ & _ & H4). rewrite H1 in H. injection H as -> _ ->.
        destruct (H4 eq_refl) as (_ & fm' & a' & p' & f' & t' & HA & HS). rewrite AA in HA. injection HA as <- <- <- <- <-.
        exact (Hq _ _ Hs HS).
      + exists opage_empty. intros s s' d' (<- & <- & Hs) H. unfold visit_base_dim in H. rewrite K in H.
        destruct (visit_angle_spec d s NZ) as (s1 & ml1 & ok1 & H1 & _ & _ & H4). rewrite H1 in H. injection H as -> _ ->.
        destruct (H4 eq_refl) as (_ & fm' & a' & p' & f' & t' & HA & HS). congruence.
    - destruct (circ_args ps r (d_meta d)) as [[[[[fm a] p] f] t]|] eqn:AA.
      + destruct (draw_dia_put fm a p f t sc) as [q Hq]. exists q.
        intros s s' d' (<- & <- & Hs) H. unfold visit_base_dim, visit_dia in H. rewrite K in H.
        destruct (visit_circ_spec "dia" draw_dia d s NZ) as (s1 & ml1 & ok1 & H1 & _ & _ & H4). rewrite H1 in H. injection H as -> _ ->.
        destruct (H4 eq_refl) as (_ & fm' & a' & p' & f' & t' & HA & HS). rewrite AA in HA. injection HA as <- <- <- <- <-.
        rewrite HS. exact (Hq _ Hs).
      + exists opage_empty. intros s s' d' (<- & <- & Hs) H. unfold visit_base_dim, visit_dia in H. rewrite K in H.
        destruct (visit_circ_spec "dia" draw_dia d s NZ) as (s1 & ml1 & ok1 & H1 & _ & _ & H4). rewrite H1 in H. injection H as -> _ ->.
        destruct (H4 eq_refl) as (_ & fm' & a' & p' & f' & t' & HA & HS). congruence.
    - destruct (dim_args ps r (d_meta d)) as [[[[[fm a] p] f] t]|] eqn:AA.
      + destruct (draw_dim_put fm a (normalized3 p) f t sc) as [q Hq]. exists q.
        intros s s' d' (<- & <- & Hs) H. unfold visit_base_dim in H. rewrite K in H.
        destruct (visit_dim_spec d s NZ) as (s1 & ml1 & ok1 & H1 & _ & _ & H4). rewrite H1 in H. injection H as -> _ ->.
        destruct (H4 eq_refl) as (_ & fm' & a' & p' & f' & t' & HA & HS). rewrite AA in HA. injection HA as <- <- <- <- <-.
        rewrite HS. exact (Hq _ Hs).
      + exists opage_empty. intros s s' d' (<- & <- & Hs) H. unfold visit_base_dim in H. rewrite K in H.
        destruct (visit_dim_spec d s NZ) as (s1 & ml1 & ok1 & H1 & _ & _ & H4). rewrite H1 in H. injection H as -> _ ->.
        destruct (H4 eq_refl) as (_ & fm' & a' & p' & f' & t' & HA & HS). congruence.
    - destruct (circ_args ps r (d_meta d)) as [[[[[fm a] p] f] t]|] eqn:AA.
      + destruct (draw_rad_put fm a p f t sc) as [q Hq]. exists q.
        intros s s' d' (<- & <- & Hs) H. unfold visit_base_dim, visit_rad in H. rewrite K in H.
        destruct (visit_circ_spec "rad" draw_rad d s NZ) as (s1 & ml1 & ok1 & H1 & _ & _ & H4). rewrite H1 in H. injection H as -> _ ->.
        destruct (H4 eq_refl) as (_ & fm' & a' & p' & f' & t' & HA & HS). rewrite AA in HA. injection HA as <- <- <- <- <-.
        rewrite HS. exact (Hq _ Hs).
      + exists opage_empty. intros s s' d' (<- & <- & Hs) H. unfold visit_base_dim, visit_rad in H. rewrite K in H.
        destruct (visit_circ_spec "rad" draw_rad d s NZ) as (s1 & ml1 & ok1 & H1 & _ & _ & H4). rewrite H1 in H. injection H as -> _ ->.
        destruct (H4 eq_refl) as (_ & fm' & a' & p' & f' & t' & HA & HS). congruence.
  Qed.
  Lemma dims_put ps r sc : forall ds, exists q, forall s s' ds', same_view ps r sc s -> visit_dims ds s = Ret (s', ds', true) -> dadds sc s s' q.
  Proof.
    induction ds as [|d ds [q2 IH]]; cbn [visit_dims].
    - exists opage_empty. intros s s' ds' _ H. injection H as <- _. unfold dadds, adds, put_page, papp; simpl. rewrite !app_nil_r. destruct s as [? ? ? ? [? ? ?] ?]. reflexivity.
    - destruct (base_dim_put d ps r sc) as [q1 H1]. exists (papp q1 q2). intros s s' ds' HS H.
      rewrite obind_ret in H. destruct H as ([[s1 d1] ok1] & HA & H). rewrite obind_ret in H. destruct H as ([[s2 t2] ok2] & HB & H).
      injection H as <- _ HK. apply andb_true_iff in HK. destruct HK as [-> ->].
      pose proof (H1 _ _ _ HS HA) as D1. apply (dadds_trans D1). refine (IH _ _ _ _ HB).
      destruct HS as (<- & <- & <-). rewrite D1. repeat split.
  Qed.
  Lemma bytes_eqb_sym a b : bytes_eqb a b = bytes_eqb b a.
  Proof. destruct (bytes_eqb a b) eqn:H, (bytes_eqb b a) eqn:K; try reflexivity; [apply bytes_eqb_eq in H|apply bytes_eqb_eq in K]; subst; rewrite bytes_eqb_refl in *; discriminate. Qed.
  Lemma arg_find n ml : arg n ml = find (fun x => bytes_eqb (m_name x) (B n)) ml.
  Proof.
    unfold arg, prop. induction ml as [|x ml IH]; [reflexivity|]. cbn [names map index_of find].
    rewrite (bytes_eqb_sym (m_name x)). destruct (bytes_eqb (B n) (m_name x)); [reflexivity|].
    rewrite <- IH. unfold names. destruct (index_of _ _); reflexivity.
  Qed.
  Lemma find_filter {X} (f g : X -> bool) l : (forall x, f x = true -> g x = true) -> find f (filter g l) = find f l.
  Proof.
    intro H. induction l as [|x l IH]; [reflexivity|]. cbn [filter find]. destruct (g x) eqn:G; cbn [find]; destruct (f x) eqn:F; auto.
    rewrite (H _ F) in G. discriminate.
  Qed.
  Lemma arg_same n ml ml' : same_but_at ml ml' -> B n <> B "@" -> arg n ml = arg n ml'.
  Proof.
    intros H N. unfold same_but_at in H. rewrite !arg_find.
    set (g := fun x : meta => negb (bytes_eqb (m_name x) (B "@"))) in H.
    assert (G : forall x, bytes_eqb (m_name x) (B n) = true -> g x = true).
    { intros x Hx. apply bytes_eqb_eq in Hx. unfold g. rewrite Hx. apply negb_true_iff. apply bytes_eqb_neq. exact N. }
    rewrite <- (find_filter _ _ ml G), <- (find_filter _ _ ml' G), H. reflexivity.
  Qed.
  Lemma scale_asks ml a b : scale_of ml = Some (a, b) -> asks_scale ml a b.
  Proof.
    unfold scale_of. destruct (arg "scale" ml) as [x|] eqn:G.
    - destruct (arg_in _ _ G) as [HI Hn]. unfold as_scale. destruct (m_val x) eqn:V; try discriminate.
      intro H; injection H as -> ->. exact (AS_given _ _ HI Hn V).
    - intro H; injection H as <- <-. apply AS_default, arg_none, G.
  Qed.
  Lemma placed_draw st l n ml ds s s1 ds1 : visit_draw st l n ml ds s = Ret (s1, ds1, true) ->
    exists a b proj ls q off, asks_scale ml a b /\ shows st n ml proj ls /\
      let sc := to_f32 (ndiv (nmul (of_Z 72) (of_Z a)) (of_Z b)) in
      v_page s1 = plus_page (v_page s) (put_page sc off (plus_page (OPage ls [] []) q)) /\
      forall l' ml' s' s1' ds1', same_but_at ml ml' -> visit_draw st l' n ml' ds s' = Ret (s1', ds1', true) ->
        exists off', v_page s1' = plus_page (v_page s') (put_page sc off' (plus_page (OPage ls [] []) q)).
  Proof.
    intro H. destruct (visit_draw_spec _ _ _ _ _ _ H) as [[K _] _]. destruct (K eq_refl) as [[a b] file rot pl proj ls ND ON HS HM HV HP HR HL HO HD].
    set (sc := proj_scale (a, b)) in *. destruct (dims_put (points (cull_back_face proj)) rot sc ds) as [q Hq].
    assert (G : forall s pl s1 ds1, visit_dims ds (draw_state (a, b) rot pl (cull_back_face proj) ls s) = Ret (s1, ds1, true) ->
      exists off, v_page s1 = plus_page (v_page s) (put_page sc off (plus_page (OPage ls [] []) q))).
    { clear - Hq. intros s pl s1 ds1 HD. assert (D : dadds sc (draw_state (a, b) rot pl (cull_back_face proj) ls s) s1 q) by (refine (Hq _ _ _ _ HD); repeat split).
      unfold draw_state in HD, D. match type of D with dadds _ (add_lines _ ?x) _ _ => pose proof (dl x ls (eq_refl : v_scale x = sc)) as D0 end.
      pose proof (dadds_trans D0 D) as D1. eexists. rewrite D1. reflexivity. }
    destruct (G _ _ _ _ HD) as [off Hoff]. exists a, b, (cull_back_face proj), ls, q, off.
    split; [apply scale_asks; exact HS|]. split.
    { exists file, rot, proj. unfold model_of in HM. destruct (smap_find _ n st) as [[f|]|]; try discriminate. injection HM as ->.
      split; [reflexivity|]. split; [apply view_of_asks; exact HV|]. auto. }
    split; [exact Hoff|]. intros l' ml' s' s1' ds1' HSame H'.
    destruct (visit_draw_spec _ _ _ _ _ _ H') as [[K' _] _]. destruct (K' eq_refl) as [ab' file' rot' pl' proj' ls' _ _ HS' HM' HV' HP' HR' HL' _ HD'].
    assert (E1 : scale_of ml' = scale_of ml) by (unfold scale_of; rewrite (arg_same "scale" HSame) by discriminate; reflexivity).
    assert (E2 : view_of ml' = view_of ml) by (unfold view_of; rewrite (arg_same "view" HSame) by discriminate; reflexivity).
    rewrite E1, HS in HS'. injection HS' as <-. rewrite E2, HV in HV'. injection HV' as <-. rewrite HM in HM'. injection HM' as <-.
    rewrite HR in HR'. injection HR' as <-. rewrite HL in HL'. injection HL' as <-. exact (G _ _ _ _ HD').
  Qed.

  (** ** The process *)
  Lemma main_spec script output cw fs :
    let fs1 := fs_set output [] fs in
    ((script = [] \/ output = []) -> main script output cw fs = (Exit 1 [], fs)) /\
    (script <> [] -> output <> [] ->
      (forall p, p <> output -> snd (main script output cw fs) p = fs p) /\
      (cw output = true -> forall c, fs1 script = Some c ->
        (forall lg, fst (main script output cw fs) = Exit 0 lg -> converts fs1 script c) /\
        (converts fs1 script c -> exists lg, fst (main script output cw fs) = Exit 0 lg) /\
        (forall r, script_to_ps fs1 script c = Ret r ->
           main script output cw fs = (Exit (if r_ok r then 0 else 1) (r_log r), snd (main script output cw fs)) /\
           snd (main script output cw fs) output = Some (r_out r)) /\
        (~ converts fs1 script c -> snd (main script output cw fs) output = Some []))).
  Proof.
    intro fs1. split.
    - intros [->| ->]; [reflexivity|]. destruct script; reflexivity.
    - intros HS HO. unfold main. destruct script as [|x sc]; [congruence|]. destruct output as [|y ou]; [congruence|].
      set (script := x :: sc) in *. set (output := y :: ou) in *. clearbody script output.
      assert (F1 : forall p, p <> output -> fs1 p = fs p).
      { intros p Hp. unfold fs1, fs_set. apply bytes_eqb_neq in Hp. rewrite Hp. reflexivity. }
      split.
      { intros p Hp. destruct (cw output); cbn [negb]; [|reflexivity]. fold fs1. destruct (fs1 script) as [c|]; [|exact (F1 p Hp)].
        destruct (script_to_ps _ _ _) as [r|e]; simpl; [|exact (F1 p Hp)]. unfold fs_set at 1.
        pose proof Hp as Hp'. apply bytes_eqb_neq in Hp'. rewrite Hp'. exact (F1 p Hp). }
      intros HW c HC. rewrite HW. cbn [negb]. fold fs1. rewrite HC. unfold converts.
      destruct (script_to_ps fs1 script c) as [r|e] eqn:R.
      + simpl. split; [|split; [|split]].
        * intros lg H. exists r. split; [reflexivity|]. destruct (r_ok r); [reflexivity|discriminate].
        * intros (r' & H & K). injection H as <-. rewrite K. eauto.
        * intros r' H. injection H as <-. split; [reflexivity|]. unfold fs_set at 1. rewrite bytes_eqb_refl. reflexivity.
        * intro H. unfold fs_set at 1. rewrite bytes_eqb_refl. f_equal. apply (script_fail_silent _ _ _ R).
          destruct (r_ok r) eqn:K; [|reflexivity]. exfalso. apply H. eauto.
      + simpl. split; [discriminate|]. split; [intros (r & H & _); discriminate|]. split; [discriminate|].
        intros _. unfold fs1, fs_set. rewrite bytes_eqb_refl. reflexivity.
  Qed.
End Script3.
