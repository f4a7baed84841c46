(** P_Finite.v - where the numbers on a page come from. *)
From Coq Require Import Permutation.
From Verif Require Import Base Num Geo Stl StlRead Env Ast Lexer Parser Ps Draw Main GeoSpec DocSpec PsSpec FiniteSpec
  NumLaws P_Base P_Meta P_Frame P_Dims P_Doc P_Script P_Script2 P_Script3 P_Order P_Part P_Index P_Hide P_Lines P_Geo1
  LangSpec Grammar P_Parser P_Parser2 P_Parser3 PrintSpec P_Print P_Lang P_Lang2 P_Ps P_Ps2.

Local Unset Implicit Arguments.
Section Ends.
  Context {A : Arith} (P Q : v3 -> Prop).
  Variable PQ : forall v, P v -> Q v.
  Variable X : forall ev eu pu pv, P (e1 ev) -> P (e2 ev) -> P (e1 eu) -> P (e2 eu) -> cross_at ev eu = Some (pu, pv) -> Q pu /\ Q pv.
  Definition edgeP (R : v3 -> Prop) (e : edge) : Prop := R (e1 e) /\ R (e2 e).
  Definition facetP (f : facet) : Prop := P (fe0 f) /\ P (fe1 f) /\ P (fe2 f).
  Lemma side_P f k : facetP f -> edgeP P (side f k).
  Proof.
    intros (H0 & H1 & H2). unfold side. destruct k as [|[|k]]; unfold mk_edge; destruct (order _ _); split; assumption.
  Qed.
  Lemma add_edge_P s e f : Forall (edgeP P) (i_edges s) -> edgeP P e -> Forall (edgeP P) (i_edges (add_edge s e f)).
  Proof.
    intros H He. unfold add_edge. destruct (smap_find _ _ _); cbn [i_edges]; [exact H|]. apply Forall_app. split; [exact H|]. constructor; [exact He|constructor].
  Qed.
  Lemma collect_P fs : Forall facetP fs -> Forall (edgeP P) (i_edges (collect_edges fs)).
  Proof.
    intro H. unfold collect_edges. assert (G : forall l s, Forall (fun nf => facetP (snd nf)) l -> Forall (edgeP P) (i_edges s) -> Forall (edgeP P) (i_edges (fold_left add_facet l s))).
    { induction l as [|[n f] l IH]; intros s HL HS; [exact HS|]. inversion HL as [|? ? Hf HL']; subst. cbn [fold_left snd] in *. apply IH; [exact HL'|].
      unfold add_facet. repeat apply add_edge_P; try (apply side_P; exact Hf). exact HS. }
    apply G; [|constructor]. apply Forall_forall. intros [n f] I. apply in_combine_r in I. rewrite Forall_forall in H. exact (H _ I).
  Qed.
  Lemma hide_P fs fuel : forall i j ef es, Forall (edgeP P) es -> let '(_, es', _) := hide_loop fs fuel i j ef es in Forall (edgeP P) es'.
  Proof.
    induction fuel as [|fuel IH]; intros i j ef es H; cbn [hide_loop]; [exact H|]. destruct (i <? j)%nat; [|exact H]. destruct (nth_error ef i); [|exact H].
    destruct (smooth _ _); apply IH; [|exact H]. eapply Permutation_Forall; [|exact H]. apply Permutation_sym, swap_nth_perm.
  Qed.
  Lemma index_P fs m : index fs = Ret m -> Forall facetP fs -> Forall (edgeP P) (edges m) /\ facets m = fs.
  Proof.
    intros H HF. split; [|exact (proj1 (index_range _ H))]. unfold index in H. destruct (strict_weak edge_order (map_keys fs)); [|discriminate]. pose proof (hide_P fs (length (i_edges (collect_edges fs))) 0 (length (i_edges (collect_edges fs))) (i_ef (collect_edges fs)) _ (collect_P fs HF)) as HH.
    destruct (hide_loop _ _ _ _ _ _) as [[ef es] un]. apply obind_ret in H. destruct H as (fe & _ & H). injection H as <-. exact HH.
  Qed.
  Lemma gen_P p hs : forall st from d out, edgeP Q p -> Forall (edgeP Q) hs -> fold_left (gen_step p) hs (Ret st) = Ret (from, d, out) ->
    Q (fst (fst st)) -> Forall (fun l => exists a b, Q a /\ Q b /\ l = line3 a b) (snd st) ->
    Q from /\ Forall (fun l => exists a b, Q a /\ Q b /\ l = line3 a b) out.
  Proof.
    induction hs as [|h hs IH]; intros [[f0 d0] o0] from d out Hp HH H H1 H2; cbn [fold_left fst snd] in *; [injection H as <- <- <-; auto|].
    inversion HH as [|? ? [Ha Hb] HH']; subst. destruct (gen_step p (Ret (f0, d0, o0)) h) as [st'|e] eqn:G.
    2: { exfalso. clear - H. induction hs as [|k hs IH]; [discriminate H|exact (IH H)]. }
    unfold gen_step in G. cbn [obind] in G. apply obind_ret in G. destruct G as (_ & _ & G). injection G as <-. eapply IH; [exact Hp|exact HH'|exact H| |]; cbn [fst snd].
    - match goal with |- Q (if ?c then _ else _) => destruct c end; assumption.
    - clear H. match goal with |- Forall _ (if ?c then _ else _) => destruct c end; [|exact H2]. apply Forall_app. split; [exact H2|]. constructor; [|constructor]. exists f0, (e1 h). auto.
  Qed.
  Lemma hidden_P es un v u p : Forall (edgeP P) es -> In (v, u, p) (hidden_by_list es un) -> Q p.
  Proof.
    intros H I. apply hidden_in in I. destruct I as (v' & u' & ev & eu & pu & pv & _ & _ & Nv & Nu & C & I). rewrite Forall_forall in H.
    destruct (H _ (nth_error_In _ _ Nv)) as [V1 V2]. destruct (H _ (nth_error_In _ _ Nu)) as [U1 U2]. destruct (X _ _ _ _ V1 V2 U1 U2 C) as [Xu Xv].
    destruct I as [(_ & _ & -> & _)|(_ & _ & -> & _)]; assumption.
  Qed.
  Lemma span_P pts h : (forall p d, In (p, d) pts -> Q p) -> span_of pts = Ret (Some h) -> edgeP Q h.
  Proof.
    intros HP H. unfold span_of in H. destruct (_ <? _)%nat; [discriminate H|]. apply obind_ret in H. destruct H as (s & HS & H). apply std_sort_ret in HS. destruct HS as [PS _].
    destruct (nth_error _ 0) as [[pa da]|] eqn:N0; [|discriminate H]. destruct (nth_error _ (_ - 1)) as [[pb db]|] eqn:N1; [|discriminate H].
    destruct (_ =? _)%num; [discriminate H|]. apply obind_ret in H. destruct H as (_ & _ & H). injection H as <-.
    split; [apply (HP pa da)|apply (HP pb db)]; (eapply Permutation_in; [exact PS|eapply nth_error_In; eassumption]).
  Qed.
  (** Every end of a line is seen at the end of an edge or where two edges cross. *)
  Lemma lines_P s ls : Forall (edgeP P) (edges s) -> to_lines s = Ret ls -> Forall (fun l => exists a b, Q a /\ Q b /\ l = line3 a b) ls.
  Proof.
    intros HE H. destruct (to_lines_parts _ _ H) as (hbe & lss & HC & -> & _ & HL). destruct (edge_crosses_spec (edges s) (unseen s)) as (hb' & EC & T). rewrite EC in HC. injection HC as ->.
    apply Forall_concat, Forall_forall. intros ps I. apply In_nth_error in I. destruct I as [v N]. destruct (HL _ _ N) as (ev & hb & l & Ne & Nb & SP & G).
    assert (Hv : edgeP Q ev). { rewrite Forall_forall in HE. destruct (HE _ (nth_error_In _ _ Ne)). split; apply PQ; assumption. }
    assert (HB : forall k p, imap_find k hb = Some p -> Q p).
    { intros k p F. apply (imap_in _ _ _ (t_sorted T _ Nb)) in F. apply (t_in T _ Nb) in F. exact (hidden_P _ _ _ _ _ HE F). }
    assert (HS : Forall (edgeP Q) (sort_spans ev (collect_some l))).
    { apply Forall_forall. intros h I. apply sort_spans_in in I. destruct (spans_in _ _ _ _ _ _ SP I) as (n & f & fe & _ & _ & FH).
      unfold face_hides in FH. destruct fe as [[a b] c]. destruct (_ || _ || _); [discriminate FH|]. destruct (hidden_points_spec f (a, b, c) ev hb) as (pts & HP & _ & HI). rewrite HP in FH. cbn [obind] in FH.
      apply (span_P pts h); [|exact FH]. intros p d IP. apply HI in IP. cbn [fst snd] in IP. destruct Hv as [V1 V2].
      destruct IP as [(_ & -> & _)|[(_ & -> & _)|(_ & [F|[F|F]])]]; [exact V1|exact V2| | |]; exact (HB _ _ F). }
    unfold gen_edge in G. apply obind_ret in G. destruct G as ([[from d] out] & G & R). injection R as <-.
    destruct (gen_P ev _ _ _ _ _ Hv HS G (proj1 Hv) (Forall_nil _)) as [QF QO].
    destruct (ngt _ _); [|exact QO]. apply Forall_app. split; [exact QO|]. constructor; [|constructor]. exists from, (e2 ev). split; [exact QF|]. split; [exact (proj2 Hv)|reflexivity].
  Qed.
  Lemma rotate_P s m p ls : (forall f, In f (facets s) -> facetP (rotate_facet m f)) -> rotate s m = Ret p -> to_lines p = Ret ls ->
    Forall facetP (facets p) /\ Forall (fun l => exists a b, Q a /\ Q b /\ l = line3 a b) ls.
  Proof.
    intros H R L. unfold rotate in R. assert (HF : Forall facetP (cull_facets (map (rotate_facet m) (facets s)))).
    { apply Forall_forall. intros f I. apply (Permutation_in _ (proj1 (cull_exact _))) in I. apply filter_In in I. destruct I as [I _]. apply in_map_iff in I. destruct I as (g & <- & Ig). exact (H _ Ig). }
    destruct (index_P _ _ R HF) as [HE ->]. split; [exact HF|]. exact (lines_P _ _ HE L).
  Qed.
  Lemma points_P s : Forall facetP (facets s) -> Forall P (points s).
  Proof.
    intro H. unfold points. assert (G : forall l acc, Forall P l -> Forall P acc -> Forall P (fold_left (fun ps p => ps_insert p ps) l acc)).
    { induction l as [|v l IH]; intros acc H1 H2; [exact H2|]. inversion H1; subst. cbn [fold_left]. apply IH; [assumption|]. apply Forall_forall. intros x I.
      unfold ps_insert, sset_insert in I. apply in_map_iff in I. destruct I as ([y []] & <- & I). apply emplace_in in I. cbn [fst]. destruct I as [[_ E]|I]; [injection E as ->; assumption|].
      apply in_map_iff in I. destruct I as (z & E & I). injection E as <-. rewrite Forall_forall in H2. exact (H2 _ I). }
    apply G; [|constructor]. apply Forall_forall. intros x I. apply in_flat_map in I. destruct I as (f & If & I). rewrite Forall_forall in H. destruct (H _ If) as (H0 & H1 & H2).
    destruct I as [<-|[<-|[<-|[]]]]; assumption.
  Qed.
End Ends.

(** ** The numbers of a parsed document were read by stof *)
Section Parsed.
  Context {A : Arith} {E : Env} (P : num -> Prop).
  Definition num_tok (k : ltok) : Prop := match t_tok k with TNum x => P x | _ => True end.
  Ltac hd H := let K := fresh "K" in pose proof (Forall_inv H) as K; apply Forall_inv_tail in H; unfold num_tok in K; cbn [t_tok] in K.
  Lemma point_P f ts p : g_point f ts p -> Forall num_tok ts -> nums3 P (triple p).
  Proof.
    induction 1 as [a b c d e g h x y z|a b c n ts p G IH]; intro F; cbn [triple].
    - repeat hd F. repeat split; assumption.
    - do 2 hd F. apply Forall_app in F. exact (IH (proj1 F)).
  Qed.
  Lemma location_P ts v : g_location ts v -> Forall num_tok ts -> nums2 P v.
  Proof. intros [a b c d e x y] F. repeat hd F. split; assumption. Qed.
  Lemma value_P f ts v : g_value f ts v -> Forall num_tok ts -> value_nums P v.
  Proof.
    intros [us s G|us p G|a x|us u G|a b c x y m n Tm Tn] F; cbn [value_nums]; [exact I| | | |exact I].
    - exact (point_P _ _ _ G F).
    - hd F. exact K.
    - exact (location_P _ _ G F).
  Qed.
  Lemma arg_P f ts m : g_arg f ts m -> Forall num_tok ts -> value_nums P (m_val m).
  Proof.
    intros [a b n us v G|a us v G] F.
    - do 2 hd F. exact (value_P _ _ _ G F).
    - hd F. exact (location_P _ _ G F).
  Qed.
  Lemma metas_app a b : metas_nums P a -> metas_nums P b -> metas_nums P (a ++ b).
  Proof. intros HA HB x I. apply in_app_or in I. destruct I; auto. Qed.
  Lemma metas_one m : value_nums P (m_val m) -> metas_nums P [m].
  Proof. intros H x [<-|[]]. exact H. Qed.
  Lemma metas_none : metas_nums P []. Proof. intros x []. Qed.
  Lemma dim_parts_P f ts ml : g_dim_parts f ts ml -> Forall num_tok ts -> metas_nums P ml.
  Proof.
    induction 1 as [ts m G|a ts ml us m G IH GA]; intro F; [apply metas_one; exact (arg_P _ _ _ G F)|]. apply Forall_app in F. destruct F as [F1 F2]. hd F2. apply metas_app; [exact (IH F1)|]. apply metas_one. exact (arg_P _ _ _ GA F2).
  Qed.
  Definition dims_nums (ds : list dim) : Prop := forall dm, In dm ds -> metas_nums P (d_meta dm).
  Lemma dims_snoc ds d : dims_nums ds -> metas_nums P (d_meta d) -> dims_nums (ds ++ [d]).
  Proof. intros HA HB x I. apply in_app_or in I. destruct I as [I|[<-|[]]]; auto. Qed.
  Lemma draw_parts_P f ts r : g_draw_parts f ts r -> Forall num_tok ts -> metas_nums P (fst r) /\ dims_nums (snd r).
  Proof.
    induction 1 as [|a ts ml ds us m G IH GA|a b c d ts ml ds k kd G IH GK|a b c d ts ml ds k kd us m G IH GK GD]; intro F; [split; [exact metas_none|intros x []]| | |]; cbn [fst snd] in *; apply Forall_app in F; destruct F as [F1 F2]; specialize (IH F1); destruct IH as [I1 I2].
    - apply Forall_app in F2. split; [|exact I2]. apply metas_app; [exact I1|]. apply metas_one. exact (arg_P _ _ _ GA (proj1 F2)).
    - split; [exact I1|]. apply dims_snoc; [exact I2|exact metas_none].
    - split; [exact I1|]. apply dims_snoc; [exact I2|]. do 2 hd F2. apply Forall_app in F2. exact (dim_parts_P _ _ _ GD (proj1 F2)).
  Qed.
  Lemma text_parts_P f ts ml : g_text_parts f ts ml -> Forall num_tok ts -> metas_nums P ml.
  Proof.
    induction 1 as [|a ts ml us m G IH GA]; intro F; [exact metas_none|]. apply Forall_app in F. destruct F as [F1 F2]. apply Forall_app in F2. apply metas_app; [exact (IH F1)|]. apply metas_one. exact (arg_P _ _ _ GA (proj1 F2)).
  Qed.
  Lemma page_parts_P f ts r : g_page_parts f ts r -> Forall num_tok ts -> metas_nums P (fst r) /\ Forall (item_nums P) (snd r).
  Proof.
    induction 1 as [|a ts ml ds us m G IH GA|a b c d ts ml ds n us m dm G IH GD|a b c d e ts ml ds us s ws m G IH GS GT]; intro F; [split; [exact metas_none|constructor]| | |]; cbn [fst snd] in *; apply Forall_app in F; destruct F as [F1 F2]; specialize (IH F1); destruct IH as [I1 I2].
    - apply Forall_app in F2. split; [|exact I2]. apply metas_app; [exact I1|]. apply metas_one. exact (arg_P _ _ _ GA (proj1 F2)).
    - split; [exact I1|]. apply Forall_app. split; [exact I2|]. constructor; [|constructor]. do 3 hd F2. apply Forall_app in F2. exact (draw_parts_P _ _ _ GD (proj1 F2)).
    - split; [exact I1|]. apply Forall_app. split; [exact I2|]. constructor; [|constructor]. do 2 hd F2. apply Forall_app in F2. destruct F2 as [F2 F3]. do 2 hd F3. apply Forall_app in F3. exact (text_parts_P _ _ _ GT (proj1 F3)).
  Qed.
  Lemma input_P f ts d : g_input f ts d -> Forall num_tok ts -> doc_nums P d.
  Proof.
    induction 1 as [|a b c d e ts ms ps n s G IH|a b c ts ms ps us ml ds G IH GP]; intro F; [intros pg []| |]; apply Forall_app in F; destruct F as [F1 F2]; specialize (IH F1); cbn [doc_models doc_pages] in *.
    - exact IH.
    - intros pg I. cbn [doc_pages] in I. apply in_app_or in I. destruct I as [I|[<-|[]]]; [exact (IH _ I)|]. cbn [pg_meta pg_draws]. do 2 hd F2. apply Forall_app in F2.
      destruct (page_parts_P _ _ _ GP (proj1 F2)) as [H1 H2]. rewrite Forall_forall in H2. split; assumption.
  Qed.
  Lemma parsed_nums_tok f c d ts : parses f c d -> tokens c = Ret ts -> Forall num_tok ts -> doc_nums P d.
  Proof. intros [lg H] T F. apply parse_iff in H. destruct H as (_ & ts' & HT & G). rewrite T in HT. injection HT as <-. exact (input_P f ts d G F). Qed.
  Lemma parsed_nums : (forall w x, number w -> stof w = Some x -> P x) -> forall f c d, parses f c d -> doc_nums P d.
  Proof.
    intros SP f c d HP. pose proof HP as [lg H]. apply parse_iff in H. destruct H as (_ & ts & HT & G). apply (parsed_nums_tok f c d ts HP HT).
    eapply Forall_impl; [|exact (fine_tokens _ _ HT)]. intros k. unfold fine_tok, num_tok. destruct (t_tok k); auto. intros (w & N & S). exact (SP _ _ N S).
  Qed.
End Parsed.

(** ** Pages *)
Section PageNums.
  Context {A : Arith} {E : Env} (P : num -> Prop).
  Lemma page_nums_plus p q : page_nums P p -> page_nums P q -> page_nums P (plus_page p q).
  Proof.
    intros (L1 & A1 & T1) (L2 & A2 & T2). split; [|split]; cbn [plus_page o_lines o_arcs o_text]; intros x I; apply in_app_or in I; destruct I as [I|I]; auto.
  Qed.
  Lemma page_nums_none : page_nums P opage_empty.
  Proof. split; [|split]; intros x []. Qed.
  Definition item_keeps (st : stl_map) (d : drawable) : Prop := forall s s' d', visit_drawable st d s = Ret (s', d', true) -> page_nums P (v_page s) -> page_nums P (v_page s').
  Lemma drawables_nums st ds : Forall (item_keeps st) ds -> forall s s' ds', visit_drawables st ds s = Ret (s', ds', true) -> page_nums P (v_page s) -> page_nums P (v_page s').
  Proof.
    induction 1 as [|d ds Hd _ IH]; intros s s' ds' H N; cbn [visit_drawables] in H; [injection H as <- _; exact N|].
    apply obind_ret in H. destruct H as ([[s1 d1] ok1] & H1 & H). apply obind_ret in H. destruct H as ([[s2 t2] ok2] & H2 & H). injection H as <- _ K.
    apply andb_true_iff in K. destruct K as [-> ->]. eapply IH; [exact H2|]. eapply Hd; [exact H1|exact N].
  Qed.
  Lemma gen_page_nums st k pg s s' pg' : gen_page st k pg s = Ret (s', pg', true) -> Forall (item_keeps st) (pg_draws pg) ->
    (forall t, titled pg t -> page_nums P (add_header opage_empty t)) -> page_nums P (v_page s').
  Proof.
    intros H HI HT. destruct (page_indep st k pg) as [[e HE]|(r & rs & pre & post & ok0 & HG & HR & HP & _ & _ & HO & _)]; [rewrite HE in H; discriminate|].
    destruct (gen_page_spec _ _ _ _ H) as [_ O]. destruct (O eq_refl) as [(_ & _ & HN & _) _].
    destruct (HG s) as (s1 & G1 & G2 & _). rewrite H in G1. injection G1 as <- _ HK. rewrite <- HK in HO. symmetry in HO.
    apply andb_true_iff in HO. destruct HO as [_ HO]. rewrite G2, HP.
    match goal with |- page_nums P ?p => replace p with (plus_page (pages_of rs) (add_header opage_empty (title_of pg))) by (unfold plus_page, add_header; simpl; rewrite app_nil_r; reflexivity) end.
    apply page_nums_plus; [|apply HT; apply title_titled; exact HN].
    clear - HR HO HI. induction HR as [|d x ds xs Hx HR IH]; [exact page_nums_none|]. cbn [forallb] in HO. apply andb_true_iff in HO. destruct HO as [O1 O2]. inversion HI as [|? ? K1 K2]; subst.
    apply (page_nums_plus (e_page x) (pages_of xs)); [|exact (IH K2 O2)]. destruct (Hx vst_init) as (s2 & V & V2 & _). rewrite O1 in V. pose proof (K1 _ _ _ V page_nums_none) as N. rewrite V2 in N. exact N.
  Qed.
  Lemma gen_pages_nums st : forall pgs n s s' pgs' os, gen_pages st n pgs s = Ret (s', pgs', os, true) ->
    (forall pg, In pg pgs -> Forall (item_keeps st) (pg_draws pg) /\ forall t, titled pg t -> page_nums P (add_header opage_empty t)) -> Forall (page_nums P) os.
  Proof.
    induction pgs as [|pg pgs IH]; intros n s s' pgs' os H K; cbn [gen_pages] in H.
    - injection H as <- <- <-. constructor.
    - rewrite obind_ret in H. destruct H as ([[s1 d1] ok1] & H1 & H). rewrite obind_ret in H. destruct H as ([[[s2 t2] os2] ok2] & H2 & H).
      injection H as <- <- <- HK. apply andb_true_iff in HK. destruct HK as [-> ->]. destruct (K pg (or_introl eq_refl)) as [K1 K2].
      constructor; [eapply gen_page_nums; eassumption|eapply IH; [exact H2|]]. intros q I. apply K. right; exact I.
  Qed.

  (** The words of the output *)
  Context (Q : num -> Prop).
  Variable PQ : forall x, P x -> Q x.
  Lemma words_app a b : words_with Q a -> words_with Q b -> words_with Q (a ++ b).
  Proof. intros HA HB w I. apply in_app_or in I. destruct I; auto. Qed.
  Lemma words_concat l : Forall (words_with Q) l -> words_with Q (concat l).
  Proof. induction 1; [intros w []|]. cbn [concat]. apply words_app; assumption. Qed.
  Definition wordb (F : list bytes) (t : ptok) : bool := match t with PWord w => existsb (bytes_eqb w) F | _ => true end.
  Lemma wordb_in F l w : forallb (wordb F) l = true -> In (PWord w) l -> In w F.
  Proof.
    intros H I. rewrite forallb_forall in H. pose proof (H _ I) as K. unfold wordb in K. apply existsb_exists in K. destruct K as (v & Iv & EQ). apply bytes_eqb_eq in EQ. subst v. exact Iv.
  Qed.
  Lemma words_fixed l : forallb (wordb fixed_words) l = true -> words_with Q l.
  Proof. intros H w I. left. exact (wordb_in _ _ _ H I). Qed.
  Lemma words_nw l : (forall x, In x l -> Q x) -> words_with Q (map nw l).
  Proof. intros H w I. apply in_map_iff in I. destruct I as (x & EQ & Ix). injection EQ as <-. right. exists x. auto. Qed.
  Lemma words_show at_ v c : nums2 P at_ -> words_with Q (show_prog at_ v c).
  Proof.
    intros [H1 H2]. unfold show_prog. apply words_app; [apply words_fixed; reflexivity|]. apply words_app; [apply (words_nw [x2 at_; y2 at_]); intros x [<-|[<-|[]]]; apply PQ; assumption|].
    destruct c; apply words_fixed; reflexivity.
  Qed.
  Variable deg : forall a, P a -> Q (ndiv (nmul a (of_Z 180)) PI).
  Variable seven : P (of_Z 7).
  Lemma words_page kk nn p g : page_prog kk nn p g -> page_nums P p -> words_with Q g.
  Proof.
    intros (ts & HT & ->) (NL & NA & NT). apply words_app; [apply words_fixed; reflexivity|]. apply words_app.
    { unfold stamp_prog. cbv zeta. destruct flag_timestamp, flag_number_pages; try (apply words_show; split; exact seven). intros w []. }
    apply words_app.
    { apply words_concat. clear NL NA. induction HT as [|t q l k Hq HT IH]; [constructor|]. constructor; [|apply IH; intros x I; apply NT; right; exact I].
      destruct Hq as (v & _ & ->). apply words_show. apply NT. left; reflexivity. }
    apply words_app.
    { apply words_concat. apply Forall_forall. intros q I. apply in_map_iff in I. destruct I as (a & <- & Ia). destruct (NA _ Ia) as ([H1 H2] & H3 & H4 & H5). unfold arc_prog.
      apply words_app; [apply words_fixed; reflexivity|]. apply words_app; [|apply words_fixed; reflexivity].
      apply (words_nw [_; _; _; _; _]). intros x [<-|[<-|[<-|[<-|[<-|[]]]]]]; auto. }
    apply words_app; [|apply words_fixed; reflexivity].
    apply words_concat. apply Forall_forall. intros q I. apply in_map_iff in I. destruct I as (a & <- & Ia). destruct (NL _ Ia) as ([H1 H2] & [H3 H4]). unfold line_prog.
    apply words_app; [apply words_fixed; reflexivity|]. apply words_app; [apply (words_nw [_; _]); intros x [<-|[<-|[]]]; apply PQ; assumption|]. apply words_app; [apply words_fixed; reflexivity|].
    apply words_app; [apply (words_nw [_; _]); intros x [<-|[<-|[]]]; apply PQ; assumption|apply words_fixed; reflexivity].
  Qed.
  Lemma words_pages nn : forall ps n progs, page_progs nn n ps progs -> Forall (page_nums P) ps -> words_with Q (concat progs).
  Proof.
    induction ps as [|p ps IH]; intros n [|g progs] H F; try (destruct H; fail); [intros w []|]. destruct H as [(kk & _ & G) H]. inversion F; subst. cbn [concat]. apply words_app; [eapply words_page; eassumption|eapply IH; eassumption].
  Qed.

  (** ** Whole conversions *)
  Theorem whole_nums fs src c r : (forall x : num, word_like (fmt_num x)) -> one_line flag_name -> one_line src -> one_line now ->
    script_to_ps fs src c = Ret r -> r_ok r = true ->
    (forall d st lg pg, parses src c d -> load_files fs (doc_models d) [] = Ret (st, lg, true) -> In pg (doc_pages d) ->
       Forall (item_keeps st) (pg_draws pg) /\ forall t, titled pg t -> page_nums P (add_header opage_empty t)) ->
    exists d st lg ps, parses src c d /\ load_files fs (doc_models d) [] = Ret (st, lg, true) /\ Forall2 (page_shows st) (doc_pages d) ps /\
      Forall (page_nums P) ps /\ (raw_ok ps -> exists toks, ps_read (r_out r) = Some toks /\ words_with Q toks).
  Proof.
    intros NW N1 N2 N3 H HO K. destruct (script_ok _ _ _ H HO) as (d & r' & HP & (st & lg1 & os & d' & lg2 & HL & HG & ->) & HR & _).
    unfold generate_pages in HG. rewrite obind_ret in HG. destruct HG as ([[[s pgs'] os'] ok'] & HG & HQ). injection HQ as <- _ _ ->.
    pose proof (gen_pages_show _ _ _ _ _ _ _ HG) as HS. pose proof (gen_pages_nums _ _ _ _ _ _ _ HG (fun pg => K d st lg1 pg HP HL)) as HN. exists d, st, lg1, os'.
    split; [exact HP|]. split; [exact HL|]. split; [exact HS|]. split; [exact HN|]. intro RO.
    destruct (reads_pages NW (length os') os' N3 RO 0) as (progs & PP & R). eexists. split.
    - rewrite HR. cbn [r_out]. unfold render_pages. apply reads_whole, reads_app; [apply reads_header; assumption|exact R].
    - apply words_app; [apply words_fixed; reflexivity|]. eapply words_pages; eassumption.
  Qed.
End PageNums.
