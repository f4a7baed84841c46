(** P_Sort.v - the lines of a drawing do not depend on how std::sort treats
    equivalent elements. *)
From Coq Require Import Reals Lra Psatz Permutation Sorted.
From Verif Require Import Base Num NumReal NumLaws Geo Stl GeoSpec RealSpec HideSpec P_Base P_Order P_Part P_Index P_Hide P_Lines P_Geo1 P_Real P_Span P_Span2 SortSpec.

Local Unset Implicit Arguments.

Lemma by_model {A : Arith} (s : stl) : to_lines_by nsorter s = to_lines s.
Proof. reflexivity. Qed.

(** ** Two sorted arrangements *)
Lemma sorted_unique {T} (lt : T -> T -> bool) (l1 l2 : list T) : (forall x y, In x l1 -> In y l1 -> lt x y = false -> lt y x = false -> x = y) ->
  Permutation l1 l2 -> wsorted lt l1 -> wsorted lt l2 -> l1 = l2.
Proof.
  revert l2. induction l1 as [|x l1 IH]; intros l2 AS P S1 S2; [apply Permutation_nil in P; symmetry; exact P|].
  destruct l2 as [|y l2]; [apply Permutation_sym, Permutation_nil in P; discriminate|].
  inversion S1 as [|? ? S1' F1]; subst. inversion S2 as [|? ? S2' F2]; subst. rewrite Forall_forall in F1, F2.
  assert (E : x = y).
  { assert (H1 : In x (y :: l2)) by (apply (Permutation_in _ P); left; reflexivity). assert (H2 : In y (x :: l1)) by (apply (Permutation_in _ (Permutation_sym P)); left; reflexivity).
    destruct H1 as [H1|H1]; [auto|]. destruct H2 as [H2|H2]; [auto|]. apply AS; [left; reflexivity|right; exact H2|exact (F2 _ H1)|exact (F1 _ H2)]. }
  subst y. f_equal. apply IH; [intros; apply AS; try right; assumption|exact (Permutation_cons_inv P)|exact S1'|exact S2'].
Qed.

Local Open Scope R_scope.
Lemma rgen_front s t p q : Forall unit_span ((s, t) :: p ++ q) -> Forall (fun st => fst st = s) p -> forall u, rgen u (p ++ (s, t) :: q) = rgen u ((s, t) :: p ++ q).
Proof.
  intros US HP. induction HP as [|[s' t'] p E HP IH]; [reflexivity|]. cbn [fst] in E. subst s'. intro u. cbn [app rgen].
  inversion US as [|? ? (H1 & H2 & H3) US']; subst. cbn [app] in US'. inversion US' as [|? ? (K1 & K2 & K3) US'']; subst. cbn [fst snd] in *.
  rewrite IH by (constructor; [repeat split; simpl; assumption|exact US'']). cbn [rgen].
  set (u1 := if rltb u t' then t' else u). set (u2 := if rltb u t then t else u).
  assert (E1 : rltb u1 s = false) by (apply rltb_false; unfold u1; destruct (rltb_spec u t'); lra).
  assert (E2 : rltb u2 s = false) by (apply rltb_false; unfold u2; destruct (rltb_spec u t); lra).
  rewrite E1, E2. cbn [app]. f_equal. f_equal. unfold u1, u2.
  destruct (rltb_spec u t'), (rltb_spec u t), (rltb_spec t' t), (rltb_spec t t'), (rltb_spec u t), (rltb_spec u t'); try lra; try reflexivity.
Qed.
Lemma rgen_sorted l1 l2 : Forall unit_span l1 -> Permutation l1 l2 -> StronglySorted (fun p q => fst p <= fst q) l1 -> StronglySorted (fun p q => fst p <= fst q) l2 ->
  forall u, rgen u l1 = rgen u l2.
Proof.
  revert l2. induction l1 as [|[s t] l1 IH]; intros l2 US P S1 S2 u; [apply Permutation_nil in P; subst l2; reflexivity|].
  assert (H : In (s, t) l2) by (apply (Permutation_in _ P); left; reflexivity). apply in_split in H. destruct H as (p & q & ->).
  pose proof (Permutation_cons_app_inv _ _ P) as PP. inversion US as [|? ? H US']; subst. inversion S1 as [|? ? S1' F1]; subst. rewrite Forall_forall in F1.
  assert (HP : Forall (fun st => fst st = s) p).
  { rewrite Forall_forall. intros x Hx. assert (L1 : s <= fst x) by (apply F1; apply (Permutation_in _ (Permutation_sym PP)); apply in_or_app; left; exact Hx).
    assert (L2 : fst x <= s); [|lra]. clear - S2 Hx. induction p as [|y p IH]; [destruct Hx|]. cbn [app] in S2. inversion S2 as [|? ? S2' F2]; subst. destruct Hx as [->|Hx]; [|exact (IH S2' Hx)].
    rewrite Forall_forall in F2. apply (F2 (s, t)). apply in_or_app. right. left. reflexivity. }
  assert (UPQ : Forall unit_span (p ++ q)) by (rewrite Forall_forall in *; intros x Hx; apply US'; exact (Permutation_in _ (Permutation_sym PP) Hx)).
  assert (SPQ : StronglySorted (fun p q => fst p <= fst q) (p ++ q)).
  { clear - S2. induction p as [|y p IH]; cbn [app] in *; [inversion S2; assumption|]. inversion S2 as [|? ? S2' F2]; subst. constructor; [exact (IH S2')|].
    rewrite Forall_forall in *. intros x Hx. apply F2. apply in_app_or in Hx. apply in_or_app. destruct Hx; [left|right; right]; assumption. }
  rewrite rgen_front; [|constructor; [exact H|exact UPQ]|exact HP]. cbn [rgen]. f_equal. apply IH; assumption.
Qed.

(** ** The stages of line generation one edge at a time *)
Section Fuse.
  Context {A : Arith} (srt : sorter) (s : stl) (hbe : list (list (nat * v3))).
  Definition hid_by (v : nat) : list edge := match nth_error (edges s) v with
    | Some p => match (do! h <- edge_hides_by srt s hbe v; sort_hides_by srt p h) with Ret l => l | Abort _ => [] end
    | None => [] end.
  Lemma lines_fused : edge_crosses (edges s) (unseen s) = Ret hbe ->
    (forall v, (v < unseen s)%nat -> exists p h l, nth_error (edges s) v = Some p /\ edge_hides_by srt s hbe v = Ret h /\ sort_hides_by srt p h = Ret l) ->
    to_lines_by srt s = (do! ls <- omap (fun v => match nth_error (edges s) v with None => Abort (AUB "edges index") | Some p => gen_edge kMinLineLen p (hid_by v) end) (seq 0 (unseen s)); Ret (concat ls)).
  Proof.
    intros HC HS. unfold to_lines_by. rewrite HC. cbn [obind].
    assert (E : omap (fun v => match nth_error (edges s) v with
                                | None => Abort (AUB "edge index")
                                | Some p => do! hs <- edge_hides_by srt s hbe v; do! hs' <- sort_hides_by srt p hs; Ret (v, hs')
                                end) (seq 0 (unseen s)) = Ret (map (fun v => (v, hid_by v)) (seq 0 (unseen s)))).
    { assert (G : forall v, In v (seq 0 (unseen s)) -> match nth_error (edges s) v with
                                | None => Abort (AUB "edge index")
                                | Some p => do! hs <- edge_hides_by srt s hbe v; do! hs' <- sort_hides_by srt p hs; Ret (v, hs')
                                end = Ret (v, hid_by v)).
      { intros v Hv. apply in_seq in Hv. destruct (HS v ltac:(lia)) as (p & h & l & N & E1 & E2). unfold hid_by. rewrite N, E1. cbn [obind]. rewrite E2. reflexivity. }
      clear - G. induction (seq 0 (unseen s)) as [|v l IH]; [reflexivity|]. cbn [omap map]. rewrite (G v (or_introl eq_refl)). cbn [obind]. rewrite IH by (intros w Hw; apply G; right; exact Hw). reflexivity. }
    rewrite E. cbn [obind]. unfold generate_lines. f_equal.
    assert (F : forall v, In v (seq 0 (unseen s)) -> imap_find v (map (fun v => (v, hid_by v)) (seq 0 (unseen s))) = Some (hid_by v)).
    { intros v Hv. apply imap_in; [|apply in_map_iff; exists v; split; [reflexivity|exact Hv]]. rewrite map_map, map_id. clear. generalize 0%nat. induction (unseen s) as [|n IH]; intro k; simpl; [constructor|]. constructor; [apply IH|].
      rewrite Forall_forall. intros x Hx. apply in_seq in Hx. apply Nat.ltb_lt. lia. }
    revert F. generalize (seq 0 (unseen s)) at 1 4 5. intros l F. induction l as [|v l IH]; [reflexivity|]. cbn [omap]. rewrite (F v (or_introl eq_refl)). rewrite IH by (intros w Hw; apply F; right; exact Hw). reflexivity.
  Qed.
End Fuse.

(** ** Exact arithmetic *)
Lemma span_any srt a b pts : a <> b -> Forall (fun pd => exists x, 0 <= x <= 1 /\ pd = (emb (between a b x), Fin (x * x * len2 a b) : @num XR)) pts -> span_by srt pts = span_of pts.
Proof.
  intros NE HF. pose proof (len2_pos a b NE) as HL. unfold span_by, span_of. destruct (length pts <? 2)%nat; [reflexivity|].
  assert (SW : swo (fun pd : @v3 XR * @num XR => ok (snd pd)) (fun l r => nlt (snd l) (snd r))) by (apply (swo_by (Q := ok) (f := snd)); [auto|apply (num_swo XR_ordered)]).
  assert (OK : Forall (fun pd : @v3 XR * @num XR => ok (snd pd)) pts).
  { rewrite Forall_forall in *. intros x Hx. destruct (HF _ Hx) as (u & _ & ->). apply eq_fin. reflexivity. }
  destruct (std_sort_ok srt SW OK) as (s1 & E1 & P1 & W1). destruct (std_sort_ok (@nsorter XR) SW OK) as (s2 & E2 & P2 & W2). rewrite E1, E2.
  replace s2 with s1; [reflexivity|]. apply (sorted_unique (fun l r : @v3 XR * @num XR => nlt (snd l) (snd r))); [|exact (Permutation_trans P1 (Permutation_sym P2))|exact W1|exact W2].
  intros x y Hx Hy L1 L2. rewrite Forall_forall in HF. destruct (HF x (Permutation_in _ P1 Hx)) as (u & U & ->). destruct (HF y (Permutation_in _ P1 Hy)) as (w & W & ->). cbn [snd] in L1, L2.
  apply lt_fin_f in L1. apply lt_fin_f in L2. replace w with u; [reflexivity|].
  destruct (Rtotal_order u w) as [C|[C|C]]; [|exact C|]; apply (sq_lt _ _ _ HL) in C; lra.
Qed.
Section Model.
  Context (srt : sorter) (ts : list tri) (m : @stl XR) (HI : index (map embf ts) = Ret m) (HP : Forall proper ts) (HF : Forall facing ts).
  Context (hbe : list (list (nat * @v3 XR))) (HB : tbl (unseen m) (hidden_by_list (edges m) (unseen m)) hbe).
  Lemma face_any v a b hb n t i0 i1 i2 : nth_error (edges m) v = Some (Edge (emb a) (emb b)) -> nth_error hbe v = Some hb ->
    nth_error ts n = Some t -> nth_error (face_edge m) n = Some (i0, i1, i2) ->
    face_hides_by srt (embf t) (i0, i1, i2) v (Edge (emb a) (emb b)) hb = face_hides (embf t) (i0, i1, i2) v (Edge (emb a) (emb b)) hb.
  Proof.
    intros Nv Nb Nt Nf. unfold face_hides_by, face_hides. destruct (_ || _)%bool; [reflexivity|].
    destruct (hidden_points_spec (embf t) (i0, i1, i2) (Edge (emb a) (emb b)) hb) as (pts & HPt & _ & X). rewrite HPt. cbn [obind].
    assert (NE : a <> b) by exact (edge_ne ts m HI HP v a b Nv).
    apply (span_any srt a b); [exact NE|]. destruct (pts_hidden ts m HI HP HF hbe HB v a b hb Nv Nb n t i0 i1 i2 Nt Nf pts HPt) as [IH _].
    rewrite Forall_forall in *. intros [p d] Hp. destruct (IH _ Hp) as (x & HX & E & _). cbn [fst] in E. exists x. split; [exact HX|]. f_equal; [exact E|].
    apply X in Hp. cbn [e1 e2] in Hp. subst p. destruct Hp as [(_ & E & ->)|[(_ & E & ->)|(-> & _)]].
    - rewrite <- (dist_at a b x), E, sub_emb, sqn_emb. change (nz : @num XR) with (Fin 0). f_equal. rgeo. ring.
    - unfold dist. cbn [e1]. rewrite <- E. apply dist_at.
    - apply dist_at.
  Qed.
  Lemma edge_any v : (v < unseen m)%nat -> edge_hides_by srt m hbe v = edge_hides m hbe v.
  Proof.
    intro LV. destruct (index_range _ HI) as (FM & LU & LFE). unfold edge_hides_by, edge_hides.
    destruct (nth_error (edges m) v) as [ev|] eqn:Nv; [|reflexivity]. destruct (nth_error hbe v) as [hb|] eqn:Nb; [|reflexivity].
    destruct (_ <? _)%nat; [reflexivity|]. f_equal.
    destruct (model_edge_ne ts m HI HP ev (nth_error_In _ _ Nv)) as (a & b & -> & NE).
    assert (G : forall ff, In ff (combine (facets m) (face_edge m)) -> face_hides_by srt (fst ff) (snd ff) v (Edge (emb a) (emb b)) hb = face_hides (fst ff) (snd ff) v (Edge (emb a) (emb b)) hb).
    { intros [f fe] HIn. apply In_nth_error in HIn. destruct HIn as [n N]. rewrite nth_error_combine in N. rewrite FM in N. rewrite nth_error_map in N. destruct (nth_error ts n) as [t|] eqn:Nt; [|discriminate].
      cbn [option_map] in N. destruct (nth_error (face_edge m) n) as [[[i0 i1] i2]|] eqn:Nf; [|discriminate]. injection N as <- <-. cbn [fst snd]. eapply face_any; eassumption. }
    clear - G. induction (combine (facets m) (face_edge m)) as [|ff l IH]; [reflexivity|]. cbn [omap]. rewrite (G ff (or_introl eq_refl)), IH by (intros g Hg; apply G; right; exact Hg). reflexivity.
  Qed.
  Lemma sort_any a b sp : a <> b -> Forall unit_span sp -> exists l, sort_hides_by srt (Edge (emb a) (emb b)) (map (seg a b) sp) = Ret l /\
    exists l', sort_hides (Edge (emb a) (emb b)) (map (seg a b) sp) = Ret l' /\ gen_edge kMinLineLen (Edge (emb a) (emb b)) l = gen_edge kMinLineLen (Edge (emb a) (emb b)) l'.
  Proof.
    intros NE US. pose proof (len2_pos a b NE) as HL.
    set (lt := fun l r : @edge XR => nlt (dist (Edge (emb a) (emb b)) (e1 l)) (dist (Edge (emb a) (emb b)) (e1 r))).
    assert (ANY : forall s0 : sorter, exists sp', std_sort s0 lt (map (seg a b) sp) = Ret (map (seg a b) sp') /\ Permutation sp sp' /\ StronglySorted (fun p q => fst p <= fst q) sp').
    { intro s0. destruct (std_sort_ok s0 (P := fun e => ok (dist (Edge (emb a) (emb b)) (e1 e))) (lt := lt) (l := map (seg a b) sp)) as (s & E & P & W).
      - apply (swo_by (Q := ok) (f := fun e => dist (Edge (emb a) (emb b)) (e1 e))); [auto|apply (num_swo XR_ordered)].
      - rewrite Forall_forall. intros e He. apply in_map_iff in He. destruct He as (x & <- & _). unfold dist, seg. cbn [e1]. rewrite dist_at. apply eq_fin. reflexivity.
      - apply Permutation_map_inv in P. destruct P as (sp' & -> & P). exists sp'. split; [exact E|]. split; [exact P|].
        assert (U' : Forall unit_span sp') by (rewrite Forall_forall in *; intros x Hx; apply US; exact (Permutation_in _ (Permutation_sym P) Hx)).
        clear - W U' HL. induction U' as [|x l Hx HF IH]; [constructor|]. cbn [map] in W. inversion W as [|? ? W1 W2]; subst. constructor; [exact (IH W1)|].
        rewrite Forall_forall in *. intros y Hy. specialize (W2 (seg a b y) (in_map _ _ _ Hy)). cbv beta in W2. unfold lt, dist, seg in W2. cbn [e1] in W2. rewrite !dist_at in W2.
        destruct Hx as (X1 & X2 & X3). destruct (HF y Hy) as (Y1 & Y2 & Y3). rewrite sq_ltb in W2 by lra. apply rltb_false in W2. exact W2. }
    destruct (ANY srt) as (s1 & E1 & P1 & S1). destruct (ANY (@nsorter XR)) as (s2 & E2 & P2 & S2).
    exists (map (seg a b) s1). split; [exact E1|]. exists (map (seg a b) s2). split; [exact E2|].
    assert (G : forall sp', Permutation sp sp' -> gen_edge kMinLineLen (Edge (emb a) (emb b)) (map (seg a b) sp') = Ret (map (stroke a b) (rgen 0 sp'))).
    { intros sp' P. assert (U' : Forall unit_span sp') by (rewrite Forall_forall in *; intros x Hx; apply US; exact (Permutation_in _ (Permutation_sym P) Hx)).
      unfold gen_edge. pose proof (gen_fold_real a b sp' NE U' 0 [] ltac:(lra) ltac:(lra)) as Q. rewrite between_0 in Q. replace (0 * 0 * len2 a b) with 0 in Q by ring. exact Q. }
    rewrite (G s1 P1), (G s2 P2). do 2 f_equal. apply rgen_sorted; [|exact (Permutation_trans (Permutation_sym P1) P2)|exact S1|exact S2].
    rewrite Forall_forall in *. intros x Hx. apply US. exact (Permutation_in _ (Permutation_sym P1) Hx).
  Qed.
End Model.
Lemma lines_any srt ts m : index (map embf ts) = Ret m -> Forall proper ts -> Forall facing ts -> to_lines_by srt m = to_lines m.
Proof.
  intros HI HP HF. destruct (index_range _ HI) as (FM & LU & LFE).
  edestruct (@to_lines_total XR XR_ordered m) as [ls HL]; [apply eq_fin; reflexivity|exact LU|rewrite LFE, FM; apply Nat.le_refl|eapply measured_real; eassumption|].
  destruct (to_lines_parts m ls HL) as (hbe & lss & HC & -> & LL & PARTS).
  destruct (edge_crosses_spec (edges m) (unseen m)) as (hbe' & HC' & HB). rewrite HC in HC'. injection HC' as <-.
  assert (EACH : forall v, (v < unseen m)%nat -> exists a b sp, a <> b /\ Forall unit_span sp /\ nth_error (edges m) v = Some (Edge (emb a) (emb b)) /\ edge_hides m hbe v = Ret (map (seg a b) sp)).
  { intros v LV. destruct (nth_error lss v) as [ps|] eqn:N; [|apply nth_error_None in N; lia]. destruct (PARTS v ps N) as (ev & hb & l & Nv & Nb & SP & _).
    destruct (model_edge_ne ts m HI HP ev (nth_error_In _ _ Nv)) as (a & b & -> & NE).
    destruct (map_choice (seg a b) unit_span (collect_some l)) as (sp & ESP & HSP).
    { rewrite Forall_forall. intros h Hh. destruct (spans_in m hb v _ l h SP Hh) as (n & f & [[i0 i1] i2] & Nf & Nfe & FH).
      rewrite FM, nth_error_map in Nf. destruct (nth_error ts n) as [t|] eqn:Nt; [|discriminate]. injection Nf as <-.
      destruct (hides_covered ts m HI HP HF hbe HB v a b hb Nv Nb n t i0 i1 i2 Nt Nfe h FH) as (st & -> & US & CV). eauto. }
    exists a, b, sp. split; [exact NE|]. split; [exact HSP|]. split; [exact Nv|]. unfold edge_hides. rewrite Nv, Nb, FM, LFE, map_length, Nat.ltb_irrefl. unfold spans_of in SP. rewrite FM in SP. rewrite SP. cbn [obind]. rewrite ESP. reflexivity. }
  assert (G : forall s0, forall v, (v < unseen m)%nat -> exists p h l, nth_error (edges m) v = Some p /\ edge_hides_by s0 m hbe v = Ret h /\ sort_hides_by s0 p h = Ret l).
  { intros s0 v LV. destruct (EACH v LV) as (a & b & sp & NE & US & Nv & EH). destruct (sort_any s0 a b sp NE US) as (l & E & _).
    exists (Edge (emb a) (emb b)), (map (seg a b) sp), l. split; [exact Nv|]. split; [rewrite (edge_any s0 ts m HI HP HF hbe HB v LV); exact EH|exact E]. }
  rewrite <- by_model. rewrite (lines_fused srt m hbe HC (G srt)), (lines_fused (@nsorter XR) m hbe HC (G (@nsorter XR))). f_equal.
  assert (Q : forall v, In v (seq 0 (unseen m)) -> match nth_error (edges m) v with None => Abort (AUB "edges index") | Some p => gen_edge kMinLineLen p (hid_by srt m hbe v) end =
    match nth_error (edges m) v with None => Abort (AUB "edges index") | Some p => gen_edge kMinLineLen p (hid_by (@nsorter XR) m hbe v) end).
  { intros v Hv. apply in_seq in Hv. assert (LV : (v < unseen m)%nat) by lia. destruct (EACH v LV) as (a & b & sp & NE & US & Nv & EH). unfold hid_by. rewrite Nv.
    rewrite (edge_any srt ts m HI HP HF hbe HB v LV), (edge_any (@nsorter XR) ts m HI HP HF hbe HB v LV), EH. cbn [obind].
    destruct (sort_any srt a b sp NE US) as (l & E & l' & E' & GE). rewrite E. change (sort_hides_by (@nsorter XR) (Edge (emb a) (emb b)) (map (seg a b) sp)) with (sort_hides (Edge (emb a) (emb b)) (map (seg a b) sp)). rewrite E'. exact GE. }
  clear - Q. induction (seq 0 (unseen m)) as [|v l IH]; [reflexivity|]. cbn [omap]. rewrite (Q v (or_introl eq_refl)), IH by (intros w Hw; apply Q; right; exact Hw). reflexivity.
Qed.
Lemma views_any srt s ts r : facets s = map embf ts -> Forall proper ts -> rotation r -> exists m ls, rotate s (embm r) = Ret m /\ to_lines m = Ret ls /\ to_lines_by srt m = Ret ls.
Proof.
  intros HS HP HR. destruct (view_real s ts r HS HP HR) as (m & ts' & H1 & H2 & H3 & H4 & H5 & H6). destruct (lines_real ts' m H2 H5 H6) as (ss & L & _).
  exists m. eexists. split; [exact H1|]. split; [exact L|]. rewrite (lines_any srt ts' m H2 H5 H6). exact L.
Qed.
