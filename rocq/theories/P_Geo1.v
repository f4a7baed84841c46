(** P_Geo1.v - the order, index and crossing facts in the words of GeoSpec.v. *)
From Coq Require Import Permutation Sorted.
From Verif Require Import Base Num Geo Stl NumLaws GeoSpec P_Base P_Order P_Part P_Index P_Hide.

Lemma swo_strict {K} (P : K -> Prop) lt : swo P lt -> strict_weak_order P lt.
Proof.
  intro S. split; [exact (swo_irr S)|]. split; [intros x y; apply (swo_asym S)|]. split; [exact (swo_tr S)|].
  intros x y z Hx Hy Hz A1 A2 A3 A4. exact (eqv_trans S Hx Hy Hz (conj A1 A2) (conj A3 A4)).
Qed.

Local Unset Implicit Arguments.
Section Geo1.
  Context {A : Arith}.

  Lemma same_eq3 p q : same p q <-> eq3 p q = true.
  Proof. unfold same, eq3. rewrite !andb_true_iff. tauto. Qed.
  Lemma vertices_verts s : vertices s = verts s.
  Proof. reflexivity. Qed.

  Lemma cull_exact l : Permutation (cull_facets l) (filter front l) /\ cull_facets (cull_facets l) = cull_facets l.
  Proof. split; [apply cull_perm|apply cull_idem]. Qed.

  Lemma crossed_in es un v u p : In (v, u, p) (hidden_by_list es un) <-> crossed_by es un v u p.
  Proof.
    rewrite hidden_in. unfold crossed_by. split.
    - intros (v' & u' & ev & eu & pu & pv & L & Lv & Nv & Nu & X & [(-> & -> & -> & Z)|(-> & -> & -> & Z)]).
      + exists eu, ev. repeat split; try assumption; try lia. right. split; [exact L|]. exists pv. auto.
      + exists ev, eu. repeat split; try assumption; try lia. left. split; [exact L|]. exists pu. auto.
    - intros (ev & eu & Nv & Nu & NE & M & [(L & q & X & Z)|(L & q & X & Z)]).
      + exists v, u, ev, eu, q, p. repeat split; try assumption; try lia. right. auto.
      + exists u, v, eu, ev, p, q. repeat split; try assumption; try lia. left. auto.
  Qed.
  Lemma ssorted_nodup l : ssorted Nat.ltb l -> NoDup l.
  Proof.
    intro S. induction S as [|x l S IH F]; constructor; [|exact IH]. intro H. rewrite Forall_forall in F. specialize (F _ H). rewrite Nat.ltb_irrefl in F. discriminate.
  Qed.
  Lemma crosses_total es un : exists hb, edge_crosses es un = Ret hb /\ length hb = un /\
    forall v m, nth_error hb v = Some m -> NoDup (map fst m) /\ forall u p, In (u, p) m <-> crossed_by es un v u p.
  Proof.
    destruct (edge_crosses_spec es un) as (hb & E & T). exists hb. split; [exact E|]. split; [exact (t_len T)|].
    intros v m N. split; [apply ssorted_nodup; exact (t_sorted T _ N)|]. intros u p. rewrite (t_in T _ N). apply crossed_in.
  Qed.
  Lemma five_points f fe ev hb : exists l, hidden_points f fe ev hb = Ret l /\ length l <= 5.
  Proof. destruct (hidden_points_spec f fe ev hb) as (l & E & L & _). eauto. Qed.
  Lemma lines_abort fs m e : index fs = Ret m -> to_lines m = Abort e ->
    e = ACheck "Points out of order" \/ e = ACheck "Hidden section reversed" \/ e = AUB "std::sort without a strict weak ordering".
  Proof. intros HI. destruct (index_range _ HI) as (R1 & R2 & R3). apply to_lines_abort; [exact R2|]. rewrite R1, R3. lia. Qed.

  Context (O : ordered A).
  Lemma orders : strict_weak_order comparable order /\ strict_weak_order (fun e => comparable (e1 e) /\ comparable (e2 e)) edge_order /\
    strict_weak_order (fun l => (ok (x2 (lo l)) /\ ok (y2 (lo l))) /\ ok (x2 (lt_ l)) /\ ok (y2 (lt_ l))) line_lt /\
    forall p q, comparable p -> comparable q -> (order p q = false /\ order q p = false <-> same p q).
  Proof.
    split; [apply swo_strict, (order_swo O)|]. split; [apply swo_strict, (edge_order_swo O)|]. split; [apply swo_strict, (line_lt_swo O)|].
    intros p q Hp Hq. rewrite same_eq3. apply (order_eqv O Hp Hq).
  Qed.

  Lemma limits_tight s : Forall comparable (vertices s) ->
    (facets s = [] -> limits s = Line (V2 nz nz) (V2 nz nz)) /\
    (facets s <> [] -> (forall v, In v (vertices s) -> in_box (lo (limits s)) (lt_ (limits s)) v) /\
      (exists v, In v (vertices s) /\ x3 v = x2 (lo (limits s))) /\ (exists v, In v (vertices s) /\ y3 v = y2 (lo (limits s))) /\
      (exists v, In v (vertices s) /\ x3 v = x2 (lt_ (limits s))) /\ (exists v, In v (vertices s) /\ y3 v = y2 (lt_ (limits s)))).
  Proof.
    intro H. split; [intro E; unfold limits; rewrite E; reflexivity|]. intro E. destruct (limits_spec O s H E) as (H0 & H1). split; [|exact H1].
    intros v Hv. destruct (H0 v Hv) as (B1 & B2 & B3 & B4). repeat split; assumption.
  Qed.
  Lemma points_exact s : Forall comparable (vertices s) ->
    (forall q, In q (points s) -> In q (vertices s)) /\ (forall p, In p (vertices s) -> exists q, In q (points s) /\ same p q) /\
    (forall pre p mid q post, points s = pre ++ p :: mid ++ q :: post -> order p q = true /\ ~ same p q).
  Proof.
    intro H. destruct (points_spec O s H) as (_ & _ & H1 & H2). split; [exact H1|]. split.
    - intros p Hp. destruct (H2 p Hp) as (q & Hq & E). exists q. rewrite same_eq3. auto.
    - intros pre p mid q post E. destruct (points_distinct O s p q H pre mid post E) as [D L]. split; [exact L|]. rewrite same_eq3, D. discriminate.
  Qed.

  (** ** Index *)
  Lemma mk_edge_ids a b : ok3 a -> ok3 b -> eqv edge_order (mk_edge (e1 (mk_edge a b)) (e2 (mk_edge a b))) (mk_edge a b).
  Proof.
    intros Ha Hb. destruct (mk_edge_ends a b) as [E|E]; rewrite E; cbn [e1 e2]; rewrite <- E.
    - apply (eqv_refl (edge_order_swo O)), mk_edge_ok; assumption.
    - apply (mk_edge_sym O); assumption.
  Qed.
  Lemma joins_eqv p q a b : ok3 p -> ok3 q -> ok3 a -> ok3 b -> (joins (mk_edge p q) (a, b) <-> eqv edge_order (mk_edge a b) (mk_edge p q)).
  Proof.
    intros Hp Hq Ha Hb. pose proof (mk_edge_ok Hp Hq) as [K1 K2]. pose proof (mk_edge_ok Ha Hb) as K. pose proof (edge_order_swo O) as SW.
    unfold joins. rewrite !same_eq3. cbn [fst snd]. split.
    - intros [[E1 E2]|[E1 E2]].
      + eapply (eqv_trans SW); [exact K| |apply mk_edge_ok; assumption|apply (mk_edge_eqv O (a' := e1 (mk_edge p q)) (b' := e2 (mk_edge p q))); try assumption; apply (eq3_sym O); assumption|apply mk_edge_ids; assumption].
        apply mk_edge_ok; assumption.
      + eapply (eqv_trans SW); [exact K| |apply mk_edge_ok; assumption|apply (mk_edge_sym O); assumption|]; [apply mk_edge_ok; assumption|].
        eapply (eqv_trans SW); [| |apply mk_edge_ok; assumption|apply (mk_edge_eqv O (a' := e1 (mk_edge p q)) (b' := e2 (mk_edge p q))); try assumption; apply (eq3_sym O); assumption|apply mk_edge_ids; assumption]; apply mk_edge_ok; assumption.
    - intro E. apply (edge_order_eqv O K (conj K1 K2)) in E. destruct E as [E1 E2]. destruct (mk_edge_ends a b) as [Q|Q]; rewrite Q in E1, E2; cbn [e1 e2] in E1, E2; apply (eq3_sym O) in E1; apply (eq3_sym O) in E2; auto.
  Qed.
  Definition okf (f : facet) := Forall comparable (corners f).
  Lemma okf_okF f : okf f -> okF f.
  Proof. unfold okf. rewrite Forall_forall. intro H. split; [|split]; apply H; simpl; auto. Qed.
  Definition pick (f : facet) (k : nat) : v3 * v3 := match k with 0 => (fe0 f, fe1 f) | 1 => (fe1 f, fe2 f) | _ => (fe2 f, fe0 f) end.
  Lemma pick_in f ab : In ab (outline f) <-> exists k, k < 3 /\ ab = pick f k.
  Proof.
    simpl. split.
    - intros [<-|[<-|[<-|[]]]]; [exists 0|exists 1|exists 2]; (split; [lia|reflexivity]).
    - intros ([|[|[|k]]] & L & ->); try lia; auto.
  Qed.
  Lemma side_pick f k : side f k = mk_edge (fst (pick f k)) (snd (pick f k)).
  Proof. destruct k as [|[|k]]; reflexivity. Qed.
  Lemma pick_ok f k : okF f -> ok3 (fst (pick f k)) /\ ok3 (snd (pick f k)).
  Proof. intros (H0 & H1 & H2). destruct k as [|[|k]]; split; assumption. Qed.
  Lemma side_joins f k g i : okF f -> okF g -> (joins (side f k) (pick g i) <-> eqv edge_order (side g i) (side f k)).
  Proof.
    intros Hf Hg. rewrite !side_pick. destruct (pick_ok f k Hf), (pick_ok g i Hg). destruct (pick g i) as [a b]. apply joins_eqv; assumption.
  Qed.

  Lemma index_exact fs : Forall okf fs -> exists m, index fs = Ret m /\ facets m = fs /\
    (forall f ab, In f fs -> In ab (outline f) -> exists i, forall j, (exists e, nth_error (edges m) j = Some e /\ joins e ab) <-> j = i) /\
    (forall e, In e (edges m) -> exists f ab, In f fs /\ In ab (outline f) /\ joins e ab) /\
    length (face_edge m) = length fs /\
    (forall n f a b c, nth_error fs n = Some f -> nth_error (face_edge m) n = Some (a, b, c) ->
      (exists e, nth_error (edges m) a = Some e /\ joins e (fe0 f, fe1 f)) /\ (exists e, nth_error (edges m) b = Some e /\ joins e (fe1 f, fe2 f)) /\
      (exists e, nth_error (edges m) c = Some e /\ joins e (fe2 f, fe0 f))) /\
    unseen m <= length (edges m) /\
    (forall k e, nth_error (edges m) k = Some e -> (k < unseen m <-> ~ smooth_edge fs e)).
  Proof.
    intro HF. assert (HF' : Forall okF fs) by (eapply Forall_impl; [apply okf_okF|exact HF]). clear HF.
    destruct (index_spec O HF') as (m & HI & IX). rewrite Forall_forall in HF'.
    assert (ED : forall i e, nth_error (edges m) i = Some e -> exists f k, In f fs /\ k < 3 /\ e = side f k) by (intros i e H; apply (ix_only IX); eapply nth_error_In; exact H).
    assert (JE : forall i e g k, nth_error (edges m) i = Some e -> In g fs -> (joins e (pick g k) <-> eqv edge_order (side g k) e)).
    { intros i e g k N Hg. destruct (ED _ _ N) as (f & j & Hf & _ & ->). apply side_joins; auto. }
    exists m. split; [exact HI|]. split; [exact (ix_facets IX)|]. split; [|split; [|split; [|split; [|split]]]].
    - intros f ab Hf Hab. apply pick_in in Hab. destruct Hab as (k & Hk & ->). destruct (ix_all IX _ Hf Hk) as (e & He & Q).
      apply In_nth_error in He. destruct He as [i He]. exists i. intro j. split.
      + intros (e' & N' & J). apply (JE _ _ _ _ N' Hf) in J. apply (ix_distinct IX _ _ N' He).
        pose proof (ix_ok IX) as OKs. rewrite Forall_forall in OKs.
        eapply (eqv_trans (edge_order_swo O)); [apply OKs; eapply nth_error_In; exact N'|apply (side_ok (f := f) k); auto|apply OKs; eapply nth_error_In; exact He|apply eqv_sym; exact J|exact Q].
      + intros ->. exists e. split; [exact He|]. apply (JE _ _ _ _ He Hf). exact Q.
    - intros e He. destruct (ix_only IX _ He) as (f & k & Hf & Hk & ->). exists f, (pick f k). split; [exact Hf|]. split; [apply pick_in; eauto|].
      apply side_joins; auto. apply (eqv_refl (edge_order_swo O)), side_ok. auto.
    - exact (ix_len IX).
    - intros n f a b c Nf Nc. assert (Hf : In f fs) by (eapply nth_error_In; exact Nf).
      destruct (ix_fe IX _ Nf Nc) as ((ea & Na & Qa) & (eb & Nb & Qb) & (ec & Nec & Qc)). split; [|split].
      + exists ea. split; [exact Na|]. apply (JE _ _ f 0 Na Hf). exact Qa.
      + exists eb. split; [exact Nb|]. apply (JE _ _ f 1 Nb Hf). exact Qb.
      + exists ec. split; [exact Nec|]. apply (JE _ _ f 2 Nec Hf). exact Qc.
    - exact (ix_unseen IX).
    - intros k e N. rewrite (ix_smooth IX _ N).
      assert (LE : forall n, has_side fs e n <-> lists fs e n).
      { intro n. unfold has_side, lists. split.
        - intros (f & ab & Nf & Hab & J). apply pick_in in Hab. destruct Hab as (i & Hi & ->). exists f, i. split; [exact Nf|]. split; [exact Hi|].
          apply eqv_sym. apply (JE _ _ _ _ N (nth_error_In _ _ Nf)). exact J.
        - intros (f & i & Nf & Hi & Q). exists f, (pick f i). split; [exact Nf|]. split; [apply pick_in; eauto|].
          apply (JE _ _ _ _ N (nth_error_In _ _ Nf)). apply eqv_sym. exact Q. }
      enough (E : suppressed fs e <-> smooth_edge fs e) by tauto. unfold suppressed, smooth_edge, first_facet, last_facet. split.
      + intros (a & b & fa & fb & (A1 & A2) & (B1 & B2) & R). exists a, b, fa, fb. split; [|split; [|exact R]].
        * split; [apply LE; exact A1|]. intros q Hq. apply LE in Hq. destruct (Nat.le_gt_cases a q) as [L|L]; [exact L|]. destruct (A2 _ L Hq).
        * split; [apply LE; exact B1|]. intros q Hq. apply LE in Hq. destruct (Nat.le_gt_cases q b) as [L|L]; [exact L|]. destruct (B2 _ L Hq).
      + intros (a & b & fa & fb & (A1 & A2) & (B1 & B2) & R). exists a, b, fa, fb. split; [|split; [|exact R]].
        * split; [apply LE; exact A1|]. intros q Hq HL. apply LE in HL. specialize (A2 _ HL). lia.
        * split; [apply LE; exact B1|]. intros q Hq HL. apply LE in HL. specialize (B2 _ HL). lia.
  Qed.
  Lemma index_smooth fs m : Forall okf fs -> index fs = Ret m ->
    unseen m <= length (edges m) /\ forall k e, nth_error (edges m) k = Some e -> (k < unseen m <-> ~ smooth_edge fs e).
  Proof.
    intros HF HI. destruct (index_exact fs HF) as (m' & HI' & _ & _ & _ & _ & _ & H). rewrite HI in HI'. injection HI' as <-. exact H.
  Qed.
End Geo1.
Lemma strict_swo {K} (P : K -> Prop) lt : strict_weak_order P lt -> swo P lt.
Proof.
  intros (I & _ & T & C). constructor; [exact I|exact T|]. intros x y z Hx Hy Hz H.
  destruct (lt x y) eqn:XY; [auto|]. destruct (lt y z) eqn:YZ; [auto|].
  destruct (lt y x) eqn:YX; [rewrite (T y x z Hy Hx Hz YX H) in YZ; discriminate|].
  destruct (lt z y) eqn:ZY; [rewrite (T x z y Hx Hz Hy H ZY) in XY; discriminate|].
  destruct (C x y z Hx Hy Hz XY YX YZ ZY) as [Q _]. congruence.
Qed.
Lemma range_aborts {A : Arith} fs :
  (forall e, index fs = Abort e <-> e = AUB "std::map without a strict weak ordering" /\ ~ strict_weak_order (fun x => exists f k, In f fs /\ x = side f k) edge_order) /\
  (forall m e, index fs = Ret m -> to_lines m = Abort e ->
     e = ACheck "Points out of order" \/ e = ACheck "Hidden section reversed" \/ e = AUB "std::sort without a strict weak ordering").
Proof.
  split; [|intros m e H; exact (lines_abort fs m e H)].
  assert (K : forall x, In x (map_keys fs) <-> exists f k, In f fs /\ x = side f k).
  { intro x. split; [|intros (f & k & Hf & ->); exact (key_in fs f k Hf)]. unfold map_keys. rewrite in_flat_map. intros (f & Hf & Hx).
    destruct Hx as [<-|[<-|[<-|[]]]]; [exists f, 0|exists f, 1|exists f, 2]; auto. }
  intro e. split.
  - intro H. destruct (index_abort _ H) as [-> Q]. split; [reflexivity|]. intro S. apply strict_swo in S.
    assert (E : strict_weak edge_order (map_keys fs) = true) by (apply strict_weak_iff; exact (swo_weak (fun x Hx => proj1 (K x) Hx) S)). congruence.
  - intros [-> N]. destruct (strict_weak edge_order (map_keys fs)) eqn:E; [|unfold index; rewrite E; reflexivity].
    exfalso. apply N. apply strict_weak_iff in E. apply swo_strict. exact (swo_weak (fun x Hx => proj2 (K x) Hx) E).
Qed.
