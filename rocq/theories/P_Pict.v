(** P_Pict.v - the lines of a view are its picture, and what follows from that. *)
From Coq Require Import Reals Lra Psatz Nsatz Permutation Sorted.
From Verif Require Import Base Num NumReal NumLaws Geo Stl GeoSpec RealSpec HideSpec PictSpec P_Base P_Order P_Part P_Index P_Hide P_Lines P_Geo1 P_Real P_Span P_Span2 P_Exact.

Local Unset Implicit Arguments.
Local Open Scope R_scope.

(** ** Positions in a list *)
Lemma take_pos {T} (l : list T) i t : nth_error l i = Some t -> exists rest, Permutation l (t :: rest) /\
  forall j, j <> i -> nth_error rest (if (j <? i)%nat then j else (j - 1)%nat) = nth_error l j.
Proof.
  intro H. apply nth_error_split in H. destruct H as (l1 & l2 & -> & L). exists (l1 ++ l2). split; [apply Permutation_sym, Permutation_middle|].
  intros j NE. destruct (Nat.ltb_spec j i) as [C|C].
  - rewrite !nth_error_app1 by lia. reflexivity.
  - rewrite (nth_error_app2 l1 l2) by lia. rewrite (nth_error_app2 l1 (t :: l2)) by lia. replace (j - length l1)%nat with (S (j - 1 - length l1)) by lia. reflexivity.
Qed.
Lemma take_two {T} (l : list T) i j t u : i <> j -> nth_error l i = Some t -> nth_error l j = Some u -> exists rest, Permutation l (t :: u :: rest).
Proof.
  intros NE Hi Hj. destruct (take_pos l i t Hi) as (r1 & P1 & N1). rewrite <- (N1 j) in Hj by auto.
  destruct (take_pos r1 _ u Hj) as (r2 & P2 & _). exists r2. rewrite P1, P2. reflexivity.
Qed.
Lemma take_three {T} (l : list T) i j k t u w : i <> j -> i <> k -> j <> k -> nth_error l i = Some t -> nth_error l j = Some u -> nth_error l k = Some w ->
  exists rest, Permutation l (t :: u :: w :: rest).
Proof.
  intros N1 N2 N3 Hi Hj Hk. destruct (take_pos l i t Hi) as (r1 & P1 & Q1). rewrite <- (Q1 j) in Hj by auto. rewrite <- (Q1 k) in Hk by auto.
  edestruct (@take_two T r1) as (r2 & P2); [|exact Hj|exact Hk|].
  - destruct (Nat.ltb_spec j i), (Nat.ltb_spec k i); lia.
  - exists r2. rewrite P1, P2. reflexivity.
Qed.
Lemma perm_pos {T} (l : list T) t u rest : Permutation l (t :: u :: rest) -> exists i j, i <> j /\ nth_error l i = Some t /\ nth_error l j = Some u.
Proof.
  intro H. apply Permutation_nth_error in H. destruct H as (_ & f & I & H). exists (f 0%nat), (f 1%nat). split; [intro E; apply I in E; discriminate|].
  split; [rewrite <- H|rewrite <- H]; reflexivity.
Qed.

(** ** Order of the ends *)
Lemma order_emb a b : order (emb a) (emb b) = true <-> before a b.
Proof.
  unfold order, before, nne. cbn [x3 y3 z3 emb].
  destruct (neq (Fin (rx a) : @num XR) (Fin (rx b))) eqn:E1; [apply eq_fin in E1|apply eq_fin_f in E1]; cbn [negb].
  - destruct (neq (Fin (ry a) : @num XR) (Fin (ry b))) eqn:E2; [apply eq_fin in E2|apply eq_fin_f in E2]; cbn [negb]; rewrite lt_fin; split; intro H; lra.
  - rewrite lt_fin. split; intro H; lra.
Qed.
Lemma before_total a b : a <> b -> before a b \/ before b a.
Proof.
  intro NE. unfold before. destruct (Req_dec (rx a) (rx b)) as [E1|]; [|lra]. destruct (Req_dec (ry a) (ry b)) as [E2|]; [|lra]. destruct (Req_dec (rz a) (rz b)) as [E3|]; [|lra].
  exfalso. apply NE. apply pt_ext; assumption.
Qed.
Lemma before_asym a b : before a b -> before b a -> False.
Proof. unfold before. lra. Qed.

Lemma own_flip t a b : own t a b <-> own t b a.
Proof. unfold own. tauto. Qed.

Section Model.
  Context (ts : list tri) (m : @stl XR) (HI : index (map embf ts) = Ret m) (HP : Forall proper ts).

  Lemma same_refl z : same (emb z) (emb z). Proof. repeat split; apply eq_fin; reflexivity. Qed.
  Lemma joins_own e t a b : e = Edge (emb a) (emb b) -> ((exists ab, In ab (outline (embf t)) /\ joins e ab) <-> own t a b).
  Proof.
    intros ->. assert (J : forall p q, joins (Edge (emb a) (emb b)) (emb p, emb q) <-> (a = p /\ b = q) \/ (a = q /\ b = p)).
    { intros p q. split.
      - intro H. apply joins_emb in H. destruct H as [E|E]; injection E as Q1 Q2 Q3 Q4 Q5 Q6; [left|right]; split; apply pt_ext; assumption.
      - intros [[<- <-]|[<- <-]]; [left|right]; cbn [e1 e2 fst snd]; split; apply same_refl. }
    unfold own, tri_sides. split.
    - intros (ab & HIn & Hj). destruct HIn as [<-|[<-|[<-|[]]]]; cbn [fe0 fe1 fe2 embf] in Hj; apply J in Hj; destruct Hj as [[-> ->]|[-> ->]]; simpl; auto 8.
    - assert (G : forall p q, In (emb p, emb q) (outline (embf t)) -> (a = p /\ b = q) \/ (a = q /\ b = p) -> exists ab, In ab (outline (embf t)) /\ joins (Edge (emb a) (emb b)) ab).
      { intros p q Ho Q. exists (emb p, emb q). split; [exact Ho|]. apply J. exact Q. }
      intros [[H|[H|[H|[]]]]|[H|[H|[H|[]]]]]; injection H as <- <-; solve [apply (G (t0 t) (t1 t)); simpl; auto|apply (G (t1 t) (t2 t)); simpl; auto|apply (G (t2 t) (t0 t)); simpl; auto].
  Qed.
  Lemma edge_before a b : In (Edge (emb a) (emb b)) (edges m) -> before a b.
  Proof.
    intro H. destruct (index_spec XR_ordered (fs := map embf ts)) as (m' & HI' & IX); [eapply Forall_impl; [apply okf_okF|apply okf_embf]|]. rewrite HI in HI'. injection HI' as <-.
    destruct (ix_only IX _ H) as (f & k & Hf & _ & E). apply in_map_iff in Hf. destruct Hf as (t & <- & Ht). rewrite Forall_forall in HP. pose proof (sides_ne t) as NE.
    assert (G : forall p q, p <> q -> Edge (emb a) (emb b) = mk_edge (emb p) (emb q) -> before a b).
    { intros p q N Q. unfold mk_edge in Q. destruct (order (emb p) (emb q)) eqn:O.
      - injection Q as Q1 Q2 Q3 Q4 Q5 Q6. apply order_emb in O. assert (a = p) by (apply pt_ext; assumption). assert (b = q) by (apply pt_ext; assumption). subst. exact O.
      - injection Q as Q1 Q2 Q3 Q4 Q5 Q6. assert (a = q) by (apply pt_ext; assumption). assert (b = p) by (apply pt_ext; assumption). subst.
        destruct (before_total p q N) as [B|B]; [apply order_emb in B; congruence|exact B]. }
    destruct k as [|[|k]]; cbn [side fe0 fe1 fe2 embf] in E; (eapply G; [|exact E]); apply (NE _ _ (HP _ Ht)); simpl; auto.
  Qed.
  Lemma edges_nodup : NoDup (edges m).
  Proof.
    destruct (index_exact XR_ordered (map embf ts) (okf_embf ts)) as (m' & E & _ & U & X & _). rewrite HI in E. injection E as <-.
    apply NoDup_nth_error. intros i j L N. destruct (nth_error (edges m) i) as [e|] eqn:Ni; [|apply nth_error_None in Ni; lia].
    destruct (X e (nth_error_In _ _ Ni)) as (f & ab & Hf & Hab & J). destruct (U f ab Hf Hab) as (k & HK).
    assert (i = k) by (apply HK; eauto). assert (j = k) by (apply HK; eauto). congruence.
  Qed.
  Lemma edge_listed a b : (In (Edge (emb a) (emb b)) (edges m)) <-> before a b /\ exists t, In t ts /\ own t a b.
  Proof.
    destruct (index_exact XR_ordered (map embf ts) (okf_embf ts)) as (m' & E & _ & U & X & _). rewrite HI in E. injection E as <-. split.
    - intro H. split; [apply edge_before; exact H|]. destruct (X _ H) as (f & ab & Hf & Hab & J). apply in_map_iff in Hf. destruct Hf as (t & <- & Ht). exists t. split; [exact Ht|].
      apply (joins_own _ t a b eq_refl). eauto.
    - intros (B & t & Ht & O). apply (joins_own _ t a b eq_refl) in O. destruct O as (ab & Hab & J).
      destruct (U (embf t) ab (in_map _ _ _ Ht) Hab) as (i & HIf). destruct (proj2 (HIf i) eq_refl) as (e & Ne & Je). pose proof (nth_error_In _ _ Ne) as He.
      assert (C : e = Edge (emb a) (emb b) \/ e = Edge (emb b) (emb a)).
      { assert (JJ : exists p' q', ab = (emb p', emb q')) by (destruct Hab as [<-|[<-|[<-|[]]]]; cbn [fe0 fe1 fe2 embf]; eauto). destruct JJ as (p' & q' & ->).
        assert (FL : forall x y z w : @v3 XR, Edge x y = Edge z w -> Edge w z = Edge y x) by (intros x y z w Q; injection Q as -> ->; reflexivity).
        apply joins_emb in J. apply joins_emb in Je. destruct J as [J|J], Je as [-> | ->]; auto. }
      destruct C as [-> | ->]; [exact He|]. apply edge_before in He. destruct (before_asym _ _ B He).
  Qed.

  Lemma has_side_own a b n : has_side (map embf ts) (Edge (emb a) (emb b)) n <-> exists t, nth_error ts n = Some t /\ own t a b.
  Proof.
    unfold has_side. split.
    - intros (f & ab & Nf & Hab & J). rewrite nth_error_map in Nf. destruct (nth_error ts n) as [t|] eqn:Nt; [|discriminate]. injection Nf as <-. exists t. split; [reflexivity|].
      apply (joins_own _ t a b eq_refl). eauto.
    - intros (t & Nt & O). apply (joins_own _ t a b eq_refl) in O. destruct O as (ab & Hab & J). exists (embf t), ab. split; [apply map_nth_error; exact Nt|]. auto.
  Qed.
  Lemma min_dot t u : (dot3 (fnorm (embf t)) (fnorm (embf u)) <? of_dec 98 (-2))%num = false <-> 98 / 100 <= rdot (tn t) (tn u).
  Proof.
    cbn [fnorm embf]. rewrite dot_emb. cbn [of_dec XR]. rewrite lt_fin_f.
    replace (98 / 100) with (IZR 98 * powerRZ 10 (-2)); [reflexivity|]. simpl. field.
  Qed.
  Lemma smooth_real a b : ~ crowded ts a b -> (smooth_edge (map embf ts) (Edge (emb a) (emb b)) <-> smooth ts a b).
  Proof.
    intro NC. split.
    - intros (i & j & fi & fj & (H1 & _) & (H2 & _) & NE & N1 & N2 & D). apply has_side_own in H1, H2. destruct H1 as (t & T1 & T2). destruct H2 as (u & U1 & U2).
      rewrite (map_nth_error embf _ _ T1) in N1. injection N1 as <-. rewrite (map_nth_error embf _ _ U1) in N2. injection N2 as <-. apply min_dot in D.
      destruct (take_two ts i j t u NE T1 U1) as (rest & PM). exists t, u, rest. auto.
    - assert (WLOG : forall i j t u, (i < j)%nat -> nth_error ts i = Some t -> nth_error ts j = Some u -> own t a b -> own u a b -> 98 / 100 <= rdot (tn t) (tn u) ->
        smooth_edge (map embf ts) (Edge (emb a) (emb b))).
      { intros i j t u L T1 U1 T2 U2 D. assert (ONLY : forall k, has_side (map embf ts) (Edge (emb a) (emb b)) k -> k = i \/ k = j).
        { intros k Hk. apply has_side_own in Hk. destruct Hk as (w & W1 & W2). destruct (Nat.eq_dec k i) as [|K1]; [auto|]. destruct (Nat.eq_dec k j) as [|K2]; [auto|]. exfalso. apply NC.
          destruct (take_three ts i j k t u w) as (rest & PM); [lia|auto|auto|assumption..|]. exists t, u, w, rest. auto. }
        exists i, j, (embf t), (embf u).
        split; [split; [apply has_side_own; eauto|intros k Hk; destruct (ONLY k Hk); lia]|]. split; [split; [apply has_side_own; eauto|intros k Hk; destruct (ONLY k Hk); lia]|].
        split; [lia|]. split; [apply map_nth_error; exact T1|]. split; [apply map_nth_error; exact U1|]. apply min_dot. exact D. }
      intros (t & u & rest & PM & T2 & U2 & D). destruct (perm_pos ts t u rest PM) as (i & j & NE & T1 & U1).
      destruct (Nat.lt_total i j) as [L|[L|L]]; [|contradiction|].
      + exact (WLOG i j t u L T1 U1 T2 U2 D).
      + refine (WLOG j i u t L U1 T1 U2 T2 _). replace (rdot (tn u) (tn t)) with (rdot (tn t) (tn u)) by (rgeo; ring). exact D.
  Qed.
  Lemma edge_outlined a b : ~ crowded ts a b -> (In (Edge (emb a) (emb b)) (firstn (unseen m) (edges m)) <-> outlined ts a b).
  Proof.
    intro NC. destruct (index_smooth XR_ordered (map embf ts) m (okf_embf ts) HI) as (LU & SM). unfold outlined. split.
    - intro H. apply In_nth_error in H. destruct H as [k Nk]. assert (LK : (k < unseen m)%nat).
      { assert (k < length (firstn (unseen m) (edges m)))%nat by (apply nth_error_Some; congruence). rewrite firstn_length in *. lia. }
      assert (Ne : nth_error (edges m) k = Some (Edge (emb a) (emb b))).
      { rewrite <- (firstn_skipn (unseen m) (edges m)). rewrite nth_error_app1; [exact Nk|]. apply nth_error_Some. congruence. }
      apply nth_error_In in Ne as Hin. apply edge_listed in Hin. split; [tauto|]. split; [tauto|]. rewrite <- (smooth_real a b NC). apply (SM k _ Ne). exact LK.
    - intros (B & O & NS). assert (Hin : In (Edge (emb a) (emb b)) (edges m)) by (apply edge_listed; auto). apply In_nth_error in Hin. destruct Hin as [k Ne].
      rewrite <- (smooth_real a b NC) in NS. apply (SM k _ Ne) in NS. apply nth_error_In with (n := k). rewrite <- (firstn_skipn (unseen m) (edges m)) in Ne. rewrite nth_error_app1 in Ne; [exact Ne|].
      rewrite firstn_length. lia.
  Qed.
End Model.

(** ** The picture *)
Lemma picture_real ts m : index (map embf ts) = Ret m -> Forall proper ts -> Forall facing ts -> (forall a b, ~ crowded ts a b) ->
  exists ss, to_lines m = Ret (flat_map strokes ss) /\ picture ts ss.
Proof.
  intros HI HP HF NC. destruct (exact_real ts m HI HP HF) as (ss & H1 & H2 & H3). exists ss. split; [exact H1|].
  assert (MM : map (fun s => Edge (emb (sa s)) (emb (sb s))) ss = map (fun ab => Edge (emb (fst ab)) (emb (snd ab))) (map (fun s => (sa s, sb s)) ss)) by (rewrite map_map; reflexivity).
  rewrite MM in H2. split; [|split].
  - apply (NoDup_map_inv (fun ab => Edge (emb (fst ab)) (emb (snd ab)))). rewrite H2. pose proof (edges_nodup ts m HI) as ND. rewrite <- (firstn_skipn (unseen m) (edges m)) in ND.
    revert ND. generalize (firstn (unseen m) (edges m)) as l1, (skipn (unseen m) (edges m)) as l2. clear. intros l1 l2. induction l1 as [|e l1 IH]; intro ND; [constructor|].
    inversion ND; subst. constructor; [|apply IH; assumption]. intro K. apply H1. apply in_or_app. left. exact K.
  - intros a b. rewrite <- (edge_outlined ts m HI HP a b (NC a b)), <- H2. split.
    + intro H. apply (in_map (fun ab => Edge (emb (fst ab)) (emb (snd ab)))) in H. exact H.
    + intro H. apply in_map_iff in H. destruct H as ([p q] & E & H). cbn [fst snd] in E. injection E as Q1 Q2 Q3 Q4 Q5 Q6.
      assert (p = a) by (apply pt_ext; assumption). assert (q = b) by (apply pt_ext; assumption). subst. exact H.
  - exact H3.
Qed.
(** Hidden parts and outlines do not depend on the order of the facets. *)
Lemma outlined_perm vs ws a b : Permutation vs ws -> (outlined vs a b <-> outlined ws a b).
Proof.
  intro P. unfold outlined. assert (G : forall vs ws, Permutation vs ws -> (exists t, In t vs /\ own t a b) -> exists t, In t ws /\ own t a b).
  { intros v w Q (t & Ht & O). exists t. split; [exact (Permutation_in _ Q Ht)|exact O]. }
  assert (S : forall vs ws, Permutation vs ws -> smooth vs a b -> smooth ws a b).
  { intros v w Q (t & u & rest & PM & R). exists t, u, rest. split; [rewrite <- Q; exact PM|exact R]. }
  pose proof (G _ _ P). pose proof (G _ _ (Permutation_sym P)). pose proof (S _ _ P). pose proof (S _ _ (Permutation_sym P)). tauto.
Qed.
Lemma crowded_perm vs ws a b : Permutation vs ws -> crowded vs a b -> crowded ws a b.
Proof. intros Q (t & u & w & rest & PM & R). exists t, u, w, rest. split; [rewrite <- Q; exact PM|exact R]. Qed.
Lemma leaves_ext (h h' : R -> Prop) s : (forall x, h x <-> h' x) -> leaves h s -> leaves h' s.
Proof. intros E (L1 & L2 & L3). split; [exact L1|]. split; [intros x X N; apply L2; [exact X|]; rewrite E; exact N|]. intros i x Hi X. rewrite <- E. exact (L3 i x Hi X). Qed.
Lemma picture_perm vs ws ss : Permutation vs ws -> picture vs ss -> picture ws ss.
Proof.
  intros P (H1 & H2 & H3). split; [exact H1|]. split; [intros a b; rewrite H2; apply outlined_perm; exact P|].
  intros s Hs. eapply leaves_ext; [|exact (H3 s Hs)]. intro x. split; intros (t & Ht & Hh); exists t; (split; [|exact Hh]); [exact (Permutation_in _ P Ht)|exact (Permutation_in _ (Permutation_sym P) Ht)].
Qed.
Lemma view_picture s ts r : facets s = map embf ts -> Forall proper ts -> rotation r -> (forall a b, ~ crowded (seen r ts) a b) ->
  exists m ss, rotate s (embm r) = Ret m /\ to_lines m = Ret (flat_map strokes ss) /\ picture (seen r ts) ss.
Proof.
  intros HS HP HR NC. destruct (view_real s ts r HS HP HR) as (m & ts' & H1 & H2 & H3 & H4 & H5 & H6).
  destruct (picture_real ts' m H2 H5 H6) as (ss & L1 & L2).
  - intros a b C. apply (NC a b). exact (crowded_perm _ _ _ _ H4 C).
  - exists m, ss. split; [exact H1|]. split; [exact L1|]. exact (picture_perm _ _ _ H4 L2).
Qed.

(** ** A picture is unique up to the order of its edges *)
Lemma spaced_low u l i : spaced u l -> In i l -> u <= fst i /\ fst i < snd i /\ snd i <= 1.
Proof.
  revert u. induction l as [|[x y] l IH]; intros u C HI; [destruct HI|]. simpl in C. destruct C as (C1 & C2 & _ & C3).
  assert (Y : y <= 1) by (clear - C3; revert y C3; induction l as [|[p q] l IH]; intros y C3; simpl in C3; [exact C3|]; destruct C3 as (D1 & D2 & _ & D3); specialize (IH _ D3); lra).
  destruct HI as [<-|HI]; [simpl; lra|]. specialize (IH _ C3 HI). lra.
Qed.
Lemma shown_unique (hid : R -> Prop) l : forall u l', spaced u l -> spaced u l' ->
  (forall z, u < z < 1 -> ~ hid z -> exists i, In i l /\ fst i <= z <= snd i) -> (forall z, u < z < 1 -> ~ hid z -> exists i, In i l' /\ fst i <= z <= snd i) ->
  (forall i z, In i l -> fst i < z < snd i -> ~ hid z) -> (forall i z, In i l' -> fst i < z < snd i -> ~ hid z) -> l = l'.
Proof.
  induction l as [|[x y] l IH]; intros u l' S S' C C' N N'.
  - destruct l' as [|[x' y'] l']; [reflexivity|exfalso]. destruct (spaced_low _ _ _ S' (or_introl eq_refl)) as (A1 & A2 & A3). cbn [fst snd] in *.
    destruct (C ((x' + y') / 2)) as (i & [] & _); [lra|]. apply (N' (x', y')); [left; reflexivity|simpl; lra].
  - destruct l' as [|[x' y'] l'].
    + exfalso. destruct (spaced_low _ _ _ S (or_introl eq_refl)) as (A1 & A2 & A3). cbn [fst snd] in *.
      destruct (C' ((x + y) / 2)) as (i & [] & _); [lra|]. apply (N (x, y)); [left; reflexivity|simpl; lra].
    + assert (LOW : forall p q (k : list (R * R)), spaced u ((p, q) :: k) -> forall i, In i ((p, q) :: k) -> p <= fst i).
      { intros p q k SK i [<-|Hi]; [simpl; lra|]. destruct SK as (K1 & K2 & _ & K3). destruct (spaced_low _ _ _ K3 Hi). lra. }
      assert (GAP : forall p q (k : list (R * R)), spaced u ((p, q) :: k) -> exists g, q < g /\ forall i, In i k -> g <= fst i).
      { intros p q k SK. destruct k as [|[p2 q2] k]; [exists (q + 1); split; [lra|intros i []]|]. destruct SK as (K1 & K2 & K3 & K4 & K5 & _ & K6). exists p2. split; [exact K3|].
        intros i [<-|Hi]; [simpl; lra|]. destruct (spaced_low _ _ _ K6 Hi). lra. }
      assert (START : forall p q k p' q' k', spaced u ((p, q) :: k) -> spaced u ((p', q') :: k') -> (forall z, u < z < 1 -> ~ hid z -> exists i, In i ((p', q') :: k') /\ fst i <= z <= snd i) ->
        (forall i z, In i ((p, q) :: k) -> fst i < z < snd i -> ~ hid z) -> p' <= p).
      { intros p q k p' q' k' SA SB CB NA. destruct (Rle_lt_dec p' p) as [|L]; [assumption|exfalso]. destruct (spaced_low _ _ _ SA (or_introl eq_refl)) as (A1 & A2 & A3). cbn [fst snd] in *.
        set (h := Rmin q p'). assert (H : p < h /\ h <= q /\ h <= p') by (unfold h, Rmin; destruct (Rle_dec q p'); lra).
        destruct (CB ((p + h) / 2)) as (i & Hi & X); [lra|apply (NA (p, q)); [left; reflexivity|simpl; lra]|]. pose proof (LOW _ _ _ SB i Hi). lra. }
      assert (STOP : forall p q k q' k', spaced u ((p, q) :: k) -> spaced u ((p, q') :: k') -> (forall z, u < z < 1 -> ~ hid z -> exists i, In i ((p, q) :: k) /\ fst i <= z <= snd i) ->
        (forall i z, In i ((p, q') :: k') -> fst i < z < snd i -> ~ hid z) -> q' <= q).
      { intros p q k q' k' SA SB CA NB. destruct (Rle_lt_dec q' q) as [|L]; [assumption|exfalso]. destruct (spaced_low _ _ _ SA (or_introl eq_refl)) as (A1 & A2 & A3).
        destruct (spaced_low _ _ _ SB (or_introl eq_refl)) as (B1 & B2 & B3). cbn [fst snd] in *. destruct (GAP _ _ _ SA) as (g & G1 & G2).
        set (h := Rmin q' g). assert (H : q < h /\ h <= q' /\ h <= g) by (unfold h, Rmin; destruct (Rle_dec q' g); lra).
        destruct (CA ((q + h) / 2)) as (i & [<-|Hi] & X); [lra|apply (NB (p, q')); [left; reflexivity|simpl; lra]|cbn [fst snd] in X; lra|]. pose proof (G2 i Hi). lra. }
      assert (x = x') by (apply Rle_antisym; [eapply (START x' y' l' x y l)|eapply (START x y l x' y' l')]; assumption). subst x'.
      assert (y = y') by (apply Rle_antisym; [eapply (STOP x y' l' y l)|eapply (STOP x y l y' l')]; assumption). subst y'.
      f_equal. destruct S as (S1 & S2 & _ & S3). destruct S' as (S1' & S2' & _ & S3'). apply (IH y); try assumption.
      * intros z Z NH. destruct (C z) as (i & [<-|Hi] & X); [lra|exact NH|cbn [fst snd] in X; lra|eauto].
      * intros z Z NH. destruct (C' z) as (i & [<-|Hi] & X); [lra|exact NH|cbn [fst snd] in X; lra|eauto].
      * intros i z Hi. apply N. right. exact Hi.
      * intros i z Hi. apply N'. right. exact Hi.
Qed.
Lemma leaves_unique hid s s' : sa s = sa s' -> sb s = sb s' -> leaves hid s -> leaves hid s' -> s = s'.
Proof.
  intros EA EB (L1 & L2 & L3) (M1 & M2 & M3). destruct s as [a b l], s' as [a' b' l']. cbn [sa sb shown] in *. subst a' b'. f_equal.
  apply (shown_unique hid l 0 l'); try assumption; [intros z Z NH; apply (L2 z); [lra|exact NH]|intros z Z NH; apply (M2 z); [lra|exact NH]].
Qed.
Lemma picture_unique vs ss ss' : picture vs ss -> picture vs ss' -> Permutation ss ss'.
Proof.
  assert (SUB : forall ss ss', picture vs ss -> picture vs ss' -> forall s, In s ss -> In s ss').
  { intros p q (P1 & P2 & P3) (Q1 & Q2 & Q3) s Hs. assert (HE : In (sa s, sb s) (map (fun s => (sa s, sb s)) q)) by (apply Q2, P2; apply (in_map (fun s => (sa s, sb s))); exact Hs).
    apply in_map_iff in HE. destruct HE as (s' & E & Hs'). injection E as E1 E2. pose proof (P3 s Hs) as L. pose proof (Q3 s' Hs') as L'. rewrite E1, E2 in L'.
    rewrite (leaves_unique _ s s' (eq_sym E1) (eq_sym E2) L L'). exact Hs'. }
  intros P Q. apply NoDup_Permutation; [exact (NoDup_map_inv _ _ (proj1 P))|exact (NoDup_map_inv _ _ (proj1 Q))|]. intro s. split; apply SUB; assumption.
Qed.
