(** P_Hide.v - the crossing table, the hidden point buffer and line generation. *)
From Coq Require Import Permutation Sorted.
From Verif Require Import Base Num Geo Stl NumLaws P_Base P_Order P_Part P_Index.

Lemma NoDup_flat_map {X Y} (f : X -> list Y) (l : list X) :
  NoDup l -> (forall x, In x l -> NoDup (f x)) -> (forall x y z, In x l -> In y l -> In z (f x) -> In z (f y) -> x = y) -> NoDup (flat_map f l).
Proof.
  induction l as [|x l IH]; intros ND H1 H2; simpl; [constructor|]. inversion ND as [|? ? NI ND']; subst.
  assert (IHl : NoDup (flat_map f l)).
  { apply IH; [exact ND'|intros; apply H1; right; assumption|]. intros a b z Ha Hb. apply H2; right; assumption. }
  assert (Hx : NoDup (f x)) by (apply H1; left; reflexivity).
  assert (D : forall z, In z (f x) -> ~ In z (flat_map f l)).
  { intros z Hz HI. apply in_flat_map in HI. destruct HI as (y & Hy & HzY). apply NI.
    rewrite (H2 x y z (or_introl eq_refl) (or_intror Hy) Hz HzY). exact Hy. }
  clear - IHl Hx D. induction (f x) as [|a t IHt]; simpl; [exact IHl|]. inversion Hx; subst. constructor.
  - intro HI. apply in_app_or in HI. destruct HI as [HI|HI]; [contradiction|]. exact (D a (or_introl eq_refl) HI).
  - apply IHt; [assumption|]. intros z Hz. apply D. right. exact Hz.
Qed.
Lemma map_flat_map {X Y Z} (g : Y -> Z) (f : X -> list Y) l : map g (flat_map f l) = flat_map (fun x => map g (f x)) l.
Proof. induction l as [|x l IH]; simpl; [reflexivity|]. rewrite map_app, IH. reflexivity. Qed.

Section Cross.
  Context {A : Arith}.
  Local Open Scope num_scope.

  Lemma cross_pair_in es v u h : In h (cross_pair es v u) -> fst h = (u, v) \/ fst h = (v, u).
  Proof.
    unfold cross_pair. destruct (nth_error es v) as [ev|]; [|intros []]. destruct (nth_error es u) as [eu|]; [|intros []].
    destruct (cross_at ev eu) as [[pu pv]|]; [|intros []]. intro H. apply in_app_or in H. destruct H as [H|H].
    - destruct (z3 pu <=? z3 pv); [|destruct H]. destruct H as [<-|[]]. auto.
    - destruct (z3 pv <=? z3 pu); [|destruct H]. destruct H as [<-|[]]. auto.
  Qed.
  Lemma cross_pair_nodup es v u : (v < u)%nat -> NoDup (map fst (cross_pair es v u)).
  Proof.
    intro L. unfold cross_pair. destruct (nth_error es v) as [ev|]; [|constructor]. destruct (nth_error es u) as [eu|]; [|constructor].
    destruct (cross_at ev eu) as [[pu pv]|]; [|constructor].
    destruct (z3 pu <=? z3 pv), (z3 pv <=? z3 pu); simpl; repeat constructor; simpl; try tauto.
    intros [H|[]]. injection H as H1 H2. lia.
  Qed.
  (** each ordered pair of edges at most once *)
  Lemma hidden_nodup es un : NoDup (map fst (hidden_by_list es un)).
  Proof.
    unfold hidden_by_list. rewrite map_flat_map. apply NoDup_flat_map.
    - apply seq_NoDup.
    - intros v _. rewrite map_flat_map. apply NoDup_flat_map.
      + apply seq_NoDup.
      + intros u Hu. apply in_seq in Hu. apply cross_pair_nodup. lia.
      + intros u u' z Hu Hu' Hz Hz'. apply in_seq in Hu. apply in_seq in Hu'. apply in_map_iff in Hz. apply in_map_iff in Hz'.
        destruct Hz as (h & <- & Hz). destruct Hz' as (h' & E & Hz'). apply cross_pair_in in Hz. apply cross_pair_in in Hz'. rewrite E in Hz'.
        destruct Hz as [Hz|Hz], Hz' as [Hz'|Hz']; rewrite Hz in Hz'; pose proof (f_equal fst Hz'); pose proof (f_equal snd Hz'); cbn [fst snd] in *; lia.
    - intros v v' z _ _ Hz Hz'. apply in_map_iff in Hz. apply in_map_iff in Hz'.
      destruct Hz as (h & <- & Hz). destruct Hz' as (h' & E & Hz'). apply in_flat_map in Hz. apply in_flat_map in Hz'.
      destruct Hz as (u & Hu & Hz). destruct Hz' as (u' & Hu' & Hz'). apply in_seq in Hu. apply in_seq in Hu'.
      apply cross_pair_in in Hz. apply cross_pair_in in Hz'. rewrite E in Hz'.
      destruct Hz as [Hz|Hz], Hz' as [Hz'|Hz']; rewrite Hz in Hz'; pose proof (f_equal fst Hz'); pose proof (f_equal snd Hz'); cbn [fst snd] in *; lia.
  Qed.
  (** what is recorded *)
  Lemma hidden_in es un a b p : In (a, b, p) (hidden_by_list es un) <->
    exists v u ev eu pu pv, (v < u)%nat /\ (v < un)%nat /\ nth_error es v = Some ev /\ nth_error es u = Some eu /\ cross_at ev eu = Some (pu, pv) /\
      ((a = u /\ b = v /\ p = pu /\ (z3 pu <=? z3 pv) = true) \/ (a = v /\ b = u /\ p = pv /\ (z3 pv <=? z3 pu) = true)).
  Proof.
    unfold hidden_by_list. rewrite in_flat_map. split.
    - intros (v & Hv & H). apply in_seq in Hv. apply in_flat_map in H. destruct H as (u & Hu & H). apply in_seq in Hu.
      unfold cross_pair in H. destruct (nth_error es v) as [ev|] eqn:Nv; [|destruct H]. destruct (nth_error es u) as [eu|] eqn:Nu; [|destruct H].
      destruct (cross_at ev eu) as [[pu pv]|] eqn:X; [|destruct H]. exists v, u, ev, eu, pu, pv.
      split; [lia|]. split; [lia|]. split; [exact Nv|]. split; [exact Nu|]. split; [exact X|]. apply in_app_or in H. destruct H as [H|H].
      + destruct (z3 pu <=? z3 pv) eqn:Z; [|destruct H]. destruct H as [H|[]]. injection H as <- <- <-. auto.
      + destruct (z3 pv <=? z3 pu) eqn:Z; [|destruct H]. destruct H as [H|[]]. injection H as <- <- <-. auto.
    - intros (v & u & ev & eu & pu & pv & L & Lv & Nv & Nu & X & H).
      assert (Lu : (u < length es)%nat) by (apply nth_error_Some; congruence).
      exists v. split; [apply in_seq; lia|]. apply in_flat_map. exists u. split; [apply in_seq; lia|].
      unfold cross_pair. rewrite Nv, Nu, X. apply in_or_app. destruct H as [(-> & -> & -> & ->)|(-> & -> & -> & ->)]; [left|right]; left; reflexivity.
  Qed.

  (** ** Distribution never finds a duplicate *)
  Record tbl (un : nat) (done : list (nat * nat * v3)) (hb : list (list (nat * v3))) : Prop := {
    t_len : length hb = un;
    t_sorted : forall v m, nth_error hb v = Some m -> ssorted Nat.ltb (map fst m);
    t_in : forall v m, nth_error hb v = Some m -> forall u p, In (u, p) m <-> In (v, u, p) done
  }.
  Lemma keys_true {V} (m : list (nat * V)) : keysP (fun _ => True) m.
  Proof. apply Forall_true. Qed.
  Lemma imap_in {T} k (m : list (nat * T)) v : ssorted Nat.ltb (map fst m) -> (imap_find k m = Some v <-> In (k, v) m).
  Proof.
    intro S. unfold imap_find. split.
    - intro H. destruct (P_Base.find_some H) as (k' & HI & E). apply nat_eqv in E. subst k'. exact HI.
    - intro H. exact (find_in nat_swo (keys_true m) S H).
  Qed.
  Lemma tbl_init un : tbl un [] (repeat [] un).
  Proof.
    constructor; [apply repeat_length| |]; intros v m H; apply nth_error_In, repeat_spec in H; subst m; [constructor|]. intros u p. simpl. tauto.
  Qed.
  Lemma cross_step un done h hb : ~ In (fst h) (map fst done) -> tbl un done hb ->
    exists hb', cross_insert un (Ret hb) h = Ret hb' /\ tbl un (done ++ [h]) hb'.
  Proof.
    intros NI T. destruct h as [[h0 h1] p]. unfold cross_insert. cbn [obind]. destruct (Nat.leb_spec un h0) as [L|L].
    - exists hb. split; [reflexivity|]. constructor; [exact (t_len T)|exact (t_sorted T)|]. intros v m Hv u q. rewrite (t_in T _ Hv), in_app_iff. split; [auto|].
      intros [H|[H|[]]]; [exact H|]. injection H as -> -> ->. assert (v < length hb)%nat by (apply nth_error_Some; congruence). rewrite (t_len T) in *. lia.
    - destruct (nth_error hb h0) as [m|] eqn:N; [|apply nth_error_None in N; rewrite (t_len T) in N; lia].
      destruct (imap_find h1 m) as [q|] eqn:F.
      { apply (imap_in _ _ _ (t_sorted T _ N)) in F. apply (t_in T _ N) in F. exfalso. apply NI. apply in_map_iff. exists (h0, h1, q). auto. }
      eexists. split; [reflexivity|]. constructor.
      + rewrite set_nth_length. exact (t_len T).
      + intros v m' Hv. rewrite nth_error_set_nth in Hv. destruct ((v =? h0)%nat && _); [injection Hv as <-|exact (t_sorted T _ Hv)].
        apply (emplace_sorted nat_swo); [exact I|apply keys_true|exact (t_sorted T _ N)].
      + intros v m' Hv u q. rewrite nth_error_set_nth in Hv. rewrite in_app_iff.
        assert (Lh : (h0 <? length hb)%nat = true) by (apply Nat.ltb_lt; rewrite (t_len T); exact L). rewrite Lh, andb_true_r in Hv.
        destruct (Nat.eqb_spec v h0) as [->|NE].
        * injection Hv as <-. rewrite emplace_in, (t_in T _ N). unfold imap_find in F. split.
          -- intros [[_ E]|H]; [injection E as -> ->; right; left; reflexivity|auto].
          -- intros [H|[H|[]]]; [auto|]. injection H as -> ->. auto.
        * rewrite (t_in T _ Hv). split; [auto|]. intros [H|[H|[]]]; [exact H|]. injection H as E _ _. congruence.
  Qed.
  Lemma edge_crosses_spec es un : exists hb, edge_crosses es un = Ret hb /\ tbl un (hidden_by_list es un) hb.
  Proof.
    unfold edge_crosses. pose proof (hidden_nodup es un) as ND.
    assert (G : forall l done hb, NoDup (map fst (done ++ l)) -> tbl un done hb -> exists hb', fold_left (cross_insert un) l (Ret hb) = Ret hb' /\ tbl un (done ++ l) hb').
    { induction l as [|h l IH]; intros done hb NDl T; [exists hb; rewrite app_nil_r; auto|]. cbn [fold_left].
      edestruct cross_step as (hb' & E & T'); [|exact T|].
      2:{ rewrite E. replace (done ++ h :: l) with ((done ++ [h]) ++ l) in * by (rewrite <- app_assoc; reflexivity). apply IH; [exact NDl|exact T']. }
      rewrite map_app in NDl. apply NoDup_remove_2 in NDl. intro H. apply NDl. apply in_or_app. left. exact H. }
    apply (G _ [] _); [exact ND|apply tbl_init].
  Qed.

  (** ** The buffer of five points *)
  Definition dist (ev : edge) (p : v3) : num := sqn3 (sub3 (e1 ev) p).
  Lemma push_cross_spec ev hb (l : list (v3 * num)) e : (length l < 5)%nat -> exists l', push_cross ev hb (Ret l) e = Ret l' /\ (length l' <= S (length l))%nat /\
    forall x, In x l' <-> In x l \/ exists p, imap_find e hb = Some p /\ x = (p, dist ev p).
  Proof.
    intro L. unfold push_cross. cbn [obind]. destruct (imap_find e hb) as [p|].
    - unfold push5. rewrite (proj2 (Nat.ltb_lt _ _) L). eexists. split; [reflexivity|]. rewrite app_length. simpl. split; [lia|].
      intro x. rewrite in_app_iff. simpl. split; [intros [H|[H|[]]]; [auto|right; exists p; auto]|intros [H|(q & E & ->)]; [auto|]]. injection E as <-. auto.
    - exists l. split; [reflexivity|]. split; [lia|]. intro x. split; [auto|]. intros [H|(p & E & _)]; [exact H|discriminate].
  Qed.
  Lemma hidden_points_spec f fe ev hb : exists l, hidden_points f fe ev hb = Ret l /\ (length l <= 5)%nat /\
    forall p d, In (p, d) l <->
      (behind_in f (e1 ev) = true /\ p = e1 ev /\ d = nz) \/ (behind_in f (e2 ev) = true /\ p = e2 ev /\ d = dist ev (e2 ev)) \/
      (d = dist ev p /\ (imap_find (fst (fst fe)) hb = Some p \/ imap_find (snd (fst fe)) hb = Some p \/ imap_find (snd fe) hb = Some p)).
  Proof.
    destruct fe as [[a b] c]. unfold hidden_points. cbn [fst snd].
    assert (H1 : exists l1, (if behind_in f (e1 ev) then push5 (e1 ev, nz) [] else Ret []) = Ret l1 /\ (length l1 <= 1)%nat /\
      forall x, In x l1 <-> behind_in f (e1 ev) = true /\ x = (e1 ev, nz)).
    { destruct (behind_in f (e1 ev)).
      - eexists. split; [reflexivity|]. simpl. split; [lia|]. intro x. split; [intros [H|[]]; auto|intros [_ ->]; auto].
      - exists []. split; [reflexivity|]. simpl. split; [lia|]. intro x. split; [intros []|intros [H _]; discriminate]. }
    destruct H1 as (l1 & -> & L1 & I1). cbn [obind].
    assert (H2 : exists l2, (if behind_in f (e2 ev) then push5 (e2 ev, sqn3 (sub3 (e1 ev) (e2 ev))) l1 else Ret l1) = Ret l2 /\ (length l2 <= 2)%nat /\
      forall x, In x l2 <-> In x l1 \/ behind_in f (e2 ev) = true /\ x = (e2 ev, dist ev (e2 ev))).
    { destruct (behind_in f (e2 ev)).
      - unfold push5. assert (L : (length l1 <? 5)%nat = true) by (apply Nat.ltb_lt; lia). rewrite L. eexists. split; [reflexivity|]. rewrite app_length. simpl. split; [lia|].
        intro x. rewrite in_app_iff. simpl. split; [intros [H|[H|[]]]; auto|intros [H|[_ ->]]; auto].
      - exists l1. split; [reflexivity|]. split; [lia|]. intro x. split; [auto|intros [H|[H _]]; [auto|discriminate]]. }
    destruct H2 as (l2 & -> & L2 & I2). cbn [obind fold_left].
    destruct (push_cross_spec ev hb l2 a ltac:(lia)) as (l3 & -> & L3 & I3).
    destruct (push_cross_spec ev hb l3 b ltac:(lia)) as (l4 & -> & L4 & I4).
    destruct (push_cross_spec ev hb l4 c ltac:(lia)) as (l5 & -> & L5 & I5).
    exists l5. split; [reflexivity|]. split; [lia|]. intros p d. rewrite I5, I4, I3, I2, I1. split.
    - intros [[[[H|H]|H]|H]|H]; [destruct H as [H E]|destruct H as [H E]|destruct H as (q & H & E)|destruct H as (q & H & E)|destruct H as (q & H & E)];
        injection E as -> ->; auto 7.
    - intros [(H & -> & ->)|[(H & -> & ->)|(-> & [H|[H|H]])]]; [auto 7|auto 7|left; left; right|left; right|right]; exists p; auto.
  Qed.

  (** ** Only the two order checks can abort *)
  Definition order_abort (e : abort) : Prop :=
    e = ACheck "Points out of order" \/ e = ACheck "Hidden section reversed" \/ e = AUB "std::sort without a strict weak ordering".
  Lemma span_abort pts e : span_of pts = Abort e -> order_abort e.
  Proof.
    unfold span_of. destruct (Nat.ltb_spec (length pts) 2) as [L|L]; [discriminate|].
    intro H. apply obind_abort in H. destruct H as [H|(s & HS & H)]; [right; right; exact (std_sort_abort H)|].
    apply std_sort_ret in HS. destruct HS as [HS _]. assert (LS : length s = length pts) by (apply Permutation_length; exact HS).
    revert H. destruct (nth_error s 0) as [[pmin dmin]|] eqn:N0; [|apply nth_error_None in N0; lia].
    destruct (nth_error s (length pts - 1)) as [[pmax dmax]|] eqn:N1; [|apply nth_error_None in N1; lia].
    destruct (sqn3 (sub3 pmin pmax) =? nz); [discriminate|]. unfold check. destruct (dmin <=? dmax); cbn [obind]; [discriminate|].
    intro H; injection H as <-. left; reflexivity.
  Qed.
  Lemma face_hides_abort f fe v ev hb e : face_hides f fe v ev hb = Abort e -> order_abort e.
  Proof.
    destruct fe as [[a b] c]. unfold face_hides. destruct (_ || _ || _); [discriminate|].
    destruct (hidden_points_spec f (a, b, c) ev hb) as (l & -> & _). cbn [obind]. apply span_abort.
  Qed.
  Lemma edge_hides_abort s hbe v e : (v < length (edges s))%nat -> (v < length hbe)%nat -> (length (facets s) <= length (face_edge s))%nat ->
    edge_hides s hbe v = Abort e -> order_abort e.
  Proof.
    intros Lv Lh LF. unfold edge_hides. destruct (nth_error (edges s) v) as [ev|] eqn:N; [|apply nth_error_None in N; lia].
    destruct (nth_error hbe v) as [hb|] eqn:N2; [|apply nth_error_None in N2; lia].
    destruct (Nat.ltb_spec (length (face_edge s)) (length (facets s))) as [L|L]; [lia|].
    intro H. apply obind_abort in H. destruct H as [H|(x & _ & H)]; [|discriminate]. apply omap_abort in H. destruct H as (ff & _ & H).
    eapply face_hides_abort; exact H.
  Qed.
  Lemma gen_fold_abort p hs : forall st e, (forall e', st = Abort e' -> order_abort e') -> fold_left (gen_step p) hs st = Abort e -> order_abort e.
  Proof.
    induction hs as [|h hs IH]; intros st e HS H; simpl in H; [exact (HS _ H)|]. eapply IH; [|exact H]. intros e' HE.
    unfold gen_step in HE. apply obind_abort in HE. destruct HE as [HE|([[from d] out] & _ & HE)]; [exact (HS _ HE)|].
    unfold check in HE. destruct (_ <=? _); cbn [obind] in HE; [discriminate|]. injection HE as <-. right; left; reflexivity.
  Qed.
  Lemma gen_edge_abort m p hs e : gen_edge m p hs = Abort e -> order_abort e.
  Proof.
    unfold gen_edge. intro H. apply obind_abort in H. destruct H as [H|([[from d] out] & _ & H)]; [|discriminate].
    eapply gen_fold_abort; [|exact H]. discriminate.
  Qed.
  Lemma to_lines_abort s e : (unseen s <= length (edges s))%nat -> (length (facets s) <= length (face_edge s))%nat ->
    to_lines s = Abort e -> order_abort e.
  Proof.
    intros LU LF. unfold to_lines. destruct (edge_crosses_spec (edges s) (unseen s)) as (hbe & -> & T). cbn [obind].
    intro H. apply obind_abort in H. destruct H as [H|(hides & _ & H)].
    - apply omap_abort in H. destruct H as (v & Hv & H). apply in_seq in Hv.
      destruct (nth_error (edges s) v) as [p|] eqn:N; [|apply nth_error_None in N; lia].
      apply obind_abort in H. destruct H as [H|(x & _ & H)].
      + eapply edge_hides_abort; [| | |exact H]; [lia|rewrite (t_len T); lia|exact LF].
      + apply obind_abort in H. destruct H as [H|(y & _ & H)]; [right; right; exact (std_sort_abort H)|discriminate].
    - unfold generate_lines in H. apply obind_abort in H. destruct H as [H|(x & _ & H)]; [|discriminate].
      apply omap_abort in H. destruct H as (v & Hv & H). apply in_seq in Hv.
      destruct (nth_error (edges s) v) as [p|] eqn:N; [|apply nth_error_None in N; lia]. eapply gen_edge_abort; exact H.
  Qed.

  (** ** What Index produces is in range, with any arithmetic *)
  Lemma add_edge_len s e f : length (i_ef s) = length (i_edges s) -> length (i_ef (add_edge s e f)) = length (i_edges (add_edge s e f)).
  Proof.
    intro H. unfold add_edge. destruct (smap_find edge_order e (i_dd s)) as [ix|]; cbn [i_ef i_edges].
    - destruct (nth_error (i_ef s) ix) as [[a b]|]; [rewrite set_nth_length|]; exact H.
    - rewrite !app_length, H. reflexivity.
  Qed.
  Lemma collect_len fs : length (i_ef (collect_edges fs)) = length (i_edges (collect_edges fs)).
  Proof.
    unfold collect_edges. enough (G : forall l s, length (i_ef s) = length (i_edges s) -> length (i_ef (fold_left add_facet l s)) = length (i_edges (fold_left add_facet l s))) by (apply G; reflexivity).
    induction l as [|[n f] l IH]; intros s H; simpl; [exact H|]. apply IH. unfold add_facet. do 3 apply add_edge_len. exact H.
  Qed.
  Lemma index_range fs m : index fs = Ret m -> facets m = fs /\ (unseen m <= length (edges m))%nat /\ length (face_edge m) = length fs.
  Proof.
    unfold index. destruct (strict_weak edge_order (map_keys fs)); [|discriminate]. set (s := collect_edges fs). pose proof (collect_len fs) as CL. fold s in CL. rewrite hide_part by (rewrite ?CL; lia).
    destruct (part_loop _ _ _ _ _) as [l un] eqn:PL.
    edestruct @part_spec as (P & B & _); [| | |exact PL|]; [lia|lia|rewrite combine_length, CL; lia|]. apply Permutation_length in P.
    rewrite combine_length, CL, Nat.min_id in P. intro H. apply obind_ret in H. destruct H as (fe & HF & H). injection H as <-. cbn [facets edges unseen face_edge].
    rewrite map_length, (omap_length _ _ HF). split; [reflexivity|]. split; [lia|reflexivity].
  Qed.
  (** ** No reversed span when the distances are comparable *)
  Section Total.
    Context (O : ordered A).
    (** the pushed distance is that of the point *)
    Definition good (ev : edge) (pd : v3 * num) : Prop := ok (snd pd) /\ ok (dist ev (fst pd)) /\ eqv nlt (snd pd) (dist ev (fst pd)).
    Definition straight (ev h : edge) : Prop := (dist ev (e1 h) <=? dist ev (e2 h)) = true.
    Lemma wsorted_ends (lt : v3 * num -> v3 * num -> bool) s a b : wsorted lt s -> nth_error s 0 = Some a -> nth_error s (length s - 1) = Some b -> (2 <= length s)%nat -> lt b a = false.
    Proof.
      intros HS Ha Hb L. destruct s as [|x s]; [simpl in L; lia|]. simpl in Ha. injection Ha as ->. simpl in Hb, L. rewrite Nat.sub_0_r in Hb.
      inversion HS as [|? ? _ F]; subst. rewrite Forall_forall in F. apply F. destruct (length s) as [|n] eqn:E; [lia|]. simpl in Hb. eapply nth_error_In. exact Hb.
    Qed.
    Definition spans (ev : edge) (pts : list (v3 * num)) (h : edge) : Prop := straight ev h /\
       (exists d, In (e1 h, d) pts) /\ (exists d, In (e2 h, d) pts) /\ (forall p d, In (p, d) pts -> (dist ev (e1 h) <=? dist ev p) = true /\ (dist ev p <=? dist ev (e2 h)) = true).
    Lemma span_full ev pts : Forall (good ev) pts -> exists r, span_of pts = Ret r /\ (forall h, r = Some h -> spans ev pts h /\ (sqn3 (sub3 (e1 h) (e2 h)) =? nz) = false) /\
      (r = None -> (length pts < 2)%nat \/ exists h, spans ev pts h /\ (sqn3 (sub3 (e1 h) (e2 h)) =? nz) = true).
    Proof.
      intro G. unfold span_of. destruct (Nat.ltb_spec (length pts) 2) as [L|L]; [exists None; split; [reflexivity|split; [discriminate|auto]]|].
      assert (SW : swo (fun pd : v3 * num => ok (snd pd)) (fun l r => snd l <? snd r)) by (apply (swo_by (Q := ok) (f := snd)); [auto|apply (num_swo O)]).
      assert (GO : Forall (fun pd : v3 * num => ok (snd pd)) pts) by (rewrite Forall_forall in *; intros x Hx; exact (proj1 (G _ Hx))).
      destruct (std_sort_ok nsorter SW GO) as (s & -> & SP & WS). cbn [obind].
      assert (LS : length s = length pts) by (apply Permutation_length; exact SP).
      assert (GS : Forall (good ev) s) by (rewrite Forall_forall in *; intros x Hx; apply G; exact (Permutation_in _ SP Hx)).
      destruct (nth_error s 0) as [[pmin dmin]|] eqn:N0; [|apply nth_error_None in N0; lia].
      destruct (nth_error s (length pts - 1)) as [[pmax dmax]|] eqn:N1; [|apply nth_error_None in N1; lia].
      rewrite Forall_forall in GS.
      destruct (GS _ (nth_error_In _ _ N0)) as (K1 & K2 & K3). destruct (GS _ (nth_error_In _ _ N1)) as (K4 & K5 & K6). cbn [fst snd] in *.
      rewrite <- LS in N1. assert (LE : (dmin <=? dmax) = true).
      { rewrite (ord_le O) by assumption. apply negb_true_iff. apply (wsorted_ends WS N0 N1). lia. }
      assert (TR : forall p d q d', good ev (p, d) -> good ev (q, d') -> (d' <? d) = false -> (dist ev p <=? dist ev q) = true).
      { intros p d q d' (P1 & P2 & P3) (Q1 & Q2 & Q3) H. cbn [fst snd] in *. rewrite (ord_le O) by assumption. apply negb_true_iff.
        rewrite <- (eqv_lt_l (num_swo O) Q1 Q2 P2 Q3). rewrite <- (eqv_lt_r (num_swo O) P1 P2 Q1 P3). exact H. }
      assert (SPN : spans ev pts (Edge pmin pmax)); [|destruct (sqn3 (sub3 pmin pmax) =? nz) eqn:Q;
        [exists None; split; [reflexivity|]; split; [discriminate|]; intros _; right; eauto|
         rewrite LE; cbn [check obind]; eexists; split; [reflexivity|]; split; [intros h E; injection E as <-; auto|discriminate]]].
      unfold spans. cbn [e1 e2].
      pose proof (wsorted_ends WS N0 N1 ltac:(lia)) as W1. cbn [snd] in W1.
      split; [exact (TR _ _ _ _ (GS _ (nth_error_In _ _ N0)) (GS _ (nth_error_In _ _ N1)) W1)|].
      split; [exists dmin; exact (Permutation_in _ SP (nth_error_In _ _ N0))|]. split; [exists dmax; exact (Permutation_in _ SP (nth_error_In _ _ N1))|].
      intros p d Hp. apply (Permutation_in _ (Permutation_sym SP)) in Hp. pose proof (GS _ Hp) as GP.
      assert (B : (d <? dmin) = false /\ (dmax <? d) = false).
      { apply In_nth_error in Hp. destruct Hp as [k Hp]. split.
        - destruct k as [|k]; [rewrite Hp in N0; injection N0 as -> ->; apply (ord_irr O)|].
          destruct s as [|x s]; [discriminate|]. simpl in N0, Hp. injection N0 as ->. inversion WS as [|? ? _ F]; subst.
          rewrite Forall_forall in F. exact (F _ (nth_error_In _ _ Hp)).
        - assert (LK : (k < length s)%nat) by (apply nth_error_Some; congruence). destruct (Nat.eq_dec k (length s - 1)) as [->|NE].
          + rewrite Hp in N1. injection N1 as -> ->. apply (ord_irr O).
          + apply (f_equal (fun o => o)) in N1. clear - WS Hp N1 NE LK. revert k Hp NE LK N1. induction WS as [|x s WS IH F]; intros k Hp NE LK N1; [destruct k; discriminate|].
            destruct k as [|k]; simpl in *.
            * injection Hp as ->. rewrite Nat.sub_0_r in N1. destruct (length s) as [|n] eqn:E; [lia|]. simpl in N1. rewrite Forall_forall in F. exact (F _ (nth_error_In _ _ N1)).
            * apply (IH k Hp); [lia|lia|]. rewrite Nat.sub_0_r in N1. destruct (length s) as [|n] eqn:E; [lia|]. simpl in N1. simpl. rewrite Nat.sub_0_r. exact N1. }
      destruct B as [B1 B2]. split; [exact (TR _ _ _ _ (GS _ (nth_error_In _ _ N0)) GP B1)|exact (TR _ _ _ _ GP (GS _ (nth_error_In _ _ N1)) B2)].
    Qed.
    Lemma span_good ev pts : Forall (good ev) pts -> exists r, span_of pts = Ret r /\ forall h, r = Some h -> spans ev pts h.
    Proof. intro G. destruct (span_full G) as (r & H1 & H2 & _). exists r. split; [exact H1|]. intros h E. exact (proj1 (H2 h E)). Qed.
    Lemma gen_fold_total p hs : Forall (straight p) hs -> forall st, exists r, fold_left (gen_step p) hs (Ret st) = Ret r.
    Proof.
      induction hs as [|h hs IH]; intros HF st; simpl; [eauto|]. inversion HF as [|? ? H1 H2]; subst. destruct st as [[from d] out]. cbn [gen_step obind].
      unfold straight, dist in H1. rewrite H1. cbn [check obind]. apply IH. exact H2.
    Qed.
    Definition measured (s : stl) : Prop := forall v ev, (v < unseen s)%nat -> nth_error (edges s) v = Some ev ->
      ok (dist ev (e1 ev)) /\ eqv nlt nz (dist ev (e1 ev)) /\ ok (dist ev (e2 ev)) /\
      forall u p, In (v, u, p) (hidden_by_list (edges s) (unseen s)) -> ok (dist ev p).
    Lemma to_lines_total s : ok nz -> (unseen s <= length (edges s))%nat -> (length (facets s) <= length (face_edge s))%nat -> measured s ->
      exists ls, to_lines s = Ret ls.
    Proof.
      intros HZ LU LF HM. unfold to_lines. destruct (edge_crosses_spec (edges s) (unseen s)) as (hbe & -> & T). cbn [obind].
      assert (H : exists hides, omap (fun v => match nth_error (edges s) v with
                                | None => Abort (AUB "edge index")
                                | Some p => do! hs <- edge_hides s hbe v; do! hs' <- sort_hides p hs; Ret (v, hs')
                                end) (seq 0 (unseen s)) = Ret hides /\ forall v ev hs, In (v, hs) hides -> nth_error (edges s) v = Some ev -> Forall (straight ev) hs).
      { assert (G : forall v, In v (seq 0 (unseen s)) -> exists ev hs, nth_error (edges s) v = Some ev /\ edge_hides s hbe v = Ret hs /\ Forall (fun h => straight ev h /\ ok (dist ev (e1 h))) hs).
        { intros v Hv. apply in_seq in Hv. destruct (nth_error (edges s) v) as [ev|] eqn:N; [|apply nth_error_None in N; lia].
          exists ev. destruct (HM v ev ltac:(lia) N) as (M1 & M2 & M3 & M4). unfold edge_hides. rewrite N.
          destruct (nth_error hbe v) as [hb|] eqn:N2; [|apply nth_error_None in N2; rewrite (t_len T) in N2; lia].
          rewrite (proj2 (Nat.ltb_ge _ _) LF).
          assert (FH : forall ff, In ff (combine (facets s) (face_edge s)) -> exists r, face_hides (fst ff) (snd ff) v ev hb = Ret r /\ forall h, r = Some h -> straight ev h /\ ok (dist ev (e1 h))).
          { intros [f [[a b] c]] _. cbn [fst snd]. unfold face_hides. destruct (_ || _ || _); [exists None; split; [reflexivity|discriminate]|].
            destruct (hidden_points_spec f (a, b, c) ev hb) as (l & -> & _ & HI). cbn [obind]. assert (GL : Forall (good ev) l).
            2:{ destruct (span_good GL) as (r & E & R). exists r. split; [exact E|]. intros h Hh. destruct (R h Hh) as (R1 & (d & R2) & _). split; [exact R1|].
                rewrite Forall_forall in GL. exact (proj1 (proj2 (GL _ R2))). }
            rewrite Forall_forall. intros [p d] Hp. apply HI in Hp. unfold good. cbn [fst snd] in *. destruct Hp as [(_ & -> & ->)|[(_ & -> & ->)|(-> & Hp)]].
            - auto.
            - split; [exact M3|]. split; [exact M3|]. apply (eqv_refl (num_swo O) M3).
            - assert (OKp : ok (dist ev p)) by (destruct Hp as [Hp|[Hp|Hp]]; apply (imap_in _ _ _ (t_sorted T _ N2)) in Hp; apply (t_in T _ N2) in Hp; exact (M4 _ _ Hp)).
              split; [exact OKp|]. split; [exact OKp|]. apply (eqv_refl (num_swo O) OKp). }
          assert (OT : exists l, omap (fun ff => face_hides (fst ff) (snd ff) v ev hb) (combine (facets s) (face_edge s)) = Ret l /\ forall h, In (Some h) l -> straight ev h /\ ok (dist ev (e1 h))).
          { clear - FH. induction (combine (facets s) (face_edge s)) as [|ff l IH]; simpl; [exists []; split; [reflexivity|intros h []]|].
            destruct (FH ff (or_introl eq_refl)) as (r & -> & R). cbn [obind]. destruct IH as (l' & -> & R'); [intros g Hg; apply FH; right; exact Hg|]. cbn [obind].
            eexists. split; [reflexivity|]. intros h [E|Hh]; [exact (R h E)|exact (R' h Hh)]. }
          destruct OT as (l & -> & R). cbn [obind]. exists (collect_some l). split; [reflexivity|]. split; [reflexivity|].
          clear - R. induction l as [|[h|] l IH]; simpl; [constructor| |].
          - constructor; [apply R; left; reflexivity|]. apply IH. intros h' Hh. apply R. right. exact Hh.
          - apply IH. intros h' Hh. apply R. right. exact Hh. }
        clear - G O. induction (seq 0 (unseen s)) as [|v l IH]; simpl; [exists []; split; [reflexivity|intros v ev hs []]|].
        destruct (G v (or_introl eq_refl)) as (ev & hs & N & -> & F). rewrite N. cbn [obind]. unfold sort_hides at 1.
        destruct (std_sort_ok nsorter (P := fun h => ok (dist ev (e1 h))) (lt := fun l r => dist ev (e1 l) <? dist ev (e1 r)) (l := hs)) as (hs1 & E1 & P1 & _);
          [apply (swo_by (Q := ok) (f := fun h => dist ev (e1 h))); [auto|apply (num_swo O)]|eapply Forall_impl; [|exact F]; intros h Q; exact (proj2 Q)|].
        unfold dist in E1. rewrite E1.
        cbn [obind]. destruct IH as (hides & -> & R); [intros w Hw; apply G; right; exact Hw|]. cbn [obind].
        eexists. split; [reflexivity|]. intros w ew hs' [E|Hw] Nw.
        - injection E as <- <-. rewrite N in Nw. injection Nw as <-. rewrite Forall_forall in *. intros h Hh. apply (F h). eapply Permutation_in; [exact P1|exact Hh].
        - exact (R _ _ _ Hw Nw). }
      destruct H as (hides & -> & R). cbn [obind]. unfold generate_lines.
      edestruct @omap_total as (ys & ->); [|cbn [obind]; eauto]. cbv beta. intros v Hv. apply in_seq in Hv.
      destruct (nth_error (edges s) v) as [ev|] eqn:N; [|apply nth_error_None in N; lia]. unfold gen_edge.
      assert (F : Forall (straight ev) (match imap_find v hides with Some h => h | None => [] end)).
      { destruct (imap_find v hides) as [h|] eqn:F; [|constructor]. destruct (P_Base.find_some F) as (k & HI & E). apply nat_eqv in E. subst k. exact (R _ _ _ HI N). }
      destruct (gen_fold_total F (e1 ev, nz, [])) as ([[from d] out] & ->). cbn [obind]. eauto.
    Qed.
  End Total.
End Cross.
