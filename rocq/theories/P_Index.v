(** P_Index.v - STLFile::Index: every side indexed once, smooth edges behind. *)
From Coq Require Import Permutation Sorted.
From Verif Require Import Base Num Geo Stl NumLaws P_Base P_Order P_Part.

Lemma map_ext_len {X Y} (l : list X) (m : list Y) : length l = length m -> map fst (combine l m) = l /\ map snd (combine l m) = m.
Proof.
  revert m. induction l as [|x l IH]; intros [|y m] H; simpl in *; try lia; [auto|].
  destruct (IH m ltac:(lia)) as [-> ->]. auto.
Qed.

Lemma skipn_cons {X} k (l : list X) x t : skipn k l = x :: t -> skipn (S k) l = t.
Proof. revert l. induction k as [|k IH]; intros [|y l] H; simpl in *; try discriminate; [congruence|]. exact (IH l H). Qed.

Section IndexGen.
  Context {A : Arith} (P : edge -> Prop) (SW : swo P edge_order).
  Notation eqvE := (eqv edge_order).
  Definition sidesP (f : facet) : Prop := forall k, P (side f k).

  (** The sides in the order they are added. *)
  Definition sides (nf : nat * facet) : list (edge * nat) :=
    [(side (snd nf) 0, fst nf); (side (snd nf) 1, fst nf); (side (snd nf) 2, fst nf)].
  Definition is_first (seen : list (edge * nat)) (e : edge) (a : nat) : Prop :=
    exists pre e' post, seen = pre ++ (e', a) :: post /\ eqvE e e' /\ forall x, In x pre -> ~ eqvE e (fst x).
  Definition is_last (seen : list (edge * nat)) (e : edge) (b : nat) : Prop :=
    exists pre e' post, seen = pre ++ (e', b) :: post /\ eqvE e e' /\ forall x, In x post -> ~ eqvE e (fst x).

  Record inv (s : idx_st) (seen : list (edge * nat)) : Prop := {
    inv_P : keysP P (i_dd s);
    inv_sorted : ssorted edge_order (map fst (i_dd s));
    inv_dd : forall k ix, In (k, ix) (i_dd s) <-> nth_error (i_edges s) ix = Some k;
    inv_len : length (i_ef s) = length (i_edges s);
    inv_ef : forall ix e, nth_error (i_edges s) ix = Some e ->
               exists a b, nth_error (i_ef s) ix = Some (a, b) /\ is_first seen e a /\ is_last seen e b;
    inv_all : forall e n, In (e, n) seen -> exists ix e', nth_error (i_edges s) ix = Some e' /\ eqvE e e';
    inv_only : forall ix e, nth_error (i_edges s) ix = Some e -> exists n, In (e, n) seen;
    inv_ok : Forall (fun x => P (fst x)) seen
  }.

  Lemma nth_error_snoc {X} (l : list X) x i y : nth_error (l ++ [x]) i = Some y <-> nth_error l i = Some y \/ (i = length l /\ y = x).
  Proof.
    destruct (Nat.lt_ge_cases i (length l)) as [L|L].
    - rewrite nth_error_app1 by exact L. split; [auto|]. intros [H|[H _]]; [exact H|lia].
    - rewrite nth_error_app2 by exact L. assert (N : nth_error l i = None) by (apply nth_error_None; exact L). rewrite N.
      destruct (i - length l) as [|d] eqn:D; simpl.
      + split; [|intros [H|[_ ->]]; [discriminate|reflexivity]]. intro H; injection H as <-. right. split; [lia|reflexivity].
      + split; [destruct d; discriminate|]. intros [H|[H _]]; [discriminate|lia].
  Qed.

  Lemma inv_edge_ok s seen ix e : inv s seen -> nth_error (i_edges s) ix = Some e -> P e.
  Proof.
    intros I H. destruct (inv_only I _ H) as (n & Hn). pose proof (inv_ok I) as K. rewrite Forall_forall in K. exact (K _ Hn).
  Qed.

  Lemma add_edge_inv s seen e f : P e -> inv s seen -> inv (add_edge s e f) (seen ++ [(e, f)]).
  Proof.
    intros He I. unfold add_edge. destruct (smap_find edge_order e (i_dd s)) as [ix|] eqn:F.
    - (* known edge *)
      destruct (P_Base.find_some F) as (k' & Hk & HE). apply (inv_dd I) in Hk.
      pose proof (inv_edge_ok _ I Hk) as Hk'.
      destruct (inv_ef I _ Hk) as (a & b & Hef & HF & HL). rewrite Hef.
      assert (LI : ix < length (i_ef s)) by (apply nth_error_Some; congruence).
      constructor; cbn [i_dd i_edges i_ef].
      + exact (inv_P I). + exact (inv_sorted I). + exact (inv_dd I).
      + rewrite set_nth_length. exact (inv_len I).
      + intros jx e' Hj. rewrite nth_error_set_nth. pose proof (inv_edge_ok _ I Hj) as He'.
        destruct (inv_ef I _ Hj) as (a' & b' & Hef' & (p1 & q1 & r1 & S1 & E1 & N1) & (p2 & q2 & r2 & S2 & E2 & N2)).
        destruct (Nat.eqb_spec jx ix) as [->|NE].
        * rewrite (proj2 (Nat.ltb_lt _ _) LI). cbn [andb]. assert (a' = a) by congruence. subst a'. exists a, f. split; [reflexivity|]. split.
          -- exists p1, q1, (r1 ++ [(e, f)]). split; [rewrite S1; rewrite <- app_assoc; reflexivity|]. auto.
          -- exists seen, e, []. split; [reflexivity|]. split; [|intros x []]. assert (e' = k') by congruence. subst e'. apply eqv_sym; exact HE.
        * cbn [andb]. exists a', b'. split; [exact Hef'|]. split.
          -- exists p1, q1, (r1 ++ [(e, f)]). split; [rewrite S1; rewrite <- app_assoc; reflexivity|]. auto.
          -- exists p2, q2, (r2 ++ [(e, f)]). split; [rewrite S2; rewrite <- app_assoc; reflexivity|]. split; [exact E2|].
             intros x Hx. apply in_app_or in Hx. destruct Hx as [Hx|[<-|[]]]; [apply N2, Hx|]. cbn [fst]. intro Q. apply NE.
             (* e' ~ e ~ k' : both in dd *)
             assert (Q' : eqvE e' k') by (eapply (eqv_trans SW); [exact He'|exact He|exact Hk'|exact Q|exact HE]).
             pose proof (proj2 (inv_dd I _ _) Hj) as D1. pose proof (proj2 (inv_dd I _ _) Hk) as D2.
             pose proof (find_in SW (inv_P I) (inv_sorted I) D1) as F1. pose proof (find_in SW (inv_P I) (inv_sorted I) D2) as F2.
             rewrite (find_eqv SW He' Hk' (inv_P I) Q') in F1. congruence.
      + intros e' n Hn. apply in_app_or in Hn. destruct Hn as [Hn|[Hn|[]]]; [exact (inv_all I _ _ Hn)|]. injection Hn as <- <-. eauto.
      + intros jx e' Hj. destruct (inv_only I _ Hj) as (n & Hn). exists n. apply in_or_app. auto.
      + apply Forall_app. split; [exact (inv_ok I)|]. constructor; [exact He|constructor].
    - (* new edge *)
      assert (NEW : forall ix e', nth_error (i_edges s) ix = Some e' -> ~ eqvE e e').
      { intros ix e' H. exact (find_none SW He (inv_P I) (inv_sorted I) F (proj2 (inv_dd I _ _) H)). }
      assert (NEWs : forall x, In x seen -> ~ eqvE e (fst x)).
      { intros [e' n] Hx Q. cbn [fst] in Q. destruct (inv_all I _ _ Hx) as (ix & e'' & H & Q').
        pose proof (inv_ok I) as OKs. rewrite Forall_forall in OKs. specialize (OKs _ Hx). cbn [fst] in OKs.
        apply (NEW _ _ H). eapply (eqv_trans SW); [exact He|exact OKs|exact (inv_edge_ok _ I H)|exact Q|exact Q']. }
      constructor; cbn [i_dd i_edges i_ef].
      + apply emplace_P; [exact He|exact (inv_P I)].
      + apply (emplace_sorted SW); [exact He|exact (inv_P I)|exact (inv_sorted I)].
      + intros k ix. rewrite emplace_in, nth_error_snoc, (inv_dd I). split.
        * intros [[_ H]|H]; [injection H as -> ->; auto|auto].
        * intros [H|[-> ->]]; auto.
      + rewrite !app_length. simpl. rewrite (inv_len I). reflexivity.
      + intros ix e' H. apply nth_error_snoc in H. destruct H as [H|[-> ->]].
        * destruct (inv_ef I _ H) as (a & b & Hef & (p1 & q1 & r1 & S1 & E1 & N1) & (p2 & q2 & r2 & S2 & E2 & N2)).
          exists a, b. split; [apply nth_error_snoc; auto|]. split.
          -- exists p1, q1, (r1 ++ [(e, f)]). split; [rewrite S1; rewrite <- app_assoc; reflexivity|]. auto.
          -- exists p2, q2, (r2 ++ [(e, f)]). split; [rewrite S2; rewrite <- app_assoc; reflexivity|]. split; [exact E2|].
             intros x Hx. apply in_app_or in Hx. destruct Hx as [Hx|[<-|[]]]; [apply N2, Hx|]. cbn [fst]. intro Q.
             exact (NEW _ _ H (eqv_sym Q)).
        * exists f, f. split; [apply nth_error_snoc; right; split; [symmetry; exact (inv_len I)|reflexivity]|]. split.
          -- exists seen, e, []. split; [reflexivity|]. split; [apply (eqv_refl SW He)|exact NEWs].
          -- exists seen, e, []. split; [reflexivity|]. split; [apply (eqv_refl SW He)|]. intros x [].
      + intros e' n Hn. apply in_app_or in Hn. destruct Hn as [Hn|[Hn|[]]].
        * destruct (inv_all I _ _ Hn) as (ix & e'' & H & Q). exists ix, e''. split; [apply nth_error_snoc; auto|exact Q].
        * injection Hn as <- <-. exists (length (i_edges s)), e. split; [apply nth_error_snoc; auto|apply (eqv_refl SW He)].
      + intros ix e' H. apply nth_error_snoc in H. destruct H as [H|[-> ->]].
        * destruct (inv_only I _ H) as (n & Hn). exists n. apply in_or_app. auto.
        * exists f. apply in_or_app. right. left. reflexivity.
      + apply Forall_app. split; [exact (inv_ok I)|]. constructor; [exact He|constructor].
  Qed.

  Lemma add_facet_inv s seen nf : sidesP (snd nf) -> inv s seen -> inv (add_facet s nf) (seen ++ sides nf).
  Proof.
    intros H I. destruct nf as [n f]. unfold add_facet, sides. cbn [fst snd] in *.
    replace (seen ++ [(side f 0, n); (side f 1, n); (side f 2, n)]) with (((seen ++ [(side f 0, n)]) ++ [(side f 1, n)]) ++ [(side f 2, n)])
      by (rewrite <- !app_assoc; reflexivity).
    apply add_edge_inv; [apply H|]. apply add_edge_inv; [apply H|]. apply add_edge_inv; [apply H|exact I].
  Qed.
  Lemma inv_init : inv (Idx [] [] []) [].
  Proof.
    constructor; cbn; try (constructor; fail); try reflexivity.
    - intros k ix. split; [intros []|]. destruct ix; discriminate.
    - intros [|ix] e; discriminate.
    - intros e n [].
    - intros [|ix] e; discriminate.
  Qed.
  Definition all_sides (fs : list facet) : list (edge * nat) := flat_map sides (enum fs).
  Lemma collect_inv fs : Forall sidesP fs -> inv (collect_edges fs) (all_sides fs).
  Proof.
    intro HF. unfold collect_edges, all_sides.
    assert (G : forall l s seen, Forall (fun nf => sidesP (snd nf)) l -> inv s seen -> inv (fold_left add_facet l s) (seen ++ flat_map sides l)).
    { induction l as [|nf l IH]; intros s seen HL I; cbn [fold_left flat_map]; [rewrite app_nil_r; exact I|]. inversion HL; subst.
      rewrite app_assoc. apply IH; [assumption|]. apply add_facet_inv; assumption. }
    change (flat_map sides (enum fs)) with ([] ++ flat_map sides (enum fs)). apply G; [|apply inv_init].
    rewrite Forall_forall in *. intros [n f] Hn. apply enum_nth in Hn. apply HF. eapply nth_error_In. exact Hn.
  Qed.

  (** ** Suppressing smooth edges *)
  Lemma combine_set_nth {X Y} k x y (l : list X) (m : list Y) : length l = length m ->
    combine (set_nth k x l) (set_nth k y m) = set_nth k (x, y) (combine l m).
  Proof.
    intro H. unfold set_nth. rewrite combine_length, H, Nat.min_id. destruct (k <? length m)%nat; [|reflexivity].
    revert l m H. induction k as [|k IH]; intros [|a l] [|b m] H; simpl in *; try lia; try reflexivity. f_equal. apply IH. lia.
  Qed.
  Lemma nth_error_combine {X Y} (l : list X) (m : list Y) k : nth_error (combine l m) k =
    match nth_error l k, nth_error m k with Some x, Some y => Some (x, y) | _, _ => None end.
  Proof.
    revert l m. induction k as [|k IH]; intros [|a l] [|b m]; simpl; try reflexivity.
    - destruct (nth_error l k); reflexivity.
    - apply IH.
  Qed.
  Lemma combine_swap {X Y} i j (l : list X) (m : list Y) : length l = length m ->
    combine (swap_nth i j l) (swap_nth i j m) = swap_nth i j (combine l m).
  Proof.
    intro H. unfold swap_nth. rewrite !nth_error_combine.
    destruct (nth_error l i) as [xi|] eqn:L1; destruct (nth_error m i) as [yi|] eqn:M1.
    - destruct (nth_error l j) as [xj|] eqn:L2; destruct (nth_error m j) as [yj|] eqn:M2; try reflexivity.
      + rewrite !combine_set_nth; [reflexivity|exact H|rewrite !set_nth_length; exact H].
      + apply nth_error_None in M2. assert (j < length l) by (apply nth_error_Some; congruence). lia.
      + apply nth_error_None in L2. assert (j < length m) by (apply nth_error_Some; congruence). lia.
    - apply nth_error_None in M1. assert (i < length l) by (apply nth_error_Some; congruence). lia.
    - apply nth_error_None in L1. assert (i < length m) by (apply nth_error_Some; congruence). lia.
    - reflexivity.
  Qed.
  Lemma hide_part fs fuel : forall i j ef es, length ef = length es -> j <= length ef ->
    hide_loop fs fuel i j ef es =
    let '(l, j') := part_loop (fun x => negb (smooth fs (fst x))) fuel i j (combine ef es) in (map fst l, map snd l, j').
  Proof.
    induction fuel as [|fuel IH]; intros i j ef es HL HJ; cbn [hide_loop part_loop].
    { destruct (map_ext_len ef es HL) as [-> ->]. reflexivity. }
    destruct (i <? j)%nat.
    2:{ destruct (map_ext_len ef es HL) as [-> ->]. reflexivity. }
    rewrite nth_error_combine. destruct (nth_error ef i) as [p|] eqn:N1.
    2:{ destruct (map_ext_len ef es HL) as [-> ->]. reflexivity. }
    destruct (nth_error es i) as [e|] eqn:N2.
    2:{ apply nth_error_None in N2. assert (i < length ef) by (apply nth_error_Some; congruence). lia. }
    cbn [fst]. destruct (smooth fs p); cbn [negb].
    - rewrite IH by (rewrite !swap_nth_length; lia). rewrite combine_swap by exact HL. reflexivity.
    - apply IH; assumption.
  Qed.

  (** ** The second map *)
  Record inv2 (es : list edge) (n : nat) (dd : list (edge * nat)) : Prop := {
    i2_P : keysP P dd;
    i2_sorted : ssorted edge_order (map fst dd);
    i2_dd : forall k ix, In (k, ix) dd <-> ix < n /\ nth_error es ix = Some k
  }.
  Definition distinct (es : list edge) : Prop := forall i j a b, nth_error es i = Some a -> nth_error es j = Some b -> eqvE a b -> i = j.
  Lemma reindex_inv es : Forall P es -> distinct es -> inv2 es (length es) (reindex es).
  Proof.
    intros HO HD. unfold reindex, enum.
    assert (G : forall l k dd, inv2 es k dd -> skipn k es = l -> inv2 es (k + length l) (fold_left (fun m ie => smap_assign edge_order (snd ie) (fst ie) m) (combine (seq k (length l)) l) dd)).
    { induction l as [|e l IH]; intros k dd I HS; simpl; [rewrite Nat.add_0_r; exact I|].
      assert (NK : nth_error es k = Some e).
      { rewrite <- (firstn_skipn k es), HS. assert (LK : k < length es).
        { destruct (Nat.lt_ge_cases k (length es)) as [L|L]; [exact L|]. rewrite skipn_all2 in HS by exact L. discriminate. }
        rewrite nth_error_app2; rewrite firstn_length_le by lia; [|lia]. rewrite Nat.sub_diag. reflexivity. }
      assert (He : P e) by (rewrite Forall_forall in HO; apply HO; eapply nth_error_In; exact NK).
      rewrite <- Nat.add_succ_comm. apply IH.
      2:{ exact (skipn_cons _ _ HS). }
      assert (FN : smap_find edge_order e dd = None).
      { destruct (smap_find edge_order e dd) as [ix|] eqn:F; [|reflexivity]. destruct (P_Base.find_some F) as (k' & Hk & HE).
        apply (i2_dd I) in Hk. destruct Hk as [L Hk]. assert (k = ix) by (eapply HD; [exact NK|exact Hk|exact HE]). lia. }
      rewrite (assign_none _ FN). constructor.
      - apply emplace_P; [exact He|exact (i2_P I)].
      - apply (emplace_sorted SW); [exact He|exact (i2_P I)|exact (i2_sorted I)].
      - intros q ix. rewrite emplace_in, (i2_dd I). split.
        + intros [[_ H]|[H1 H2]]; [injection H as -> ->; split; [lia|exact NK]|split; [lia|exact H2]].
        + intros [H1 H2]. destruct (Nat.eq_dec ix k) as [->|NE]; [left; split; [exact FN|congruence]|right; split; [lia|exact H2]]. }
    specialize (G es 0 []). simpl in G. apply G; [|reflexivity]. constructor; [constructor|constructor|].
    intros k ix. split; [intros []|intros [H _]; lia].
  Qed.

  (** ** The result *)
  Lemma all_sides_in fs e n : In (e, n) (all_sides fs) <-> exists f, nth_error fs n = Some f /\ (e = side f 0 \/ e = side f 1 \/ e = side f 2).
  Proof.
    unfold all_sides. rewrite in_flat_map. split.
    - intros ([m f] & HI & HS). unfold enum in HI. apply enum_nth in HI. unfold sides in HS. cbn [fst snd In] in HS.
      destruct HS as [H|[H|[H|[]]]]; injection H as <- <-; exists f; auto.
    - intros (f & HI & HS). exists (n, f). split; [apply enum_nth; exact HI|]. unfold sides. cbn [fst snd In].
      destruct HS as [->|[->| ->]]; auto.
  Qed.
  (** facet number n has e as one of its sides *)
  Definition lists (fs : list facet) (e : edge) (n : nat) : Prop :=
    exists f k, nth_error fs n = Some f /\ k < 3 /\ eqvE e (side f k).
  Lemma seen_sorted fs : StronglySorted le (map snd (all_sides fs)).
  Proof.
    unfold all_sides, enum. enough (H : forall k, StronglySorted le (map snd (flat_map sides (combine (seq k (length fs)) fs))) /\
      Forall (fun n => k <= n) (map snd (flat_map sides (combine (seq k (length fs)) fs)))) by apply (H 0).
    induction fs as [|f fs IH]; intro k; simpl; [split; constructor|]. destruct (IH (S k)) as [S1 F1].
    assert (F2 : Forall (fun n => k <= n) (map snd (flat_map sides (combine (seq (S k) (length fs)) fs)))).
    { eapply Forall_impl; [|exact F1]. intros; simpl in *; lia. }
    split; [repeat constructor; auto|]. repeat constructor; auto.
  Qed.
  Lemma first_lists fs e a : is_first (all_sides fs) e a -> lists fs e a /\ forall m, m < a -> ~ lists fs e m.
  Proof.
    intros (pre & e' & post & HS & HE & HN). split.
    - assert (HI : In (e', a) (all_sides fs)) by (rewrite HS; apply in_or_app; right; left; reflexivity).
      apply all_sides_in in HI. destruct HI as (f & Hf & HK). destruct HK as [->|[->| ->]]; [exists f, 0|exists f, 1|exists f, 2]; (split; [exact Hf|split; [lia|exact HE]]).
    - intros m Hm (f & k & Hf & Hk & HQ).
      assert (HI : In (side f k, m) (all_sides fs)).
      { apply all_sides_in. exists f. split; [exact Hf|]. destruct k as [|[|[|k]]]; auto; lia. }
      rewrite HS in HI. apply in_app_or in HI. destruct HI as [HI|HI]; [exact (HN _ HI HQ)|].
      pose proof (seen_sorted fs) as S. rewrite HS, map_app in S. clear - S HI Hm. induction pre as [|x pre IH]; simpl in S.
      + inversion S as [|? ? _ F]; subst. destruct HI as [HI|HI]; [injection HI as _ ->; lia|]. rewrite Forall_forall in F.
        apply (in_map snd) in HI. specialize (F _ HI). cbn [snd] in F. lia.
      + inversion S; subst. apply IH. assumption.
  Qed.
  Lemma last_lists fs e b : is_last (all_sides fs) e b -> lists fs e b /\ forall m, b < m -> ~ lists fs e m.
  Proof.
    intros (pre & e' & post & HS & HE & HN). split.
    - assert (HI : In (e', b) (all_sides fs)) by (rewrite HS; apply in_or_app; right; left; reflexivity).
      apply all_sides_in in HI. destruct HI as (f & Hf & HK). destruct HK as [->|[->| ->]]; [exists f, 0|exists f, 1|exists f, 2]; (split; [exact Hf|split; [lia|exact HE]]).
    - intros m Hm (f & k & Hf & Hk & HQ).
      assert (HI : In (side f k, m) (all_sides fs)).
      { apply all_sides_in. exists f. split; [exact Hf|]. destruct k as [|[|[|k]]]; auto; lia. }
      rewrite HS in HI. apply in_app_or in HI.
      pose proof (seen_sorted fs) as S. rewrite HS, map_app in S.
      destruct HI as [HI|[HI|HI]]; [|injection HI as _ HI; lia|exact (HN _ HI HQ)].
      clear - S HI Hm. induction pre as [|x pre IH]; simpl in S; [destruct HI|]. inversion S as [|? ? S' F]; subst.
      destruct HI as [->|HI]; [|exact (IH HI S')]. rewrite Forall_forall in F.
      assert (b_in : In b (map snd pre ++ map snd ((e', b) :: post))) by (apply in_or_app; right; left; reflexivity).
      specialize (F _ b_in). cbn [snd] in F. lia.
  Qed.

  (** An edge is suppressed: its first and last facets differ and do not bend. *)
  Definition suppressed (fs : list facet) (e : edge) : Prop :=
    exists a b fa fb, (lists fs e a /\ forall m, m < a -> ~ lists fs e m) /\ (lists fs e b /\ forall m, b < m -> ~ lists fs e m) /\
      a <> b /\ nth_error fs a = Some fa /\ nth_error fs b = Some fb /\ (dot3 (fnorm fa) (fnorm fb) <? of_dec 98 (-2))%num = false.

  Record indexed (fs : list facet) (m : stl) : Prop := {
    ix_facets : facets m = fs;
    ix_ok : Forall P (edges m);
    ix_distinct : distinct (edges m);
    ix_all : forall f k, In f fs -> k < 3 -> exists e, In e (edges m) /\ eqvE (side f k) e;
    ix_only : forall e, In e (edges m) -> exists f k, In f fs /\ k < 3 /\ e = side f k;
    ix_len : length (face_edge m) = length fs;
    ix_fe : forall i f a b c, nth_error fs i = Some f -> nth_error (face_edge m) i = Some (a, b, c) ->
      (exists e, nth_error (edges m) a = Some e /\ eqvE (side f 0) e) /\
      (exists e, nth_error (edges m) b = Some e /\ eqvE (side f 1) e) /\
      (exists e, nth_error (edges m) c = Some e /\ eqvE (side f 2) e);
    ix_unseen : unseen m <= length (edges m);
    ix_smooth : forall k e, nth_error (edges m) k = Some e -> (k < unseen m <-> ~ suppressed fs e)
  }.

  Lemma keys_ok fs : Forall sidesP fs -> Forall P (map_keys fs).
  Proof.
    intro HF. unfold map_keys. induction HF as [|f fs H _ IH]; cbn [flat_map app]; [constructor|]. repeat (constructor; [apply H|]). exact IH.
  Qed.
  Lemma index_gen fs : Forall sidesP fs -> exists m, index fs = Ret m /\ indexed fs m.
  Proof.
    intro HF. pose proof (collect_inv HF) as I. unfold index. rewrite (strict_weak_ok SW (keys_ok HF)). set (s := collect_edges fs) in *.
    rewrite hide_part; [|exact (inv_len I)|rewrite (inv_len I); lia].
    assert (LC : length (combine (i_ef s) (i_edges s)) = length (i_edges s)) by (rewrite combine_length, (inv_len I); lia).
    destruct (part_loop _ _ _ _ _) as [l un] eqn:PL. rewrite <- LC in PL.
    destruct (part_full _ _ PL) as (PM & LU & F1 & F2 & _). rewrite LC in LU.
    set (es := map snd l).
    assert (LL : length l = length (i_edges s)) by (rewrite (Permutation_length PM); exact LC).
    assert (PE : Permutation es (i_edges s)).
    { unfold es. eapply perm_trans; [apply Permutation_map; exact PM|].
      destruct (map_ext_len (i_ef s) (i_edges s) (inv_len I)) as [_ ->]. apply Permutation_refl. }
    (* entries of l *)
    assert (EL : forall a b e, In ((a, b), e) l -> is_first (all_sides fs) e a /\ is_last (all_sides fs) e b).
    { intros a b e H. apply (Permutation_in _ PM) in H. apply In_nth_error in H. destruct H as [ix H]. rewrite nth_error_combine in H.
      destruct (nth_error (i_ef s) ix) as [p|] eqn:N1; [|discriminate]. destruct (nth_error (i_edges s) ix) as [e'|] eqn:N2; [|discriminate].
      injection H as -> ->. destruct (inv_ef I _ N2) as (a' & b' & N3 & H1 & H2). rewrite N1 in N3. injection N3 as -> ->. auto. }
    assert (OKes : Forall P es).
    { rewrite Forall_forall. intros e He. apply (Permutation_in _ PE) in He. apply In_nth_error in He. destruct He as [ix He]. exact (inv_edge_ok _ I He). }
    assert (Dorig : distinct (i_edges s)).
    { intros i j a b Ha Hb Q. pose proof (proj2 (inv_dd I _ _) Ha) as D1. pose proof (proj2 (inv_dd I _ _) Hb) as D2.
      pose proof (find_in SW (inv_P I) (inv_sorted I) D1) as G1. pose proof (find_in SW (inv_P I) (inv_sorted I) D2) as G2.
      rewrite (find_eqv SW (inv_edge_ok _ I Ha) (inv_edge_ok _ I Hb) (inv_P I) Q) in G1. congruence. }
    assert (Des : distinct es).
    { pose proof (Permutation_sym PE) as PS. apply Permutation_nth_error in PS. destruct PS as (_ & f & INJ & HN). intros i j a b Ha Hb Q. rewrite HN in Ha, Hb.
      apply INJ. exact (Dorig _ _ _ _ Ha Hb Q). }
    pose proof (reindex_inv OKes Des) as I2.
    assert (FIND : forall f k, In f fs -> k < 3 -> exists ix e, smap_find edge_order (side f k) (reindex es) = Some ix /\ nth_error es ix = Some e /\ eqvE (side f k) e).
    { intros f k Hf Hk. pose proof Hf as Hn. apply In_nth_error in Hn. destruct Hn as [n Hn].
      assert (HI : In (side f k, n) (all_sides fs)) by (apply all_sides_in; exists f; split; [exact Hn|]; destruct k as [|[|[|k]]]; auto; lia).
      destruct (inv_all I _ _ HI) as (ix & e & He & Q). apply nth_error_In in He. apply (Permutation_in _ (Permutation_sym PE)) in He.
      apply In_nth_error in He. destruct He as [jx He].
      assert (OKs : P (side f k)) by (rewrite Forall_forall in HF; apply (HF f Hf)).
      assert (OKe : P e) by (rewrite Forall_forall in OKes; apply OKes; eapply nth_error_In; exact He).
      exists jx, e. split; [|split; [exact He|exact Q]].
      rewrite (find_eqv SW OKs OKe (i2_P I2) Q). apply (find_in SW (i2_P I2) (i2_sorted I2)). apply (i2_dd I2). split; [|exact He].
      apply nth_error_Some. congruence. }
    assert (UF : forall f, In f fs -> exists a b c, update_face (reindex es) f = Ret (a, b, c) /\
      (exists e, nth_error es a = Some e /\ eqvE (side f 0) e) /\ (exists e, nth_error es b = Some e /\ eqvE (side f 1) e) /\
      (exists e, nth_error es c = Some e /\ eqvE (side f 2) e)).
    { intros f Hf. destruct (FIND f 0 Hf ltac:(lia)) as (a & ea & G1 & G2 & G3). destruct (FIND f 1 Hf ltac:(lia)) as (b & eb & G4 & G5 & G6).
      destruct (FIND f 2 Hf ltac:(lia)) as (c & ec & G7 & G8 & G9). exists a, b, c. unfold update_face, update_edge. rewrite G1, G4, G7. cbn [obind].
      split; [reflexivity|]. eauto 10. }
    assert (TOT : exists fe, omap (update_face (reindex es)) fs = Ret fe).
    { clear - UF. induction fs as [|f fs IH]; simpl; [eauto|]. destruct (UF f (or_introl eq_refl)) as (a & b & c & -> & _). cbn [obind].
      destruct IH as [fe ->]; [intros g Hg; apply UF; right; exact Hg|]. cbn [obind]. eauto. }
    destruct TOT as [fe HFE]. fold es. rewrite HFE. cbn [obind]. eexists. split; [reflexivity|].
    constructor; cbn [facets edges face_edge unseen].
    - reflexivity.
    - exact OKes.
    - exact Des.
    - intros f k Hf Hk. destruct (FIND f k Hf Hk) as (ix & e & _ & He & Q). exists e. split; [eapply nth_error_In; exact He|exact Q].
    - intros e He. apply (Permutation_in _ PE) in He. apply In_nth_error in He. destruct He as [ix He]. destruct (inv_only I _ He) as (n & Hn).
      apply all_sides_in in Hn. destruct Hn as (f & Hf & HK). apply nth_error_In in Hf. destruct HK as [->|[->| ->]]; [exists f, 0|exists f, 1|exists f, 2]; (split; [exact Hf|split; [lia|reflexivity]]).
    - rewrite (omap_length _ _ HFE). reflexivity.
    - intros i f a b c Hf Hc. edestruct @omap_nth as (y & Hy & HY); [exact HFE|exact Hf|]. assert (HYc : y = (a, b, c)) by congruence. subst y.
      destruct (UF f (nth_error_In _ _ Hf)) as (a' & b' & c' & HU & H1 & H2 & H3). rewrite HU in HY. injection HY as -> -> ->. auto.
    - unfold es. rewrite map_length. lia.
    - intros k e He. unfold es in He. rewrite nth_error_map in He. destruct (nth_error l k) as [[[a b] e']|] eqn:NL; [|discriminate]. injection He as ->.
      destruct (EL _ _ _ (nth_error_In _ _ NL)) as [HA HB]. apply first_lists in HA. apply last_lists in HB.
      assert (SM : smooth fs (a, b) = true <-> suppressed fs e).
      { unfold smooth. split.
        - destruct (Nat.eqb_spec a b) as [|NE]; [discriminate|]. destruct (nth_error fs a) as [fa|] eqn:Na; [|discriminate].
          destruct (nth_error fs b) as [fb|] eqn:Nb; [|discriminate]. intro H. exists a, b, fa, fb. apply negb_true_iff in H.
          split; [exact HA|]. split; [exact HB|]. split; [exact NE|]. split; [exact Na|]. split; [exact Nb|exact H].
        - intros (a' & b' & fa & fb & HA' & HB' & NE & Na & Nb & H).
          assert (a' = a). { destruct HA as [A1 A2], HA' as [A3 A4]. destruct (Nat.lt_trichotomy a a') as [L|[L|L]]; [destruct (A4 _ L A1)|auto|destruct (A2 _ L A3)]. }
          assert (b' = b). { destruct HB as [A1 A2], HB' as [A3 A4]. destruct (Nat.lt_trichotomy b b') as [L|[L|L]]; [destruct (A2 _ L A3)|auto|destruct (A4 _ L A1)]. }
          subst a' b'. apply Nat.eqb_neq in NE. rewrite NE, Na, Nb. unfold min_ang. rewrite H. reflexivity. }
      split.
      + intros L S. apply SM in S. assert (IN : In ((a, b), e) (firstn un l)).
        { rewrite <- (firstn_skipn un l) in NL. rewrite nth_error_app1 in NL by (rewrite firstn_length_le; lia). eapply nth_error_In. exact NL. }
        rewrite Forall_forall in F1. specialize (F1 _ IN). cbn [fst] in F1. rewrite S in F1. discriminate.
      + intro NS. destruct (Nat.lt_ge_cases k un) as [L|L]; [exact L|]. exfalso. apply NS, SM.
        assert (IN : In ((a, b), e) (skipn un l)).
        { rewrite <- (firstn_skipn un l) in NL. rewrite nth_error_app2 in NL by (rewrite firstn_length_le; lia). eapply nth_error_In. exact NL. }
        rewrite Forall_forall in F2. specialize (F2 _ IN). cbn [fst] in F2. apply negb_false_iff in F2. exact F2.
  Qed.
End IndexGen.

Section Index.
  Context {A : Arith} (O : ordered A).
  Notation eqvE := (eqv edge_order).

  Lemma mk_edge_ok a b : ok3 a -> ok3 b -> okE (mk_edge a b).
  Proof. intros Ha Hb. unfold mk_edge. destruct (order a b); split; assumption. Qed.
  Lemma mk_edge_ends a b : (mk_edge a b = Edge a b) \/ (mk_edge a b = Edge b a).
  Proof. unfold mk_edge. destruct (order a b); auto. Qed.
  Lemma mk_edge_sym a b : ok3 a -> ok3 b -> eqvE (mk_edge a b) (mk_edge b a).
  Proof.
    intros Ha Hb. apply (edge_order_eqv O); [apply mk_edge_ok; assumption..|]. unfold mk_edge, eqE.
    destruct (order a b) eqn:AB, (order b a) eqn:BA; cbn [e1 e2].
    - rewrite (swo_asym (order_swo O) Ha Hb AB) in BA. discriminate.
    - rewrite !eq3_refl by assumption. auto.
    - rewrite !eq3_refl by assumption. auto.
    - assert (E : eq3 a b = true) by (apply (order_eqv O); [assumption..|split; assumption]).
      split; [apply (eq3_sym O); exact E|exact E].
  Qed.
  Lemma mk_edge_eqv a b a' b' : ok3 a -> ok3 b -> ok3 a' -> ok3 b' -> eq3 a a' = true -> eq3 b b' = true ->
    eqvE (mk_edge a b) (mk_edge a' b').
  Proof.
    intros Ha Hb Ha' Hb' E1 E2. pose proof (proj2 (order_eqv O Ha Ha') E1) as Q1. pose proof (proj2 (order_eqv O Hb Hb') E2) as Q2.
    apply (edge_order_eqv O); [apply mk_edge_ok; assumption..|]. unfold mk_edge, eqE.
    rewrite (eqv_lt_l (order_swo O) Ha Ha' Hb Q1), (eqv_lt_r (order_swo O) Hb Hb' Ha' Q2).
    destruct (order a' b'); cbn [e1 e2]; auto.
  Qed.

  Definition okF (f : facet) : Prop := ok3 (fe0 f) /\ ok3 (fe1 f) /\ ok3 (fe2 f).
  Lemma side_ok f k : okF f -> okE (side f k).
  Proof. intros (H0 & H1 & H2). destruct k as [|[|k]]; apply mk_edge_ok; assumption. Qed.
  Lemma index_spec fs : Forall okF fs -> exists m, index fs = Ret m /\ indexed okE fs m.
  Proof.
    intro HF. apply (index_gen (edge_order_swo O)). eapply Forall_impl; [|exact HF]. intros f H k. exact (side_ok k H).
  Qed.
End Index.

(** ** With any arithmetic *)
Section IndexAny.
  Context {A : Arith}.
  Lemma key_in fs f k : In f fs -> In (side f k) (map_keys fs).
  Proof. intro H. apply in_flat_map. exists f. split; [exact H|]. destruct k as [|[|k]]; simpl; auto. Qed.
  Lemma index_any fs : strict_weak edge_order (map_keys fs) = true ->
    exists m, index fs = Ret m /\ indexed (fun e => In e (map_keys fs)) fs m.
  Proof.
    intro H. apply strict_weak_iff in H. apply (index_gen H). apply Forall_forall. intros f Hf k. exact (key_in fs f k Hf).
  Qed.
  Lemma index_abort fs e : index fs = Abort e -> e = AUB "std::map without a strict weak ordering" /\ strict_weak edge_order (map_keys fs) = false.
  Proof.
    intro H. destruct (strict_weak edge_order (map_keys fs)) eqn:E.
    - destruct (index_any fs E) as (m & HM & _). congruence.
    - unfold index in H. rewrite E in H. injection H as <-. auto.
  Qed.
  Lemma index_ret fs m : index fs = Ret m -> strict_weak edge_order (map_keys fs) = true /\ indexed (fun e => In e (map_keys fs)) fs m.
  Proof.
    intro H. destruct (strict_weak edge_order (map_keys fs)) eqn:E.
    - destruct (index_any fs E) as (m' & HM & I). split; [reflexivity|congruence].
    - unfold index in H. rewrite E in H. discriminate.
  Qed.
End IndexAny.
