(** P_Base.v - lemmas about bytes, vectors, ordered maps, sorting, splitting. *)
From Coq Require Import Sorting.Sorted Sorting.Permutation.
From Verif Require Import Base.

(** ** Bytes *)
Lemma byte_eqb_spec a b : reflect (a = b) (byte_eqb a b).
Proof. apply Ascii.eqb_spec. Qed.
Lemma byte_eqb_refl a : byte_eqb a a = true.
Proof. apply Ascii.eqb_refl. Qed.
Lemma byte_eqb_eq a b : byte_eqb a b = true <-> a = b.
Proof. apply Ascii.eqb_eq. Qed.
Lemma byte_eqb_neq a b : byte_eqb a b = false <-> a <> b.
Proof. apply Ascii.eqb_neq. Qed.
Lemma byte_eqb_sym a b : byte_eqb a b = byte_eqb b a.
Proof. apply Ascii.eqb_sym. Qed.
Lemma bytes_eqb_eq a b : bytes_eqb a b = true <-> a = b.
Proof.
  revert b; induction a as [|x a IH]; destruct b as [|y b]; simpl; split; try discriminate; try reflexivity.
  - rewrite andb_true_iff, byte_eqb_eq, IH. intros [-> ->]; reflexivity.
  - intro E; injection E as -> ->. rewrite byte_eqb_refl. simpl. apply IH. reflexivity.
Qed.
Lemma bytes_eqb_refl a : bytes_eqb a a = true.
Proof. apply bytes_eqb_eq; reflexivity. Qed.
Lemma bytes_eqb_neq a b : bytes_eqb a b = false <-> a <> b.
Proof. rewrite <- bytes_eqb_eq. destruct (bytes_eqb a b); split; congruence. Qed.
Lemma bytes_eq_dec (a b : bytes) : {a = b} + {a <> b}.
Proof. destruct (bytes_eqb a b) eqn:E; [left; apply bytes_eqb_eq|right; apply bytes_eqb_neq]; exact E. Qed.

(** ** Outcomes *)
Lemma obind_ret {X Y} (a : outcome X) (f : X -> outcome Y) y :
  obind a f = Ret y <-> exists x, a = Ret x /\ f x = Ret y.
Proof. destruct a as [x|e]; simpl; split; [eauto|intros (? & E & H); injection E as ->; exact H|discriminate|intros (? & E & _); discriminate]. Qed.
Lemma obind_abort {X Y} (a : outcome X) (f : X -> outcome Y) e :
  obind a f = Abort e <-> a = Abort e \/ exists x, a = Ret x /\ f x = Abort e.
Proof.
  destruct a as [x|e']; simpl; split; intro H.
  - right; eauto.
  - destruct H as [H|(? & E & H)]; [discriminate|injection E as ->; exact H].
  - left; injection H as ->; reflexivity.
  - destruct H as [H|(? & E & H)]; [injection H as ->; reflexivity|discriminate].
Qed.

Lemma omap_ret {X Y} (f : X -> outcome Y) l ys :
  omap f l = Ret ys <-> Forall2 (fun x y => f x = Ret y) l ys.
Proof.
  revert ys; induction l as [|x l IH]; intro ys; simpl.
  - split; intro H; [injection H as <-; constructor|inversion H; reflexivity].
  - rewrite obind_ret. split.
    + intros (y & Hy & H). apply obind_ret in H. destruct H as (ys' & Hys & H). injection H as <-.
      constructor; [exact Hy|]. apply IH; exact Hys.
    + intro H. inversion H as [|? y ? ys' Hy Hys]; subst. exists y. split; [exact Hy|].
      apply obind_ret. exists ys'. split; [apply IH; exact Hys|reflexivity].
Qed.
Lemma omap_total {X Y} (f : X -> outcome Y) l :
  (forall x, In x l -> exists y, f x = Ret y) -> exists ys, omap f l = Ret ys.
Proof.
  induction l as [|x l IH]; intro H; simpl; [eauto|].
  destruct (H x (or_introl eq_refl)) as [y Hy]. rewrite Hy; simpl.
  destruct IH as [ys Hys]; [intros; apply H; right; assumption|]. rewrite Hys; simpl. eauto.
Qed.
Lemma omap_abort {X Y} (f : X -> outcome Y) l e :
  omap f l = Abort e -> exists x, In x l /\ f x = Abort e.
Proof.
  induction l as [|x l IH]; simpl; [discriminate|]. rewrite obind_abort.
  intros [H|(y & Hy & H)]; [eauto|]. apply obind_abort in H.
  destruct H as [H|(ys & _ & H)]; [|discriminate]. destruct (IH H) as (x' & Hx & He). eauto.
Qed.
Lemma omap_ext {X Y} (f g : X -> outcome Y) l : (forall x, In x l -> f x = g x) -> omap f l = omap g l.
Proof.
  induction l as [|x l IH]; intro H; simpl; [reflexivity|].
  rewrite (H x (or_introl eq_refl)), IH by (intros; apply H; right; assumption). reflexivity.
Qed.
Lemma omap_length {X Y} (f : X -> outcome Y) l ys : omap f l = Ret ys -> length ys = length l.
Proof. intro H. apply omap_ret in H. induction H; simpl; congruence. Qed.
Lemma omap_nth {X Y} (f : X -> outcome Y) l ys n x :
  omap f l = Ret ys -> nth_error l n = Some x -> exists y, nth_error ys n = Some y /\ f x = Ret y.
Proof.
  intro H. apply omap_ret in H. revert n; induction H; intros [|n] E; simpl in *; try discriminate.
  - injection E as <-. eauto.
  - apply IHForall2; exact E.
Qed.

(** ** Vectors *)
Lemma set_nth_length {X} n (x : X) l : length (set_nth n x l) = length l.
Proof.
  unfold set_nth. destruct (n <? length l) eqn:E; [|reflexivity].
  apply Nat.ltb_lt in E. rewrite app_length, firstn_length; cbn [length]. rewrite skipn_length. lia.
Qed.
Lemma nth_error_set_nth {X} n (x : X) l k :
  nth_error (set_nth n x l) k = if (k =? n) && (n <? length l) then Some x else nth_error l k.
Proof.
  unfold set_nth. destruct (n <? length l) eqn:E; [|rewrite andb_false_r; reflexivity].
  apply Nat.ltb_lt in E. rewrite andb_true_r.
  destruct (k =? n) eqn:K.
  - apply Nat.eqb_eq in K; subst. rewrite nth_error_app2; rewrite firstn_length_le by lia; [|lia].
    rewrite Nat.sub_diag. reflexivity.
  - apply Nat.eqb_neq in K. destruct (Nat.lt_ge_cases k n).
    + rewrite nth_error_app1 by (rewrite firstn_length_le; lia).
      rewrite <- (firstn_skipn n l) at 2. rewrite nth_error_app1; [reflexivity|rewrite firstn_length_le; lia].
    + rewrite nth_error_app2; rewrite firstn_length_le by lia; [|lia].
      replace (k - n) with (S (k - S n)) by lia. cbn [nth_error].
      rewrite <- (firstn_skipn (S n) l) at 2.
      rewrite nth_error_app2 by (rewrite firstn_length_le; lia).
      rewrite firstn_length_le by lia. reflexivity.
Qed.
Lemma swap_nth_length {X} i j (l : list X) : length (swap_nth i j l) = length l.
Proof.
  unfold swap_nth. destruct (nth_error l i), (nth_error l j); try reflexivity. rewrite !set_nth_length. reflexivity.
Qed.
Lemma nth_error_swap_nth {X} i j (l : list X) k : i < length l -> j < length l ->
  nth_error (swap_nth i j l) k =
  if k =? j then nth_error l i else if k =? i then nth_error l j else nth_error l k.
Proof.
  intros Hi Hj. unfold swap_nth.
  destruct (nth_error l i) as [x|] eqn:Ei; [|apply nth_error_None in Ei; lia].
  destruct (nth_error l j) as [y|] eqn:Ej; [|apply nth_error_None in Ej; lia].
  rewrite nth_error_set_nth, set_nth_length, nth_error_set_nth.
  apply Nat.ltb_lt in Hi, Hj. rewrite Hi, Hj, !andb_true_r.
  destruct (k =? j); [reflexivity|]. destruct (k =? i); reflexivity.
Qed.
Lemma nth_error_ext {X} (l m : list X) : (forall k, nth_error l k = nth_error m k) -> l = m.
Proof.
  revert m; induction l as [|x l IH]; intros [|y m] H; [reflexivity| | |].
  - specialize (H 0); discriminate.
  - specialize (H 0); discriminate.
  - f_equal; [specialize (H 0); simpl in H; congruence|]. apply IH. intro k. apply (H (S k)).
Qed.
Lemma swap_nth_perm {X} i j (l : list X) : Permutation (swap_nth i j l) l.
Proof.
  destruct (nth_error l i) as [x|] eqn:Ei.
  2:{ unfold swap_nth. rewrite Ei. apply Permutation_refl. }
  destruct (nth_error l j) as [y|] eqn:Ej.
  2:{ unfold swap_nth. rewrite Ei, Ej. apply Permutation_refl. }
  assert (Hi : i < length l) by (apply nth_error_Some; congruence).
  assert (Hj : j < length l) by (apply nth_error_Some; congruence).
  apply Permutation_sym. apply Permutation_nth_error. split; [rewrite swap_nth_length; reflexivity|].
  exists (fun k => if k =? j then i else if k =? i then j else k). split.
  - intros a b. destruct (Nat.eqb_spec a j), (Nat.eqb_spec a i), (Nat.eqb_spec b j), (Nat.eqb_spec b i); lia.
  - intro k. rewrite (nth_error_swap_nth l k Hi Hj). destruct (k =? j), (k =? i); reflexivity.
Qed.

Lemma enum_nth {X} (l : list X) i x : In (i, x) (combine (seq 0 (length l)) l) <-> nth_error l i = Some x.
Proof.
  enough (H : forall k, In (i, x) (combine (seq k (length l)) l) <-> k <= i /\ nth_error l (i - k) = Some x).
  { rewrite H, Nat.sub_0_r. intuition lia. }
  induction l as [|a l IH]; intro k; simpl.
  - split; [tauto|]. intros [_ H]. destruct (i - k); discriminate.
  - rewrite IH. split.
    + intros [E|[Hk Hn]].
      * injection E as -> ->. rewrite Nat.sub_diag. simpl. auto.
      * split; [lia|]. replace (i - k) with (S (i - S k)) by lia. exact Hn.
    + intros [Hk Hn]. destruct (i - k) as [|d] eqn:D.
      * left. simpl in Hn. injection Hn as ->. f_equal. lia.
      * right. split; [lia|]. replace (i - S k) with d by lia. exact Hn.
Qed.

Local Unset Strict Implicit.
(** ** Strict weak orders, and maps kept in such an order *)
Record swo {K} (P : K -> Prop) (lt : K -> K -> bool) : Prop := {
  swo_irr : forall x, P x -> lt x x = false;
  swo_tr : forall x y z, P x -> P y -> P z -> lt x y = true -> lt y z = true -> lt x z = true;
  swo_neg : forall x y z, P x -> P y -> P z -> lt x z = true -> lt x y = true \/ lt y z = true
}.
Definition eqv {K} (lt : K -> K -> bool) (x y : K) : Prop := lt x y = false /\ lt y x = false.
Definition ssorted {K} (lt : K -> K -> bool) (l : list K) : Prop :=
  StronglySorted (fun a b => lt a b = true) l.

Section SMap.
  Context {K V : Type} (P : K -> Prop) (lt : K -> K -> bool) (SW : swo P lt).

  Lemma swo_asym x y : P x -> P y -> lt x y = true -> lt y x = false.
  Proof.
    intros Hx Hy H. destruct (lt y x) eqn:E; [|reflexivity].
    rewrite <- (swo_irr SW Hx). symmetry. exact (swo_tr SW Hx Hy Hx H E).
  Qed.
  Lemma eqv_refl x : P x -> eqv lt x x.
  Proof. intro H; split; apply (swo_irr SW H). Qed.
  Lemma eqv_sym x y : eqv lt x y -> eqv lt y x.
  Proof. intros [H1 H2]; split; assumption. Qed.
  Lemma eqv_lt_l x y z : P x -> P y -> P z -> eqv lt x y -> lt x z = lt y z.
  Proof.
    intros Hx Hy Hz [E1 E2]. destruct (lt x z) eqn:A, (lt y z) eqn:B; try reflexivity.
    - destruct (swo_neg SW Hx Hy Hz A); congruence.
    - destruct (swo_neg SW Hy Hx Hz B); congruence.
  Qed.
  Lemma eqv_lt_r x y z : P x -> P y -> P z -> eqv lt x y -> lt z x = lt z y.
  Proof.
    intros Hx Hy Hz [E1 E2]. destruct (lt z x) eqn:A, (lt z y) eqn:B; try reflexivity.
    - destruct (swo_neg SW Hz Hy Hx A); congruence.
    - destruct (swo_neg SW Hz Hx Hy B); congruence.
  Qed.
  Lemma eqv_trans x y z : P x -> P y -> P z -> eqv lt x y -> eqv lt y z -> eqv lt x z.
  Proof.
    intros Hx Hy Hz H1 H2. split.
    - rewrite (eqv_lt_l Hx Hy Hz H1). apply H2.
    - rewrite (eqv_lt_r Hx Hy Hz H1). apply H2.
  Qed.

  Notation keys m := (map (@fst K V) m).
  Definition keysP (m : list (K * V)) := Forall P (keys m).

  Lemma find_some k (m : list (K * V)) v : smap_find lt k m = Some v ->
    exists k', In (k', v) m /\ eqv lt k k'.
  Proof.
    induction m as [|[k' v'] m IH]; simpl; [discriminate|].
    destruct (lt k' k) eqn:A; [intro H; destruct (IH H) as (q & ? & ?); eauto|].
    destruct (lt k k') eqn:B; [discriminate|]. intro H; injection H as <-.
    exists k'. split; [left; reflexivity|split; assumption].
  Qed.

  Lemma find_none k (m : list (K * V)) : P k -> keysP m -> ssorted lt (keys m) ->
    smap_find lt k m = None -> forall k' v, In (k', v) m -> ~ eqv lt k k'.
  Proof.
    intros Hk HP HS. induction m as [|[q w] m IH]; simpl; intros H k' v Hin; [tauto|].
    inversion HP as [|? ? Hq HPm]; subst. inversion HS as [|? ? HSm HF]; subst.
    destruct (lt q k) eqn:A.
    - destruct Hin as [E|Hin]; [injection E as -> ->; intros [_ E2]; congruence|].
      exact (IH HPm HSm H _ _ Hin).
    - destruct (lt k q) eqn:B; [|discriminate].
      destruct Hin as [E|Hin]; [injection E as -> ->; intros [E1 _]; congruence|].
      intros [E1 E2]. rewrite Forall_forall in HF.
      assert (Hk' : P k').
      { unfold keysP in HPm. rewrite Forall_forall in HPm. apply HPm. change k' with (fst (k', v)). apply in_map; exact Hin. }
      assert (C : lt q k' = true) by (apply HF; change k' with (fst (k', v)); apply in_map; exact Hin).
      rewrite (swo_tr SW Hk Hq Hk' B C) in E1. discriminate.
  Qed.

  Lemma find_in k v (m : list (K * V)) : keysP m -> ssorted lt (keys m) -> In (k, v) m ->
    smap_find lt k m = Some v.
  Proof.
    intros HP HS. induction m as [|[q w] m IH]; simpl; [tauto|].
    inversion HP as [|? ? Hq HPm]; subst. inversion HS as [|? ? HSm HF]; subst. intros [E|Hin].
    - injection E as -> ->. rewrite (swo_irr SW Hq). reflexivity.
    - rewrite Forall_forall in HF.
      assert (C : lt q k = true) by (apply HF; change k with (fst (k, v)); apply in_map; exact Hin).
      rewrite C. apply IH; assumption.
  Qed.

  Lemma find_eqv k k' (m : list (K * V)) : P k -> P k' -> keysP m -> eqv lt k k' ->
    smap_find lt k m = smap_find lt k' m.
  Proof.
    intros Hk Hk' HP HE. induction m as [|[q w] m IH]; simpl; [reflexivity|].
    inversion HP as [|? ? Hq HPm]; subst.
    rewrite (eqv_lt_r Hk Hk' Hq HE), (eqv_lt_l Hk Hk' Hq HE), (IH HPm). reflexivity.
  Qed.

  Lemma emplace_in k v (m : list (K * V)) x : In x (smap_emplace lt k v m) <->
    (smap_find lt k m = None /\ x = (k, v)) \/ In x m.
  Proof.
    induction m as [|[q w] m IH]; simpl.
    - intuition congruence.
    - destruct (lt q k) eqn:A; simpl; [rewrite IH; tauto|].
      destruct (lt k q) eqn:B; simpl; intuition congruence.
  Qed.
  Lemma emplace_found k v (m : list (K * V)) w : smap_find lt k m = Some w -> smap_emplace lt k v m = m.
  Proof.
    induction m as [|[q u] m IH]; simpl; [discriminate|].
    destruct (lt q k); [intro H; rewrite IH by exact H; reflexivity|].
    destruct (lt k q); [discriminate|reflexivity].
  Qed.
  Lemma emplace_P k v (m : list (K * V)) : P k -> keysP m -> keysP (smap_emplace lt k v m).
  Proof.
    unfold keysP. rewrite !Forall_forall. intros Hk H x Hx. apply in_map_iff in Hx.
    destruct Hx as ([q w] & <- & Hin). apply emplace_in in Hin. destruct Hin as [[_ E]|Hin].
    - injection E as -> ->. exact Hk.
    - apply H. apply in_map; exact Hin.
  Qed.
  Lemma emplace_sorted k v (m : list (K * V)) : P k -> keysP m -> ssorted lt (keys m) ->
    ssorted lt (keys (smap_emplace lt k v m)).
  Proof.
    intros Hk HP HS. induction m as [|[q w] m IH]; simpl.
    - constructor; constructor.
    - inversion HP as [|? ? Hq HPm]; subst. inversion HS as [|? ? HSm HF]; subst.
      destruct (lt q k) eqn:A; simpl.
      + constructor; [apply IH; assumption|]. rewrite Forall_forall. intros x Hx.
        apply in_map_iff in Hx. destruct Hx as ([q' w'] & <- & Hin). apply emplace_in in Hin.
        destruct Hin as [[_ E]|Hin]; [injection E as -> ->; exact A|].
        rewrite Forall_forall in HF. apply HF. apply in_map; exact Hin.
      + destruct (lt k q) eqn:B; simpl.
        * constructor; [exact HS|]. constructor; [exact B|]. rewrite Forall_forall in HF |- *.
          intros x Hx. apply (swo_tr SW) with q; auto.
          unfold keysP in HPm. rewrite Forall_forall in HPm. apply HPm; exact Hx.
        * exact HS.
  Qed.
  Lemma find_emplace_same k v (m : list (K * V)) : P k -> keysP m ->
    smap_find lt k m = None -> smap_find lt k (smap_emplace lt k v m) = Some v.
  Proof.
    intros Hk HP. induction m as [|[q w] m IH]; simpl.
    - rewrite (swo_irr SW Hk). reflexivity.
    - inversion HP as [|? ? Hq HPm]; subst. destruct (lt q k) eqn:A; simpl.
      + rewrite A. apply IH; exact HPm.
      + destruct (lt k q) eqn:B; [|discriminate]. simpl. rewrite (swo_irr SW Hk). reflexivity.
  Qed.
  Lemma find_emplace_other k v k' (m : list (K * V)) : P k -> P k' -> keysP m -> ~ eqv lt k k' ->
    smap_find lt k' (smap_emplace lt k v m) = smap_find lt k' m.
  Proof.
    intros Hk Hk' HP Hne. induction m as [|[q w] m IH]; simpl.
    - destruct (lt k k') eqn:A; [reflexivity|]. destruct (lt k' k) eqn:B; [reflexivity|].
      exfalso. apply Hne. split; assumption.
    - inversion HP as [|? ? Hq HPm]; subst. destruct (lt q k) eqn:A; simpl.
      + destruct (lt q k'); [apply IH; exact HPm|reflexivity].
      + destruct (lt k q) eqn:B; simpl; [|reflexivity].
        destruct (lt k k') eqn:C; [reflexivity|]. destruct (lt k' k) eqn:D.
        * destruct (lt q k') eqn:F.
          -- rewrite (swo_tr SW Hq Hk' Hk F D) in A. discriminate.
          -- rewrite (swo_tr SW Hk' Hk Hq D B). reflexivity.
        * exfalso. apply Hne. split; assumption.
  Qed.

  (** m[k] = v *)
  Lemma assign_none k v (m : list (K * V)) : smap_find lt k m = None ->
    smap_assign lt k v m = smap_emplace lt k v m.
  Proof.
    induction m as [|[q w] m IH]; simpl; [reflexivity|].
    destruct (lt q k); [intro H; rewrite IH by exact H; reflexivity|].
    destruct (lt k q); [reflexivity|discriminate].
  Qed.

  (** erase *)
  Lemma erase_in k (m : list (K * V)) x : In x (smap_erase lt k m) -> In x m.
  Proof.
    induction m as [|[q w] m IH]; simpl; [tauto|].
    destruct (lt q k); simpl; [tauto|]. destruct (lt k q); simpl; tauto.
  Qed.
  Lemma erase_keep k (m : list (K * V)) q w : P k -> keysP m -> ssorted lt (keys m) ->
    In (q, w) m -> ~ eqv lt k q -> In (q, w) (smap_erase lt k m).
  Proof.
    intros Hk HP HS. induction m as [|[q' w'] m IH]; simpl; [tauto|].
    inversion HP as [|? ? Hq HPm]; subst. inversion HS as [|? ? HSm HF]; subst.
    intros [E|Hin] Hne.
    - injection E as -> ->. destruct (lt q k) eqn:A; [left; reflexivity|].
      destruct (lt k q) eqn:B; [left; reflexivity|]. exfalso; apply Hne; split; assumption.
    - destruct (lt q' k); [right; apply IH; assumption|].
      destruct (lt k q'); [right|]; assumption.
  Qed.
  Lemma erase_gone k (m : list (K * V)) q w : P k -> keysP m -> ssorted lt (keys m) ->
    In (q, w) (smap_erase lt k m) -> ~ eqv lt k q.
  Proof.
    intros Hk HP HS. induction m as [|[q' w'] m IH]; simpl; [tauto|].
    inversion HP as [|? ? Hq HPm]; subst. inversion HS as [|? ? HSm HF]; subst.
    rewrite Forall_forall in HF. unfold keysP in HPm. rewrite Forall_forall in HPm.
    assert (HK : forall q w, In (q, w) m -> P q /\ lt q' q = true).
    { intros a b Hin. split; [apply HPm|apply HF]; change a with (fst (a, b)); apply in_map; exact Hin. }
    destruct (lt q' k) eqn:A.
    - intros [E|Hin]; [injection E as -> ->; intros [_ E2]; congruence|].
      apply IH; try assumption. unfold keysP; rewrite Forall_forall; exact HPm.
    - destruct (lt k q') eqn:B.
      + intros [E|Hin]; [injection E as -> ->; intros [E1 _]; congruence|].
        destruct (HK _ _ Hin) as [Pq L]. intros [E1 _].
        rewrite (swo_tr SW Hk Hq Pq B L) in E1. discriminate.
      + intros Hin. destruct (HK _ _ Hin) as [Pq L]. intros [E1 _].
        rewrite (eqv_lt_l Hk Hq Pq (conj B A)) in E1. congruence.
  Qed.
  Lemma erase_P k (m : list (K * V)) : keysP m -> keysP (smap_erase lt k m).
  Proof.
    unfold keysP. rewrite !Forall_forall. intros H x Hx. apply in_map_iff in Hx.
    destruct Hx as ([q w] & <- & Hin). apply erase_in in Hin. apply H. apply in_map; exact Hin.
  Qed.
  Lemma erase_sorted k (m : list (K * V)) : ssorted lt (keys m) -> ssorted lt (keys (smap_erase lt k m)).
  Proof.
    intro HS. induction m as [|[q w] m IH]; simpl; [exact HS|].
    inversion HS as [|? ? HSm HF]; subst. destruct (lt q k); simpl.
    - constructor; [apply IH; exact HSm|]. rewrite Forall_forall in HF |- *. intros x Hx.
      apply in_map_iff in Hx. destruct Hx as ([q' w'] & <- & Hin). apply erase_in in Hin.
      apply HF. apply in_map; exact Hin.
    - destruct (lt k q); simpl; [exact HS|exact HSm].
  Qed.
End SMap.

Local Set Strict Implicit.
(** ** Byte strings are strictly ordered *)
Lemma bytes_ltb_irr a : bytes_ltb a a = false.
Proof. induction a as [|x a IH]; simpl; [reflexivity|]. rewrite N.ltb_irrefl. exact IH. Qed.
Lemma bytes_ltb_tr a : forall b c, bytes_ltb a b = true -> bytes_ltb b c = true -> bytes_ltb a c = true.
Proof.
  induction a as [|x a IH]; intros [|y b] [|z c]; simpl; try discriminate; try reflexivity.
  destruct (N.ltb_spec (N_of_ascii x) (N_of_ascii y)) as [L1|L1], (N.ltb_spec (N_of_ascii y) (N_of_ascii z)) as [L2|L2],
    (N.ltb_spec (N_of_ascii y) (N_of_ascii x)) as [L3|L3], (N.ltb_spec (N_of_ascii z) (N_of_ascii y)) as [L4|L4],
    (N.ltb_spec (N_of_ascii x) (N_of_ascii z)) as [L5|L5], (N.ltb_spec (N_of_ascii z) (N_of_ascii x)) as [L6|L6];
    try discriminate; try reflexivity; try lia. apply IH.
Qed.
Lemma bytes_ltb_tot a : forall b, bytes_ltb a b = false -> bytes_ltb b a = false -> a = b.
Proof.
  induction a as [|x a IH]; intros [|y b]; simpl; try discriminate; try reflexivity.
  destruct (N.ltb_spec (N_of_ascii x) (N_of_ascii y)) as [L1|L1], (N.ltb_spec (N_of_ascii y) (N_of_ascii x)) as [L3|L3];
    try discriminate; try lia.
  intros H1 H2. assert (E : x = y).
  { assert (H : N_of_ascii x = N_of_ascii y) by lia. rewrite <- (ascii_N_embedding x), <- (ascii_N_embedding y), H. reflexivity. }
  subst. f_equal. apply IH; assumption.
Qed.
Lemma bytes_swo : swo (fun _ => True) bytes_ltb.
Proof.
  constructor.
  - intros; apply bytes_ltb_irr.
  - intros; eapply bytes_ltb_tr; eassumption.
  - intros x y z _ _ _ H. destruct (bytes_ltb x y) eqn:A; [left; reflexivity|right].
    destruct (bytes_ltb y x) eqn:B.
    + eapply bytes_ltb_tr; eassumption.
    + rewrite <- (bytes_ltb_tot _ _ A B). exact H.
Qed.
Lemma bytes_eqv a b : eqv bytes_ltb a b <-> a = b.
Proof.
  split; [intros [H1 H2]; apply bytes_ltb_tot; assumption|intros ->; split; apply bytes_ltb_irr].
Qed.
Lemma nat_swo : swo (fun _ => True) Nat.ltb.
Proof.
  constructor.
  - intros; apply Nat.ltb_irrefl.
  - intros x y z _ _ _. rewrite !Nat.ltb_lt. lia.
  - intros x y z _ _ _. rewrite !Nat.ltb_lt. lia.
Qed.
Lemma nat_eqv a b : eqv Nat.ltb a b <-> a = b.
Proof. unfold eqv. rewrite !Nat.ltb_ge. lia. Qed.
Lemma Forall_true {X} (l : list X) : Forall (fun _ => True) l.
Proof. induction l; constructor; auto. Qed.

Local Unset Strict Implicit.
(** ** Insertion sort *)
Section SortFacts.
  Context {X : Type} (lt : X -> X -> bool).
  Lemma sort_insert_perm x l : Permutation (sort_insert lt x l) (x :: l).
  Proof.
    induction l as [|y l IH]; simpl; [apply Permutation_refl|].
    destruct (lt x y); [apply Permutation_refl|].
    eapply perm_trans; [apply perm_skip; exact IH|apply perm_swap].
  Qed.
  Lemma sort_perm l : Permutation (sort lt l) l.
  Proof.
    unfold sort. enough (H : forall acc, Permutation (isort_acc lt l acc) (l ++ acc)).
    { rewrite <- (app_nil_r l) at 2. apply H. }
    induction l as [|x l IH]; intro acc; simpl; [apply Permutation_refl|].
    eapply perm_trans; [apply IH|].
    eapply perm_trans; [apply Permutation_app_head, sort_insert_perm|].
    apply Permutation_sym, Permutation_middle.
  Qed.
  Lemma sort_length l : length (sort lt l) = length l.
  Proof. apply Permutation_length, sort_perm. Qed.

  Context (P : X -> Prop) (SW : swo P lt).
  (** never lt b a for a before b *)
  Definition wsorted (l : list X) := StronglySorted (fun a b => lt b a = false) l.
  Lemma sort_insert_sorted x l : P x -> Forall P l -> wsorted l -> wsorted (sort_insert lt x l).
  Proof.
    intros Hx HP HS. induction l as [|y l IH]; simpl.
    - constructor; constructor.
    - inversion HP as [|? ? Hy HPl]; subst. inversion HS as [|? ? HSl HF]; subst.
      destruct (lt x y) eqn:A.
      + constructor; [exact HS|]. constructor; [apply (swo_asym SW Hx Hy A)|].
        rewrite Forall_forall in HF, HPl |- *. intros z Hz.
        destruct (lt z x) eqn:B; [|reflexivity].
        specialize (HF z Hz).
        rewrite (swo_tr SW (HPl z Hz) Hx Hy B A) in HF. discriminate.
      + constructor; [apply IH; assumption|]. rewrite Forall_forall. intros z Hz.
        apply (Permutation_in _ (sort_insert_perm x l)) in Hz. destruct Hz as [<-|Hz]; [exact A|].
        rewrite Forall_forall in HF. apply HF; exact Hz.
  Qed.
  Lemma sort_sorted l : Forall P l -> wsorted (sort lt l).
  Proof.
    intro HP. unfold sort. enough (H : forall acc, Forall P acc -> wsorted acc -> wsorted (isort_acc lt l acc)).
    { apply H; constructor. }
    induction l as [|x l IH]; intros acc HPa HS; simpl; [exact HS|].
    inversion HP; subst. apply IH; [assumption| |].
    - rewrite Forall_forall in *. intros z Hz. apply (Permutation_in _ (sort_insert_perm x acc)) in Hz.
      destruct Hz as [<-|Hz]; auto.
    - apply sort_insert_sorted; assumption.
  Qed.
End SortFacts.

(** ** The condition on comparisons *)
Lemma strict_weak_iff {X} (lt : X -> X -> bool) l : strict_weak lt l = true <-> swo (fun x => In x l) lt.
Proof.
  unfold strict_weak. rewrite forallb_forall. split.
  - intro H. constructor.
    + intros x Hx. specialize (H x Hx). apply andb_prop in H. destruct H as [H _]. destruct (lt x x); [discriminate|reflexivity].
    + intros x y z Hx Hy Hz E1 E2. specialize (H x Hx). apply andb_prop in H. destruct H as [_ H]. rewrite forallb_forall in H. specialize (H y Hy).
      rewrite forallb_forall in H. specialize (H z Hz). apply andb_prop in H. destruct H as [H _]. rewrite E1, E2 in H. exact H.
    + intros x y z Hx Hy Hz E1. specialize (H x Hx). apply andb_prop in H. destruct H as [_ H]. rewrite forallb_forall in H. specialize (H y Hy).
      rewrite forallb_forall in H. specialize (H z Hz). apply andb_prop in H. destruct H as [_ H]. rewrite E1 in H. simpl in H. apply orb_prop in H. exact H.
  - intros SW x Hx. apply andb_true_intro. split; [rewrite (swo_irr SW Hx); reflexivity|].
    apply forallb_forall. intros y Hy. apply forallb_forall. intros z Hz. apply andb_true_intro. split.
    + destruct (lt x y) eqn:E1; [|reflexivity]. destruct (lt y z) eqn:E2; [|reflexivity]. simpl. apply (swo_tr SW Hx Hy Hz E1 E2).
    + destruct (lt x z) eqn:E1; [|reflexivity]. simpl. apply orb_true_intro. apply (swo_neg SW Hx Hy Hz E1).
Qed.
Lemma swo_weak {X} (P Q : X -> Prop) lt : (forall x, Q x -> P x) -> swo P lt -> swo Q lt.
Proof. intros H SW. constructor.
  - intros x Hx. exact (swo_irr SW (H x Hx)).
  - intros x y z Hx Hy Hz. exact (swo_tr SW (H x Hx) (H y Hy) (H z Hz)).
  - intros x y z Hx Hy Hz. exact (swo_neg SW (H x Hx) (H y Hy) (H z Hz)).
Qed.
Lemma strict_weak_ok {X} (P : X -> Prop) lt l : swo P lt -> Forall P l -> strict_weak lt l = true.
Proof. intros SW F. apply strict_weak_iff. rewrite Forall_forall in F. exact (swo_weak F SW). Qed.
Lemma std_sort_ok {X} srt (P : X -> Prop) lt l : swo P lt -> Forall P l -> exists s, std_sort srt lt l = Ret s /\ Permutation s l /\ wsorted lt s.
Proof. intros SW F. unfold std_sort. rewrite (strict_weak_ok SW F). exists (srun srt lt l). split; [reflexivity|]. exact (srun_ok srt lt l (strict_weak_ok SW F)). Qed.
Lemma std_sort_ret {X} srt (lt : X -> X -> bool) l s : std_sort srt lt l = Ret s -> Permutation s l /\ wsorted lt s /\ swo (fun x => In x l) lt.
Proof.
  unfold std_sort. destruct (strict_weak lt l) eqn:E; [|discriminate]. intro H; injection H as <-. destruct (srun_ok srt lt l E) as [H1 H2].
  split; [exact H1|]. split; [exact H2|]. apply strict_weak_iff; exact E.
Qed.
(** Insertion sort is an implementation of std::sort. *)
Lemma sort_is_sort T (lt : T -> T -> bool) l : strict_weak lt l = true -> Permutation (sort lt l) l /\ wsorted lt (sort lt l).
Proof.
  intro H. apply strict_weak_iff in H. split; [apply sort_perm|]. apply (sort_sorted H). rewrite Forall_forall. auto.
Qed.
Definition stable : sorter := Sorter (fun T lt l => sort lt l) sort_is_sort.
Lemma std_sort_abort {X} srt (lt : X -> X -> bool) l e : std_sort srt lt l = Abort e -> e = AUB "std::sort without a strict weak ordering".
Proof. unfold std_sort. destruct (strict_weak lt l); [discriminate|]. intro H; injection H as <-. reflexivity. Qed.

Local Set Strict Implicit.
(** ** Splitting and joining *)
Lemma split_on_nonnil sep s : split_on sep s <> [].
Proof. destruct s as [|c s]; simpl; [discriminate|]. destruct (byte_eqb c sep); [discriminate|]. destruct (split_on sep s); discriminate. Qed.
Lemma join_split sep s : join [sep] (split_on sep s) = s.
Proof.
  induction s as [|c s IH]; simpl; [reflexivity|].
  destruct (byte_eqb_spec c sep) as [->|N].
  - destruct (split_on sep s) as [|h r] eqn:E; [exfalso; apply (split_on_nonnil sep s E)|].
    simpl. rewrite <- IH. reflexivity.
  - destruct (split_on sep s) as [|h r] eqn:E; [exfalso; apply (split_on_nonnil sep s E)|].
    destruct r as [|h' r']; simpl in *; rewrite <- IH; reflexivity.
Qed.
Lemma split_on_pieces sep s w : In w (split_on sep s) -> ~ In sep w.
Proof.
  revert w; induction s as [|c s IH]; simpl; intros w; [intros [<-|[]] []|].
  destruct (byte_eqb_spec c sep) as [->|N].
  - intros [<-|H]; [intros []|apply IH; exact H].
  - destruct (split_on sep s) as [|h r]; simpl.
    + intros [<-|[]] [H|[]]; congruence.
    + intros [<-|H].
      * intros [E|Hin]; [congruence|]. revert Hin. apply IH. left; reflexivity.
      * apply IH. right; exact H.
Qed.
