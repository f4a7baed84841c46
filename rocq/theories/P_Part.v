(** P_Part.v - the swapping partition loops of CullBackFace and Index, and the
    bounding box and point set of a model. *)
From Coq Require Import Permutation Sorted.
From Verif Require Import Base Num Geo Stl NumLaws P_Base P_Order.

(** ** Moving the elements that fail a test behind position j *)
Section Part.
  Context {T : Type} (keep : T -> bool).
  Fixpoint part_loop (fuel i j : nat) (l : list T) : list T * nat :=
    match fuel with
    | O => (l, j)
    | S fuel' =>
        if (i <? j)%nat then
          match nth_error l i with
          | Some x => if keep x then part_loop fuel' (S i) j l else part_loop fuel' i (j - 1) (swap_nth i (j - 1) l)
          | None => (l, j)
          end
        else (l, j)
    end.
  Lemma part_spec fuel : forall i j l l' j', j - i <= fuel -> i <= j -> j <= length l -> part_loop fuel i j l = (l', j') ->
    Permutation l' l /\ i <= j' <= j /\ (forall k, k < i \/ j <= k -> nth_error l' k = nth_error l k) /\
    (forall k x, i <= k < j' -> nth_error l' k = Some x -> keep x = true) /\
    (forall k x, j' <= k < j -> nth_error l' k = Some x -> keep x = false).
  Proof.
    induction fuel as [|fuel IH]; intros i j l l' j' HF HI HJ; cbn [part_loop].
    - intro H; injection H as <- <-. split; [apply Permutation_refl|]. split; [lia|]. split; [auto|]. split; intros; lia.
    - destruct (Nat.ltb_spec i j) as [L|L].
      2:{ intro H; injection H as <- <-. split; [apply Permutation_refl|]. split; [lia|]. split; [auto|]. split; intros; lia. }
      destruct (nth_error l i) as [x|] eqn:N; [|apply nth_error_None in N; lia].
      destruct (keep x) eqn:K; intro H.
      + edestruct IH as (P & B & O & K1 & K2); [| | |exact H|]; [lia|lia|lia|]. split; [exact P|]. split; [lia|]. split; [intros k Hk; apply O; lia|].
        split; [|exact K2]. intros k y Hk Hy. destruct (Nat.eq_dec k i) as [->|NE]; [|apply (K1 k); [lia|exact Hy]].
        rewrite O in Hy by lia. congruence.
      + assert (SL : length (swap_nth i (j - 1) l) = length l) by apply swap_nth_length.
        edestruct IH as (P & B & O & K1 & K2); [| | |exact H|]; [lia|lia|lia|].
        assert (SN : forall k, nth_error (swap_nth i (j - 1) l) k = if k =? j - 1 then nth_error l i else if k =? i then nth_error l (j - 1) else nth_error l k)
          by (intro k; apply nth_error_swap_nth; lia).
        split; [eapply perm_trans; [exact P|apply swap_nth_perm]|]. split; [lia|]. split; [|split; [exact K1|]].
        * intros k Hk. rewrite O by lia. rewrite SN. destruct (Nat.eqb_spec k (j - 1)); [lia|]. destruct (Nat.eqb_spec k i); [lia|reflexivity].
        * intros k y Hk Hy. destruct (Nat.eq_dec k (j - 1)) as [->|NE]; [|apply (K2 k); [lia|exact Hy]].
          rewrite O in Hy by lia. rewrite SN, Nat.eqb_refl in Hy. congruence.
  Qed.
  Lemma part_all fuel : forall i j l, (forall k x, i <= k < j -> nth_error l k = Some x -> keep x = true) -> part_loop fuel i j l = (l, j).
  Proof.
    induction fuel as [|fuel IH]; intros i j l H; cbn [part_loop]; [reflexivity|].
    destruct (Nat.ltb_spec i j) as [L|L]; [|reflexivity]. destruct (nth_error l i) as [x|] eqn:N; [|reflexivity].
    rewrite (H i x ltac:(lia) N). apply IH. intros k y Hk. apply H. lia.
  Qed.
  Lemma Forall_nth_lt n (l : list T) b : (forall k x, k < n -> nth_error l k = Some x -> keep x = b) -> Forall (fun x => keep x = b) (firstn n l).
  Proof.
    revert l. induction n as [|n IH]; intros l H; [constructor|]. destruct l as [|x l]; [constructor|]. simpl. constructor.
    - apply (H 0); [lia|reflexivity].
    - apply IH. intros k y Hk. apply (H (S k)). lia.
  Qed.
  Lemma Forall_nth_ge n (l : list T) b : (forall k x, n <= k < length l -> nth_error l k = Some x -> keep x = b) -> Forall (fun x => keep x = b) (skipn n l).
  Proof.
    revert l. induction n as [|n IH]; intros l H.
    - simpl. rewrite Forall_forall. intros x Hx. apply In_nth_error in Hx. destruct Hx as [k Hk]. apply (H k); [|exact Hk].
      split; [lia|]. apply nth_error_Some. congruence.
    - destruct l as [|x l]; [constructor|]. simpl. apply IH. intros k y Hk. apply (H (S k)). simpl. lia.
  Qed.
  Lemma filter_all (l : list T) : Forall (fun x => keep x = true) l -> filter keep l = l.
  Proof. induction 1; simpl; [reflexivity|]. rewrite H, IHForall. reflexivity. Qed.
  Lemma filter_no (l : list T) : Forall (fun x => keep x = false) l -> filter keep l = [].
  Proof. induction 1; simpl; [reflexivity|]. rewrite H. exact IHForall. Qed.
  Lemma filter_perm (l m : list T) : Permutation l m -> Permutation (filter keep l) (filter keep m).
  Proof.
    induction 1; simpl.
    - apply Permutation_refl.
    - destruct (keep x); [apply perm_skip|]; assumption.
    - destruct (keep x), (keep y); try apply Permutation_refl. apply perm_swap.
    - eapply perm_trans; eassumption.
  Qed.
  (** The whole list. *)
  Lemma part_full l l' j' : part_loop (length l) 0 (length l) l = (l', j') ->
    Permutation l' l /\ j' <= length l /\ Forall (fun x => keep x = true) (firstn j' l') /\ Forall (fun x => keep x = false) (skipn j' l') /\
    Permutation (firstn j' l') (filter keep l).
  Proof.
    intro H. edestruct part_spec as (P & B & _ & K1 & K2); [| | |exact H|]; [lia|lia|lia|].
    pose proof (Permutation_length P) as PL.
    assert (F1 : Forall (fun x => keep x = true) (firstn j' l')) by (apply Forall_nth_lt; intros; apply (K1 k); [lia|assumption]).
    assert (F2 : Forall (fun x => keep x = false) (skipn j' l')) by (apply Forall_nth_ge; intros; apply (K2 k); [lia|assumption]).
    repeat split; auto; [lia|]. apply Permutation_sym. eapply perm_trans; [apply filter_perm, Permutation_sym, P|].
    rewrite <- (firstn_skipn j' l') at 1. rewrite filter_app, (filter_all F1), (filter_no F2), app_nil_r. apply Permutation_refl.
  Qed.
End Part.

Section PartStl.
  Context {A : Arith}.
  Local Open Scope num_scope.
  (** ** CullBackFace *)
  Definition faces (f : facet) : bool := negb (z3 (fnorm f) <=? nz).
  Lemma cull_part fuel : forall i j l, j <= length l ->
    cull_loop fuel i j l = let '(l', j') := part_loop faces fuel i j l in firstn j' l'.
  Proof.
    induction fuel as [|fuel IH]; intros i j l HJ; cbn [cull_loop part_loop]; [reflexivity|].
    destruct (i <? j)%nat; [|reflexivity]. destruct (nth_error l i) as [f|]; [|reflexivity].
    unfold faces at 1. destruct (z3 (fnorm f) <=? nz); cbn [negb]; apply IH; [|exact HJ]. rewrite swap_nth_length. lia.
  Qed.
  Lemma cull_perm l : Permutation (cull_facets l) (filter faces l).
  Proof.
    unfold cull_facets. rewrite cull_part by lia. destruct (part_loop faces (length l) 0 (length l) l) as [l' j'] eqn:H.
    destruct (part_full faces l H) as (_ & _ & _ & _ & P). exact P.
  Qed.
  Lemma cull_faces l : Forall (fun f => faces f = true) (cull_facets l).
  Proof.
    unfold cull_facets. rewrite cull_part by lia. destruct (part_loop faces (length l) 0 (length l) l) as [l' j'] eqn:H.
    destruct (part_full faces l H) as (_ & _ & F & _). exact F.
  Qed.
  Lemma cull_id l : Forall (fun f => faces f = true) l -> cull_facets l = l.
  Proof.
    intro H. unfold cull_facets. rewrite cull_part by lia. rewrite part_all; [apply firstn_all|].
    intros k x _ Hk. rewrite Forall_forall in H. apply H. eapply nth_error_In. exact Hk.
  Qed.
  Lemma cull_idem l : cull_facets (cull_facets l) = cull_facets l.
  Proof. apply cull_id, cull_faces. Qed.
  Lemma cull_in f l : In f (cull_facets l) <-> In f l /\ (z3 (fnorm f) <=? nz) = false.
  Proof.
    assert (K : In f (cull_facets l) <-> In f (filter faces l)).
    { split; apply Permutation_in; [|apply Permutation_sym]; apply cull_perm. }
    rewrite K, filter_In. unfold faces. rewrite negb_true_iff. reflexivity.
  Qed.

  (** ** Points *)
  Context (O : ordered A).
  Lemma ps_insert_spec p ps : ok3 p -> Forall ok3 ps -> ssorted order ps ->
    ssorted order (ps_insert p ps) /\ Forall ok3 (ps_insert p ps) /\
    (forall q, In q (ps_insert p ps) -> q = p \/ In q ps) /\
    (forall q, In q ps -> In q (ps_insert p ps)) /\
    (exists q, In q (ps_insert p ps) /\ eq3 p q = true).
  Proof.
    intros Hp HF HS. unfold ps_insert, sset_insert.
    set (m := map (fun x => (x, tt)) ps).
    assert (KM : map fst m = ps) by (unfold m; rewrite map_map; simpl; apply map_id).
    assert (HK : keysP ok3 m) by (unfold keysP; rewrite KM; exact HF).
    assert (HS' : ssorted order (map fst m)) by (rewrite KM; exact HS).
    pose proof (order_swo O) as SW.
    pose proof (emplace_P order tt Hp HK) as HK2.
    pose proof (emplace_sorted SW tt Hp HK HS') as HS2.
    split; [exact HS2|]. split; [exact HK2|]. split; [|split].
    - intros q Hq. apply in_map_iff in Hq. destruct Hq as ([q' []] & <- & Hq). apply emplace_in in Hq.
      destruct Hq as [[_ Hq]|Hq]; [left; exact (f_equal fst Hq)|]. right. apply (in_map fst) in Hq. rewrite KM in Hq. exact Hq.
    - intros q Hq. apply in_map_iff. exists (q, tt). split; [reflexivity|]. apply emplace_in. right. unfold m. apply in_map_iff. eauto.
    - destruct (smap_find order p m) as [[]|] eqn:F.
      + destruct (P_Base.find_some F) as (k' & Hk & HE). exists k'. split.
        * apply in_map_iff. exists (k', tt). split; [reflexivity|]. apply emplace_in. right. exact Hk.
        * apply (order_eqv O); auto. unfold keysP in HK. rewrite Forall_forall in HK. apply HK. apply (in_map fst) in Hk. exact Hk.
      + exists p. split; [|apply eq3_refl; exact Hp]. apply in_map_iff. exists (p, tt). split; [reflexivity|]. apply emplace_in. left. auto.
  Qed.
  Lemma points_fold vs : Forall ok3 vs -> forall ps, Forall ok3 ps -> ssorted order ps ->
    let r := fold_left (fun ps p => ps_insert p ps) vs ps in
    ssorted order r /\ Forall ok3 r /\ (forall q, In q r -> In q vs \/ In q ps) /\ (forall q, In q ps -> In q r) /\
    (forall p, In p vs -> exists q, In q r /\ eq3 p q = true).
  Proof.
    induction vs as [|v vs IH]; intros HV ps HP HS; simpl.
    - repeat split; auto. intros p [].
    - inversion HV as [|? ? Hv HVs]; subst. destruct (ps_insert_spec Hv HP HS) as (S1 & P1 & I1 & K1 & (q & Hq & HE)).
      destruct (IH HVs _ P1 S1) as (S2 & P2 & I2 & K2 & E2). split; [exact S2|]. split; [exact P2|]. split; [|split].
      + intros x Hx. destruct (I2 x Hx) as [H|H]; [auto|]. destruct (I1 x H) as [->|H']; auto.
      + intros x Hx. apply K2, K1, Hx.
      + intros p [<-|Hp]; [|apply E2, Hp]. exists q. split; [apply K2, Hq|exact HE].
  Qed.
  Definition verts (s : stl) : list v3 := flat_map fverts (facets s).
  Lemma points_spec s : Forall ok3 (verts s) ->
    ssorted order (points s) /\ Forall ok3 (points s) /\ (forall q, In q (points s) -> In q (verts s)) /\
    (forall p, In p (verts s) -> exists q, In q (points s) /\ eq3 p q = true).
  Proof.
    intro H. destruct (@points_fold (verts s) H [] (Forall_nil _) (SSorted_nil _)) as (S & P & I & _ & E).
    repeat split; auto. intros q Hq. destruct (I q Hq) as [K|[]]. exact K.
  Qed.
  Lemma points_distinct s p q : Forall ok3 (verts s) -> forall pre mid post, points s = pre ++ p :: mid ++ q :: post -> eq3 p q = false /\ order p q = true.
  Proof.
    intros H pre mid post HE. destruct (points_spec s H) as (S & P & _). rewrite HE in S, P. clear HE.
    apply Forall_app in P. destruct P as [_ P]. inversion P as [|? ? Pp P']; subst. apply Forall_app in P'. destruct P' as [_ P']. inversion P' as [|? ? Pq _]; subst.
    assert (L : order p q = true).
    { induction pre as [|x pre IH]; simpl in S; [|inversion S; subst; auto]. inversion S as [|? ? _ F]; subst. rewrite Forall_forall in F.
      apply F. apply in_or_app. right. left. reflexivity. }
    split; [|exact L]. destruct (eq3 p q) eqn:Q; [|reflexivity]. apply (order_eqv O Pp Pq) in Q. destruct Q. congruence.
  Qed.

  (** ** Limits *)
  Lemma nmin_spec a b : ok a -> ok b -> let m := nmin a b in ok m /\ (m <=? a) = true /\ (m <=? b) = true /\ (m = a \/ m = b).
  Proof.
    intros Ha Hb. unfold nmin. destruct (b <? a) eqn:L; cbv zeta; rewrite !(ord_le O) by assumption.
    - rewrite (ord_irr O). rewrite (swo_asym (num_swo O) Hb Ha L). auto.
    - rewrite L, (ord_irr O). auto.
  Qed.
  Lemma nmax_spec a b : ok a -> ok b -> let m := nmax a b in ok m /\ (a <=? m) = true /\ (b <=? m) = true /\ (m = a \/ m = b).
  Proof.
    intros Ha Hb. unfold nmax. destruct (a <? b) eqn:L; cbv zeta; rewrite !(ord_le O) by assumption.
    - rewrite (ord_irr O). rewrite (swo_asym (num_swo O) Ha Hb L). auto.
    - rewrite L, (ord_irr O). auto.
  Qed.
  Lemma nle_trans a b c : (a <=? b) = true -> (b <=? c) = true -> (a <=? c) = true.
  Proof.
    intros H1 H2. destruct (ord_le_ok O _ _ H1) as [Ha Hb]. destruct (ord_le_ok O _ _ H2) as [_ Hc].
    rewrite (ord_le O) in * by assumption. rewrite negb_true_iff in *. destruct (c <? a) eqn:L; [|reflexivity].
    destruct (swo_neg (num_swo O) Hc Hb Ha L); congruence.
  Qed.
  Lemma nle_refl a : ok a -> (a <=? a) = true.
  Proof. intro H. rewrite (ord_le O) by assumption. rewrite (ord_irr O). reflexivity. Qed.
  (** b is a bounding box of seen, each side of it attained. *)
  Definition boxes (seen : list v3) (b : v3 * v3) : Prop :=
    (forall v, In v seen -> (x3 (fst b) <=? x3 v) = true /\ (y3 (fst b) <=? y3 v) = true /\ (x3 v <=? x3 (snd b)) = true /\ (y3 v <=? y3 (snd b)) = true) /\
    (exists v, In v seen /\ x3 v = x3 (fst b)) /\ (exists v, In v seen /\ y3 v = y3 (fst b)) /\
    (exists v, In v seen /\ x3 v = x3 (snd b)) /\ (exists v, In v seen /\ y3 v = y3 (snd b)).
  Lemma lim_step_boxes seen b e : Forall ok3 seen -> ok3 e -> boxes seen b -> boxes (e :: seen) (lim_step b e).
  Proof.
    intros HS (X & Y & Z) (HB & (v1 & I1 & Q1) & (v2 & I2 & Q2) & (v3 & I3 & Q3) & (v4 & I4 & Q4)). destruct b as [mn mx]. cbn [fst snd] in *.
    rewrite Forall_forall in HS.
    assert (O1 : ok (x3 mn)) by (rewrite <- Q1; apply (HS _ I1)). assert (O2 : ok (y3 mn)) by (rewrite <- Q2; apply (HS _ I2)).
    assert (O3 : ok (x3 mx)) by (rewrite <- Q3; apply (HS _ I3)). assert (O4 : ok (y3 mx)) by (rewrite <- Q4; apply (HS _ I4)).
    destruct (nmin_spec O1 X) as (_ & A1 & A2 & A3). destruct (nmin_spec O2 Y) as (_ & B1 & B2 & B3).
    destruct (nmax_spec O3 X) as (_ & C1 & C2 & C3). destruct (nmax_spec O4 Y) as (_ & D1 & D2 & D3).
    unfold lim_step, boxes. cbn [fst snd x3 y3]. split; [|split; [|split; [|split]]].
    - intros v [<-|Hv]; [auto|]. destruct (HB v Hv) as (K1 & K2 & K3 & K4). exact (conj (nle_trans _ _ _ A1 K1) (conj (nle_trans _ _ _ B1 K2) (conj (nle_trans _ _ _ K3 C1) (nle_trans _ _ _ K4 D1)))).
    - destruct A3 as [->| ->]; [exists v1; split; [right|]; assumption|exists e; split; [left|]; reflexivity].
    - destruct B3 as [->| ->]; [exists v2; split; [right|]; assumption|exists e; split; [left|]; reflexivity].
    - destruct C3 as [->| ->]; [exists v3; split; [right|]; assumption|exists e; split; [left|]; reflexivity].
    - destruct D3 as [->| ->]; [exists v4; split; [right|]; assumption|exists e; split; [left|]; reflexivity].
  Qed.
  Lemma lim_fold vs : Forall ok3 vs -> forall seen b, Forall ok3 seen -> boxes seen b -> boxes (rev vs ++ seen) (fold_left lim_step vs b).
  Proof.
    induction vs as [|v vs IH]; intros HV seen b HS HB; simpl; [exact HB|]. inversion HV; subst.
    rewrite <- app_assoc. simpl. apply IH; [assumption|constructor; assumption|]. apply lim_step_boxes; assumption.
  Qed.
  Lemma limits_spec s : Forall ok3 (verts s) -> facets s <> [] ->
    (forall v, In v (verts s) -> (x2 (lo (limits s)) <=? x3 v) = true /\ (y2 (lo (limits s)) <=? y3 v) = true /\
                                 (x3 v <=? x2 (lt_ (limits s))) = true /\ (y3 v <=? y2 (lt_ (limits s))) = true) /\
    (exists v, In v (verts s) /\ x3 v = x2 (lo (limits s))) /\ (exists v, In v (verts s) /\ y3 v = y2 (lo (limits s))) /\
    (exists v, In v (verts s) /\ x3 v = x2 (lt_ (limits s))) /\ (exists v, In v (verts s) /\ y3 v = y2 (lt_ (limits s))).
  Proof.
    intros HV HN. unfold limits. fold (verts s). destruct (facets s) as [|f0 fs] eqn:F; [congruence|].
    assert (IN0 : In (fe0 f0) (verts s)) by (unfold verts; rewrite F; left; reflexivity).
    assert (OK0 : ok3 (fe0 f0)) by (rewrite Forall_forall in HV; exact (HV _ IN0)).
    assert (B0 : boxes [fe0 f0] (fe0 f0, fe0 f0)).
    { destruct OK0 as (X & Y & Z). split; [|repeat split; exists (fe0 f0); split; try (left; reflexivity); reflexivity].
      intros v [<-|[]]. cbn [fst snd]. rewrite !nle_refl by assumption. auto. }
    pose proof (lim_fold HV (Forall_cons _ OK0 (Forall_nil _)) B0) as HB.
    assert (IV : forall v, In v (rev (verts s) ++ [fe0 f0]) <-> In v (verts s)).
    { intro v. rewrite in_app_iff, <- in_rev. simpl. split; [intros [H|[<-|[]]]; assumption|auto]. }
    destruct (fold_left lim_step (verts s) (fe0 f0, fe0 f0)) as [mn mx]. cbn [fst snd line3 lo lt_ xy x2 y2] in *.
    destruct HB as (H0 & (v1 & I1 & Q1) & (v2 & I2 & Q2) & (v3 & I3 & Q3) & (v4 & I4 & Q4)). cbn [fst snd] in *. split; [|repeat split].
    - intros v Hv. apply H0, IV, Hv.
    - exists v1. rewrite <- IV. auto.
    - exists v2. rewrite <- IV. auto.
    - exists v3. rewrite <- IV. auto.
    - exists v4. rewrite <- IV. auto.
  Qed.
End PartStl.
