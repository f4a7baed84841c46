(** P_Meta.v - property lists: Flatten and Take. *)
From Coq Require Import Sorting.Sorted Sorting.Permutation.
From Verif Require Import Base Num Geo Stl StlRead Env Ast Ps Draw P_Base.

(** The first position at which a list of names has the name n. *)
Fixpoint index_of (n : bytes) (l : list bytes) : option nat :=
  match l with
  | [] => None
  | x :: t => if bytes_eqb x n then Some 0 else option_map S (index_of n t)
  end.
Lemma index_of_some n l : forall i, index_of n l = Some i -> nth_error l i = Some n.
Proof.
  induction l as [|x l IH]; intros i; simpl; [discriminate|].
  destruct (bytes_eqb x n) eqn:X.
  - intro H; injection H as <-. apply bytes_eqb_eq in X. subst. reflexivity.
  - destruct (index_of n l) as [j|]; [|discriminate]. intro H; injection H as <-. apply IH. reflexivity.
Qed.
Lemma index_of_none n l : index_of n l = None <-> ~ In n l.
Proof.
  induction l as [|x l IH]; simpl; [tauto|]. destruct (bytes_eqb x n) eqn:X.
  - apply bytes_eqb_eq in X. split; [discriminate|tauto].
  - apply bytes_eqb_neq in X. destruct (index_of n l); simpl.
    + split; [discriminate|]. intro H. exfalso. apply H. right.
      destruct (in_dec bytes_eq_dec n l) as [I|I]; [exact I|]. apply IH in I. discriminate.
    + split; [|reflexivity]. intros _ [->|H]; [congruence|]. apply IH in H; auto.
Qed.
Lemma index_of_app n l r : index_of n (l ++ r) =
  match index_of n l with Some i => Some i | None => option_map (fun i => length l + i) (index_of n r) end.
Proof.
  induction l as [|x l IH]; simpl.
  - destruct (index_of n r); reflexivity.
  - destruct (bytes_eqb x n); [reflexivity|]. rewrite IH.
    destruct (index_of n l); [reflexivity|]. destruct (index_of n r); reflexivity.
Qed.

Section Meta.
  Context {A : Arith} {E : Env}.

  Definition names (ml : list meta) : list bytes := map m_name ml.
  Definition prop (n : string) (ml : list meta) : option nat := index_of (B n) (names ml).
  Definition wfs (m : seen) : Prop := ssorted bytes_ltb (map fst m).
  Definition fnd (m : seen) (n : bytes) : option nat := smap_find bytes_ltb n m.

  Lemma wfs_P (m : seen) : keysP (V := nat) (fun _ : bytes => True) m.
  Proof. apply Forall_true. Qed.

  Lemma take_spec nm m : wfs m ->
    fst (take nm m) = fnd m (B nm) /\ wfs (snd (take nm m)) /\
    (forall n, fnd (snd (take nm m)) n = if bytes_eqb n (B nm) then None else fnd m n).
  Proof.
    intro W. unfold take, fnd. destruct (smap_find bytes_ltb (B nm) m) as [k|] eqn:F; simpl.
    - split; [reflexivity|]. split; [apply erase_sorted; exact W|]. intro n.
      destruct (bytes_eqb n (B nm)) eqn:X.
      + apply bytes_eqb_eq in X; subst.
        destruct (smap_find bytes_ltb (B nm) (smap_erase bytes_ltb (B nm) m)) as [v|] eqn:G; [|reflexivity].
        exfalso. apply find_some in G. destruct G as (k' & Hin & HE).
        exact (erase_gone bytes_swo I (wfs_P m) W Hin HE).
      + apply bytes_eqb_neq in X.
        destruct (smap_find bytes_ltb n m) as [v|] eqn:G.
        * apply find_some in G. destruct G as (k' & Hin & HE). apply bytes_eqv in HE. subst k'.
          apply (find_in bytes_swo (wfs_P _)); [apply erase_sorted; exact W|].
          apply (erase_keep I (wfs_P _) W Hin). rewrite bytes_eqv. congruence.
        * destruct (smap_find bytes_ltb n (smap_erase bytes_ltb (B nm) m)) as [v|] eqn:G'; [|reflexivity].
          apply find_some in G'. destruct G' as (k' & Hin & HE). exfalso.
          apply erase_in in Hin. exact (find_none bytes_swo I (wfs_P _) W G Hin HE).
    - split; [reflexivity|]. split; [exact W|]. intro n.
      destruct (bytes_eqb n (B nm)) eqn:X; [|reflexivity].
      apply bytes_eqb_eq in X; subst. exact F.
  Qed.

  Lemma wfs_nil m : wfs m -> (m = [] <-> forall n, fnd m n = None).
  Proof.
    intro W. split; [intros -> n; reflexivity|]. intro H.
    destruct m as [|[k v] t]; [reflexivity|]. exfalso.
    assert (F : fnd ((k, v) :: t) k = Some v)
      by (apply (find_in bytes_swo (wfs_P _) W); left; reflexivity).
    rewrite H in F. discriminate.
  Qed.

  Lemma existsb_in n l : existsb (bytes_eqb n) l = true <-> In n l.
  Proof.
    rewrite existsb_exists. split.
    - intros (x & Hin & Hx). apply bytes_eqb_eq in Hx. subst. exact Hin.
    - intro H. exists n. split; [exact H|apply bytes_eqb_refl].
  Qed.

  (** The diagnostics for repeated names; [pre] are the names before. *)
  Fixpoint dup_diags (what : bytes) (pre : list bytes) (ml : list meta) : list diag :=
    match ml with
    | [] => []
    | x :: t =>
        (if existsb (bytes_eqb (m_name x)) pre
         then [DSym (m_loc x) (B "Duplicate " ++ what ++ B " property '" ++ m_name x ++ B "'")] else [])
          ++ dup_diags what (pre ++ [m_name x]) t
    end.
  Lemma dup_diags_nil what ml : forall pre, NoDup pre ->
    (dup_diags what pre ml = [] <-> NoDup (pre ++ names ml)).
  Proof.
    induction ml as [|x t IH]; intros pre Hp; simpl.
    - rewrite app_nil_r. tauto.
    - destruct (existsb (bytes_eqb (m_name x)) pre) eqn:X; simpl.
      + split; [discriminate|]. intro H. exfalso. apply existsb_in in X.
        apply NoDup_remove_2 in H. apply H. apply in_or_app. left; exact X.
      + rewrite IH.
        * rewrite <- app_assoc. simpl. tauto.
        * assert (N : ~ In (m_name x) pre) by (rewrite <- existsb_in; congruence).
          apply (Permutation_NoDup (Permutation_cons_append pre (m_name x))).
          constructor; assumption.
  Qed.
  Lemma dup_diags_sym what ml : forall pre, Forall (fun d => exists l m, d = DSym l m) (dup_diags what pre ml).
  Proof.
    induction ml as [|x t IH]; intro pre; simpl; [constructor|].
    apply Forall_app. split; [|apply IH]. destruct (existsb _ pre); constructor; eauto.
  Qed.

  Definition nilb {X} (l : list X) : bool := match l with [] => true | _ => false end.

  Lemma flatten_gen what ml : forall pre ok m lg,
    wfs m -> (forall n, fnd m n = index_of n pre) ->
    exists m',
      fold_left (flatten_step what) (combine (seq (length pre) (length ml)) ml) (ok, m, lg)
        = (ok && nilb (dup_diags what pre ml), m', lg ++ dup_diags what pre ml) /\ wfs m' /\
      (forall n, fnd m' n = index_of n (pre ++ names ml)).
  Proof.
    induction ml as [|x t IH]; intros pre ok m lg W F.
    - exists m. simpl. rewrite andb_true_r, !app_nil_r. auto.
    - cbn [length seq combine fold_left flatten_step]. change (smap_find bytes_ltb (m_name x) m) with (fnd m (m_name x)).
      rewrite F.
      assert (L : S (length pre) = length (pre ++ [m_name x])) by (rewrite app_length; simpl; lia).
      rewrite L. destruct (index_of (m_name x) pre) as [i|] eqn:X.
      + assert (X' : existsb (bytes_eqb (m_name x)) pre = true).
        { apply existsb_in. apply index_of_some in X. eapply nth_error_In; exact X. }
        destruct (IH (pre ++ [m_name x]) false m
                     (lg ++ [DSym (m_loc x) (B "Duplicate " ++ what ++ B " property '" ++ m_name x ++ B "'")]) W) as (m' & E1 & W' & F').
        * intro n. rewrite F, index_of_app. destruct (index_of n pre) eqn:Y; [reflexivity|].
          simpl. destruct (bytes_eqb (m_name x) n) eqn:Z; [|reflexivity].
          apply bytes_eqb_eq in Z. subst. congruence.
        * exists m'. rewrite E1. cbn [dup_diags]. rewrite X'. simpl. rewrite andb_false_r.
          split; [|split; [exact W'|]].
          -- rewrite <- app_assoc. reflexivity.
          -- intro n. rewrite F', <- app_assoc. reflexivity.
      + assert (X' : existsb (bytes_eqb (m_name x)) pre = false).
        { destruct (existsb (bytes_eqb (m_name x)) pre) eqn:Y; [|reflexivity].
          apply existsb_in in Y. apply index_of_none in X. tauto. }
        assert (FN : fnd m (m_name x) = None) by (rewrite F; exact X).
        destruct (IH (pre ++ [m_name x]) ok (smap_emplace bytes_ltb (m_name x) (length pre) m) lg) as (m' & E1 & W' & F').
        * apply (emplace_sorted bytes_swo _ I (wfs_P _) W).
        * intro n. rewrite index_of_app. simpl. unfold fnd.
          destruct (bytes_eqb (m_name x) n) eqn:Z.
          -- apply bytes_eqb_eq in Z. subst. rewrite X. simpl. rewrite Nat.add_0_r.
             apply (find_emplace_same bytes_swo _ I (wfs_P _) FN).
          -- apply bytes_eqb_neq in Z.
             rewrite (find_emplace_other bytes_swo _ I I (wfs_P _)) by (rewrite bytes_eqv; exact Z).
             fold (fnd m n). rewrite F. destruct (index_of n pre); reflexivity.
        * exists m'. cbn [dup_diags]. rewrite X'. cbn [app].
          split; [exact E1|]. split; [exact W'|]. intro n. rewrite F', <- app_assoc. reflexivity.
  Qed.

  Lemma flatten_spec what ml : exists m,
    flatten what ml = (nilb (dup_diags (B what) [] ml), m, dup_diags (B what) [] ml) /\ wfs m /\
    (forall n, fnd m n = index_of n (names ml)).
  Proof.
    destruct (@flatten_gen (B what) ml [] true [] []) as (m & E1 & W & F).
    - constructor.
    - reflexivity.
    - exists m. split; [exact E1|]. split; assumption.
  Qed.
  Lemma nilb_nodup what ml : nilb (dup_diags what [] ml) = true <-> NoDup (names ml).
  Proof.
    rewrite <- (dup_diags_nil what ml (NoDup_nil _)). destruct (dup_diags what [] ml); simpl; split; congruence.
  Qed.

  (** All names of ml are among ks iff nothing is left after removing ks. *)
  Definition drop (ks : list string) (n : bytes) (o : option nat) : option nat :=
    if existsb (fun k => bytes_eqb n (B k)) ks then None else o.
  Lemma drop_none ks ml : (forall n, drop ks n (index_of n (names ml)) = None) <->
    (forall n, In n (names ml) -> exists k, In k ks /\ n = B k).
  Proof.
    unfold drop. split.
    - intros H n Hin. specialize (H n). destruct (existsb _ ks) eqn:X.
      + apply existsb_exists in X. destruct X as (k & Hk & X). apply bytes_eqb_eq in X. eauto.
      + apply index_of_none in H. tauto.
    - intros H n. destruct (existsb _ ks) eqn:X; [reflexivity|]. apply index_of_none. intro Hin.
      destruct (H n Hin) as (k & Hk & ->). assert (Y : existsb (fun k0 => bytes_eqb (B k) (B k0)) ks = true).
      { apply existsb_exists. exists k. split; [exact Hk|apply bytes_eqb_refl]. }
      congruence.
  Qed.
  Lemma prop_none n ml : prop n ml = None <-> ~ In (B n) (names ml).
  Proof. apply index_of_none. Qed.
  Lemma prop_some n ml i : prop n ml = Some i -> exists m, nth_error ml i = Some m /\ m_name m = B n.
  Proof.
    intro H. apply index_of_some in H. unfold names in H. rewrite nth_error_map in H.
    destruct (nth_error ml i) as [m|]; [|discriminate]. exists m. split; [reflexivity|].
    injection H as H; exact H.
  Qed.
End Meta.
