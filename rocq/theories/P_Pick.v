(** P_Pick.v - Closest and Near select the nearest points (with the exceptions
    that are stated), for every arithmetic with ordered comparisons. *)
From Coq Require Import Sorting.Sorted Permutation.
From Verif Require Import Base Num NumLaws Geo Env Ast PickSpec P_Base P_Order.

Local Unset Implicit Arguments.
Section Closest.
  Context {A : Arith} (OA : ordered A).
  Local Open Scope num_scope.
  Context (to : v2).
  Lemma o_neg x y z : ok y -> (x <? z) = true -> (x <? y) = true \/ (y <? z) = true. Proof. apply OA. Qed.
  Lemma o_tr x y z : (x <? y) = true -> (y <? z) = true -> (x <? z) = true. Proof. apply OA. Qed.
  Lemma o_irr x : (x <? x) = false. Proof. apply OA. Qed.
  Lemma o_nan_l x y : (x <? y) = true -> ok x. Proof. apply OA. Qed.
  Definition dk (p : v2) : num := sqn2 (sub2 p to).
  Lemma dk_sq p : dk p = sq_dist p to. Proof. reflexivity. Qed.
  Lemma not_lt_trans x y z : ok y -> (x <? y) = false -> (y <? z) = false -> (x <? z) = false.
  Proof.
    intros Y H1 H2. destruct (x <? z) eqn:E; [|reflexivity]. destruct (o_neg x y z Y E) as [K|K]; congruence.
  Qed.
  Lemma lt_not_lt x y : (x <? y) = true -> (y <? x) = false.
  Proof. intro H. destruct (y <? x) eqn:E; [|reflexivity]. pose proof (o_tr _ _ _ H E) as K. rewrite (o_irr) in K. discriminate K. Qed.
  Definition le_key (a b : num * v2) : Prop := (fst b <? fst a) = false.
  Definition wf (c : list (num * v2)) : Prop := Forall (fun kv => fst kv = dk (snd kv) /\ ok (fst kv)) c /\ StronglySorted le_key c.

  Lemma mm_perm d p c : Permutation (mm_insert d p c) ((d, p) :: c).
  Proof.
    induction c as [|[k q] c IH]; cbn [mm_insert]; [reflexivity|]. destruct (d <? k); [reflexivity|].
    rewrite IH. apply perm_swap.
  Qed.
  Lemma mm_wf p c : ok (dk p) -> wf c -> wf (mm_insert (dk p) p c).
  Proof.
    intros D [H1 H2]. split.
    - rewrite Forall_forall in *. intros kv I. apply (Permutation_in _ (mm_perm _ _ _)) in I. destruct I as [<-|I]; [auto|exact (H1 _ I)].
    - induction c as [|[k q] c IH]; cbn [mm_insert]; [repeat constructor|]. pose proof (Forall_inv H1) as [Ek Ok]. apply Forall_inv_tail in H1. cbn [fst snd] in Ek, Ok.
      apply StronglySorted_inv in H2. destruct H2 as [H2 H3]. destruct (dk p <? k) eqn:E.
      + constructor; [constructor; assumption|]. constructor; [unfold le_key; cbn [fst]; apply lt_not_lt; exact E|].
        rewrite Forall_forall in *. intros kv I. specialize (H3 _ I). unfold le_key in *. cbn [fst] in *. apply (not_lt_trans _ k); [exact Ok|exact H3|apply lt_not_lt; exact E].
      + constructor; [exact (IH H1 H2)|]. rewrite Forall_forall in *. intros kv I. apply (Permutation_in _ (mm_perm _ _ _)) in I. destruct I as [<-|I]; [exact E|exact (H3 _ I)].
  Qed.
  Lemma last_in c k : last_key c = Some k -> exists q, In (k, q) c.
  Proof.
    induction c as [|[k' q] c IH]; [discriminate|]. destruct c as [|b c].
    - cbn. intro H. injection H as <-. eauto.
    - intro H. destruct (IH H) as [q' I]. exists q'. right; exact I.
  Qed.
  Lemma last_max c k : StronglySorted le_key c -> last_key c = Some k -> forall kv, In kv c -> (k <? fst kv) = false.
  Proof.
    induction c as [|[k' q] c IH]; [discriminate|]. intros S H kv I. apply StronglySorted_inv in S. destruct S as [S1 S2].
    destruct c as [|b c].
    - cbn in H. injection H as <-. destruct I as [<-|[]]. cbn. apply (o_irr).
    - change (last_key (b :: c) = Some k) in H. destruct I as [<-|I]; [|exact (IH S1 H _ I)].
      destruct (last_in _ _ H) as [q' J]. rewrite Forall_forall in S2. exact (S2 _ J).
  Qed.
  Lemma last_some c : c <> [] -> exists k, last_key c = Some k.
  Proof.
    induction c as [|[k q] c IH]; [congruence|]. intros _. destruct c as [|b c]; [eexists; reflexivity|]. exact (IH ltac:(discriminate)).
  Qed.
  Lemma firstn_sorted {X} (R : X -> X -> Prop) (l : list X) : StronglySorted R l -> forall n, StronglySorted R (firstn n l) /\ forall x y, In x (firstn n l) -> In y (skipn n l) -> R x y.
  Proof.
    induction 1 as [|a l S IH F]; intro n; [rewrite firstn_nil, skipn_nil; split; [constructor|intros ? ? []]|].
    destruct n as [|n]; [split; [constructor|intros ? ? []]|]. cbn [firstn skipn]. destruct (IH n) as [H1 H2]. split.
    - constructor; [exact H1|]. rewrite Forall_forall in *. intros x I. apply F. rewrite <- (firstn_skipn n l). apply in_or_app. left; exact I.
    - intros x y [<-|I] J; [|exact (H2 _ _ I J)]. rewrite Forall_forall in F. apply F. rewrite <- (firstn_skipn n l). apply in_or_app. right; exact J.
  Qed.
  (** The marked point x is unselected. *)
  Lemma unselect (sel : list (v2 * bool)) x : In x (selected sel) -> exists sel', map fst sel' = map fst sel /\ Permutation (selected sel) (x :: selected sel') /\
    forall pre q post, sel' = pre ++ (q, false) :: post -> q = x \/ exists pre' post', sel = pre' ++ (q, false) :: post' /\ map fst pre' = map fst pre.
  Proof.
    induction sel as [|[y b] sel IH]; [intros []|]. unfold selected. cbn [filter snd]. destruct b; cbn [map fst].
    - intros [<-|I].
      + exists ((y, false) :: sel). split; [reflexivity|]. split; [reflexivity|]. intros pre q post E. destruct pre as [|z pre]; injection E as E1 E2.
        * left. auto.
        * right. subst z. exists ((y, true) :: pre), post. rewrite E2. split; reflexivity.
      + destruct (IH I) as (sel' & H1 & H2 & H3). exists ((y, true) :: sel'). split; [cbn; rewrite H1; reflexivity|]. split.
        * cbn [filter snd map fst]. unfold selected in H2. rewrite H2. apply perm_swap.
        * intros pre q post E. destruct pre as [|z pre]; [discriminate E|]. injection E as <- E. destruct (H3 _ _ _ E) as [->|(pre' & post' & -> & M)]; [left; reflexivity|].
          right. exists ((y, true) :: pre'), post'. split; [reflexivity|]. cbn. rewrite M. reflexivity.
    - intro I. destruct (IH I) as (sel' & H1 & H2 & H3). exists ((y, false) :: sel'). split; [cbn; rewrite H1; reflexivity|]. split; [exact H2|].
      intros pre q post E. destruct pre as [|z pre].
      + injection E as -> E. right. exists [], sel. split; reflexivity.
      + injection E as <- E. destruct (H3 _ _ _ E) as [->|(pre' & post' & -> & M)]; [left; reflexivity|]. right. exists ((y, false) :: pre'), post'. split; [reflexivity|]. cbn. rewrite M. reflexivity.
  Qed.
  Lemma selected_app a b : selected (a ++ b) = selected a ++ selected b.
  Proof. unfold selected. rewrite filter_app, map_app. reflexivity. Qed.
  (** One point is unselected for a reason. *)
  Definition reasoned (c : list (num * v2)) (sel : list (v2 * bool)) : Prop :=
    forall pre q post, sel = pre ++ (q, false) :: post ->
      (forall kv, In kv c -> (dk q <? fst kv) = false) \/ exists p, In p (map fst pre) /\ coincides to q p.
  Record inv (count : nat) (dn : list v2) (c : list (num * v2)) : Prop := {
    i_wf : wf c;
    i_len : length c <= count;
    i_some : dn <> [] -> c <> [];
    i_sel : exists sel, marks dn sel /\ Permutation (map snd c) (selected sel) /\ reasoned c sel }.
  Lemma step_inv count dn c p : 1 <= count -> Forall (fun q => ok (dk q)) (dn ++ [p]) -> inv count dn c -> inv count (dn ++ [p]) (closest_step count to c p).
  Proof.
    intros HC OK I. assert (Op : ok (dk p)) by (rewrite Forall_forall in OK; apply OK, in_or_app; right; left; reflexivity).
    destruct I as [W L NE (sel & M & P & RS)]. unfold closest_step. fold (dk p).
    assert (Q : forall q, In q dn -> ok (dk q)) by (intros q I; rewrite Forall_forall in OK; apply OK, in_or_app; left; exact I).
    assert (SPLIT : forall b pre q post, sel ++ [(p, b)] = pre ++ (q, false) :: post -> (b = false /\ q = p /\ pre = sel /\ post = []) \/ exists post', sel = pre ++ (q, false) :: post').
    { intros b pre q post E. destruct post as [|z post] using rev_ind.
      - apply app_inj_tail in E. destruct E as [E1 E2]. injection E2 as -> ->. left. auto.
      - right. clear IHpost. rewrite app_comm_cons, app_assoc in E. apply app_inj_tail in E. destruct E as [-> _]. eauto. }
    destruct (match last_key c with Some k => ngt (dk p) k | None => false end) eqn:FAR.
    { destruct (last_key c) as [k|] eqn:LK; [|discriminate FAR]. unfold ngt in FAR. split; [exact W|exact L| |].
      - intros _ ->. discriminate LK.
      - exists (sel ++ [(p, false)]). split; [unfold marks in *; rewrite map_app, M; reflexivity|]. split; [rewrite selected_app; cbn; rewrite app_nil_r; exact P|].
        intros pre q post E. destruct (SPLIT _ _ _ _ E) as [(_ & -> & _ & _)|[post' ->]]; [left|exact (RS _ _ _ eq_refl)].
        intros kv I. apply (not_lt_trans _ k); [exact (o_nan_l _ _ FAR)|apply lt_not_lt; exact FAR|exact (last_max _ _ (proj2 W) LK _ I)]. }
    destruct (existsb _ (mm_equal (dk p) c)) eqn:CO.
    { apply existsb_exists in CO. destruct CO as ([k r] & I & C). unfold mm_equal in I. apply filter_In in I. destruct I as [I EQ]. cbn [fst snd] in *.
      apply andb_true_iff in EQ. destruct EQ as [E1 E2]. apply negb_true_iff in E1. apply negb_true_iff in E2.
      destruct W as [W1 W2]. rewrite Forall_forall in W1. destruct (W1 _ I) as [EK _]. cbn [fst snd] in EK. subst k.
      assert (IR : In r dn). { rewrite <- M. apply (in_map snd) in I. cbn [snd] in I. apply (Permutation_in _ P) in I. unfold selected in I. apply in_map_iff in I. destruct I as (z & <- & I). apply filter_In in I. apply in_map, I. }
      split; [split; [rewrite Forall_forall; exact W1|exact W2]|exact L| |].
      - intros _ ->. destruct I.
      - exists (sel ++ [(p, false)]). split; [unfold marks in *; rewrite map_app, M; reflexivity|]. split; [rewrite selected_app; cbn; rewrite app_nil_r; exact P|].
        intros pre q post E. destruct (SPLIT _ _ _ _ E) as [(_ & -> & -> & _)|[post' ->]]; [right|exact (RS _ _ _ eq_refl)].
        exists r. split; [rewrite M; exact IR|]. split; [|exact C]. split; unfold closer; rewrite <- !dk_sq; congruence. }
    pose proof (mm_wf p c Op W) as W'. pose proof (mm_perm (dk p) p c) as PM. set (m := mm_insert (dk p) p c) in *.
    assert (LM : length m = S (length c)) by (rewrite (Permutation_length PM); reflexivity).
    destruct (firstn_sorted _ m (proj2 W') count) as [FS FM].
    assert (WF : wf (firstn count m)).
    { split; [|exact FS]. destruct W' as [W1 _]. rewrite Forall_forall in *. intros kv I. apply W1. rewrite <- (firstn_skipn count m). apply in_or_app. left; exact I. }
    (* earlier unselected points stay far *)
    assert (RS2 : forall sel2, map fst sel2 = map fst sel -> (forall pre q post, sel2 = pre ++ (q, false) :: post -> (forall kv, In kv (firstn count m) -> (dk q <? fst kv) = false) \/ exists pre' post', sel = pre' ++ (q, false) :: post' /\ map fst pre' = map fst pre) ->
      reasoned (firstn count m) (sel2)).
    { intros sel2 M2 H pre q post E. destruct (H _ _ _ E) as [K|(pre' & post' & -> & MP)]; [left; exact K|].
      destruct (RS _ _ _ eq_refl) as [K|(r & I & C)]; [left|right; exists r; rewrite <- MP; auto].
      intros kv I. assert (J : In kv m) by (rewrite <- (firstn_skipn count m); apply in_or_app; left; exact I). apply (Permutation_in _ PM) in J. destruct J as [<-|J]; [|exact (K _ J)].
      cbn [fst]. assert (CN : c <> []). { apply NE. intros ->. unfold marks in M. destruct pre'; discriminate M. }
      destruct (last_some c CN) as [k LK]. rewrite LK in FAR. unfold ngt in FAR. destruct (last_in _ _ LK) as [r Ir].
      destruct W as [W1 _]. rewrite Forall_forall in W1. destruct (W1 _ Ir) as [_ Ok]. apply (not_lt_trans _ k); [exact Ok|exact (K _ Ir)|exact FAR]. }
    destruct (Nat.le_gt_cases (length m) count) as [FIT|OVER].
    - rewrite firstn_all2 in * by exact FIT. split; [exact W'|exact FIT| |].
      + intros _ Z. rewrite Z in LM. discriminate LM.
      + exists (sel ++ [(p, true)]). split; [unfold marks in *; rewrite map_app, M; reflexivity|]. split.
        * rewrite selected_app. cbn. rewrite PM. cbn [map snd]. rewrite P. rewrite <- Permutation_cons_append. reflexivity.
        * intros pre q post E. destruct (SPLIT _ _ _ _ E) as [(X & _)|[post' Es]]; [discriminate X|].
          apply (RS2 sel eq_refl) with (post := post'); [|exact Es]. intros pre2 q2 post2 E2. right. exists pre2, post2. auto.
    - assert (LC : length c = count) by lia.
      assert (SK : length (skipn count m) = 1) by (rewrite skipn_length; lia). destruct (skipn count m) as [|z [|]] eqn:SZ; try discriminate SK.
      assert (PZ : Permutation (map snd m) (snd z :: map snd (firstn count m))).
      { rewrite <- (firstn_skipn count m) at 1. rewrite SZ, map_app. cbn [map]. rewrite <- Permutation_cons_append. reflexivity. }
      assert (ZK : fst z = dk (snd z)). { destruct W' as [W1 _]. rewrite Forall_forall in W1. apply W1. rewrite <- (firstn_skipn count m), SZ. apply in_or_app. right; left; reflexivity. }
      assert (PS : Permutation (map snd m) (selected (sel ++ [(p, true)]))).
      { rewrite selected_app. cbn. rewrite PM. cbn [map snd]. rewrite P. rewrite <- Permutation_cons_append. reflexivity. }
      assert (IZ : In (snd z) (selected (sel ++ [(p, true)]))).
      { apply (Permutation_in _ PS). apply in_map. rewrite <- (firstn_skipn count m), SZ. apply in_or_app. right; left; reflexivity. }
      destruct (unselect _ _ IZ) as (sel' & M' & P' & R').
      split; [exact WF|rewrite firstn_length; lia| |].
      + intros _ Z. assert (X : length (firstn count m) = count) by (rewrite firstn_length; lia). rewrite Z in X. cbn in X. lia.
      + exists sel'. split; [unfold marks in *; rewrite M', map_app, M; reflexivity|]. split.
        * apply (Permutation_cons_inv (a := snd z)). rewrite <- PZ, PS. exact P'.
        * intros pre q post E. destruct (R' _ _ _ E) as [->|(pre' & post' & E' & MP)].
          -- left. intros kv I. rewrite <- ZK. exact (FM _ _ I (or_introl eq_refl)).
          -- destruct (SPLIT _ _ _ _ E') as [(X & _)|[post2 Es]]; [discriminate X|].
             destruct (RS2 sel eq_refl) with (pre := pre') (q := q) (post := post2) as [K|(r & I & C)]; [|exact Es|left; exact K|right; exists r; rewrite <- MP; auto].
             intros pre2 q2 post3 E2. right. exists pre2, post3. auto.
  Qed.
  Lemma fold_inv count ps : 1 <= count -> forall dn c, Forall (fun q => ok (dk q)) (dn ++ ps) -> inv count dn c -> inv count (dn ++ ps) (fold_left (closest_step count to) ps c).
  Proof.
    intro HC. induction ps as [|p ps IH]; intros dn c OK I; [rewrite app_nil_r; exact I|]. cbn [fold_left].
    replace (dn ++ p :: ps) with ((dn ++ [p]) ++ ps) in * by (rewrite <- app_assoc; reflexivity).
    apply IH; [exact OK|]. apply step_inv; [exact HC| |exact I]. apply Forall_app in OK. exact (proj1 OK).
  Qed.
  Lemma inv_nil count : inv count [] [].
  Proof.
    split; [split; constructor|cbn; lia|congruence|]. exists []. split; [reflexivity|]. split; [reflexivity|]. intros pre q post E. destruct pre; discriminate E.
  Qed.
  Lemma closest_inv ps count : (1 <= count)%Z -> Forall (fun q => ok (sq_dist q to)) ps -> exists c, closest ps count to = map snd c /\ inv (Z.to_nat count) ps c.
  Proof.
    intros HC OK. unfold closest. destruct (Z.ltb_spec count 1) as [K|_]; [lia|]. eexists. split; [reflexivity|].
    apply (fold_inv (Z.to_nat count) ps ltac:(lia) [] [] OK (inv_nil _)).
  Qed.
  Theorem closest_picks ps count : Forall (fun q => ok (sq_dist q to)) ps ->
    (Z.of_nat (length (closest ps count to)) <= Z.max 0 count)%Z /\ by_distance to (closest ps count to) /\
    exists sel, marks ps sel /\ Permutation (closest ps count to) (selected sel) /\
      forall pre q post, sel = pre ++ (q, false) :: post -> (count < 1)%Z \/ (forall p, In p (closest ps count to) -> ~ closer to q p) \/ exists p, In p (map fst pre) /\ coincides to q p.
  Proof.
    intro OK. destruct (Z.lt_ge_cases count 1) as [HC|HC].
    - unfold closest. destruct (Z.ltb_spec count 1) as [_|K]; [|lia]. split; [cbn; lia|]. split; [constructor|]. exists (map (fun p => (p, false)) ps).
      split; [unfold marks; rewrite map_map; apply map_id|]. split; [|intros; left; exact HC].
      unfold selected. induction ps as [|p ps IH]; [reflexivity|]. cbn. apply IH. exact (Forall_inv_tail OK).
    - destruct (closest_inv ps count HC OK) as (c & E & [W L _ (sel & M & P & RS)]). rewrite E. split; [rewrite map_length; lia|]. split.
      + destruct W as [W1 W2]. unfold by_distance. clear - W1 W2. induction W2 as [|kv c S IH F]; cbn [map]; [constructor|]. pose proof (Forall_inv W1) as [K _]. apply Forall_inv_tail in W1. constructor; [exact (IH W1)|].
        rewrite Forall_forall in *. intros q I. apply in_map_iff in I. destruct I as (kv' & <- & I). specialize (F _ I). specialize (W1 _ I). unfold le_key in F. unfold closer. rewrite <- !dk_sq. rewrite (proj1 W1), K in F. rewrite F. discriminate.
      + exists sel. split; [exact M|]. split; [exact P|]. intros pre q post Es. right. destruct (RS _ _ _ Es) as [K|K]; [left|right; exact K].
        intros p I. apply in_map_iff in I. destruct I as (kv & <- & I). specialize (K _ I). destruct W as [W1 _]. rewrite Forall_forall in W1. rewrite (proj1 (W1 _ I)) in K. unfold closer. rewrite <- !dk_sq. rewrite K. discriminate.
  Qed.
  (** Points that come nearer and do not coincide are all considered. *)
  Theorem closest_count ps count : (1 <= count)%Z -> Forall (fun q => ok (sq_dist q to)) ps ->
    (forall pre q post, ps = pre ++ q :: post -> forall p, In p pre -> ~ closer to p q /\ ~ coincides to q p) ->
    length (closest ps count to) = Nat.min (Z.to_nat count) (length ps).
  Proof.
    intros HC OK H. unfold closest. destruct (Z.ltb_spec count 1) as [K|_]; [lia|]. rewrite map_length. set (n := Z.to_nat count).
    assert (G : forall ps dn c, Forall (fun q => ok (dk q)) (dn ++ ps) -> inv n dn c -> length c = Nat.min n (length dn) ->
      (forall pre q post, dn ++ ps = pre ++ q :: post -> forall p, In p pre -> ~ closer to p q /\ ~ coincides to q p) ->
      length (fold_left (closest_step n to) ps c) = Nat.min n (length (dn ++ ps))).
    { clear OK H ps. induction ps as [|p ps IH]; intros dn c OK I L H; [rewrite app_nil_r; exact L|]. cbn [fold_left].
      assert (OK1 : Forall (fun q => ok (dk q)) (dn ++ [p])) by (replace (dn ++ p :: ps) with ((dn ++ [p]) ++ ps) in OK by (rewrite <- app_assoc; reflexivity); apply Forall_app in OK; exact (proj1 OK)).
      replace (dn ++ p :: ps) with ((dn ++ [p]) ++ ps) in * by (rewrite <- app_assoc; reflexivity).
      apply IH; [exact OK|apply step_inv; [unfold n; lia|exact OK1|exact I]| |exact H].
      destruct I as [W LC NE (sel & M & P & _)].
      assert (IN : forall kv, In kv c -> In (snd kv) dn /\ fst kv = dk (snd kv)).
      { intros kv I. destruct W as [W1 _]. rewrite Forall_forall in W1. split; [|apply W1, I]. rewrite <- M. apply (in_map snd) in I. apply (Permutation_in _ P) in I. unfold selected in I. apply in_map_iff in I. destruct I as (z & <- & I). apply filter_In in I. apply in_map, I. }
      assert (HP : forall q, In q dn -> (dk q <? dk p) = false /\ ~ coincides to p q).
      { intros q I. destruct (H dn p ps) with (p := q) as [H1 H2]; [rewrite <- app_assoc; reflexivity|exact I|]. split; [|exact H2]. unfold closer in H1. rewrite <- !dk_sq in H1. destruct (dk q <? dk p); congruence. }
      unfold closest_step. fold (dk p).
      destruct (match last_key c with Some k => ngt (dk p) k | None => false end) eqn:FAR.
      { exfalso. destruct (last_key c) as [k|] eqn:LK; [|discriminate FAR]. destruct (last_in _ _ LK) as [r Ir]. destruct (IN _ Ir) as [Id Ek]. cbn [fst snd] in *. unfold ngt in FAR. destruct (HP _ Id) as [F _]. subst k. congruence. }
      destruct (existsb _ (mm_equal (dk p) c)) eqn:CO.
      { exfalso. apply existsb_exists in CO. destruct CO as (kv & Ikv & C). unfold mm_equal in Ikv. apply filter_In in Ikv. destruct Ikv as [Ikv EQ]. destruct (IN _ Ikv) as [Id Ek].
        apply andb_true_iff in EQ. destruct EQ as [E1 E2]. apply negb_true_iff in E1. apply negb_true_iff in E2. rewrite Ek in E1, E2. destruct (HP _ Id) as [_ NC]. apply NC. split; [|exact C]. split; unfold closer; rewrite <- !dk_sq; congruence. }
      rewrite firstn_length, (Permutation_length (mm_perm _ _ _)), app_length. cbn [length]. lia. }
    apply (G ps [] []); [exact OK|apply inv_nil|cbn; lia|exact H].
  Qed.
  (** The exact number, when no points coincide: those not farther than the first. *)
  Theorem closest_exact p0 ps count : (1 <= count)%Z -> Forall (fun q => ok (sq_dist q to)) (p0 :: ps) ->
    (forall pre q post, p0 :: ps = pre ++ q :: post -> forall p, In p pre -> ~ coincides to q p) ->
    length (closest (p0 :: ps) count to) = Nat.min (Z.to_nat count) (length (filter (not_farther to p0) (p0 :: ps))).
  Proof.
    intros HC OK H. unfold closest. destruct (Z.ltb_spec count 1) as [K|_]; [lia|]. rewrite map_length. set (n := Z.to_nat count).
    assert (O0 : ok (dk p0)) by exact (Forall_inv OK).
    assert (G : forall ps dn c, Forall (fun q => ok (dk q)) (dn ++ ps) -> inv n dn c -> length c = Nat.min n (length (filter (not_farther to p0) dn)) ->
      (length c < n -> In (dk p0, p0) c /\ forall kv, In kv c -> (dk p0 <? fst kv) = false) -> dn <> [] ->
      (forall pre q post, dn ++ ps = pre ++ q :: post -> forall p, In p pre -> ~ coincides to q p) ->
      length (fold_left (closest_step n to) ps c) = Nat.min n (length (filter (not_farther to p0) (dn ++ ps)))).
    { clear OK H ps. induction ps as [|p ps IH]; intros dn c OK I L F ND H; [rewrite app_nil_r; exact L|]. cbn [fold_left].
      assert (OK1 : Forall (fun q => ok (dk q)) (dn ++ [p])) by (replace (dn ++ p :: ps) with ((dn ++ [p]) ++ ps) in OK by (rewrite <- app_assoc; reflexivity); apply Forall_app in OK; exact (proj1 OK)).
      replace (dn ++ p :: ps) with ((dn ++ [p]) ++ ps) in * by (rewrite <- app_assoc; reflexivity).
      assert (CN : c <> []) by (apply I; exact ND). destruct (last_some c CN) as [k LK].
      assert (IN : forall kv, In kv c -> In (snd kv) dn /\ fst kv = dk (snd kv) /\ ok (fst kv)).
      { intros kv J. destruct I as [[W1 _] _ _ (sel & M & P & _)]. rewrite Forall_forall in W1. split; [|split; apply W1, J]. rewrite <- M. apply (in_map snd) in J. apply (Permutation_in _ P) in J. unfold selected in J. apply in_map_iff in J. destruct J as (z & <- & J). apply filter_In in J. apply in_map, J. }
      assert (NC : forall q, In q dn -> ~ coincides to p q) by (intros q J; apply (H dn p ps); [rewrite <- app_assoc; reflexivity|exact J]).
      assert (FA : length (filter (not_farther to p0) (dn ++ [p])) = (length (filter (not_farther to p0) dn) + (if (dk p0 <? dk p)%num then 0 else 1))%nat).
      { rewrite filter_app, app_length. f_equal. cbn [filter]. unfold not_farther. rewrite <- !dk_sq. destruct (dk p0 <? dk p); reflexivity. }
      destruct (last_in _ _ LK) as [r Ir]. destruct (IN _ Ir) as (_ & _ & Ok). cbn [fst] in Ok.
      assert (NX : dn ++ [p] <> []) by (intro Z; destruct dn; discriminate Z).
      pose proof (step_inv n dn c p ltac:(unfold n; lia) OK1 I) as I2.
      apply IH; [exact OK|exact I2| | |exact NX|exact H]; clear IH I2.
      - rewrite FA. unfold closest_step. fold (dk p). rewrite LK. destruct (ngt (dk p) k) eqn:FAR; unfold ngt in FAR.
        { destruct (Nat.lt_ge_cases (length c) n) as [LT|GE]; [|rewrite L in *; destruct (dk p0 <? dk p); lia]. destruct (F LT) as [F1 F2].
          assert (X : (dk p0 <? dk p) = true). { destruct (o_neg k (dk p0) (dk p) O0 FAR) as [X|X]; [|exact X]. pose proof (last_max _ _ (proj2 (i_wf _ _ _ I)) LK _ F1) as Y. cbn [fst] in Y. congruence. }
          rewrite X, Nat.add_0_r. exact L. }
        destruct (existsb _ (mm_equal (dk p) c)) eqn:CO.
        { exfalso. apply existsb_exists in CO. destruct CO as (kv & Ikv & C). unfold mm_equal in Ikv. apply filter_In in Ikv. destruct Ikv as [Ikv EQ]. destruct (IN _ Ikv) as (Id & Ek & _).
          apply andb_true_iff in EQ. destruct EQ as [E1 E2]. apply negb_true_iff in E1. apply negb_true_iff in E2. rewrite Ek in E1, E2. apply (NC _ Id). split; [|exact C]. split; unfold closer; rewrite <- !dk_sq; congruence. }
        rewrite firstn_length, (Permutation_length (mm_perm _ _ _)). cbn [length].
        destruct (Nat.lt_ge_cases (length c) n) as [LT|GE]; [|destruct (dk p0 <? dk p); lia]. destruct (F LT) as [F1 F2].
        rewrite (not_lt_trans _ k _ Ok (F2 _ Ir) FAR). lia.
      - unfold closest_step. fold (dk p). rewrite LK. destruct (ngt (dk p) k) eqn:FAR; unfold ngt in FAR; [exact F|].
        destruct (existsb _ (mm_equal (dk p) c)) eqn:CO; [exact F|].
        rewrite firstn_length, (Permutation_length (mm_perm _ _ _)). cbn [length]. intro LT. assert (LT2 : length c < n) by lia. destruct (F LT2) as [F1 F2].
        rewrite firstn_all2 by (rewrite (Permutation_length (mm_perm _ _ _)); cbn [length]; lia). split.
        + apply (Permutation_in _ (Permutation_sym (mm_perm _ _ _))). right. exact F1.
        + intros kv J. apply (Permutation_in _ (mm_perm _ _ _)) in J. destruct J as [<-|J]; [|exact (F2 _ J)]. cbn [fst]. exact (not_lt_trans _ k _ Ok (F2 _ Ir) FAR). }
    cbn [fold_left]. assert (E1 : closest_step n to [] p0 = [(dk p0, p0)]) by (unfold closest_step; cbn [last_key mm_equal filter existsb mm_insert]; apply firstn_all2; cbn [length]; unfold n; lia).
    assert (NF : not_farther to p0 p0 = true) by (unfold not_farther; rewrite o_irr; reflexivity).
    apply (G ps [p0]); [exact OK| | | |discriminate|exact H].
    - apply (step_inv n [] [] p0 ltac:(unfold n; lia)); [constructor; [exact O0|constructor]|apply inv_nil].
    - rewrite E1. cbn [filter length]. rewrite NF. cbn [length]. unfold n. lia.
    - rewrite E1. intros _. split; [left; reflexivity|]. intros kv [<-|[]]. apply o_irr.
  Qed.
End Closest.
