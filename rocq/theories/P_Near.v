(** P_Near.v - near() returns the nearest vertex, for every arithmetic with
    ordered comparisons. *)
From Coq Require Import Sorting.Sorted.
From Verif Require Import Base Num NumLaws Geo Stl Env Ast GeoSpec PickSpec P_Base P_Order P_Part P_Geo1 P_Pick.

Local Unset Implicit Arguments.
Lemma mem_spec {K} (P : K -> Prop) lt (SW : swo P lt) k s : P k -> Forall P s -> ssorted lt s ->
  (sset_mem lt k s = true <-> exists q, In q s /\ eqv lt k q).
Proof.
  intros Hk HP HS. unfold sset_mem.
  assert (EK : map fst (map (fun x : K => (x, tt)) s) = s) by (rewrite map_map; cbn [fst]; apply map_id).
  destruct (smap_find lt k (map (fun x => (x, tt)) s)) as [u|] eqn:F.
  - split; [intros _|reflexivity]. destruct (P_Base.find_some F) as (q & Hin & E). exists q. split; [|exact E].
    apply in_map_iff in Hin. destruct Hin as (x & E1 & Hx). injection E1 as -> _. exact Hx.
  - split; [discriminate|]. intros (q & Hq & E). exfalso.
    refine (@find_none K unit P lt SW k _ Hk _ _ F q tt _ E).
    + unfold keysP. rewrite EK. exact HP.
    + rewrite EK. exact HS.
    + apply in_map_iff. eauto.
Qed.

Section Near.
  Context {A : Arith} (OA : ordered A).
  Local Open Scope num_scope.
  Lemma near_fold ps t : forall r ret, ok r -> (forall v, In v ps -> ok (page_dist t v)) ->
    let res := fold_left (near_step (flat t)) ps (r, ret) in
    (res = (r, ret) /\ forall w, In w ps -> (page_dist t w <? r) = false) \/
    (exists v, In v ps /\ res = (page_dist t v, flat v) /\ (page_dist t v <? r) = true /\ forall w, In w ps -> (page_dist t w <? page_dist t v) = false).
  Proof.
    induction ps as [|x ps IH]; cbn [fold_left]; intros r ret Hr Hok; [left; split; [reflexivity|intros w []]|].
    unfold near_step at 2 4. change (sqn3 (sub3 (flat t) (flat x))) with (page_dist t x).
    assert (Hx : ok (page_dist t x)) by (apply Hok; left; reflexivity).
    assert (Ht : forall v, In v ps -> ok (page_dist t v)) by (intros; apply Hok; right; assumption).
    destruct (page_dist t x <? r) eqn:E.
    - destruct (IH (page_dist t x) (flat x) Hx Ht) as [[R F]|(v & Hv & R & L & F)]; right.
      + exists x. split; [left; reflexivity|]. split; [exact R|]. split; [exact E|].
        intros w [<-|Hw]; [apply (o_irr OA)|exact (F w Hw)].
      + exists v. split; [right; exact Hv|]. split; [exact R|]. split; [exact (o_tr OA _ _ _ L E)|].
        intros w [<-|Hw]; [apply (lt_not_lt OA); exact L|exact (F w Hw)].
    - destruct (IH r ret Hr Ht) as [[R F]|(v & Hv & R & L & F)].
      + left. split; [exact R|]. intros w [<-|Hw]; [exact E|exact (F w Hw)].
      + right. exists v. split; [right; exact Hv|]. split; [exact R|]. split; [exact L|].
        intros w [<-|Hw]; [|exact (F w Hw)].
        apply (not_lt_trans OA) with r; [exact Hr|exact E|]. apply (lt_not_lt OA). exact L.
  Qed.

  Lemma near_vertex m t : Forall comparable (vertices m) -> comparable t ->
    (exists v, In v (vertices m) /\ same t v) -> near_of (points m) t = t.
  Proof.
    intros Hm Ht (v & Hv & E). destruct (points_spec OA m Hm) as (S & P & _ & I). unfold near_of.
    destruct (I v Hv) as (q & Hq & Eq). assert (M : ps_mem t (points m) = true); [|rewrite M; reflexivity].
    apply (mem_spec ok3 order (order_swo OA) t (points m) Ht P S). exists q. split; [exact Hq|].
    rewrite Forall_forall in P, Hm. apply (eqv_trans (order_swo OA) (y := v)); auto.
    - apply Hm; exact Hv.
    - apply (order_eqv OA Ht (Hm v Hv)). apply same_eq3. exact E.
    - apply (order_eqv OA (Hm v Hv) (P q Hq)). exact Eq.
  Qed.
  Lemma near_other m t : ok dbl_max -> Forall comparable (vertices m) -> comparable t ->
    (forall v, In v (vertices m) -> ~ same t v) -> (forall v, In v (points m) -> ok (page_dist t v)) ->
    (exists v, In v (points m) /\ (page_dist t v <? dbl_max) = true) -> nearest (points m) t (near_of (points m) t).
  Proof.
    intros Hd Hm Ht N Hok (v & Hv & L). destruct (points_spec OA m Hm) as (S & P & I & _). unfold near_of.
    destruct (ps_mem t (points m)) eqn:M.
    - exfalso. apply (mem_spec ok3 order (order_swo OA) t (points m) Ht P S) in M. destruct M as (q & Hq & E).
      rewrite Forall_forall in P. apply (N q (I q Hq)). apply same_eq3. apply (order_eqv OA Ht (P q Hq)). exact E.
    - destruct (near_fold (points m) t dbl_max zero3 Hd Hok) as [[R F]|(w & Hw & R & _ & F)].
      + rewrite (F v Hv) in L. discriminate.
      + rewrite R. cbn [snd]. exists w. split; [exact Hw|]. split; [reflexivity|exact F].
  Qed.
End Near.

Lemma near_fails {A : Arith} ps q l : snd (invoke ps (PFunc (B "near") q l)) = None <-> ps = [] \/ snd (invoke ps q) = None.
Proof.
  cbn [invoke]. change (bytes_eqb (B "near") (B "near")) with true. cbv iota. destruct ps as [|p ps].
  - split; [auto|reflexivity].
  - destruct (invoke (p :: ps) q) as [lg [t|]]; cbn [snd]; split; intros; try reflexivity; auto; try discriminate.
    destruct H; discriminate.
Qed.
Lemma near_gives {A : Arith} ps q l lg r : invoke ps (PFunc (B "near") q l) = (lg, Some r) -> exists t, invoke ps q = (lg, Some t) /\ r = near_of ps t.
Proof.
  cbn [invoke]. change (bytes_eqb (B "near") (B "near")) with true. cbv iota. destruct ps as [|p ps]; [discriminate|].
  destruct (invoke (p :: ps) q) as [lg' [t|]]; [|discriminate]. intro H. injection H as <- <-. eauto.
Qed.
