(** P_Script4.v - generating twice, the parts of dimensions, texts without a place. *)
From Coq Require Import Reals.
From Verif Require Import Base Num Geo Stl StlRead Env Ast Lexer Parser Ps Draw Main NumReal NumF64
  P_Base P_Meta P_Frame P_Dims P_Doc DocSpec P_Script P_Script2 P_Script3.

Section Script4.
  Context {A : Arith} {E : Env}.

  (** ** Generating the pages twice *)
  Lemma point_ext p q : triple q = triple p -> funcs q = funcs p -> val_loc q = val_loc p -> q = p.
  Proof.
    revert q. induction p as [v l|n p IH l]; intros [v' l'|n' q l']; cbn; intros H1 H2 H3; try discriminate; [congruence|].
    injection H2 as -> -> H2. rewrite (IH q); auto.
  Qed.
  Lemma Forall2_eq_in {X} (R : X -> X -> Prop) l l' : Forall2 R l l' -> (forall x x', In x l -> R x x' -> x' = x) -> l' = l.
  Proof.
    intro H. induction H; intro G; [reflexivity|]. rewrite (G x y (or_introl eq_refl) H), IHForall2; [reflexivity|].
    intros a b Ha. apply G. right. exact Ha.
  Qed.
  Lemma fixed_same st d os d' lg ok : view_fixes d -> generate_pages st d = Ret (os, d', lg, ok) -> d' = d.
  Proof.
    intros HF HG. destruct (generate_once _ _ HG) as (HM & HP & _). destruct d as [ms pgs], d' as [ms' pgs']. cbn [doc_models doc_pages] in *.
    subst ms'. f_equal. eapply Forall2_eq_in; [exact HP|]. intros pg pg' Hp (H1 & H2 & H3).
    destruct pg as [pl pm pd], pg' as [pl' pm' pd']. cbn [pg_loc pg_meta pg_draws] in *. subst pl' pm'. f_equal.
    eapply Forall2_eq_in; [exact H3|]. intros i i' Hi [->|R]; [reflexivity|]. destruct R as [|l n ml ds ds' r HV HD]; [reflexivity|].
    f_equal. eapply Forall2_eq_in; [exact HD|]. intros dm dm' Hd (K1 & K2 & K3). destruct dm as [k lo m], dm' as [k' lo' m'].
    cbn [d_kind d_loc d_meta] in *. subst k' lo'. f_equal. eapply Forall2_eq_in; [exact K3|].
    intros x x' Hx (X1 & X2 & X3). destruct x as [xn xv xl], x' as [xn' xv' xl']. cbn [m_name m_val m_loc] in *. subst xn' xl'. f_equal.
    destruct xv as [| p | | |]; try exact X3. destruct X3 as (p' & -> & [->|(Q1 & Q2 & Q3)]); [reflexivity|]. f_equal.
    apply point_ext; [|exact Q2|exact Q3]. rewrite Q1. exact (HF _ _ _ _ _ _ _ _ _ Hp Hi Hd Hx eq_refl HV).
  Qed.
  Lemma twice_same st d os d' lg ok : view_fixes d -> generate_pages st d = Ret (os, d', lg, ok) ->
    generate_pages st d' = Ret (os, d', lg, ok).
  Proof. intros HF HG. assert (K : d' = d) by (eapply fixed_same; [exact HF|exact HG]). subst d'. exact HG. Qed.

  (** ** The parts of a dimension *)
  Lemma dim_parts d s s' d' ok : visit_base_dim d s = Ret (s', d', ok) ->
    (ok = true -> exists p, v_page s' = plus_page (v_page s) p /\ counts p = parts (d_kind d)) /\
    (ok = false -> v_page s' = v_page s).
  Proof.
    intro H. destruct (eqm (v_rot s) zerom) eqn:Z.
    - destruct (base_dim_null _ _ Z H) as (-> & -> & dl & ->). split; [discriminate|]. reflexivity.
    - destruct (base_dim_spec d s Z) as (s1 & d1 & ok1 & H1 & _ & H3 & H4). rewrite H1 in H. injection H as -> -> ->. split.
      + intro K. destruct (H4 K) as (_ & p & HA & HS). exists p. rewrite HA. split; [reflexivity|].
        unfold counts. destruct (d_kind d); exact HS.
      + intro K. destruct (H3 K) as ((dl & ->) & _). reflexivity.
  Qed.

  (** ** Texts without a place *)
  Lemma visit_text_names l t ml s : (exists a, visit_text l t ml s = Abort a) \/ exists s' ok, visit_text l t ml s = Ret (s', ok).
  Proof. destruct (visit_text l t ml s) as [[s' ok]|a]; eauto. Qed.
  Lemma text_zero l l' t pre post s s1 ok1 s2 ok2 :
    add2 (V2 nz nz) (mul2 (V2 nz nz) (of_Z 72)) = V2 nz nz ->
    ~ has (pre ++ post) "@" ->
    visit_text l t (pre ++ post) s = Ret (s1, ok1) ->
    visit_text l t (pre ++ Meta (B "@") (MLoc (V2 nz nz)) l' :: post) s = Ret (s2, ok2) ->
    ok2 = ok1 /\ (ok1 = true -> v_page s2 = v_page s1).
  Proof.
    intros HZ HN H1 H2. destruct (visit_text_spec _ _ _ _ H1) as [O1 P1]. destruct (visit_text_spec _ _ _ _ H2) as [O2 P2].
    set (x := Meta (B "@") (MLoc (V2 nz nz)) l') in *.
    assert (EQ : (NoDup (names (pre ++ x :: post)) /\ only text_keys (pre ++ x :: post)) <-> (NoDup (names (pre ++ post)) /\ only text_keys (pre ++ post))).
    { unfold has in HN. fold (names (pre ++ post)) in HN.
      assert (K : only text_keys (pre ++ post) -> pre ++ post = []).
      { intro K. destruct (pre ++ post) as [|y m]; [reflexivity|]. exfalso. apply HN. cbn [names map]. left.
        destruct (K (m_name y)) as (k & [<-|[]] & ->); [left|]; reflexivity. }
      split.
      - intros [N O]. assert (O' : only text_keys (pre ++ post)).
        { intros n Hn. apply O. unfold names in *. rewrite map_app in *. cbn [map]. apply in_app_iff in Hn. apply in_app_iff. cbn [In]. tauto. }
        split; [|exact O']. rewrite (K O'). constructor.
      - intros [N O]. specialize (K O). apply app_eq_nil in K. destruct K as [-> ->]. cbn [app names map]. split.
        + constructor; [intros []|constructor].
        + intros n [<-|[]]. exists "@"%string. split; [left; reflexivity|]. reflexivity. }
    assert (OK : ok2 = ok1). { destruct ok1, ok2; try reflexivity; exfalso; [assert (false = true)|assert (false = true)]; try discriminate; tauto. }
    split; [exact OK|]. intro K. subst ok2 ok1. destruct (P1 eq_refl) as (pl1 & T1 & A1). destruct (P2 eq_refl) as (pl2 & T2 & A2).
    rewrite A1, A2. cbn [v_page]. f_equal. f_equal. f_equal.
    unfold text_place_of in T1, T2. rewrite (proj2 (arg_none "@" (pre ++ post)) HN) in T1. injection T1 as <-.
    assert (AX : arg "@" (pre ++ x :: post) = Some x).
    { rewrite arg_find. clear - HN. unfold has in HN. induction pre as [|y pre IH].
      - cbn [app find m_name x]. rewrite bytes_eqb_refl. reflexivity.
      - cbn [app find map] in *. destruct (bytes_eqb (m_name y) (B "@")) eqn:Q.
        + apply bytes_eqb_eq in Q. exfalso. apply HN. left. exact Q.
        + apply IH. intro K. apply HN. right. exact K. }
    rewrite AX in T2. cbn [as_loc m_val x] in T2. rewrite HZ in T2. injection T2 as <-. reflexivity.
  Qed.

  (** ** What a dimension uses *)
  Lemma used_once d s s' d' : visit_base_dim d s = Ret (s', d', true) -> uses_once s d s'.
  Proof.
    intro H. destruct (eqm (v_rot s) zerom) eqn:Z.
    { destruct (base_dim_null _ _ Z H) as (K & _). discriminate K. }
    unfold uses_once. destruct (d_kind d) eqn:K.
    - unfold visit_base_dim in H. rewrite K, obind_ret in H. destruct H as ([[s1 ml] ok] & H & HR). injection HR as -> _ ->.
      eapply angle_used; [exact Z|exact H].
    - unfold visit_base_dim in H. rewrite K, obind_ret in H. destruct H as ([[s1 ml] ok] & H & HR). injection HR as -> _ ->.
      eapply circ_used; [exact Z|exact H].
    - eapply dim_used; [exact Z|exact K|exact H].
    - unfold visit_base_dim in H. rewrite K, obind_ret in H. destruct H as ([[s1 ml] ok] & H & HR). injection HR as -> _ ->.
      eapply circ_used; [exact Z|exact H].
  Qed.

  (** ** Only the files the models resolve to matter *)
  Lemma load_files_resolve fs1 fs2 ms : (forall m c, In m ms -> (resolves fs1 (mo_source m) c <-> resolves fs2 (mo_source m) c)) ->
    forall st, load_files fs1 ms st = load_files fs2 ms st.
  Proof.
    induction ms as [|m ms IH]; intros H st; [reflexivity|]. cbn [load_files].
    assert (HO : first_open fs1 (candidates (mo_source m)) = first_open fs2 (candidates (mo_source m))).
    { assert (K : forall c, first_open fs1 (candidates (mo_source m)) = Some c <-> first_open fs2 (candidates (mo_source m)) = Some c).
      { intro c. rewrite <- !resolves_iff. apply H. left; reflexivity. }
      destruct (first_open fs1 _) as [c|]; [symmetry; apply K; reflexivity|]. destruct (first_open fs2 _) as [c|]; [apply K; reflexivity|reflexivity]. }
    unfold load_one. rewrite HO. match goal with |- obind ?a _ = obind ?a _ => destruct a as [[[st1 lg1] ok1]|] end; [|reflexivity].
    cbn [obind]. rewrite IH; [reflexivity|]. intros m' c Hm. apply H. right; exact Hm.
  Qed.
  Lemma script_resolve fs1 fs2 src c d : parses src c d ->
    (forall m t, In m (doc_models d) -> (resolves fs1 (mo_source m) t <-> resolves fs2 (mo_source m) t)) ->
    script_to_ps fs1 src c = script_to_ps fs2 src c.
  Proof.
    intros [lg HP] H. unfold script_to_ps. rewrite HP. cbn [obind Nat.eqb]. unfold doc_to_ps. rewrite (@load_files_resolve fs1 fs2); [reflexivity|exact H].
  Qed.
  Lemma resolves_fun fs f c c' : resolves fs f c -> resolves fs f c' -> c = c'.
  Proof. rewrite !resolves_iff. congruence. Qed.
End Script4.

Lemma fzero_place : fadd (fz_ 0) (fmul (fz_ 0) (fz_ 72)) = fz_ 0.
Proof. vm_compute. reflexivity. Qed.
Lemma zero_place_F64 lm assoc : @add2 (F64 lm assoc) (V2 nz nz) (mul2 (V2 nz nz) (of_Z 72)) = V2 nz nz.
Proof. unfold add2, mul2, nz. cbn [x2 y2 nadd nmul of_Z F64]. rewrite fzero_place. reflexivity. Qed.
Lemma zero_place_XR : @add2 XR (V2 nz nz) (mul2 (V2 nz nz) (of_Z 72)) = V2 nz nz.
Proof.
  unfold add2, mul2, nz. cbn [x2 y2 nadd nmul of_Z XR xadd xmul].
  rewrite Rmult_0_l, Rplus_0_l. reflexivity.
Qed.

(** In exact arithmetic the view Z+, which is the default, leaves every finite
    triple alone. *)
Lemma ZP_fixes (x y z : R) : @mulm XR (V3 (Fin x : @num XR) (Fin y : @num XR) (Fin z : @num XR)) mZP = V3 (Fin x : @num XR) (Fin y : @num XR) (Fin z : @num XR).
Proof.
  unfold mulm, mZP, px, py, pz. cbn [x3 y3 z3 row0 row1 row2 sum3 nmul nadd XR n1 nz of_Z xmul xadd].
  f_equal; f_equal; ring.
Qed.
