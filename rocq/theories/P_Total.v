(** P_Total.v - reasons for ending the process, and a class of inputs for which
    a conversion always comes to an end, in IEEE binary64. *)
From Coq Require Import Reals.
From Flocq Require Import IEEE754.BinarySingleNaN.
From Verif Require Import Base Num Geo Stl StlRead Env Ast Lexer Parser Ps Draw Main NumF64 NumLaws
  P_Base P_Order P_Meta P_Frame P_Dims P_Doc DocSpec GeoSpec P_Script P_Script2 P_Hide P_Geo1 P_Part P_Index F64Spec P_Bound
  LangSpec EndSpec Grammar P_Parser3 P_Dead StlSpec P_Stl P_Lang.

Local Unset Implicit Arguments.

Section Reasons.
  Context {A : Arith} {E : Env}.
  Lemma rotated_culled s m p : rotate s m = Ret p -> cull_back_face p = p.
  Proof.
    unfold rotate. intro H. destruct (index_range _ H) as [F _]. unfold cull_back_face. rewrite F, cull_idem, <- F. destruct p; reflexivity.
  Qed.
  Lemma okF_dec (f : facet) : okF f \/ exists p, In p (corners f) /\ ~ comparable p.
  Proof.
    assert (D : forall p : v3, ok3 p \/ ~ comparable p).
    { intros p. unfold ok3, comparable, ok. destruct (x3 p =? x3 p)%num; [|right; intros [Q _]; discriminate Q]. destruct (y3 p =? y3 p)%num; [|right; intros (_ & Q & _); discriminate Q]. destruct (z3 p =? z3 p)%num; [left; auto|right; intros (_ & _ & Q); discriminate Q]. }
    destruct (D (fe0 f)) as [H0|H0]; [|right; exists (fe0 f); split; [left; reflexivity|exact H0]].
    destruct (D (fe1 f)) as [H1|H1]; [|right; exists (fe1 f); split; [right; left; reflexivity|exact H1]].
    destruct (D (fe2 f)) as [H2|H2]; [left; repeat split; first [apply H0|apply H1|apply H2]|right; exists (fe2 f); split; [right; right; left; reflexivity|exact H2]].
  Qed.
  Lemma okFs_dec (l : list facet) : Forall okF l \/ exists f p, In f l /\ In p (corners f) /\ ~ comparable p.
  Proof.
    induction l as [|f l IH]; [left; constructor|]. destruct (okF_dec f) as [H|(p & H)]; [|right; exists f, p; split; [left; reflexivity|exact H]].
    destruct IH as [IH|(g & p & I & H1)]; [left; constructor; assumption|right; exists g, p; split; [right; exact I|exact H1]].
  Qed.
  Lemma make_abort t e : ordered A -> ok (nz : num) -> (forall w x, numeral w -> re2_double w = Some x -> ok x) -> stl_make t = Abort e ->
    e = AUB "e[0..2] of a vector with fewer than three points" /\ closes_short t.
  Proof.
    intros O ZZ NUM H. pose proof (lines_exist t) as HL. unfold stl_make in H. apply obind_abort in H. destruct H as [H|([r lg] & H1 & H)].
    - destruct (read_spec ZZ (getlines t) 1 (Rd zero3 [] [])) as [(pre & l & post & evs & r & H1 & H2 & H3 & H4 & H5)|[(evs & s' & lg & H1 & H2 & H3)|(pre & post & evs & H1 & H2 & H3 & H4)]]; [congruence|congruence|].
      rewrite H4 in H. injection H as <-. split; [reflexivity|]. exists (getlines t), pre, post, evs. split; [exact HL|]. split; [exact H1|]. split; [exact H2|]. apply (bad_start ZZ). exact H3.
    - exfalso. destruct r as [s|]; [|discriminate H]. apply obind_abort in H. destruct H as [H|(m & _ & H)]; [|discriminate H].
      destruct (index_spec O (fs := rd_facets s)) as (m & HI & _); [exact (proj2 (read_fine NUM _ 1 _ s lg fine_start H1))|]. rewrite HI in H. discriminate H.
  Qed.
  Lemma forallb_false {X} (f : X -> bool) l : forallb f l = false -> exists x, In x l /\ f x = false.
  Proof.
    induction l as [|x l IH]; simpl; [discriminate|]. destruct (f x) eqn:F; [|intros _; exists x; auto]. simpl. intro H.
    destruct (IH H) as (y & H1 & H2). exists y. auto.
  Qed.
  Lemma measured_dec (O : ordered A) m : unseen m <= length (edges m) -> measured m \/ unmeasured m.
  Proof.
    intro LU. set (chk := forallb (fun v => match nth_error (edges m) v with None => true | Some e =>
      let d p := sqn3 (sub3 (e1 e) p) in
      ((nz =? d (e1 e)) && (d (e2 e) =? d (e2 e)) && forallb (fun x => implb (fst (fst x) =? v)%nat (d (snd x) =? d (snd x))) (hidden_by_list (edges m) (unseen m)))%num end) (seq 0 (unseen m))).
    destruct chk eqn:C; unfold chk in C; [left|right].
    - rewrite forallb_forall in C. intros v ev Lv N. assert (I : In v (seq 0 (unseen m))) by (apply in_seq; lia).
      specialize (C v I). cbv beta in C. rewrite N in C. cbv zeta in C. apply andb_prop in C. destruct C as [C C3]. apply andb_prop in C. destruct C as [C1 C2].
      destruct (ord_eq_ok O _ _ C1) as [K1 K2]. split; [exact K2|]. split; [|split; [exact C2|]].
      + rewrite (ord_eq O) in C1 by assumption. apply andb_prop in C1. destruct C1 as [C1 C4]. apply negb_true_iff in C1, C4. split; assumption.
      + intros u p Hp. rewrite forallb_forall in C3. specialize (C3 _ Hp). cbn [fst snd] in C3. rewrite Nat.eqb_refl in C3. exact C3.
    - apply forallb_false in C. destruct C as (v & I & C). apply in_seq in I. destruct (nth_error (edges m) v) as [e|] eqn:N; [|discriminate C].
      exists v, e. split; [lia|]. split; [exact N|]. cbv zeta in C |- *.
      destruct (nz =? sqn3 (sub3 (e1 e) (e1 e)))%num; [|auto]. destruct (_ =? _)%num; [|auto]. cbn [andb] in C. right; right.
      apply forallb_false in C. destruct C as ([[v' u] p] & I2 & C). cbn [fst snd] in C. destruct (Nat.eqb_spec v' v) as [->|NE]; [|discriminate C].
      exists u, p. split; [apply crossed_in; exact I2|exact C].
  Qed.
  Lemma lines_unmeasured (O : ordered A) fs m e : ok (nz : num) -> index fs = Ret m -> to_lines m = Abort e -> unmeasured m.
  Proof.
    intros ZZ HI HT. destruct (index_range _ HI) as (R1 & R2 & R3). destruct (measured_dec O m R2) as [M|U]; [|exact U].
    destruct (to_lines_total O (s := m)) as (ls & HL); [exact ZZ|exact R2|rewrite R1, R3; lia|exact M|]. congruence.
  Qed.
  Lemma turned_bad f r : (exists g p, In g (cull_facets (map (rotate_facet r) (facets f))) /\ In p (corners g) /\ ~ comparable p) ->
    exists g p, In g (facets f) /\ In p (corners g) /\ ~ comparable (mulm p r).
  Proof.
    intros (g & p & I & Ip & N). apply cull_in in I. destruct I as [I _]. apply in_map_iff in I. destruct I as (g0 & <- & I). exists g0.
    destruct Ip as [<-|[<-|[<-|[]]]]; cbn [rotate_facet fe0 fe1 fe2] in N; eexists; (split; [exact I|]); (split; [|exact N]); unfold corners; simpl; auto.
  Qed.
  Lemma points_fine (O : ordered A) (l : list facet) : Forall okF l -> strict_weak order (flat_map fverts l) = true.
  Proof.
    intro F. apply (strict_weak_ok (order_swo O)). rewrite Forall_forall in *. intros p Hp. apply in_flat_map in Hp. destruct Hp as (f & Hf & Hp).
    destruct (F f Hf) as (H0 & H1 & H2). unfold fverts in Hp. simpl in Hp. destruct Hp as [<-|[<-|[<-|[]]]]; assumption.
  Qed.
  Lemma reasons : ordered A -> ok (nz : num) -> (forall w x, numeral w -> re2_double w = Some x -> ok x) -> forall fs src c e, script_to_ps fs src c = Abort e -> reason fs src c e.
  Proof.
    intros O ZZ NUM fs src c e H. destruct (script_abort _ _ _ _ H) as [e' P|d m t e' P I R M|f r ds e' D R|f r ds p e' D R L|f r ds p D R SO|f r ds D N Z].
    - destruct (parse_abort _ _ _ P) as [(-> & w & W1 & W2)|(-> & w & x & W1 & W2 & W3)]; [eapply R_number|eapply R_scale]; eassumption.
    - destruct (make_abort _ _ O ZZ NUM M) as (-> & S). eapply R_short; eauto.
    - unfold rotate in R. destruct (index_abort _ R) as [Q _]. subst e'. destruct (okFs_dec (cull_facets (map (rotate_facet r) (facets f)))) as [HF|B].
      + exfalso. destruct (index_spec O HF) as (m & HI & _). rewrite HI in R. discriminate R.
      + destruct (turned_bad f r B) as (g & p & I & Ip & N). eapply R_map; eassumption.
    - rewrite (rotated_culled _ _ _ R) in L. pose proof R as R0. unfold rotate in R0. pose proof (lines_unmeasured O _ _ _ ZZ R0 L) as U.
      destruct (lines_abort _ _ _ R0 L) as [->|[->| ->]]; [eapply R_order|eapply R_hidden|eapply R_sort]; eassumption.
    - rewrite (rotated_culled _ _ _ R) in SO. pose proof R as R0. unfold rotate in R0. destruct (index_range _ R0) as (F & _).
      destruct (okFs_dec (cull_facets (map (rotate_facet r) (facets f)))) as [HF|B].
      + exfalso. rewrite F, (points_fine O _ HF) in SO. discriminate SO.
      + destruct (turned_bad f r B) as (g & q & I & Ip & N). eapply R_set; eassumption.
    - eapply R_null; eauto.
  Qed.
End Reasons.

(** ** What is true of all vertices of a file is true of all vertices of its model *)
Section Keeps.
  Context {A : Arith} {E : Env}.
  Lemma facet_points (P : v3 -> Prop) n p0 p1 p2 : P p0 -> P p1 -> P p2 -> P (fe0 (mk_facet n p0 p1 p2)) /\ P (fe1 (mk_facet n p0 p1 p2)) /\ P (fe2 (mk_facet n p0 p1 p2)).
  Proof. intros H0 H1 H2. unfold mk_facet. destruct (_ <? _)%num; cbn [fe0 fe1 fe2]; auto. Qed.
  Definition keeps (P : v3 -> Prop) (s : rd) : Prop := Forall P (rd_pts s) /\ Forall (fun f => P (fe0 f) /\ P (fe1 f) /\ P (fe2 f)) (rd_facets s).
  Lemma step_keeps (P : v3 -> Prop) n s e s' lg : (forall p, e = EVertex p -> P p) -> keeps P s -> step n s e = Ret (s', lg) -> keeps P s'.
  Proof.
    intros HP [F1 F2]. destruct e as [v|p| |]; cbn [step]; intro H.
    - injection H as <- <-. split; [constructor|exact F2].
    - injection H as <- <-. split; [|exact F2]. cbn [rd_pts]. apply Forall_app. split; [exact F1|]. constructor; [exact (HP p eq_refl)|constructor].
    - destruct (zero_vec (rd_norm s)); [injection H as <- <-; split; assumption|]. destruct (rd_pts s) as [|p0 [|p1 [|p2 ps]]] eqn:EP; try discriminate H. injection H as <- <-.
      split; [constructor|]. cbn [rd_facets]. apply Forall_app. split; [exact F2|]. constructor; [|constructor].
      inversion F1 as [|? ? K0 F3]; subst. inversion F3 as [|? ? K1 F4]; subst. inversion F4 as [|? ? K2 F5]; subst. apply facet_points; assumption.
    - injection H as <- <-. split; assumption.
  Qed.
  Lemma read_keeps (P : v3 -> Prop) ls : (forall l p, In l ls -> says l (EVertex p) -> P p) -> forall n s s' lg, keeps P s -> read_lines n s ls = Ret (Some s', lg) -> keeps P s'.
  Proof.
    induction ls as [|l ls IH]; intros HP n s s' lg F H; [injection H as <- _; exact F|]. cbn [read_lines] in H. destruct (supported_dec l) as [(e & He)|N].
    - rewrite (read_says n s l e He) in H. destruct (step n s e) as [[s1 lg1]|a] eqn:ST; cbn [obind] in H; [|discriminate H].
      apply obind_ret in H. destruct H as ([r' lg'] & H & E'). injection E' as -> _. eapply IH; [|clear IH|exact H].
      + intros l0 p I. apply HP. right; exact I.
      + eapply step_keeps; [|exact F|exact ST]. intros p ->. apply (HP l p); [left; reflexivity|exact He].
    - rewrite (read_unknown n s l N) in H. discriminate H.
  Qed.
  Lemma make_keeps (P : v3 -> Prop) t m lg : (forall ls l p, lines_in t ls -> In l ls -> says l (EVertex p) -> P p) -> stl_make t = Ret (Some m, lg) ->
    Forall (fun f => P (fe0 f) /\ P (fe1 f) /\ P (fe2 f)) (facets m).
  Proof.
    intros HP H. unfold stl_make in H. apply obind_ret in H. destruct H as ([r lg'] & H1 & H). destruct r as [s|]; [|discriminate H]. apply obind_ret in H. destruct H as (m' & HI & H). injection H as <- <-.
    destruct (index_range _ HI) as [-> _]. refine (proj2 (read_keeps P (getlines t) _ 1 _ s lg' _ H1)); [|split; constructor]. intros l p. apply HP. apply lines_exist.
  Qed.
End Keeps.

(** ** Conversions in doubles *)
Section Total.
  Context (lm : libm) (asc : bool).
  #[local] Instance AF : Arith := F64 lm asc.
  Context {E : Env}.
  Lemma zero_ok : ok (nz : num). Proof. reflexivity. Qed.

  Lemma ang_not_null a : trig_sane lm -> bnd 1000 (x2 a) -> eqm (matrix_by_ang a) zerom = false.
  Proof.
    intros [_ T] Ha. apply not_true_is_false. intro H. unfold eqm, matrix_by_ang, geo_rotate, eq3 in H. cbn [row0 row1 row2 x3 y3 z3 zerom zero3] in H.
    apply andb_true_iff in H. destruct H as [H _]. apply andb_true_iff in H. destruct H as [H1 H2].
    apply andb_true_iff in H1. destruct H1 as [H1 _]. apply andb_true_iff in H1. destruct H1 as [H1 _].
    apply andb_true_iff in H2. destruct H2 as [H2 _]. apply andb_true_iff in H2. destruct H2 as [H2 _].
    assert (F : fin (fdiv (fmul (x2 a) (fdec 31415926535897932 (-16))) (fz_ 180))).
    { refine (proj1 (bnd_div180 1002 _ _ _)); [lia|]. apply (bnd_mul 1000 2); [lia|exact Ha|exact bnd_pi]. }
    apply (T _ F). split; [|exact H1]. revert H2. change ((- nsin (x2 a * PI / of_Z 180) =? nz)%num = true -> feq (l_sin lm (fdiv (fmul (x2 a) (fdec 31415926535897932 (-16))) (fz_ 180))) (fz_ 0) = true).
    change (nsin (x2 a * PI / of_Z 180))%num with (l_sin lm (fdiv (fmul (x2 a) (fdec 31415926535897932 (-16))) (fz_ 180))).
    generalize (l_sin lm (fdiv (fmul (x2 a) (fdec 31415926535897932 (-16))) (fz_ 180))). intros x H.
    destruct x as [[]|[]| |[] m e b]; try reflexivity; try discriminate H.
  Qed.
  Lemma view_fine ml r : trig_sane lm -> asks_view ml r -> (forall x a, In x ml -> m_name x = B "view" -> m_val x = MLoc a -> bnd 1000 (x2 a) /\ bnd 1000 (y2 a)) ->
    unitm lm asc r /\ eqm r zerom = false.
  Proof.
    intros T V H. destruct V as [N|x a I Nx Vx|x n r I Nx Vx R].
    - split; [|reflexivity]. apply (named_unit lm asc (B "Z+")). reflexivity.
    - destruct (H _ _ I Nx Vx) as [Ha Hb]. split; [exact (angles_unit lm asc a (proj1 T) Ha Hb)|exact (ang_not_null a T Ha)].
    - apply matrix_by_name_iff in R. split; [exact (named_unit lm asc _ _ R)|]. revert R. unfold matrix_by_name.
      repeat match goal with |- (if ?c then _ else _) = _ -> _ => destruct c; [intro Q; injection Q as <-; reflexivity|] end. intro Q; discriminate Q.
  Qed.
  Lemma conversions_end fs src c : trig_sane lm -> (forall w x, numeral w -> re2_double w = Some x -> is_nan x = false) ->
    (forall w, numeral_in c w -> exists x, stof w = Some x /\ to_int x <> None) ->
    (forall d m t, parses src c d -> In m (doc_models d) -> resolves fs (mo_source m) t -> plain_model lm asc t) ->
    (forall d pg l n ml ds x a, parses src c d -> In pg (doc_pages d) -> In (DDraw l n ml ds) (pg_draws pg) -> In x ml -> m_name x = B "view" -> m_val x = MLoc a ->
       bnd 1000 (x2 a) /\ bnd 1000 (y2 a)) ->
    exists r, script_to_ps fs src c = Ret r.
  Proof.
    intros T NN NUM MOD VW. destruct (script_to_ps fs src c) as [r|e] eqn:S; [eauto|]. exfalso.
    assert (NAN : forall w x, numeral w -> re2_double w = Some x -> ok (x : num)) by (intros w x W D; apply (proj2 (doubles_ordered lm asc)); exact (NN w x W D)).
    assert (DR : forall f r ds, draws_model fs src c f r ds -> Forall (bndF lm asc 500) (facets f) /\ unitm lm asc r /\ eqm r zerom = false).
    { intros f r ds (d & pg & l & n & ml & m & t & lg & P & Ipg & I & V & Im & Nm & R & M). split.
      - destruct (MOD _ _ _ P Im R) as [_ BD]. exact (make_keeps (bnd3 lm asc 500) t f lg BD M).
      - apply (view_fine ml r T V). intros x a Ix. exact (VW _ _ _ _ _ _ _ _ P Ipg I Ix). }
    destruct (script_abort _ _ _ _ S) as [e' P|d m t e' P I R M|f r ds e' D R|f r ds p e' D R L|f r ds p D R SO|f r ds D N Z].
    - destruct (parse_abort _ _ _ P) as [(_ & w & W & SF)|(_ & w & x & W & SF & TI)]; destruct (NUM _ W) as (y & Sy & Ty); [congruence|]. rewrite SF in Sy. injection Sy as ->. exact (Ty TI).
    - destruct (MOD _ _ _ P I R) as [NS _]. apply NS. destruct (proj1 (out_of_bounds (F64_ordered lm asc) zero_ok NAN t (getlines t) (lines_exist t)) (ex_intro _ _ M)) as (pre & post & evs & H1 & H2 & H3).
      exists (getlines t), pre, post, evs. split; [apply lines_exist|auto].
    - destruct (DR _ _ _ D) as (B1 & U & _). destruct (rotate_lines_500 lm asc f r B1 U) as (p & ls & H & _). assert (H0 : rotate f r = Ret p) by exact H. rewrite R in H0. discriminate H0.
    - destruct (DR _ _ _ D) as (B1 & U & _). destruct (rotate_lines_500 lm asc f r B1 U) as (p' & ls & H & H'). assert (H0 : rotate f r = Ret p') by exact H. rewrite R in H0. injection H0 as <-. assert (H1 : to_lines p = Ret ls) by exact H'. rewrite (rotated_culled _ _ _ R), H1 in L. discriminate L.
    - destruct (DR _ _ _ D) as (B1 & U & _). destruct (rotate_total lm asc f r U) as (q & H & HO).
      { eapply Forall_impl; [|exact B1]. intros g (G0 & G1 & G2). split; [|split]; (split; [|split]); match goal with H : bnd3 _ _ _ _ |- _ => solve [apply H] end. }
      assert (H0 : rotate f r = Ret q) by exact H. rewrite R in H0. injection H0 as <-. rewrite (rotated_culled _ _ _ R) in SO.
      assert (H1 : strict_weak order (flat_map fverts (facets p)) = true) by exact (points_fine (F64_ordered lm asc) _ HO). rewrite SO in H1. discriminate H1.
    - destruct (DR _ _ _ D) as (_ & _ & Z'). assert (Z0 : eqm r zerom = false) by exact Z'. rewrite Z in Z0. discriminate Z0.
  Qed.
End Total.
