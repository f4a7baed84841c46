(** P_Move2.v - drawings of moved and scaled models on a page. *)
From Coq Require Import Reals Lra Permutation.
From Verif Require Import Base Num NumLaws NumReal Geo Stl GeoSpec RealSpec HideSpec PictSpec Env Ast Ps Draw DocSpec P_Base P_Meta P_Dims P_Doc P_Script2 P_Script3 P_Script4 P_Lang2 P_Geo1 P_Real
  DimSpec P_Value P_Total P_Centre P_Span P_Span2 P_Pict P_Move RealSpec PictSpec.

Local Unset Implicit Arguments.
Section Off.
  Context {A : Arith} {E : Env}.
  Lemma asks_view_of ml r : NoDup (names ml) -> asks_view ml r -> view_of ml = Some r.
  Proof.
    intros ND [N|x a HI HN HV|x n r' HI HN HV HL]; unfold view_of.
    - rewrite (arg_absent _ _ N). reflexivity.
    - rewrite (arg_unique _ _ _ ND HI HN). unfold as_loc. rewrite HV. reflexivity.
    - rewrite (arg_unique _ _ _ ND HI HN). unfold as_loc, as_str. rewrite HV. apply matrix_by_name_iff. exact HL.
  Qed.
  (** A drawing without dimensions. *)
  Lemma plain_draw st l n ml s s1 ds1 f r a b : visit_draw st l n ml [] s = Ret (s1, ds1, true) -> smap_find bytes_ltb n st = Some (Some f) -> asks_view ml r -> asks_scale ml a b ->
    exists m ls pl, rotate f r = Ret m /\ to_lines m = Ret ls /\ place_of ml = Some pl /\
      v_page s1 = plus_page (v_page s) (OPage (map (fun x => let sc := to_f32 (ndiv (nmul (of_Z 72) (of_Z a)) (of_Z b)) in
        let off := sub2 pl (mul2 (div2 (add2 (lo (limits m)) (lt_ (limits m))) n2) sc) in Line (put sc off (lo x)) (put sc off (lt_ x))) ls) [] []).
  Proof.
    intros H HM HV HS. destruct (visit_draw_spec _ _ _ _ _ _ H) as [[K _] _]. destruct (K eq_refl) as [[a' b'] file rot pl proj ls ND ON HS' HM' HV' HP HR HL _ HD].
    unfold model_of in HM'. rewrite HM in HM'. injection HM' as <-. rewrite (asks_view_of ml r ND HV) in HV'. injection HV' as <-.
    apply scale_asks in HS'. destruct (one_scale ml a b a' b' ND HS HS') as [<- <-]. pose proof (rotated_culled _ _ _ HR) as C. rewrite C in HL, HD.
    exists proj, ls, pl. split; [exact HR|]. split; [exact HL|]. split; [exact HP|]. cbn [visit_dims] in HD. injection HD as <- _. unfold draw_state, plus_page. cbn [o_lines o_arcs o_text]. rewrite !app_nil_r. reflexivity.
  Qed.
End Off.

Local Open Scope R_scope.
Lemma vertices_emb s ts v : facets s = map embf ts -> (In v (vertices s) <-> exists t p, In t ts /\ (p = t0 t \/ p = t1 t \/ p = t2 t) /\ v = emb p).
Proof.
  intro E. unfold vertices. rewrite E, in_flat_map. split.
  - intros (f & Hf & Hv). apply in_map_iff in Hf. destruct Hf as (t & <- & Ht). destruct Hv as [<-|[<-|[<-|[]]]]; cbn [fe0 fe1 fe2 embf]; exists t; eauto 8.
  - intros (t & p & Ht & Hp & ->). exists (embf t). split; [apply in_map; exact Ht|]. destruct Hp as [->|[->| ->]]; simpl; auto.
Qed.
Lemma bounds_exist s ts : facets s = map embf ts -> ts <> [] -> exists x0 x1 y0 y1, bounds (vertices s) x0 x1 y0 y1.
Proof.
  intros E NE. assert (VE : forall v, In v (vertices s) -> exists p, v = emb p) by (intros v Hv; apply (vertices_emb s ts v E) in Hv; destruct Hv as (t & p & _ & _ & ->); eauto).
  assert (C : Forall comparable (vertices s)) by (apply Forall_forall; intros v Hv; destruct (VE v Hv) as (p & ->); apply emb_ok).
  assert (N : facets s <> []) by (rewrite E; destruct ts; [contradiction|discriminate]).
  destruct (proj2 (limits_tight XR_ordered s C) N) as (B & (v0 & V0 & X0) & (v1 & V1 & X1) & (v2 & V2 & X2) & (v3 & V3 & X3)).
  destruct (VE _ V0) as (q0 & ->). destruct (VE _ V1) as (q1 & ->). destruct (VE _ V2) as (q2 & ->). destruct (VE _ V3) as (q3 & ->).
  exists (rx q0), (rx q2), (ry q1), (ry q3). split; [|split; [|split; [|split]]]; eauto.
  intros v Hv. destruct (VE v Hv) as (p & ->). exists p. split; [reflexivity|]. destruct (B _ Hv) as (B1 & B2 & B3 & B4). rewrite <- X0 in B1. rewrite <- X2 in B2. rewrite <- X1 in B3. rewrite <- X3 in B4.
  cbn [x3 y3 emb] in *. apply le_fin in B1, B2, B3, B4. lra.
Qed.
Lemma bounds_moved s s' vs ws k d x0 x1 y0 y1 : facets s = map embf vs -> facets s' = map embf ws -> Permutation ws (map (moved_tri k d) vs) -> 0 < k ->
  bounds (vertices s) x0 x1 y0 y1 -> bounds (vertices s') (k * x0 + rx d) (k * x1 + rx d) (k * y0 + ry d) (k * y1 + ry d).
Proof.
  intros E E' P K (B & X0 & X1 & Y0 & Y1).
  assert (F : forall p, In (emb p) (vertices s) -> In (emb (moved k d p)) (vertices s')).
  { intros p Hp. apply (vertices_emb s vs _ E) in Hp. destruct Hp as (t & q & Ht & Hq & EQ). assert (p = q) by (injection EQ as Q1 Q2 Q3; apply pt_ext; assumption). subst q.
    apply (vertices_emb s' ws _ E'). exists (moved_tri k d t), (moved k d p). split; [apply (Permutation_in _ (Permutation_sym P)); apply in_map; exact Ht|]. split; [|reflexivity].
    destruct Hq as [->|[->| ->]]; cbn [moved_tri t0 t1 t2]; auto. }
  split.
  - intros v Hv. apply (vertices_emb s' ws _ E') in Hv. destruct Hv as (t & q & Ht & Hq & ->). apply (Permutation_in _ P) in Ht. apply in_map_iff in Ht. destruct Ht as (u & <- & Hu).
    assert (Q : exists p, q = moved k d p /\ (p = t0 u \/ p = t1 u \/ p = t2 u)) by (destruct Hq as [->|[->| ->]]; cbn [moved_tri t0 t1 t2]; eauto). destruct Q as (p & -> & Hp).
    exists (moved k d p). split; [reflexivity|]. destruct (B (emb p)) as (p' & EP & B1 & B2); [apply (vertices_emb s vs _ E); exists u, p; auto|].
    assert (p = p') by (injection EP as Q1 Q2 Q3; apply pt_ext; assumption). subst p'. unfold moved. rgeo. split; split; nra.
  - destruct X0 as (p0 & I0 & E0). destruct X1 as (p1 & I1 & E1). destruct Y0 as (p2 & I2 & E2). destruct Y1 as (p3 & I3 & E3).
    split; [exists (moved k d p0); split; [auto|unfold moved; rgeo; rewrite E0; reflexivity]|]. split; [exists (moved k d p1); split; [auto|unfold moved; rgeo; rewrite E1; reflexivity]|].
    split; [exists (moved k d p2); split; [auto|unfold moved; rgeo; rewrite E2; reflexivity]|]. exists (moved k d p3). split; [auto|unfold moved; rgeo; rewrite E3; reflexivity].
Qed.
Lemma view_seen s ts r m : facets s = map embf ts -> Forall proper ts -> rotation r -> rotate s (embm r) = Ret m -> exists ws, facets m = map embf ws /\ Permutation ws (seen r ts).
Proof.
  intros HS HP HR H. destruct (view_real s ts r HS HP HR) as (m' & ts' & H1 & _ & H3 & H4 & _). rewrite H in H1. injection H1 as <-. eauto.
Qed.
Lemma scale_fin a b : b <> 0%Z -> to_f32 (@ndiv XR (nmul (of_Z 72) (of_Z a)) (of_Z b)) = (Fin (72 * (IZR a / IZR b)) : @num XR).
Proof.
  intro NZ. change (xdiv (xmul (Fin 72) (Fin (IZR a))) (Fin (IZR b)) = Fin (72 * (IZR a / IZR b))). unfold xdiv, xmul.
  destruct (reqb_spec (IZR b) 0) as [Z|_]; [apply eq_IZR in Z; contradiction|]. unfold Rdiv. rewrite Rmult_assoc. reflexivity.
Qed.
Theorem same_drawing (E : @Env XR) st st' l l' n n' ml ml' s s' s1 s1' d1 d1' f f' ts r k d a b a' b' tx ty :
  visit_draw st l n ml [] s = Ret (s1, d1, true) -> visit_draw st' l' n' ml' [] s' = Ret (s1', d1', true) ->
  smap_find bytes_ltb n st = Some (Some f) -> smap_find bytes_ltb n' st' = Some (Some f') ->
  facets f = map embf ts -> facets f' = map embf (map (moved_tri k d) ts) -> Forall proper ts ->
  asks_view ml (embm r) -> asks_view ml' (embm r) -> rotation r -> (forall p q, ~ crowded (seen r ts) p q) ->
  asks_scale ml a b -> asks_scale ml' a' b' -> b <> 0%Z -> b' <> 0%Z -> 0 < k -> k * (IZR a' / IZR b') = IZR a / IZR b ->
  asks_place ml tx ty -> asks_place ml' tx ty ->
  exists ls ls', v_page s1 = plus_page (v_page s) (OPage ls [] []) /\ v_page s1' = plus_page (v_page s') (OPage ls' [] []) /\ Permutation ls ls'.
Proof.
  intros V V' M M' F F' HP AV AV' HR NC AS AS' NB NB' K SC AP AP'.
  destruct (plain_draw _ _ _ _ _ _ _ _ _ _ _ V M AV AS) as (m & ls & pl & R1 & L1 & P1 & ->). destruct (plain_draw _ _ _ _ _ _ _ _ _ _ _ V' M' AV' AS') as (m' & ls' & pl' & R2 & L2 & P2 & ->).
  destruct (view_moved f f' ts r k d F F' HP HR K NC) as (m0 & m0' & ls0 & ls0' & W1 & W2 & W3 & W4 & W5).
  rewrite R1 in W1. injection W1 as <-. rewrite R2 in W2. injection W2 as <-. rewrite L1 in W3. injection W3 as <-. rewrite L2 in W4. injection W4 as <-.
  pose proof (place_asks _ _ _ _ (drawn_nodup _ _ _ _ _ _ _ _ V) AP P1) as ->. pose proof (place_asks _ _ _ _ (drawn_nodup _ _ _ _ _ _ _ _ V') AP' P2) as ->.
  rewrite (scale_fin a b NB), (scale_fin a' b' NB'). cbv zeta. do 2 eexists. split; [reflexivity|]. split; [reflexivity|].
  symmetry. rewrite W5, map_map. destruct (view_picture f ts r F HP HR NC) as (m2 & ss & Q1 & Q2 & Q3). rewrite R1 in Q1. injection Q1 as <-. rewrite L1 in Q2. injection Q2 as ->.
  destruct (view_seen f ts r m F HP HR R1) as (vs & FV & PV).
  assert (HP' : Forall proper (map (moved_tri k d) ts)) by (rewrite Forall_forall in *; intros t Ht; apply in_map_iff in Ht; destruct Ht as (t' & <- & Ht'); apply proper_moved; auto).
  destruct (view_seen f' _ r m' F' HP' HR R2) as (ws & FW & PW). rewrite (seen_moved r k d ts HR) in PW. rewrite <- PV in PW.
  destruct vs as [|v0 vs].
  - assert (ss = []). { destruct ss as [|st0 ss]; [reflexivity|exfalso]. destruct Q3 as (_ & O & _). destruct (proj1 (O (sa st0) (sb st0))) as (_ & (t & Ht & _) & _); [left; reflexivity|].
      apply (Permutation_in _ (Permutation_sym PV)) in Ht. destruct Ht. }
    subst ss. reflexivity.
  - destruct (bounds_exist m _ FV ltac:(discriminate)) as (x0 & x1 & y0 & y1 & BD). pose proof (bounds_moved m m' _ _ k (rmul d r) x0 x1 y0 y1 FV FW PW K BD) as BD'.
    rewrite (bounds_limits _ _ _ _ _ BD), (bounds_limits _ _ _ _ _ BD'). rewrite flat_map_concat_map, !concat_map, !map_map.
    assert (EQ : forall x : strip, map (fun x0' : line => let sc := Fin (72 * (IZR a' / IZR b')) : @num XR in
       let off := sub2 (emb2 tx ty) (mul2 (div2 (add2 (emb2 (k * x0 + rx (rmul d r)) (k * y0 + ry (rmul d r))) (emb2 (k * x1 + rx (rmul d r)) (k * y1 + ry (rmul d r)))) n2) sc) in
       Line (put sc off (lo (moved_line k (rx (rmul d r)) (ry (rmul d r)) x0'))) (put sc off (lt_ (moved_line k (rx (rmul d r)) (ry (rmul d r)) x0')))) (strokes x) =
       map (fun x0' : line => let sc := Fin (72 * (IZR a / IZR b)) : @num XR in
       let off := sub2 (emb2 tx ty) (mul2 (div2 (add2 (emb2 x0 y0) (emb2 x1 y1)) n2) sc) in Line (put sc off (lo x0')) (put sc off (lt_ x0'))) (strokes x)).
    { intro x. unfold strokes. rewrite !map_map. apply map_ext. intro i. rewrite <- SC. generalize (IZR a' / IZR b'). intro q. cbv zeta.
      generalize (between (sa x) (sb x) (fst i)) (between (sa x) (sb x) (snd i)) (rx (rmul d r)) (ry (rmul d r)). intros p1 p2 dx dy.
      unfold moved_line, line3, put, add2, mul2, sub2, div2, emb2, xy, emb. cbn [lo lt_ x2 y2 x3 y3]. unfold n2. cbn [of_Z nmul nadd nsub ndiv XR xmul xadd xsub xneg xdiv].
      destruct (reqb_spec 2 0) as [Z|_]; [lra|]. cbn [xmul xadd xneg]. f_equal; f_equal; match goal with |- Fin ?u = Fin ?v => assert (KK : u = v) by field; rewrite KK; reflexivity end. }
    rewrite (map_ext _ _ EQ). reflexivity.
Qed.
