(** P_Centre.v - where a drawing is centred, in exact arithmetic. *)
From Coq Require Import Reals Lra.
From Verif Require Import Base Num NumLaws NumReal Geo Stl GeoSpec RealSpec Env Ast Ps Draw DocSpec P_Base P_Meta P_Dims P_Doc P_Script2 P_Script3 P_Script4 P_Lang2 P_Geo1 P_Real DimSpec P_Value.

Local Unset Implicit Arguments.
Section Off.
  Context {A : Arith} {E : Env}.
  Lemma placed_off st l n ml ds s s1 ds1 : visit_draw st l n ml ds s = Ret (s1, ds1, true) ->
    exists a b proj ls q pl, asks_scale ml a b /\ shows st n ml proj ls /\ place_of ml = Some pl /\
      let sc := to_f32 (ndiv (nmul (of_Z 72) (of_Z a)) (of_Z b)) in
      v_page s1 = plus_page (v_page s) (put_page sc (sub2 pl (mul2 (div2 (add2 (lo (limits proj)) (lt_ (limits proj))) n2) sc)) (plus_page (OPage ls [] []) q)).
  Proof.
    intro H. destruct (visit_draw_spec _ _ _ _ _ _ H) as [[K _] _]. destruct (K eq_refl) as [[a b] file rot pl proj ls ND ON HS HM HV HP HR HL _ HD].
    set (sc := proj_scale (a, b)) in *. destruct (dims_put (points (cull_back_face proj)) rot sc ds) as [q Hq].
    exists a, b, (cull_back_face proj), ls, q, pl. split; [apply scale_asks; exact HS|]. split.
    { exists file, rot, proj. unfold model_of in HM. destruct (smap_find _ n st) as [[f|]|]; try discriminate. injection HM as ->.
      split; [reflexivity|]. split; [apply view_of_asks; exact HV|]. auto. }
    split; [exact HP|]. assert (D : dadds sc (draw_state (a, b) rot pl (cull_back_face proj) ls s) s1 q) by (refine (Hq _ _ _ _ HD); repeat split).
    unfold draw_state in HD, D. match type of D with dadds _ (add_lines _ ?x) _ _ => pose proof (dl x ls (eq_refl : v_scale x = sc)) as D0 end.
    pose proof (dadds_trans D0 D) as D1. cbv zeta. rewrite D1. reflexivity.
  Qed.
End Off.

Local Open Scope R_scope.
Lemma bounds_limits s x0 x1 y0 y1 : bounds (vertices s) x0 x1 y0 y1 -> @limits XR s = Line (emb2 x0 y0) (emb2 x1 y1).
Proof.
  intros (I & (p0 & I0 & E0) & (p1 & I1 & E1) & (p2 & I2 & E2) & (p3 & I3 & E3)).
  assert (C : Forall comparable (vertices s)).
  { apply Forall_forall. intros v Hv. destruct (I v Hv) as (p & -> & _). apply emb_ok. }
  assert (N : facets s <> []) by (intro Z; unfold vertices in I0; rewrite Z in I0; exact I0).
  destruct (proj2 (limits_tight XR_ordered s C) N) as (B & (v0 & V0 & X0) & (v1 & V1 & X1) & (v2 & V2 & X2) & (v3 & V3 & X3)).
  destruct (limits s) as [[a b] [c d]]. cbn [lo lt_ x2 y2] in *.
  destruct (I v0 V0) as (q0 & -> & Q0). destruct (I v1 V1) as (q1 & -> & Q1). destruct (I v2 V2) as (q2 & -> & Q2). destruct (I v3 V3) as (q3 & -> & Q3).
  cbn [x3 y3 emb] in *. subst a b c d. unfold in_box in B. cbn [x2 y2] in B.
  assert (L : forall u w, (@nle XR (Fin u : @num XR) (Fin w : @num XR)) = true -> u <= w).
  { intros u w H. change (xle (Fin u) (Fin w) = true) in H. rewrite xle_fin in H. destruct (rleb_spec u w); [assumption|discriminate]. }
  destruct (B _ I0) as (A1 & _). destruct (B _ I1) as (_ & A2 & _). destruct (B _ I2) as (_ & _ & A3 & _). destruct (B _ I3) as (_ & _ & _ & A4).
  cbn [x3 y3 emb] in *. apply L in A1. apply L in A2. apply L in A3. apply L in A4. unfold emb2.
  assert (H0 : rx q0 = x0) by lra. assert (H1 : ry q1 = y0) by lra. assert (H2 : rx q2 = x1) by lra. assert (H3 : ry q3 = y1) by lra.
  rewrite H0, H1, H2, H3. reflexivity.
Qed.
Lemma place_asks ml tx ty pl : NoDup (map m_name ml) -> asks_place ml tx ty -> place_of ml = Some pl -> pl = emb2 tx ty.
Proof.
  intros N [(x & a & b & I & Q & V & -> & ->)|(Ab & -> & ->)]; unfold place_of.
  - rewrite (arg_unique "@" ml x N I Q). unfold as_loc. rewrite V. intro H. injection H as <-. unfold add2, mul2, page_mid, emb2. cbn [x2 y2 of_Z nmul nadd XR xmul xadd].
    rewrite (Rmult_comm a), (Rmult_comm b). reflexivity.
  - rewrite (arg_absent "@" ml Ab). intro H. injection H as <-. reflexivity.
Qed.
Theorem centred (E : @Env XR) st l n ml ds s s1 ds1 a b tx ty : visit_draw st l n ml ds s = Ret (s1, ds1, true) ->
  asks_scale ml a b -> b <> 0%Z -> asks_place ml tx ty ->
  exists proj ls q off, shows st n ml proj ls /\
    v_page s1 = plus_page (v_page s) (put_page (Fin (72 * (IZR a / IZR b)) : @num XR) off (plus_page (OPage ls [] []) q)) /\
    forall x0 x1 y0 y1, bounds (vertices proj) x0 x1 y0 y1 ->
      put (Fin (72 * (IZR a / IZR b)) : @num XR) off (emb2 ((x0 + x1) / 2) ((y0 + y1) / 2)) = emb2 tx ty.
Proof.
  intros H AS NZ AP. destruct (placed_off _ _ _ _ _ _ _ _ H) as (a' & b' & proj & ls & q & pl & AS' & SH & HP & HV). pose proof (drawn_nodup _ _ _ _ _ _ _ _ H) as N.
  destruct (one_scale ml a b a' b' N AS AS') as [<- <-]. pose proof (place_asks ml tx ty pl N AP HP) as ->.
  cbv zeta in HV. assert (SC : to_f32 (@ndiv XR (nmul (of_Z 72) (of_Z a)) (of_Z b)) = (Fin (72 * (IZR a / IZR b)) : @num XR)).
  { change (xdiv (xmul (Fin 72) (Fin (IZR a))) (Fin (IZR b)) = Fin (72 * (IZR a / IZR b))). unfold xdiv, xmul.
    destruct (reqb_spec (IZR b) 0) as [Z|_]; [apply eq_IZR in Z; contradiction|]. unfold Rdiv. rewrite Rmult_assoc. reflexivity. }
  rewrite SC in HV. do 4 eexists. split; [exact SH|]. split; [exact HV|]. intros x0 x1 y0 y1 BD. rewrite (bounds_limits _ _ _ _ _ BD).
  generalize (72 * (IZR a / IZR b)). intro k. unfold put, add2, mul2, sub2, div2, emb2. cbn [lo lt_ x2 y2]. unfold n2. cbn [of_Z nmul nadd nsub ndiv XR xmul xadd xsub xneg xdiv].
  destruct (reqb_spec 2 0) as [Z|_]; [lra|]. cbn [xmul xadd xneg]. f_equal; match goal with |- Fin ?u = Fin ?v => assert (KK : u = v) by field; rewrite KK; reflexivity end.
Qed.
