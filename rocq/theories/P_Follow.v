(** P_Follow.v - lines follow the sides of facets, in doubles. *)
From Coq Require Import Reals Lra ZArith Lia Permutation.
From Flocq Require Import Core IEEE754.BinarySingleNaN.
From Verif Require Import Base Num NumReal NumF64 NumLaws Geo Stl Ast F64Spec GeoSpec P_Base P_Order P_Part P_Index P_Hide P_Lines P_Geo1 P_Finite P_Part P_Bound P_Real P_Pi P_Err P_Err2 P_Err3 P_Err5
  TextSpec ErrSpec ViewSpec FollowSpec RealSpec.

Local Unset Implicit Arguments.
(** ** Any arithmetic: the ends of a line belong to one edge *)
Section OneEdge.
  Context {A : Arith}.
  Definition on_edge (es : list edge) (ev : edge) (p : v3) : Prop :=
    p = e1 ev \/ p = e2 ev \/ exists eu pu pv, In eu es /\ ((cross_at ev eu = Some (pu, pv) /\ p = pv) \/ (cross_at eu ev = Some (pu, pv) /\ p = pu)).
  Lemma hidden_on es un v u p ev : nth_error es v = Some ev -> In (v, u, p) (hidden_by_list es un) -> on_edge es ev p.
  Proof.
    intros N I. apply hidden_in in I. destruct I as (v' & u' & ev' & eu & pu & pv & _ & _ & Nv & Nu & C & I).
    right; right. destruct I as [(-> & -> & -> & _)|(-> & -> & -> & _)].
    - assert (eu = ev) by congruence. subst eu. exists ev', pu, pv. split; [exact (nth_error_In _ _ Nv)|]. right. auto.
    - assert (ev' = ev) by congruence. subst ev'. exists eu, pu, pv. split; [exact (nth_error_In _ _ Nu)|]. left. auto.
  Qed.
  Lemma lines_on s ls : to_lines s = Ret ls ->
    Forall (fun l => exists v ev a b, (v < unseen s)%nat /\ nth_error (edges s) v = Some ev /\ on_edge (edges s) ev a /\ on_edge (edges s) ev b /\ l = line3 a b) ls.
  Proof.
    intro H. destruct (to_lines_parts _ _ H) as (hbe & lss & HC & -> & LS & HL). destruct (edge_crosses_spec (edges s) (unseen s)) as (hb' & EC & T). rewrite EC in HC. injection HC as ->.
    apply Forall_concat, Forall_forall. intros ps I. apply In_nth_error in I. destruct I as [v N]. destruct (HL _ _ N) as (ev & hb & l & Ne & Nb & SP & G).
    assert (LV : (v < unseen s)%nat) by (rewrite <- LS; apply nth_error_Some; rewrite N; discriminate).
    set (Q := on_edge (edges s) ev). assert (Hv : edgeP Q ev) by (split; [left|right; left]; reflexivity).
    assert (HB : forall k p, imap_find k hb = Some p -> Q p).
    { intros k p F. apply (imap_in _ _ _ (t_sorted T _ Nb)) in F. apply (t_in T _ Nb) in F. exact (hidden_on _ _ _ _ _ _ Ne F). }
    assert (HS : Forall (edgeP Q) (sort_spans ev (collect_some l))).
    { apply Forall_forall. intros h I. apply sort_spans_in in I. destruct (spans_in _ _ _ _ _ _ SP I) as (n & f & fe & _ & _ & FH).
      unfold face_hides in FH. destruct fe as [[a b] c]. destruct (_ || _ || _); [discriminate FH|]. destruct (hidden_points_spec f (a, b, c) ev hb) as (pts & HP & _ & HI). rewrite HP in FH. cbn [obind] in FH.
      apply (span_P Q pts h); [|exact FH]. intros p d IP. apply HI in IP. cbn [fst snd] in IP. destruct Hv as [V1 V2].
      destruct IP as [(_ & -> & _)|[(_ & -> & _)|(_ & [F|[F|F]])]]; [exact V1|exact V2| | |]; exact (HB _ _ F). }
    unfold gen_edge in G. apply obind_ret in G. destruct G as ([[from d] out] & G & R). injection R as <-.
    destruct (gen_P Q ev _ _ _ _ _ Hv HS G (proj1 Hv) (Forall_nil _)) as [QF QO].
    assert (W : forall l, (exists a b, Q a /\ Q b /\ l = line3 a b) -> exists v ev a b, (v < unseen s)%nat /\ nth_error (edges s) v = Some ev /\ on_edge (edges s) ev a /\ on_edge (edges s) ev b /\ l = line3 a b).
    { intros l0 (a & b & HA & HB' & E). exists v, ev, a, b. auto. }
    assert (X : Forall (fun l => exists v ev a b, (v < unseen s)%nat /\ nth_error (edges s) v = Some ev /\ on_edge (edges s) ev a /\ on_edge (edges s) ev b /\ l = line3 a b) out) by (eapply Forall_impl; [|exact QO]; exact W).
    destruct (ngt _ _); [|exact X]. apply Forall_app. split; [exact X|]. constructor; [|constructor]. apply W. exists from, (e2 ev). split; [exact QF|]. split; [exact (proj2 Hv)|reflexivity].
  Qed.
End OneEdge.

(** ** Views in doubles *)
Local Open Scope R_scope.
Lemma pi_close : Rabs (7074237752028440 / 2251799813685248 - Rtrigo1.PI) <= / 4503599627370496.
Proof.
  pose proof (Machin.PI_2_3_7_ineq 8) as H. cbn [Nat.mul Nat.add] in H.
  unfold tg_alt, Machin.PI_2_3_7_tg, Ratan.Ratan_seq in H. cbn [sum_f_R0 Nat.mul Nat.add INR pow] in H. apply Rabs_le. split; lra.
Qed.
Lemma sin_abs x : Rabs (sin x) <= Rabs x.
Proof.
  assert (P : forall y, 0 < y -> Rabs (sin y) <= y).
  { intros y Y. apply Rabs_le. pose proof (sin_lt_x y Y). pose proof (SIN_bound y). destruct (Rle_dec 1 y) as [L|L]; [lra|]. pose proof pi_bounds. pose proof (sin_gt_0 y Y ltac:(lra)). lra. }
  destruct (Rtotal_order x 0) as [N|[->|N]].
  - rewrite (Rabs_left x) by exact N. rewrite <- (Ropp_involutive x) at 1. rewrite sin_neg, Rabs_Ropp. apply P. lra.
  - rewrite sin_0. lra.
  - rewrite (Rabs_right x) by lra. apply P, N.
Qed.
Lemma sin_lip x y : Rabs (sin x - sin y) <= Rabs (x - y).
Proof.
  rewrite form4, !Rabs_mult, (Rabs_right 2) by lra. pose proof (sin_abs ((x - y) / 2)) as S. pose proof (COS_bound ((x + y) / 2)) as C.
  assert (C1 : Rabs (cos ((x + y) / 2)) <= 1) by (apply Rabs_le; lra). replace (Rabs (x - y)) with (2 * Rabs ((x - y) / 2)) by (unfold Rdiv; rewrite Rabs_mult, (Rabs_right (/ 2)) by lra; lra).
  pose proof (Rabs_pos (sin ((x - y) / 2))). pose proof (Rabs_pos (cos ((x + y) / 2))). nra.
Qed.
Lemma cos_lip x y : Rabs (cos x - cos y) <= Rabs (x - y).
Proof. rewrite !cos_sin. eapply Rle_trans; [apply sin_lip|]. apply Req_le. f_equal. ring. Qed.
Lemma apx_near k e e' x r r' : apx k e x r -> Rabs r' <= bp k -> Rabs (r - r') <= e' -> apx k (e + e') x r'.
Proof. intros (B & _ & H) R1 H'. split; [exact B|]. split; [exact R1|]. replace (B2R x - r') with ((B2R x - r) + (r - r')) by ring. eapply Rle_trans; [apply Rabs_triang|lra]. Qed.

Section FollowF.
  Context (lm : libm) (asc : bool).
  #[local] Instance AL : Arith := F64 lm asc.
  Lemma radians_apx (x : f64) : bnd 10 x -> let y := fdiv (fmul x (fdec 31415926535897932 (-16))) (fz_ 180) in fin y /\ Rabs (B2R y - radians (B2R x)) <= bp (-47).
  Proof.
    intros H y. destruct pi64 as [PF PV]. pose proof pi_bounds as PB.
    assert (A1 : apx 2 (bp (-52)) (fdec 31415926535897932 (-16)) Rtrigo1.PI).
    { split; [exact bnd_pi|]. split; [change (bp 2) with 4; rewrite Rabs_right; lra|]. rewrite PV. exact pi_close. }
    pose proof (apx_mul 10 2 0 (bp (-52)) x _ _ _ ltac:(lia) (apx_exact 10 x H) A1) as M. set (z := fmul x _) in *.
    destruct M as ([FZ BZ] & RZ & EZ). change (10 + 2)%Z with 12%Z in *. change (12 - 54)%Z with (-42)%Z in EZ.
    assert (V : B2R (fz_ 180) = 180) by apply val180. assert (B12 : bp 12 = 4096) by reflexivity. assert (B5 : bp 5 = 32) by reflexivity. rewrite B12 in BZ, RZ.
    assert (Q : Rabs (B2R z / B2R (fz_ 180)) <= bp 5) by (rewrite V, B5; unfold Rdiv; rewrite Rabs_mult, (Rabs_right (/ 180)) by lra; lra).
    destruct (div_val 5 z (fz_ 180) ltac:(lia) FZ ltac:(rewrite V; lra) Q) as [[FY BY] EY]. fold y in FY, BY, EY. split; [exact FY|]. rewrite EY.
    pose proof (rnd_err 5 _ ltac:(lia) Q) as RE. change (5 - 54)%Z with (-49)%Z in RE. rewrite V in *. unfold radians.
    replace (rnd (B2R z / 180) - B2R x * Rtrigo1.PI / 180) with ((rnd (B2R z / 180) - B2R z / 180) + (B2R z - B2R x * Rtrigo1.PI) * / 180) by field.
    eapply Rle_trans; [apply Rabs_triang|]. rewrite Rabs_mult, (Rabs_right (/ 180)) by lra.
    assert (B52 : bp 10 * bp (-52) = bp (-42)) by (rewrite <- bp_add; reflexivity). rewrite B52 in EZ. rewrite Rmult_0_r in EZ.
    assert (E1 : bp (-47) = 4 * bp (-49)) by (change (-47)%Z with (-49 + 2)%Z; rewrite bp_shift by lia; reflexivity).
    assert (E2 : bp (-42) = 128 * bp (-49)) by (change (-42)%Z with (-49 + 7)%Z; rewrite bp_shift by lia; reflexivity). pose proof (bp_pos (-49)). lra.
  Qed.
  Lemma trig_prod (f g : R -> R) x y x' y' : (forall a, Rabs (f a) <= 1) -> (forall a, Rabs (g a) <= 1) -> (forall a b, Rabs (f a - f b) <= Rabs (a - b)) -> (forall a b, Rabs (g a - g b) <= Rabs (a - b)) ->
    Rabs (f x * g y - f x' * g y') <= Rabs (x - x') + Rabs (y - y').
  Proof.
    intros F G LF LG. replace (f x * g y - f x' * g y') with ((f x - f x') * g y + f x' * (g y - g y')) by ring. eapply Rle_trans; [apply Rabs_triang|]. rewrite !Rabs_mult.
    specialize (LF x x'). specialize (LG y y'). pose proof (F x'). pose proof (G y). pose proof (Rabs_pos (f x - f x')). pose proof (Rabs_pos (g y - g y')). pose proof (Rabs_pos (f x')). pose proof (Rabs_pos (g y)). nra.
  Qed.
  Lemma rrot_near a b a' b' e m : 0 <= e -> apxm lm asc (5 * bp (-54)) m (rrot a b) -> Rabs (a - a') <= e -> Rabs (b - b') <= e -> apxm lm asc (5 * bp (-54) + 2 * e) m (rrot a' b').
  Proof.
    intros P H Ha Hb. assert (SB : forall x, Rabs (sin x) <= 1) by (intro x; apply Rabs_le; pose proof (SIN_bound x); lra).
    assert (CB : forall x, Rabs (cos x) <= 1) by (intro x; apply Rabs_le; pose proof (COS_bound x); lra).
    assert (Hb' : Rabs (- b - - b') <= e) by (replace (- b - - b') with (- (b - b')) by ring; rewrite Rabs_Ropp; exact Hb).
    assert (PB : forall x y, Rabs x <= 1 -> Rabs y <= 1 -> Rabs (x * y) <= bp 0) by (intros x y X Y; change (bp 0) with 1; rewrite Rabs_mult; pose proof (Rabs_pos x); pose proof (Rabs_pos y); nra).
    assert (W : forall x r r', apx 0 (5 * bp (-54)) x r -> Rabs r' <= bp 0 -> Rabs (r - r') <= 2 * e -> apx 0 (5 * bp (-54) + 2 * e) x r') by (intros x r r'; apply apx_near).
    assert (N : forall x y, Rabs (- x - - y) = Rabs (x - y)) by (intros x y; replace (- x - - y) with (- (x - y)) by ring; apply Rabs_Ropp).
    assert (TP : forall f g, (f = sin \/ f = cos) -> (g = sin \/ g = cos) -> Rabs (f a * g (- b) - f a' * g (- b')) <= 2 * e).
    { intros f g F G. eapply Rle_trans; [apply trig_prod; [destruct F; subst; assumption|destruct G; subst; assumption|destruct F; subst; [exact sin_lip|exact cos_lip]|destruct G; subst; [exact sin_lip|exact cos_lip]]|]. lra. }
    assert (S1 : forall f, (f = sin \/ f = cos) -> Rabs (f a - f a') <= 2 * e) by (intros f [->| ->]; [pose proof (sin_lip a a')|pose proof (cos_lip a a')]; lra).
    assert (S2 : forall f, (f = sin \/ f = cos) -> Rabs (f (- b) - f (- b')) <= 2 * e) by (intros f [->| ->]; [pose proof (sin_lip (- b) (- b'))|pose proof (cos_lip (- b) (- b'))]; lra).
    destruct H as ((H1 & H2 & H3) & (H4 & H5 & H6) & (H7 & H8 & H9)). cbn [rrot r0 r1 r2 rx ry rz] in *.
    split; [|split]; (split; [|split]); cbn [rrot r0 r1 r2 rx ry rz]; (eapply W; [eassumption| |]); rewrite ?N, ?Rabs_Ropp; try (change (bp 0) with 1; first [apply SB|apply CB]); try (apply PB; rewrite ?Rabs_Ropp; first [apply SB|apply CB]);
      try (rewrite ?Rminus_0_r, Rabs_R0; change (bp 0) with 1; lra); auto.
  Qed.
  Lemma look_mat n r p : named_mat n = Some r -> look n p = Some (rmul p r).
  Proof.
    unfold named_mat, look.
    destruct (bytes_eqb n (B "X+")); [intro H; injection H as <-; f_equal; apply pt_ext; cbn; ring|].
    destruct (bytes_eqb n (B "X-")); [intro H; injection H as <-; f_equal; apply pt_ext; cbn; ring|].
    destruct (bytes_eqb n (B "Y+")); [intro H; injection H as <-; f_equal; apply pt_ext; cbn; ring|].
    destruct (bytes_eqb n (B "Y-")); [intro H; injection H as <-; f_equal; apply pt_ext; cbn; ring|].
    destruct (bytes_eqb n (B "Z+")); [intro H; injection H as <-; f_equal; apply pt_ext; cbn; ring|].
    destruct (bytes_eqb n (B "Z-")); [intro H; injection H as <-; f_equal; apply pt_ext; cbn; ring|].
    discriminate.
  Qed.
  Lemma sees_apx m see : trig_close lm -> sees lm asc m see -> exists r, apxm lm asc (bp (-45)) m r /\ forall p, see p = rmul p r.
  Proof.
    intros T [(n & H & L)|(a & Ba & Bb & -> & S)].
    - destruct (named_apx lm asc n m H) as (r & N & R & AP). exists r. split; [eapply apxm_weak; [|exact AP]; apply Rlt_le, bp_pos|]. intro p. pose proof (L p) as Lp. rewrite (look_mat n r p N) in Lp. injection Lp as <-. reflexivity.
    - destruct (radians_apx _ Ba) as [F1 E1]. destruct (radians_apx _ Bb) as [F2 E2]. pose proof (rotate_apx lm asc _ _ T F1 F2) as R.
      exists (rrot (radians (B2R (x2 a : f64))) (radians (B2R (y2 a : f64)))). split.
      + eapply apxm_weak; [|exact (rrot_near _ _ _ _ (bp (-47)) _ (Rlt_le _ _ (bp_pos _)) R E1 E2)].
        assert (Q1 : bp (-47) = 128 * bp (-54)) by (change (-47)%Z with (-54 + 7)%Z; rewrite bp_shift by lia; reflexivity).
        assert (Q2 : bp (-45) = 512 * bp (-54)) by (change (-45)%Z with (-54 + 9)%Z; rewrite bp_shift by lia; reflexivity). pose proof (bp_pos (-54)). lra.
      + intro p. rewrite S. unfold tilt, spin, rrot. rewrite cos_neg, sin_neg. apply pt_ext; rgeo; ring.
  Qed.
  Lemma seen_apx k p m r : (-900 <= k < 900)%Z -> bnd3 lm asc k p -> apxm lm asc (bp (-45)) m r -> apx3 lm asc (k + 2) (bp (k - 43)) (mulm p m) (rmul (val3 lm asc p) r).
  Proof.
    intros L H M. eapply apx3_weak; [apply Z.le_refl| |apply (apx_mulm lm asc k 0 (bp (-45))); [lia|lra|apply Rlt_le, bp_pos|exact (exact3 lm asc k p H)|exact M]].
    assert (Q1 : bp k * bp (-45) = 512 * bp (k - 54)) by (rewrite <- bp_add; replace (k + -45)%Z with (k - 54 + 9)%Z by ring; rewrite bp_shift by lia; reflexivity).
    assert (Q2 : bp (k - 43) = 2048 * bp (k - 54)) by (replace (k - 43)%Z with (k - 54 + 11)%Z by ring; rewrite bp_shift by lia; reflexivity). pose proof (bp_pos (k - 54)). lra.
  Qed.
  Theorem seen_close k m see p : trig_close lm -> sees lm asc m see -> (-900 <= k < 900)%Z -> bnd3 lm asc k p -> within3 lm asc (bp (k - 43)) (mulm p m) (see (val3 lm asc p)).
  Proof.
    intros T S L H. destruct (sees_apx m see T S) as (r & AP & SE). rewrite SE. destruct (seen_apx k p m r L H AP) as (([F1 _] & _ & E1) & ([F2 _] & _ & E2) & ([F3 _] & _ & E3)).
    split; [|split]; (split; assumption).
  Qed.
  Lemma between_mul t p q r : rmul (on_the_way t p q) r = on_the_way t (rmul p r) (rmul q r).
  Proof. unfold on_the_way. apply pt_ext; rgeo; ring. Qed.
  Lemma on_way_rev t p q : on_the_way t p q = on_the_way (1 - t) q p.
  Proof. unfold on_the_way. apply pt_ext; rgeo; ring. Qed.
  (** A point part of the way along an edge whose ends are known within e. *)
  Lemma way_apx k e (o g : v3) (q : f64) a b : (-800 <= k < 800)%Z -> 0 <= e -> fle (fz_ 0) q = true -> fle q (fz_ 1) = true -> apx3 lm asc k e o a -> apx3 lm asc k e g b ->
    0 <= B2R q <= 1 /\ apx3 lm asc (k + 2) (3 * e + 7 * bp (k - 53)) (add3 o (mul3 (sub3 g o) (q : num))) (on_the_way (B2R q) a b).
  Proof.
    intros L P Q0 Q1 Ha Hb. pose proof (bnd_unit q Q0 Q1) as BQ. pose proof BQ as [FQ _].
    assert (R01 : 0 <= B2R q <= 1).
    { split.
      - unfold fle in Q0. rewrite (Bleb_correct 53 1024 (fz_ 0) q (proj1 (bnd_zero 0)) FQ) in Q0. rewrite (fz_val 0) in Q0 by lia. exact (Rle_bool_true _ _ Q0) || (revert Q0; case Rle_bool_spec; [auto|discriminate]).
      - unfold fle in Q1. rewrite (Bleb_correct 53 1024 q (fz_ 1) FQ (proj1 bnd_one)) in Q1. rewrite (fz_val 1) in Q1 by lia. revert Q1; case Rle_bool_spec; [auto|discriminate]. }
    split; [exact R01|]. pose proof (apx3_sub lm asc k e e g o b a ltac:(lia) Hb Ha) as D. pose proof (apx3_mul lm asc (k + 1) 0 _ 0 _ q _ _ ltac:(lia) D (apx_exact 0 q BQ)) as M.
    replace (k + 1 + 0)%Z with (k + 1)%Z in M by ring. pose proof (apx3_weak lm asc k (k + 1) e e o a ltac:(lia) (Rle_refl _) Ha) as O.
    pose proof (apx3_add lm asc (k + 1) _ _ _ _ _ _ ltac:(lia) O M) as S. replace (k + 1 + 1)%Z with (k + 2)%Z in S by ring.
    replace (on_the_way (B2R q) a b) with (radd a (rscale (B2R q) (rsub b a))) by (unfold on_the_way; apply pt_ext; rgeo; ring).
    eapply apx3_weak; [apply Z.le_refl| |exact S]. change (bp 0) with 1. rewrite Rmult_0_r.
    assert (Q3 : bp (k + 1 - 54) = bp (k - 53)) by (f_equal; ring). assert (Q4 : bp (k + 1 - 53) = 2 * bp (k - 53)) by (rewrite <- bp_S; f_equal; ring). rewrite Q3, Q4. pose proof (bp_pos (k - 53)). lra.
  Qed.
  Lemma cross_unit ev eu pu pv : cross_at ev eu = Some (pu, pv) -> exists i j : f64, fle (fz_ 0) i = true /\ fle i (fz_ 1) = true /\ fle (fz_ 0) j = true /\ fle j (fz_ 1) = true /\
    pu = add3 (e1 eu) (mul3 (sub3 (e2 eu) (e1 eu)) (i : num)) /\ pv = add3 (e1 ev) (mul3 (sub3 (e2 ev) (e1 ev)) (j : num)).
  Proof.
    unfold cross_at. cbv zeta.
    match goal with |- context [nle nz ?i && nle ?i n1 && nle nz ?j && nle ?j n1] => generalize i; generalize j end. intros j i.
    destruct (nle nz i) eqn:I1; [|discriminate]. destruct (nle i n1) eqn:I2; [|discriminate].
    destruct (nle nz j) eqn:J1; [|discriminate]. destruct (nle j n1) eqn:J2; [|discriminate]. cbn [andb].
    intro E; injection E as <- <-. exists i, j. auto 10.
  Qed.
  Lemma on_edge_apx k e es ev p a b : (-800 <= k < 800)%Z -> 0 <= e -> on_edge es ev p -> apx3 lm asc k e (e1 ev) a -> apx3 lm asc k e (e2 ev) b ->
    exists t, 0 <= t <= 1 /\ apx3 lm asc (k + 2) (3 * e + 7 * bp (k - 53)) p (on_the_way t a b).
  Proof.
    intros L P H Ha Hb. pose proof (bp_pos (k - 53)) as U. assert (W : forall v c, apx3 lm asc k e v c -> apx3 lm asc (k + 2) (3 * e + 7 * bp (k - 53)) v c) by (intros v c; apply apx3_weak; [lia|lra]).
    destruct H as [->|[->|(eu & pu & pv & _ & [[C ->]|[C ->]])]].
    - exists 0. split; [lra|]. replace (on_the_way 0 a b) with a by (unfold on_the_way; destruct a; apply pt_ext; rgeo; ring). apply W, Ha.
    - exists 1. split; [lra|]. replace (on_the_way 1 a b) with b by (unfold on_the_way; destruct b; apply pt_ext; rgeo; ring). apply W, Hb.
    - destruct (cross_unit _ _ _ _ C) as (i & j & I0 & I1 & J0 & J1 & _ & ->). exists (B2R j). apply way_apx; assumption.
    - destruct (cross_unit _ _ _ _ C) as (i & j & I0 & I1 & J0 & J1 & -> & _). exists (B2R i). apply way_apx; assumption.
  Qed.
  Theorem lines_follow k m see s p ls : trig_close lm -> sees lm asc m see -> (-700 <= k <= 500)%Z -> Forall (bndF lm asc k) (facets s) -> rotate s m = Ret p -> to_lines p = Ret ls ->
    forall l, In l ls -> exists f, In f (facets s) /\ In (rotate_facet m f) (facets p) /\ follows lm asc (bp (k - 41)) see f l.
  Proof.
    intros T S LK HF R TL l I. destruct (sees_apx m see T S) as (r & AP & SE). rewrite Forall_forall in HF.
    pose proof (lines_on _ _ TL) as LO. rewrite Forall_forall in LO. destruct (LO _ I) as (v & ev & a & b & LV & NV & OA & OB & ->).
    pose proof R as RI. unfold rotate in RI. destruct (index_spec (F64_ordered lm asc) (fs := cull_facets (map (rotate_facet m) (facets s)))) as (p' & HI & IX).
    { apply Forall_forall. intros f Hf. apply cull_in in Hf. destruct Hf as [Hf _]. apply in_map_iff in Hf. destruct Hf as (g & <- & Hg).
      assert (X : forall c, bnd3 lm asc k c -> ok3 (mulm c m)) by (intros c Hc; destruct (seen_apx k c m r ltac:(lia) Hc AP) as (([F1 _] & _) & ([F2 _] & _) & ([F3 _] & _)); split; [|split]; apply fin_ok; assumption).
      destruct (HF _ Hg) as (H1 & H2 & H3). split; [|split]; apply X; assumption. }
    assert (EP : p' = p) by (assert (X : Ret p' = Ret p) by (transitivity (index (A := F64 lm asc) (cull_facets (map (rotate_facet m) (facets s)))); [symmetry; exact HI|exact RI]); injection X; auto). subst p'. destruct (ix_only IX _ (nth_error_In _ _ NV)) as (f' & i & Hf & _ & ->).
    pose proof Hf as Hp. rewrite <- (ix_facets IX) in Hp. apply cull_in in Hf. destruct Hf as [Hf _]. apply in_map_iff in Hf. destruct Hf as (f & <- & Hf). exists f. split; [exact Hf|]. split; [exact Hp|].
    destruct (HF _ Hf) as (H1 & H2 & H3).
    assert (K : exists c d, side_of lm asc f c d /\ bnd3 lm asc k c /\ bnd3 lm asc k d /\ side (rotate_facet m f) i = mk_edge (mulm c m) (mulm d m)).
    { destruct i as [|[|i]]; [exists (fe0 f), (fe1 f)|exists (fe1 f), (fe2 f)|exists (fe2 f), (fe0 f)]; (split; [cbn; auto|]); auto. }
    destruct K as (c & d & SD & Bc & Bd & ES). rewrite ES in OA, OB.
    pose proof (seen_apx k c m r ltac:(lia) Bc AP) as Xc. pose proof (seen_apx k d m r ltac:(lia) Bd AP) as Xd.
    assert (G : forall q, on_edge (edges p) (mk_edge (mulm c m) (mulm d m)) q -> exists t, 0 <= t <= 1 /\ within2 lm asc (bp (k - 41)) (xy q) (see (on_the_way t (val3 lm asc c) (val3 lm asc d)))).
    { assert (B : 3 * bp (k - 43) + 7 * bp (k + 2 - 53) <= bp (k - 41)).
      { assert (Q1 : bp (k - 43) = 256 * bp (k - 51)) by (replace (k - 43)%Z with (k - 51 + 8)%Z by ring; rewrite bp_shift by lia; reflexivity).
        assert (Q2 : bp (k - 41) = 1024 * bp (k - 51)) by (replace (k - 41)%Z with (k - 51 + 10)%Z by ring; rewrite bp_shift by lia; reflexivity).
        replace (k + 2 - 53)%Z with (k - 51)%Z by ring. pose proof (bp_pos (k - 51)). lra. }
      intros q OQ. assert (E : exists t, 0 <= t <= 1 /\ apx3 lm asc (k + 2 + 2) (3 * bp (k - 43) + 7 * bp (k + 2 - 53)) q (on_the_way t (rmul (val3 lm asc c) r) (rmul (val3 lm asc d) r))).
      { unfold mk_edge in OQ. destruct (order (mulm c m) (mulm d m)).
        - exact (on_edge_apx (k + 2) _ _ _ q _ _ ltac:(lia) (Rlt_le _ _ (bp_pos _)) OQ Xc Xd) || (destruct (on_edge_apx (k + 2) _ _ _ q _ _ ltac:(lia) (Rlt_le _ _ (bp_pos _)) OQ Xd Xc) as (t & Ht & X); exists (1 - t); split; [lra|]; rewrite on_way_rev in X; exact X).
        - exact (on_edge_apx (k + 2) _ _ _ q _ _ ltac:(lia) (Rlt_le _ _ (bp_pos _)) OQ Xc Xd) || (destruct (on_edge_apx (k + 2) _ _ _ q _ _ ltac:(lia) (Rlt_le _ _ (bp_pos _)) OQ Xd Xc) as (t & Ht & X); exists (1 - t); split; [lra|]; rewrite on_way_rev in X; exact X). }
      destruct E as (t & Ht & (([F1 _] & _ & E1) & ([F2 _] & _ & E2) & _)). exists t. split; [exact Ht|]. rewrite SE, between_mul. split; (split; [assumption|]); (eapply Rle_trans; [|exact B]); assumption. }
    destruct (G a OA) as (t & Ht & Wt). destruct (G b OB) as (u & Hu & Wu). exists c, d, t, u. auto 10.
  Qed.
End FollowF.
