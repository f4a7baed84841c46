(** P_Paper.v - drawings on paper, in doubles. *)
From Coq Require Import Reals Lra ZArith Lia List.
From Flocq Require Import Core IEEE754.BinarySingleNaN.
From Verif Require Import Base Num NumReal NumF64 NumLaws Geo Stl GeoSpec Env Ast Ps Draw DocSpec F64Spec P_Base P_Meta P_Part P_Hide P_Doc P_Script2 P_Script3 P_Lang2 P_Geo1 P_Bound P_Value P_Total P_Centre P_Float P_Move2 P_Err P_Err2 P_Err3 P_Follow P_Finite64 ErrSpec ViewSpec FollowSpec PaperSpec RealSpec.
Import ListNotations.

Local Unset Implicit Arguments.
Local Open Scope R_scope.

Lemma close_rnd j r : (-1000 <= j < 1000)%Z -> Rabs r <= bp j -> - bp (j - 54) <= rnd r - r <= bp (j - 54) /\ Rabs (rnd r) <= bp j.
Proof. intros L H. split; [apply Rabs_le_inv, rnd_err; [lia|exact H]|apply rnd_bound; [lia|exact H]]. Qed.
Lemma place_one k j tx (pl p l h sc : f64) q x0 x1 M es : (-700 <= k)%Z -> (-30 <= j <= 60)%Z -> (k + j <= 14)%Z ->
  bnd 17 pl -> Rabs (B2R pl - tx) <= bp (-36) ->
  close (bp (k - 43)) l x0 -> close (bp (k - 43)) h x1 -> close (bp (k - 41)) p q ->
  Rabs x0 <= 7 / 4 * bp k -> Rabs x1 <= 7 / 4 * bp k -> Rabs q <= 7 / 4 * bp k ->
  0 <= M <= bp j -> fin sc -> 0 <= es <= bp (j - 23) -> Rabs (B2R sc - M) <= es ->
  close (es * (7 / 2 * bp k) + bp (k + j - 40) + bp (-33)) (fadd (fmul p sc) (fsub pl (fmul (fdiv (fadd l h) (fz_ 2)) sc))) (tx + M * (q - (x0 + x1) / 2)).
Proof.
  intros Lk Lj LS Bpl Cpl [Fl Cl] [Fh Ch] [Fp Cp] B0 B1 Bq BM Fs Be Cs.
  apply Rabs_le_inv in Cl, Ch, Cp, B0, B1, Bq, Cs, Cpl.
  pose proof (bp_pos (k - 60)) as U. set (u := bp (k - 60)) in *.
  assert (E0 : bp k = IZR (2 ^ 60) * u) by (unfold u; rewrite <- bp_shift by lia; f_equal; ring). change (2 ^ 60)%Z with 1152921504606846976%Z in E0.
  assert (E43 : bp (k - 43) = IZR (2 ^ 17) * u) by (unfold u; rewrite <- bp_shift by lia; f_equal; ring). change (2 ^ 17)%Z with 131072%Z in E43.
  assert (E41 : bp (k - 41) = IZR (2 ^ 19) * u) by (unfold u; rewrite <- bp_shift by lia; f_equal; ring). change (2 ^ 19)%Z with 524288%Z in E41.
  assert (E1 : bp (k + 1) = 2 * bp k) by (apply bp_S). assert (E2 : bp (k + 2) = 4 * bp k) by (rewrite (bp_shift k 2) by lia; reflexivity).
  assert (Bl : bnd (k + 1) l) by (split; [exact Fl|]; apply Rabs_le; lra). assert (Bh : bnd (k + 1) h) by (split; [exact Fh|]; apply Rabs_le; lra). assert (Bp : bnd (k + 1) p) by (split; [exact Fp|]; apply Rabs_le; lra).
  assert (SJ : Rabs (B2R sc) <= bp (j + 1)).
  { rewrite bp_S. assert (bp (j - 23) <= bp j) by (apply bp_le; lia). apply Rabs_le. lra. }
  assert (Bs : bnd (j + 1) sc) by (split; assumption).
  (* the middle *)
  pose proof (add_val (k + 1) l h ltac:(lia) Bl Bh) as V1. pose proof (bnd_add (k + 1) l h ltac:(lia) Bl Bh) as N1. replace (k + 1 + 1)%Z with (k + 2)%Z in N1 by ring.
  assert (X1 : Rabs (B2R l + B2R h) <= bp (k + 2)) by (apply Rabs_le; lra). destruct (close_rnd (k + 2) _ ltac:(lia) X1) as [D1 _]. rewrite <- V1 in D1.
  destruct (int_val 2 ltac:(lia)) as [F2 V2]. set (s1 := fadd l h) in *.
  assert (X2 : Rabs (B2R s1 / B2R (fz_ 2)) <= bp (k + 1)). { rewrite V2. unfold Rdiv. rewrite Rabs_mult, (Rabs_pos_eq (/ 2)) by lra. destruct N1 as [_ N1]. lra. }
  destruct (div_val (k + 1) s1 (fz_ 2) ltac:(lia) (proj1 N1) ltac:(rewrite V2; lra) X2) as [N2 V3]. destruct (close_rnd (k + 1) _ ltac:(lia) X2) as [D2 _]. rewrite <- V3, V2 in D2. set (mid := fdiv s1 (fz_ 2)) in *.
  (* scaled *)
  pose proof (mul_val (k + 1) (j + 1) mid sc ltac:(lia) N2 Bs) as V4. pose proof (bnd_mul (k + 1) (j + 1) mid sc ltac:(lia) N2 Bs) as N4.
  assert (X4 : Rabs (B2R mid * B2R sc) <= bp (k + 1 + (j + 1))) by (rewrite bp_add, Rabs_mult; apply Rmult_le_compat; [apply Rabs_pos|apply Rabs_pos|apply N2|apply Bs]).
  destruct (close_rnd (k + 1 + (j + 1)) _ ltac:(lia) X4) as [D4 _]. rewrite <- V4 in D4. set (mm := fmul mid sc) in *.
  pose proof (mul_val (k + 1) (j + 1) p sc ltac:(lia) Bp Bs) as V5. pose proof (bnd_mul (k + 1) (j + 1) p sc ltac:(lia) Bp Bs) as N5.
  assert (X5 : Rabs (B2R p * B2R sc) <= bp (k + 1 + (j + 1))) by (rewrite bp_add, Rabs_mult; apply Rmult_le_compat; [apply Rabs_pos|apply Rabs_pos|apply Bp|apply Bs]).
  destruct (close_rnd (k + 1 + (j + 1)) _ ltac:(lia) X5) as [D5 _]. rewrite <- V5 in D5. set (pp := fmul p sc) in *.
  (* on the page *)
  assert (N4' : bnd 17 mm) by (apply (bnd_mono (k + 1 + (j + 1)) 17); [lia|exact N4]). assert (N5' : bnd 18 pp) by (apply (bnd_mono (k + 1 + (j + 1)) 18); [lia|exact N5]).
  pose proof (sub_val 17 pl mm ltac:(lia) Bpl N4') as V6. pose proof (bnd_sub 17 pl mm ltac:(lia) Bpl N4') as N6. change (17 + 1)%Z with 18%Z in N6.
  assert (X6 : Rabs (B2R pl - B2R mm) <= bp 18). { destruct Bpl as [_ Q1]. destruct N4' as [_ Q2]. apply Rabs_le_inv in Q1, Q2. apply Rabs_le. change (bp 18) with (bp (17 + 1)). rewrite bp_S. lra. }
  destruct (close_rnd 18 _ ltac:(lia) X6) as [D6 _]. rewrite <- V6 in D6. set (off := fsub pl mm) in *.
  pose proof (add_val 18 pp off ltac:(lia) N5' N6) as V7. pose proof (bnd_add 18 pp off ltac:(lia) N5' N6) as N7. change (18 + 1)%Z with 19%Z in N7.
  assert (X7 : Rabs (B2R pp + B2R off) <= bp 19). { destruct N5' as [_ Q1]. destruct N6 as [_ Q2]. apply Rabs_le_inv in Q1, Q2. apply Rabs_le. change (bp 19) with (bp (18 + 1)). rewrite bp_S. lra. }
  destruct (close_rnd 19 _ ltac:(lia) X7) as [D7 _]. rewrite <- V7 in D7. set (out := fadd pp off) in *.
  split; [exact (proj1 N7)|].
  (* collect *)
  change (18 - 54)%Z with (-36)%Z in D6. change (19 - 54)%Z with (-35)%Z in D7.
  assert (P35 : bp (-35) = 2 * bp (-36)) by (exact (bp_S (-36))). assert (P33 : bp (-33) = 8 * bp (-36)) by (replace (-33)%Z with (-36 + 3)%Z by ring; rewrite bp_shift by lia; reflexivity).
  pose proof (bp_pos (-36)) as P36.
  set (t := bp (k + j - 60)). assert (T : 0 < t) by apply bp_pos.
  assert (T2 : bp (k + 1 + (j + 1) - 54) = 256 * t) by (unfold t; replace (k + 1 + (j + 1) - 54)%Z with (k + j - 60 + 8)%Z by ring; rewrite bp_shift by lia; reflexivity).
  assert (T40 : bp (k + j - 40) = 1048576 * t) by (unfold t; replace (k + j - 40)%Z with (k + j - 60 + 20)%Z by ring; rewrite bp_shift by lia; reflexivity).
  assert (TU : bp j * u = t) by (unfold t, u; rewrite <- bp_add; f_equal; ring).
  rewrite T2 in D4, D5. rewrite T40.
  assert (E52 : bp (k + 2 - 54) = 256 * u) by (unfold u; replace (k + 2 - 54)%Z with (k - 60 + 8)%Z by ring; rewrite bp_shift by lia; reflexivity).
  assert (E53 : bp (k + 1 - 54) = 128 * u) by (unfold u; replace (k + 1 - 54)%Z with (k - 60 + 7)%Z by ring; rewrite bp_shift by lia; reflexivity).
  rewrite E52 in D1. rewrite E53 in D2. rewrite E43 in Cl, Ch. rewrite E41 in Cp.
  (* w: how far p - mid is from q - (x0 + x1) / 2 *)
  set (w := (B2R p - B2R mid) - (q - (x0 + x1) / 2)). assert (W : - (656000 * u) <= w <= 656000 * u) by (unfold w; lra).
  assert (SC : - (B2R sc) <= 1.01 * bp j /\ B2R sc <= 1.01 * bp j). { assert (H23 : bp (j - 23) <= bp (j - 7)) by (apply bp_le; lia). assert (H7 : bp j = 128 * bp (j - 7)) by (replace (bp j) with (bp (j - 7 + 7)) by (f_equal; ring); rewrite bp_shift by lia; reflexivity). pose proof (bp_pos (j - 7)). lra. }
  set (dd := q - (x0 + x1) / 2) in *. assert (DD : - (7 / 2 * bp k) <= dd <= 7 / 2 * bp k) by (unfold dd; lra).
  assert (R0 : B2R p * B2R sc - B2R mid * B2R sc - M * dd = B2R sc * w + (B2R sc - M) * dd) by (unfold w; ring).
  assert (R1 : Rabs (B2R sc * w) <= 1.01 * bp j * (656000 * u)) by (rewrite Rabs_mult; apply Rmult_le_compat; [apply Rabs_pos|apply Rabs_pos|apply Rabs_le; lra|apply Rabs_le; lra]).
  replace (1.01 * bp j * (656000 * u)) with (1.01 * 656000 * t) in R1 by (rewrite <- TU; ring).
  assert (R2 : Rabs ((B2R sc - M) * dd) <= es * (7 / 2 * bp k)) by (rewrite Rabs_mult; apply Rmult_le_compat; [apply Rabs_pos|apply Rabs_pos|apply Rabs_le; lra|apply Rabs_le; lra]).
  apply Rabs_le_inv in R1, R2. apply Rabs_le. lra.
Qed.

Lemma fle_val (x y : f64) : fin x -> fin y -> fle x y = true -> B2R x <= B2R y.
Proof.
  intros Fx Fy. rewrite fle_key. assert (K : forall z : f64, fin z -> key z = Fin (B2R z)) by (intros [s|s| |s m e H] F; try discriminate F; reflexivity).
  rewrite !K by assumption. intro H. rewrite xle_fin in H. destruct (rleb_spec (B2R x) (B2R y)); [assumption|discriminate].
Qed.
(** A finite set of reals has a least element; the greatest by symmetry. *)
Lemma least (B : Type) (f : B -> R) (l : list B) : l <> [] -> exists m, In m l /\ forall x, In x l -> f m <= f x.
Proof.
  induction l as [|a l IH]; intro N; [contradiction|]. destruct l as [|b l]; [exists a; split; [left; reflexivity|]; intros x [<-|[]]; lra|].
  destruct IH as (m & I & H); [discriminate|]. destruct (Rle_dec (f a) (f m)) as [L|L].
  - exists a. split; [left; reflexivity|]. intros x [<-|J]; [lra|]. specialize (H x J). lra.
  - exists m. split; [right; exact I|]. intros x [<-|J]; [lra|]. exact (H x J).
Qed.
Lemma select (B : Type) (Q : B -> Prop) (l : list B) : exists l', forall x, In x l' <-> In x l /\ Q x.
Proof.
  induction l as [|a l [l' IH]]; [exists []; intro x; split; [intros []|intros [[] _]]|]. destruct (Classical_Prop.classic (Q a)) as [Y|Y].
  - exists (a :: l'). intro x. cbn [In]. rewrite IH. split; [intros [<-|[H1 H2]]; auto|intros [[<-|H1] H2]; auto].
  - exists l'. intro x. cbn [In]. rewrite IH. split; [intros [H1 H2]; auto|intros [[<-|H1] H2]; [contradiction|auto]].
Qed.
(** Views keep lengths. *)
Lemma spin_len a p : rdot (spin a p) (spin a p) = rdot p p.
Proof. pose proof (sin2_cos2 a) as H. unfold Rsqr in H. destruct p as [x y z]. unfold spin, rdot. cbn [rx ry rz]. nra. Qed.
Lemma tilt_len b p : rdot (tilt b p) (tilt b p) = rdot p p.
Proof. pose proof (sin2_cos2 b) as H. unfold Rsqr in H. destruct p as [x y z]. unfold tilt, rdot. cbn [rx ry rz]. nra. Qed.
Lemma look_len n p q : look n p = Some q -> rdot q q = rdot p p.
Proof.
  unfold look. repeat match goal with |- (if ?c then _ else _) = _ -> _ => destruct c; [intro H; injection H as <-; unfold rdot; cbn [rx ry rz]; ring|] end. discriminate.
Qed.
Section PaperF.
  Context (lm : libm) (asc : bool).
  #[local] Instance AX : Arith := F64 lm asc.
  Lemma sees_len m see p : sees lm asc m see -> rdot (see p) (see p) = rdot p p.
  Proof.
    intros [(n & _ & L)|(a & _ & _ & _ & S)]; [exact (look_len n p _ (L p))|]. rewrite S, tilt_len. apply spin_len.
  Qed.
  Lemma sees_small k m see p : sees lm asc m see -> Rabs (rx p) <= bp k -> Rabs (ry p) <= bp k -> Rabs (rz p) <= bp k ->
    Rabs (rx (see p)) <= 7 / 4 * bp k /\ Rabs (ry (see p)) <= 7 / 4 * bp k.
  Proof.
    intros S X Y Z. pose proof (sees_len m see p S) as H. pose proof (bp_pos k) as K. unfold rdot in H. apply Rabs_le_inv in X, Y, Z.
    assert (Q : rdot p p <= 3 * (bp k * bp k)) by (unfold rdot; nra). unfold rdot in Q.
    split; apply Rabs_le; nra.
  Qed.
  Lemma way_small k t c d : 0 <= t <= 1 -> bnd3 lm asc k c -> bnd3 lm asc k d -> let q := on_the_way t (val3 lm asc c) (val3 lm asc d) in
    Rabs (rx q) <= bp k /\ Rabs (ry q) <= bp k /\ Rabs (rz q) <= bp k.
  Proof.
    intros T ([_ C1] & [_ C2] & [_ C3]) ([_ D1] & [_ D2] & [_ D3]). cbv zeta. unfold on_the_way, val3. cbn [rx ry rz]. apply Rabs_le_inv in C1, C2, C3, D1, D2, D3.
    assert (K : forall x y b, - b <= x <= b -> - b <= y <= b -> Rabs (x + t * (y - x)) <= b).
    { intros x y b H1 H2. replace (x + t * (y - x)) with ((1 - t) * x + t * y) by ring. apply Rabs_le. split; nra. }
    split; [|split]; apply K; assumption.
  Qed.
  Lemma way_same p : on_the_way 0 p p = p.
  Proof. destruct p as [x y z]. unfold on_the_way. cbn [rx ry rz]. f_equal; ring. Qed.
  Lemma rotated_facets s m p : rotate s m = Ret p -> forall f', In f' (facets p) -> exists f, In f (facets s) /\ f' = rotate_facet m f.
  Proof.
    intros R f' I. unfold rotate in R. rewrite (proj1 (index_range _ R)) in I. apply cull_in in I. destruct I as [I _]. apply in_map_iff in I. destruct I as (f & <- & H). eauto.
  Qed.
  (** The computed limits are those of the corners that are drawn, up to rounding. *)
  Lemma limits_close k m see s p : trig_close lm -> sees lm asc m see -> (-700 <= k <= 500)%Z -> Forall (bndF lm asc k) (facets s) -> rotate s m = Ret p -> facets p <> [] ->
    exists x0 x1 y0 y1, frames (seen_corner lm asc see m s p) x0 x1 y0 y1 /\
      close (bp (k - 43)) (x2 (lo (limits p)) : f64) x0 /\ close (bp (k - 43)) (x2 (lt_ (limits p)) : f64) x1 /\
      close (bp (k - 43)) (y2 (lo (limits p)) : f64) y0 /\ close (bp (k - 43)) (y2 (lt_ (limits p)) : f64) y1.
  Proof.
    intros T S LK HF R NE. rewrite Forall_forall in HF. destruct (sees_apx lm asc m see T S) as (r & AP & SE).
    destruct (select _ (drawn_facet lm asc m s p) (facets s)) as (fs & FS). set (vs := flat_map (fun f => [fe0 f; fe1 f; fe2 f]) fs).
    assert (VS : forall q, seen_corner lm asc see m s p q <-> exists v, In v vs /\ q = see (val3 lm asc v)).
    { intro q. split.
      - intros (f & v & TU & IV & ->). exists v. split; [|reflexivity]. apply in_flat_map. exists f. split; [apply FS; split; [exact (proj1 TU)|exact TU]|exact IV].
      - intros (v & IV & ->). apply in_flat_map in IV. destruct IV as (f & Hf & IV). apply FS in Hf. exists f, v. tauto. }
    assert (BV : forall v, In v vs -> bnd3 lm asc k v).
    { intros v IV. apply in_flat_map in IV. destruct IV as (f & Hf & IV). apply FS in Hf. destruct (HF f (proj1 Hf)) as (B0 & B1 & B2). destruct IV as [<-|[<-|[<-|[]]]]; assumption. }
    assert (XV : forall v, In v vs -> within3 lm asc (bp (k - 43)) (mulm v m) (see (val3 lm asc v))).
    { intros v IV. destruct (seen_apx lm asc k v m r ltac:(lia) (BV v IV) AP) as (([F1 _] & _ & C1) & ([F2 _] & _ & C2) & ([F3 _] & _ & C3)). rewrite SE. split; [|split]; split; assumption. }
    assert (PV : forall w, In w (vertices p) <-> exists v, In v vs /\ w = mulm v m).
    { intro w. split.
      - intro I. apply in_flat_map in I. destruct I as (f' & Hf & I). destruct (rotated_facets s m p R f' Hf) as (f & HS & ->).
        assert (IF : In f fs) by (apply FS; split; [exact HS|split; assumption]).
        destruct I as [<-|[<-|[<-|[]]]]; [exists (fe0 f)|exists (fe1 f)|exists (fe2 f)]; (split; [|reflexivity]); apply in_flat_map; exists f; (split; [exact IF|cbn; auto]).
      - intros (v & IV & ->). apply in_flat_map in IV. destruct IV as (f & Hf & IV). apply FS in Hf. destruct Hf as (_ & _ & Hp). apply in_flat_map. exists (rotate_facet m f). split; [exact Hp|].
        destruct IV as [<-|[<-|[<-|[]]]]; cbn; auto. }
    assert (CV : Forall comparable (vertices p)).
    { apply Forall_forall. intros w I. apply PV in I. destruct I as (v & IV & ->). destruct (XV v IV) as ([F1 _] & [F2 _] & [F3 _]). split; [|split]; apply fin_ok; assumption. }
    destruct (proj2 (limits_tight (F64_ordered lm asc) p CV) NE) as (B & (v0 & V0 & X0) & (v1 & V1 & X1) & (v2 & V2 & X2) & (v3 & V3 & X3)).
    apply PV in V0, V1, V2, V3. destruct V0 as (c0 & I0 & ->). destruct V1 as (c1 & I1 & ->). destruct V2 as (c2 & I2 & ->). destruct V3 as (c3 & I3 & ->).
    assert (NV : vs <> []) by (intro Z; rewrite Z in I0; exact I0).
    destruct (least _ (fun v => rx (see (val3 lm asc v))) vs NV) as (a0 & J0 & L0). destruct (least _ (fun v => ry (see (val3 lm asc v))) vs NV) as (a1 & J1 & L1).
    destruct (least _ (fun v => - rx (see (val3 lm asc v))) vs NV) as (a2 & J2 & L2). destruct (least _ (fun v => - ry (see (val3 lm asc v))) vs NV) as (a3 & J3 & L3).
    cbv beta in *. exists (rx (see (val3 lm asc a0))), (rx (see (val3 lm asc a2))), (ry (see (val3 lm asc a1))), (ry (see (val3 lm asc a3))). split.
    { split; [|split; [|split; [|split]]].
      - intros q Hq. apply VS in Hq. destruct Hq as (v & IV & ->). pose proof (L0 v IV). pose proof (L1 v IV). pose proof (L2 v IV). pose proof (L3 v IV). lra.
      - exists (see (val3 lm asc a0)). split; [apply VS; eauto|reflexivity].
      - exists (see (val3 lm asc a2)). split; [apply VS; eauto|reflexivity].
      - exists (see (val3 lm asc a1)). split; [apply VS; eauto|reflexivity].
      - exists (see (val3 lm asc a3)). split; [apply VS; eauto|reflexivity]. }
    assert (BX : forall v, In v vs -> in_box (lo (limits p)) (lt_ (limits p)) (mulm v m)) by (intros v IV; apply B, PV; eauto).
    destruct (BX a0 J0) as (K0 & _). destruct (BX a1 J1) as (_ & _ & K1 & _). destruct (BX a2 J2) as (_ & K2 & _). destruct (BX a3 J3) as (_ & _ & _ & K3).
    apply (eq_trans (f_equal (fun z => nle z (x3 (mulm a0 m))) X0)) in K0. apply (eq_trans (f_equal (fun z => nle z (y3 (mulm a1 m))) X1)) in K1.
    apply (eq_trans (f_equal (fun z => nle (x3 (mulm a2 m)) z) X2)) in K2. apply (eq_trans (f_equal (fun z => nle (y3 (mulm a3 m)) z) X3)) in K3.
    destruct (XV _ I0) as ([F0 Q0] & _). destruct (XV _ I1) as (_ & [F1 Q1] & _). destruct (XV _ I2) as ([F2 Q2] & _). destruct (XV _ I3) as (_ & [F3 Q3] & _).
    destruct (XV _ J0) as ([G0 R0] & _). destruct (XV _ J1) as (_ & [G1 R1] & _). destruct (XV _ J2) as ([G2 R2] & _). destruct (XV _ J3) as (_ & [G3 R3] & _).
    pose proof (fle_val _ _ F0 G0 K0) as M0. pose proof (fle_val _ _ F1 G1 K1) as M1. pose proof (fle_val _ _ G2 F2 K2) as M2. pose proof (fle_val _ _ G3 F3 K3) as M3.
    pose proof (L0 _ I0) as N0. pose proof (L1 _ I1) as N1. pose proof (L2 _ I2) as N2. pose proof (L3 _ I3) as N3.
    apply Rabs_le_inv in Q0, Q1, Q2, Q3, R0, R1, R2, R3.
    assert (Z : forall (x y : f64) e r, x = y -> close e x r -> close e y r) by (intros x y e t <-; auto).
    split; [apply (Z _ _ _ _ X0)|split; [apply (Z _ _ _ _ X2)|split; [apply (Z _ _ _ _ X1)|apply (Z _ _ _ _ X3)]]]; (split; [assumption|apply Rabs_le; lra]).
  Qed.
  Lemma place_close (E : @Env AX) ml tx ty pl : NoDup (map m_name ml) -> placed lm asc ml tx ty -> place_of ml = Some pl ->
    (bnd 17 (x2 pl : f64) /\ Rabs (B2R (x2 pl : f64) - tx) <= bp (-36)) /\ (bnd 17 (y2 pl : f64) /\ Rabs (B2R (y2 pl : f64) - ty) <= bp (-36)).
  Proof.
    assert (K : forall (v : f64) z, bnd 10 v -> (0 <= z <= 512)%Z -> bnd 17 (fadd (fmul v (fz_ 72)) (fz_ z)) /\ Rabs (B2R (fadd (fmul v (fz_ 72)) (fz_ z)) - (72 * B2R v + IZR z)) <= bp (-36)).
    { intros v z BV LZ. destruct (int_val 72 ltac:(lia)) as [F72 V72]. destruct (int_val z ltac:(lia)) as [Fz Vz].
      assert (B72 : bnd 7 (fz_ 72)) by (split; [exact F72|rewrite V72, Rabs_pos_eq by lra; change (bp 7) with 128; lra]).
      pose proof (mul_val 10 7 v (fz_ 72) ltac:(lia) BV B72) as V1. pose proof (bnd_mul 10 7 v (fz_ 72) ltac:(lia) BV B72) as N1. change (10 + 7)%Z with 17%Z in N1.
      destruct BV as [FV BV]. apply Rabs_le_inv in BV. change (bp 10) with 1024 in BV. rewrite V72 in V1.
      assert (X1 : Rabs (B2R v * 72) <= bp 17) by (change (bp 17) with 131072; apply Rabs_le; lra). destruct (close_rnd 17 _ ltac:(lia) X1) as [D1 _]. rewrite <- V1 in D1. set (w := fmul v (fz_ 72)) in *.
      assert (Bz : bnd 17 (fz_ z)) by (split; [exact Fz|rewrite Vz; change (bp 17) with 131072; rewrite <- abs_IZR; apply IZR_le; lia]).
      pose proof (add_val 17 w (fz_ z) ltac:(lia) N1 Bz) as V2. pose proof (bnd_add 17 w (fz_ z) ltac:(lia) N1 Bz) as N2. rewrite Vz in V2.
      assert (Z0 : 0 <= IZR z <= 512) by (split; apply IZR_le; lia). change (17 - 54)%Z with (-37)%Z in D1. assert (S37 : bp (-37) < 1) by (change 1 with (bp 0); apply bpow_lt; lia).
      assert (X2 : Rabs (B2R w + IZR z) <= bp 17) by (change (bp 17) with 131072; apply Rabs_le; lra). destruct (close_rnd 17 _ ltac:(lia) X2) as [D2 M2]. rewrite <- V2 in D2, M2.
      change (17 - 54)%Z with (-37)%Z in D2. assert (P36 : bp (-36) = 2 * bp (-37)) by (exact (bp_S (-37))).
      split; [split; [exact (proj1 N2)|exact M2]|]. apply Rabs_le. lra. }
    intros ND [(x & a & I & NM & V & B1 & B2 & -> & ->)|(AB & -> & ->)]; unfold place_of.
    - rewrite (arg_unique "@"%string ml x ND I NM). unfold as_loc. rewrite V. intro H. injection H as <-. split; [exact (K (x2 a) 396%Z B1 ltac:(lia))|exact (K (y2 a) 306%Z B2 ltac:(lia))].
    - rewrite (arg_absent "@"%string ml AB). intro H. injection H as <-. destruct (int_val 0 ltac:(lia)) as [F0 V0].
      assert (Z : bnd 17 (fz_ 0) /\ Rabs (B2R (fz_ 0) - 0) <= bp (-36)); [|split; exact Z].
      rewrite V0. rewrite Rminus_0_r, Rabs_R0. split; [split; [exact F0|rewrite V0, Rabs_R0; apply Rlt_le, bp_pos]|apply Rlt_le, bp_pos].
  Qed.
  Lemma binary24_format x : binary24 x -> generic_format radix2 fx32 x.
  Proof.
    intros (z & h & LZ & LH & ->). apply (generic_format_FLT radix2 (-149) 24). exists (Float radix2 z h); [reflexivity|exact LZ|cbn [Fexp]; lia].
  Qed.
  Theorem lines_placed (E : @Env AX) st l n ml ds s s1 ds1 f m see k j M tx ty e : trig_close lm ->
    visit_draw st l n ml ds s = Ret (s1, ds1, true) -> plan lm asc st n ml f m see k j M tx ty -> accuracy k j M e ->
    exists p ls0 ls q, rotate f m = Ret p /\ to_lines p = Ret ls0 /\ length ls = length ls0 /\ v_page s1 = plus_page (v_page s) (plus_page (OPage ls [] []) q) /\
      (ls = [] \/ exists x0 x1 y0 y1, frames (seen_corner lm asc see m f p) x0 x1 y0 y1 /\
        forall l, In l ls -> exists g, drawn_facet lm asc m f p g /\ follows lm asc e (fun p => laid tx ty M x0 x1 y0 y1 (see p)) g l).
  Proof.
    intros T H [HM HV S HF (a & b & HS & La & Lb & EM) MJ (Lk & Lj & LS) HPL] HE. revert HE. intro HE0. assert (HE : exists e', e = e' + bp (-33) /\ (e' = bp (k + j - 21) \/ binary24 M /\ e' = bp (k + j - 40))) by (destruct HE0 as [->|[B24 ->]]; eauto 6).
    clear HE0. destruct HE as (e' & -> & HE). rename e' into e.
    destruct (placed_off _ _ _ _ _ _ _ _ H) as (a' & b' & proj & ls & q & pl & AS' & SH & HP & HPG). pose proof (drawn_nodup _ _ _ _ _ _ _ _ H) as ND.
    destruct (one_scale ml a b a' b' ND HS AS') as [<- <-]. destruct SH as (f' & rot & pr & HM' & HV' & HR & -> & TL).
    rewrite HM in HM'. injection HM' as <-. pose proof (asks_view_of ml m ND HV) as Q1. rewrite (asks_view_of ml rot ND HV') in Q1. injection Q1 as ->.
    pose proof (rotated_culled _ _ _ HR) as CU. rewrite CU in TL, HPG. cbv zeta in HPG.
    set (sc := to_f32 (ndiv (nmul (of_Z 72) (of_Z a)) (of_Z b))) in *. set (off := sub2 pl (mul2 (div2 (add2 (lo (limits pr)) (lt_ (limits pr))) n2) sc)) in *.
    exists pr, ls, (map (fun l => Line (put sc off (lo l)) (put sc off (lt_ l))) ls), (put_page sc off q). split; [exact HR|]. split; [exact TL|]. split; [apply map_length|]. split.
    { rewrite HPG. unfold put_page, plus_page. cbn [o_lines o_arcs o_text app]. rewrite map_app. reflexivity. }
    destruct ls as [|l0 ls']; [left; reflexivity|]. right.
    assert (M0 : bp (-26) <= M).
    { rewrite EM. assert (A1 : 1 <= IZR a) by (apply (IZR_le 1); lia). assert (B1 : 0 < IZR b <= 2147483648) by (split; [apply (IZR_lt 0)|apply (IZR_le b 2147483648)]; lia).
      apply Rmult_le_reg_r with (IZR b); [lra|]. unfold Rdiv. rewrite <- Rmult_assoc, Rmult_assoc, Rinv_l by lra. change (bp (-26)) with (/ 67108864). lra. }
    assert (LJ : (-30 <= j)%Z). { destruct (Z_le_gt_dec (-30) j) as [|G]; [assumption|]. exfalso. assert (bp j < bp (-26)) by (apply bpow_lt; lia). lra. }
    pose proof (lines_follow lm asc k m see f pr (l0 :: ls') T S ltac:(lia) HF HR TL) as LF.
    assert (NE : facets pr <> []) by (destruct (LF l0 (or_introl eq_refl)) as (g & _ & G & _); intro Z; exact (eq_ind _ (fun l => In (rotate_facet m g) l) G _ Z)).
    destruct (limits_close k m see f pr T S ltac:(lia) HF HR NE) as (x0 & x1 & y0 & y1 & FR & C0 & C1 & C2 & C3).
    exists x0, x1, y0, y1. split; [exact FR|]. rewrite Forall_forall in HF.
    assert (SM : forall c, seen_corner lm asc see m f pr c -> Rabs (rx c) <= 7 / 4 * bp k /\ Rabs (ry c) <= 7 / 4 * bp k).
    { intros c (g & v & [Hg _] & IV & ->). destruct (HF g Hg) as (B0 & B1 & B2). assert (BV : bnd3 lm asc k v) by (destruct IV as [<-|[<-|[<-|[]]]]; assumption).
      destruct BV as ([_ X] & [_ Y] & [_ Z]). apply (sees_small k m see); assumption. }
    destruct FR as (_ & (c0 & D0 & <-) & (c1 & D1 & <-) & (c2 & D2 & <-) & (c3 & D3 & <-)).
    destruct (SM c0 D0) as [G0 _]. destruct (SM c1 D1) as [G1 _]. destruct (SM c2 D2) as [_ G2]. destruct (SM c3 D3) as [_ G3].
    destruct (place_close E ml tx ty pl ND HPL HP) as [[PX PX'] [PY PY']].
    assert (Labs : (Z.abs a <= 2 ^ 31)%Z) by lia. assert (Lbbs : (Z.abs b <= 2 ^ 31)%Z) by lia. assert (NB : b <> 0%Z) by lia.
    pose proof (proj1 (scale_steps lm asc a b Labs Lbbs NB)) as FS. pose proof (scale_close lm asc a b Labs Lbbs NB) as CS. cbv zeta in CS. rewrite <- EM in CS.
    assert (MP : 0 < M) by (pose proof (bp_pos (-26)); lra). rewrite (Rabs_pos_eq M) in CS by lra.
    assert (J23 : bp (-23) * bp j = bp (j - 23)) by (rewrite <- bp_add; f_equal; ring).
    assert (ES : exists es, 0 <= es <= bp (j - 23) /\ Rabs (B2R (sc : f64) - M) <= es /\ es * (7 / 2 * bp k) + bp (k + j - 40) <= e).
    { destruct HE as [->|[B24 ->]].
      - exists (bp (j - 23)). split; [split; [apply Rlt_le, bp_pos|lra]|]. split; [eapply Rle_trans; [exact CS|]; rewrite <- J23; apply Rmult_le_compat_l; [apply Rlt_le, bp_pos|exact MJ]|].
        replace (bp (j - 23) * (7 / 2 * bp k)) with (7 / 2 * (bp (j - 23) * bp k)) by ring. rewrite <- bp_add. replace (j - 23 + k)%Z with (k + j - 40 + 17)%Z by ring. replace (k + j - 21)%Z with (k + j - 40 + 19)%Z by ring.
        rewrite !bp_shift by lia. change (2 ^ 17)%Z with 131072%Z. change (2 ^ 19)%Z with 524288%Z. pose proof (bp_pos (k + j - 40)). lra.
      - exists 0. split; [split; [lra|apply Rlt_le, bp_pos]|]. split; [|pose proof (bp_pos (k + j - 40)); lra].
        pose proof (scale_exact lm asc a b Labs Lbbs NB) as SX. cbv zeta in SX. rewrite <- EM in SX. specialize (SX (binary24_format _ B24)). change (B2R (sc : f64) = M) in SX. rewrite SX, Rminus_diag_eq, Rabs_R0 by reflexivity. lra. }
    destruct ES as (es & ES1 & ES2 & ES3).
    intros l' I. apply in_map_iff in I. destruct I as (li & <- & I). destruct (LF li I) as (g & Hg & Hp & (c & d & t & u & SD & Ht & Hu & [W1 W2] & [W3 W4])).
    exists g. split; [split; assumption|].
    destruct (HF g Hg) as (B0 & B1 & B2). assert (BB : bnd3 lm asc k c /\ bnd3 lm asc k d) by (destruct SD as [X|[X|[X|[]]]]; injection X as <- <-; auto). destruct BB as [Bc Bd].
    exists c, d, t, u. split; [exact SD|]. split; [exact Ht|]. split; [exact Hu|].
    assert (WW : forall z w, 0 <= z <= 1 -> w = see (on_the_way z (val3 lm asc c) (val3 lm asc d)) -> Rabs (rx w) <= 7 / 4 * bp k /\ Rabs (ry w) <= 7 / 4 * bp k).
    { intros z w Hz ->. destruct (way_small k z c d Hz Bc Bd) as (X & Y & Z). apply (sees_small k m see); assumption. }
    destruct (WW t _ Ht eq_refl) as [T1 T2]. destruct (WW u _ Hu eq_refl) as [U1 U2].
    assert (FIN : forall tz (pz p z h : f64) q' z0 z1, bnd 17 pz -> Rabs (B2R pz - tz) <= bp (-36) -> close (bp (k - 43)) z z0 -> close (bp (k - 43)) h z1 -> close (bp (k - 41)) p q' ->
      Rabs z0 <= 7 / 4 * bp k -> Rabs z1 <= 7 / 4 * bp k -> Rabs q' <= 7 / 4 * bp k ->
      close (e + bp (-33)) (fadd (fmul p sc) (fsub pz (fmul (fdiv (fadd z h) (fz_ 2)) sc))) (tz + M * (q' - (z0 + z1) / 2))).
    { intros tz pz p z h q' z0 z1 K1 K2 K3 K4 K5 K6 K7 K8. destruct (place_one k j tz pz p z h sc q' z0 z1 M es Lk ltac:(lia) LS K1 K2 K3 K4 K5 K6 K7 K8 ltac:(lra) FS ES1 ES2) as [R1 R2].
      split; [exact R1|]. eapply Rle_trans; [exact R2|]. lra. }
    split; (split; [apply FIN|apply FIN]); assumption.
  Qed.
End PaperF.
