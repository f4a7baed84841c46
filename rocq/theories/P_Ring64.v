(** P_Ring64.v - the measured circle in doubles. *)
From Coq Require Import Reals Lra Lia ZArith List Permutation Bool.
From Flocq Require Import Core IEEE754.BinarySingleNaN.
From Verif Require Import Base Num NumReal NumF64 NumLaws Geo Stl Ast F64Spec P_Bound P_Text2 TextSpec P_Err P_Err2 P_Err3 CircleSpec P_Circle CircSpec P_Circ64 RealSpec.
Import ListNotations.

Local Unset Implicit Arguments.

(** ** The program takes its sums in one of the orders *)
Section Any.
  Context {A : Arith}.
  Lemma fold_sum l : forall a l0, sum_of l0 a -> sum_of (l0 ++ l) (fold_left nadd l a).
  Proof.
    induction l as [|x l IH]; intros a l0 H; cbn [fold_left]; [rewrite app_nil_r; exact H|]. replace (l0 ++ x :: l) with ((l0 ++ [x]) ++ l) by (rewrite <- app_assoc; reflexivity).
    apply IH. apply so_add; [exact H|apply so_one].
  Qed.
  Lemma nsum_sum l : sum_of l (nsum l). Proof. exact (fold_sum l nz [] so_nil). Qed.
  Lemma find_any ps c rad : find_circle ps = Some (c, rad) -> fits_any ps c rad.
  Proof.
    unfold find_circle. destruct (Nat.ltb_spec (length ps) 3) as [|L]; [discriminate|]. intro H. injection H as <- <-. split; [exact L|]. exists (fc_gram ps), (z3 (fc_res ps)).
    split; [repeat split; apply nsum_sum|]. repeat split; try apply nsum_sum.
  Qed.
  Lemma fit_is_any ps t c rad : fit_circle ps t = Some (c, rad) -> fit_any ps t c rad.
  Proof.
    unfold fit_circle. destruct (find_circle (closest (map xy ps) 3 t)) as [[c1 r1]|] eqn:F; [|discriminate]. intro H. exists c1, r1. split; [apply find_any; exact F|apply find_any; exact H].
  Qed.
  Lemma insert_sub d p c q : In q (map snd (mm_insert d p c)) -> q = p \/ In q (map snd c).
  Proof.
    induction c as [|[k x] c IH]; cbn [mm_insert map In snd]; [intros [->|[]]; auto|]. destruct (nlt d k); cbn [map In snd]; [intros [->|[->|I]]; auto|]. intros [->|I]; [auto|]. destruct (IH I); auto.
  Qed.
  Lemma step_sub n t c p q : In q (map snd (closest_step n t c p)) -> q = p \/ In q (map snd c).
  Proof.
    unfold closest_step. cbv zeta. destruct (match last_key c with Some k => _ | None => _ end); [auto|]. destruct (existsb _ _); [auto|]. intro I. apply in_map_iff in I. destruct I as (x & <- & I).
    apply (insert_sub (sqn2 (sub2 p t)) p c). apply in_map. rewrite <- (firstn_skipn n (mm_insert _ p c)). apply in_or_app. left. exact I.
  Qed.
  Lemma closest_sub ps n t q : In q (closest ps n t) -> In q ps.
  Proof.
    unfold closest. destruct (n <? 1)%Z; [intros []|]. assert (G : forall l c, In q (map snd (fold_left (closest_step (Z.to_nat n) t) l c)) -> In q l \/ In q (map snd c)).
    { induction l as [|p l IH]; intros c I; [auto|]. cbn [fold_left] in I. destruct (IH _ I) as [H|H]; [left; right; exact H|]. destruct (step_sub _ _ _ _ _ H) as [->|H']; [left; left; reflexivity|auto]. }
    intro I. destruct (G _ _ I) as [H|[]]. exact H.
  Qed.
End Any.

Local Open Scope R_scope.
Lemma rltb_lt a b : a < b -> rltb a b = true.
Proof. intro H. destruct (rltb_spec a b); [reflexivity|contradiction]. Qed.
Section Ring.
  Context (lm : libm) (asc : bool).
  #[local] Instance AF : Arith := F64 lm asc.
  Lemma fixes_pre k m d (ps : list (@v2 AF)) c rho : Forall (@finite2 lm asc) ps -> fixes k m d (map val2 ps) c rho -> Forall (bnd2 lm asc k) ps.
  Proof.
    intros F (_ & _ & _ & _ & _ & B & _). rewrite Forall_forall in *. intros p I. destruct (F p I) as [F1 F2]. destruct (B (val2 p)) as [B1 B2]; [right; apply in_map, I|]. repeat split; assumption.
  Qed.
  (** ** One fit *)
  Lemma fixes_close k m d ps c rad c0 rho : Forall (@finite2 lm asc) ps -> fixes k m d (map val2 ps) c0 rho -> fits_any (A := AF) ps c rad ->
    sx k 1 (101 * delta m d) (x2 c : f64) (fst c0) /\ sx k 1 (101 * delta m d) (y2 c : f64) (snd c0) /\ is_finite (rad : f64) = true /\ Rabs (B2R (rad : f64) - rho) * rho <= 1400 * delta m d * bp (2 * k) /\ rho * rho <= 8 * bp (2 * k).
  Proof.
    intros F FX S. pose proof (fixes_pre _ _ _ _ _ _ F FX) as B. destruct FX as (K & M & D0 & MD & L & C & HA & BC & R). destruct (C c0 (or_introl eq_refl)) as [C1 C2].
    rewrite map_length in L. rewrite areas_det in HA. replace (2 * k + m + d - 41)%Z with (2 * k + m + d - 42 + 1)%Z in R by ring. rewrite bp_S in R.
    exact (fit_close lm asc k m d K M D0 MD ps c rad c0 rho B L HA BC C1 C2 R S).
  Qed.
  Theorem fit_within k m d ps c rad c0 rho : Forall (@finite2 lm asc) ps -> fixes k m d (map val2 ps) c0 rho -> fits_any (A := AF) ps c rad ->
    (fin (x2 c : f64) /\ Rabs (B2R (x2 c : f64) - fst c0) <= bp (k + m + d - 46)) /\ (fin (y2 c : f64) /\ Rabs (B2R (y2 c : f64) - snd c0) <= bp (k + m + d - 46)) /\
    (fin (rad : f64) /\ Rabs (B2R (rad : f64) - rho) <= bp (2 * k + m + d - 42) / rho).
  Proof.
    intros F FX S. destruct (fixes_close k m d ps c rad c0 rho F FX S) as (((F1 & _) & _ & E1) & ((F2 & _) & _ & E2) & F3 & E3 & _). destruct FX as (K & M & D0 & MD & _ & _ & _ & [P0 _] & R).
    pose proof (delta_pos m d M D0) as DP. pose proof (bp_pos k). pose proof (bp_pos (2 * k)). assert (0 < bp k * delta m d) by (apply Rmult_lt_0_compat; lra). assert (0 < bp (2 * k) * delta m d) by (apply Rmult_lt_0_compat; lra).
    replace (k + m + d - 46)%Z with (k + 7 + m + d - 53)%Z by ring. rewrite <- (delta_bp m d), bp_add. change (bp 7) with 128. replace (2 * k + m + d - 42)%Z with (2 * k + 11 + m + d - 53)%Z by ring. rewrite <- (delta_bp m d), bp_add. change (bp 11) with 2048.
    split; [split; [exact F1|lra]|]. split; [split; [exact F2|lra]|]. split; [exact F3|].
    assert (RP : 0 < rho) by (destruct P0 as [|Z]; [assumption|]; rewrite <- Z, Rmult_0_l in R; pose proof (bp_pos (2 * k + m + d - 41)); lra).
    apply (Rmult_le_reg_r rho); [exact RP|]. replace (bp (2 * k) * 2048 * delta m d / rho * rho) with (bp (2 * k) * 2048 * delta m d) by (field; lra). lra.
  Qed.
  (** ** The ring *)
  Lemma low_val : is_finite (@nsub AF (@n1 AF) del : f64) = true /\ 8999 / 10000 <= B2R (@nsub AF (@n1 AF) del : f64) <= 9001 / 10000.
  Proof.
    split; [vm_compute; reflexivity|]. assert (Q : B2SF (@nsub AF (@n1 AF) del : f64) = SpecFloat.S754_finite false 8106479329266893 (-53)) by (vm_compute; reflexivity).
    rewrite <- SF2R_B2SF, Q. unfold SF2R, F2R. simpl. lra.
  Qed.
  Lemma high_val : is_finite (@nadd AF (@n1 AF) del : f64) = true /\ 10999 / 10000 <= B2R (@nadd AF (@n1 AF) del : f64) <= 11001 / 10000.
  Proof.
    split; [vm_compute; reflexivity|]. assert (Q : B2SF (@nadd AF (@n1 AF) del : f64) = SpecFloat.S754_finite false 4953959590107546 (-52)) by (vm_compute; reflexivity).
    rewrite <- SF2R_B2SF, Q. unfold SF2R, F2R. simpl. lra.
  Qed.
  Lemma flt_fin (x y : f64) : is_finite x = true -> is_finite y = true -> flt x y = rltb (B2R x) (B2R y).
  Proof. intros F1 F2. rewrite flt_key. destruct x as [sx|[]| |sx mx ex Hx], y as [sy|[]| |sy my ey Hy]; try discriminate; reflexivity. Qed.
  Lemma sq_within x lo hi rho : 0 <= lo -> 0 <= rho -> lo * rho <= x <= hi * rho -> lo * lo * (rho * rho) <= x * x <= hi * hi * (rho * rho).
  Proof.
    intros L R [X1 X2]. assert (0 <= lo * rho) by (apply Rmult_le_pos; lra). split.
    - replace (lo * lo * (rho * rho)) with (lo * rho * (lo * rho)) by ring. apply Rmult_le_compat; lra.
    - replace (hi * hi * (rho * rho)) with (hi * rho * (hi * rho)) by ring. apply Rmult_le_compat; lra.
  Qed.
  Section One.
    Context (k m d : Z) (K : (-80 <= k <= 80)%Z) (M : (2 <= m <= 40)%Z) (D0 : (0 <= d)%Z) (MD : (m + d <= 44)%Z).
    Context (c1 : @v2 AF) (r1 : f64) (c : pt2) (rho : R).
    Context (HX : sx k 1 (101 * delta m d) (x2 c1 : f64) (fst c)) (HY : sx k 1 (101 * delta m d) (y2 c1 : f64) (snd c)) (HF : is_finite r1 = true)
      (HE : Rabs (B2R r1 - rho) * rho <= 1400 * delta m d * bp (2 * k)) (R8 : rho * rho <= 8 * bp (2 * k)) (RL : 140000 * delta m d * bp (2 * k) <= rho * rho) (RP : 0 < rho).
    Lemma rad_near : 99 / 100 * rho <= B2R r1 <= 101 / 100 * rho.
    Proof.
      assert (H : Rabs (B2R r1 - rho) <= rho / 100) by (apply (Rmult_le_reg_r rho); [exact RP|lra]). apply Rabs_le_inv in H. lra.
    Qed.
    Lemma rho_top : rho <= 3 * bp k.
    Proof. pose proof (bp_pos k). apply Rsqr_incr_0; [|lra|lra]. unfold Rsqr. assert (Q : bp (2 * k) = bp k * bp k) by (replace (2 * k)%Z with (k + k)%Z by ring; apply bp_add). rewrite Q in R8. assert (0 < bp k * bp k) by (apply Rmult_lt_0_compat; lra). lra. Qed.
    Lemma rad_sx : sx k 2 0 r1 (B2R r1).
    Proof.
      pose proof rad_near. pose proof rho_top. unfold sx. rewrite Rmult_0_r. apply apx_exact. split; [exact HF|]. rewrite bp_add. change (bp 2) with 4. pose proof (bp_pos k). rewrite Rabs_right; lra.
    Qed.
    Lemma edge_sx (f : f64) : is_finite f = true -> 0 <= B2R f <= 2 -> sx k 3 (4 * U) (fmul r1 f) (B2R r1 * B2R f) /\ sx (2 * k) 6 (96 * U) (fmul (fmul r1 f) (fmul r1 f)) (B2R r1 * B2R f * (B2R r1 * B2R f)).
    Proof.
      intros F B. assert (S : sx 0 1 0 f (B2R f)) by (unfold sx; rewrite Rmult_0_r; apply apx_exact; split; [exact F|]; change (bp (0 + 1)) with 2; rewrite Rabs_right; lra).
      pose proof (sx_mul k 0 2 1 _ _ _ _ _ _ ltac:(lia) rad_sx S) as T. rewrite Z.add_0_r in T. change (2 + 1)%Z with 3%Z in T.
      assert (T' : sx k 3 (4 * U) (fmul r1 f) (B2R r1 * B2R f)) by (eapply sx_weak; [apply Z.le_refl| |exact T]; rewrite bpU2; change (bp 3) with 8; lra). split; [exact T'|].
      pose proof (sx_mul k k 3 3 _ _ _ _ _ _ ltac:(lia) T' T') as T2. replace (2 * k)%Z with (k + k)%Z by ring. change (3 + 3)%Z with 6%Z in T2. eapply sx_weak; [apply Z.le_refl| |exact T2]. rewrite bpU2. change (bp 6) with 64. change (bp 3) with 8. lra.
    Qed.
    Lemma gap_sx p : bnd2 lm asc k p -> sx (2 * k) 5 (1640 * delta m d) (@sqn2 AF (@sub2 AF p c1) : f64) (gap2 (val2 p) c).
    Proof.
      intros [B1 B2]. pose proof U_pos as HU. destruct (LU_delta m d M D0) as [_ UD]. pose proof (delta_pos m d M D0) as DP.
      assert (G : forall (x y : f64) r, bnd k x -> sx k 1 (101 * delta m d) y r -> sx (2 * k) 4 (818 * delta m d) (fmul (fsub x y) (fsub x y)) ((B2R x - r) * (B2R x - r))).
      { intros x y r B H. assert (S : sx k 1 0 x (B2R x)) by (eapply (sx_weak k 0 1 0 0); [lia|lra|]; unfold sx; rewrite Z.add_0_r, Rmult_0_r; apply apx_exact; exact B).
        pose proof (sx_sub k 1 _ _ _ _ _ _ ltac:(lia) S H) as T. change (1 + 1)%Z with 2%Z in T. assert (T' : sx k 2 (102 * delta m d) (fsub x y) (B2R x - r)) by (eapply sx_weak; [apply Z.le_refl| |exact T]; rewrite bpU; change (bp 1) with 2; lra).
        pose proof (sx_mul k k 2 2 _ _ _ _ _ _ ltac:(lia) T' T') as T2. replace (2 * k)%Z with (k + k)%Z by ring. change (2 + 2)%Z with 4%Z in T2. eapply sx_weak; [apply Z.le_refl| |exact T2]. rewrite bpU2. change (bp 4) with 16. change (bp 2) with 4. lra. }
      pose proof (sx_add (2 * k) 4 _ _ _ _ _ _ ltac:(lia) (G _ _ _ B1 HX) (G _ _ _ B2 HY)) as T. change (4 + 1)%Z with 5%Z in T. eapply sx_weak; [apply Z.le_refl| |exact T]. rewrite bpU. change (bp 4) with 16. lra.
    Qed.
    Let mn : f64 := fmul r1 (@nsub AF (@n1 AF) del).
    Let mx : f64 := fmul r1 (@nadd AF (@n1 AF) del).
    Lemma ring_open : flt mx (fz_ 0) = false /\ flt mx mn = false.
    Proof.
      destruct low_val as [L1 L2]. destruct high_val as [H1 H2]. destruct (edge_sx _ L1 ltac:(lra)) as [((E1 & _) & _ & E2) _]. destruct (edge_sx _ H1 ltac:(lra)) as [((G1 & _) & _ & G2) _]. fold mn in E1, E2. fold mx in G1, G2. pose proof rad_near as RN.
      destruct (LU_delta m d M D0) as [_ UD]. pose proof U_pos as HU. pose proof (bp_pos k) as HK. pose proof (bp_pos (2 * k)) as HQ. pose proof (delta_pos m d M D0) as DP.
      assert (SM : bp k * (4 * U) <= rho / 200).
      { apply Rsqr_incr_0; [|apply Rmult_le_pos; lra|lra]. unfold Rsqr. replace (bp k * (4 * U) * (bp k * (4 * U))) with (16 * U * (U * (bp k * bp k))) by ring. rewrite <- bp_add. replace (k + k)%Z with (2 * k)%Z by ring.
        assert (U1 : U <= / 1000000) by (unfold U; change (bp (-53)) with (/ 9007199254740992); lra). assert (UQ : 4 * U * bp (2 * k) <= delta m d * bp (2 * k)) by (apply Rmult_le_compat_r; lra). assert (0 <= U * bp (2 * k)) by (apply Rmult_le_pos; lra).
        assert (16 * U * (U * bp (2 * k)) <= 16 * / 1000000 * (U * bp (2 * k))) by (apply Rmult_le_compat_r; lra). lra. }
      apply Rabs_le_inv in E2. apply Rabs_le_inv in G2. set (u := B2R (@nsub AF (@n1 AF) del : f64)) in *. set (v := B2R (@nadd AF (@n1 AF) del : f64)) in *.
      assert (Y1 : B2R r1 * u <= B2R r1 * (9001 / 10000)) by (apply Rmult_le_compat_l; lra). assert (Y2 : B2R r1 * (10999 / 10000) <= B2R r1 * v) by (apply Rmult_le_compat_l; lra).
      rewrite !flt_fin; [|exact G1|exact E1|exact G1|reflexivity]. rewrite (fz_val 0 ltac:(lia)). split; apply rltb_false; lra.
    Qed.
    Lemma ring_test p : bnd2 lm asc k p ->
      (Rabs (dist (val2 p) c - rho) <= rho / 16 -> flt (fmul mn mn) (@sqn2 AF (@sub2 AF p c1)) && flt (@sqn2 AF (@sub2 AF p c1)) (fmul mx mx) = true) /\
      (rho / 8 <= Rabs (dist (val2 p) c - rho) -> flt (fmul mn mn) (@sqn2 AF (@sub2 AF p c1)) && flt (@sqn2 AF (@sub2 AF p c1)) (fmul mx mx) = false).
    Proof.
      intro B. destruct low_val as [L1 L2]. destruct high_val as [H1 H2]. destruct (edge_sx _ L1 ltac:(lra)) as [_ ((E1 & _) & _ & E2)]. destruct (edge_sx _ H1 ltac:(lra)) as [_ ((G1 & _) & _ & G2)]. fold mn in E1, E2. fold mx in G1, G2. pose proof rad_near as RN.
      destruct (gap_sx p B) as ((Q1 & _) & _ & Q2). destruct (LU_delta m d M D0) as [_ UD]. pose proof U_pos as HU. pose proof (bp_pos (2 * k)) as HQ. pose proof (delta_pos m d M D0) as DP.
      assert (UQ : 4 * U * bp (2 * k) <= delta m d * bp (2 * k)) by (apply Rmult_le_compat_r; lra).
      set (u := B2R (@nsub AF (@n1 AF) del : f64)) in *. set (v := B2R (@nadd AF (@n1 AF) del : f64)) in *.
      assert (Y1 : 99 / 100 * (8999 / 10000) * rho <= B2R r1 * u <= 101 / 100 * (9001 / 10000) * rho).
      { split; [eapply Rle_trans; [|apply (Rmult_le_compat_l (B2R r1) (8999 / 10000)); lra]; lra|eapply Rle_trans; [apply (Rmult_le_compat_l (B2R r1) _ (9001 / 10000)); lra|]; lra]. }
      assert (Y2 : 99 / 100 * (10999 / 10000) * rho <= B2R r1 * v <= 101 / 100 * (11001 / 10000) * rho).
      { split; [eapply Rle_trans; [|apply (Rmult_le_compat_l (B2R r1) (10999 / 10000)); lra]; lra|eapply Rle_trans; [apply (Rmult_le_compat_l (B2R r1) _ (11001 / 10000)); lra|]; lra]. }
      apply sq_within in Y1; [|lra|lra]. apply sq_within in Y2; [|lra|lra].
      apply Rabs_le_inv in E2. apply Rabs_le_inv in G2. apply Rabs_le_inv in Q2. rewrite !flt_fin; [|exact Q1|exact G1|exact E1|exact Q1].
      set (t := B2R (@sqn2 AF (@sub2 AF p c1) : f64)) in *. set (e := dist (val2 p) c) in *. assert (EP : 0 <= e) by apply sqrt_pos. assert (EE : e * e = gap2 (val2 p) c).
      { apply sqrt_sqrt. unfold gap2. pose proof (Rle_0_sqr (fst (val2 p) - fst c)) as X1. pose proof (Rle_0_sqr (snd (val2 p) - snd c)) as X2. unfold Rsqr in *. lra. }
      rewrite <- EE in Q2. assert (R2 : 0 < rho * rho) by (apply Rmult_lt_0_compat; lra). split; intro H.
      - apply Rabs_le_inv in H. assert (EW : 15 / 16 * rho <= e <= 17 / 16 * rho) by lra. apply sq_within in EW; [|lra|lra]. apply andb_true_iff. split; apply rltb_lt; lra.
      - apply andb_false_iff. destruct (Rle_dec rho e) as [L|L].
        + rewrite Rabs_right in H by lra. right. apply rltb_false. assert (EW : 9 / 8 * rho * (9 / 8 * rho) <= e * e) by (apply Rmult_le_compat; lra). lra.
        + rewrite Rabs_left in H by lra. left. apply rltb_false. assert (EW : e * e <= 7 / 8 * rho * (7 / 8 * rho)) by (apply Rmult_le_compat; lra). lra.
    Qed.
    Lemma in_ring_test p : (Rabs (dist p c - rho) <= rho / 16 -> in_ring (rho * (9 / 10)) (rho * (11 / 10)) c p = true) /\ (rho / 8 <= Rabs (dist p c - rho) -> in_ring (rho * (9 / 10)) (rho * (11 / 10)) c p = false).
    Proof.
      unfold in_ring. split; intro H.
      - apply Rabs_le_inv in H. apply andb_true_iff. split; apply rltb_lt; lra.
      - apply andb_false_iff. destruct (Rle_dec rho (dist p c)) as [L|L]; [rewrite Rabs_right in H by lra; right|rewrite Rabs_left in H by lra; left]; apply rltb_false; lra.
    Qed.
    (** the points that are kept are those within a tenth *)
    Lemma kept_near ps : Forall (bnd2 lm asc k) ps -> apart (map val2 ps) c rho ->
      map val2 (@Ast.between AF ps (@nmul AF r1 (@nsub AF (@n1 AF) (@of_dec AF 1 (-1)))) (@nmul AF r1 (@nadd AF (@n1 AF) (@of_dec AF 1 (-1)))) c1) = near_circle (map val2 ps) c rho.
    Proof.
      intros B AP. unfold Ast.between. change (@nmul AF r1 (@nsub AF (@n1 AF) (@of_dec AF 1 (-1)))) with (mn : @num AF). change (@nmul AF r1 (@nadd AF (@n1 AF) (@of_dec AF 1 (-1)))) with (mx : @num AF).
      destruct ring_open as [O1 O2]. change (@nlt AF mx nz) with (flt mx (fz_ 0)). change (@ngt AF mn mx) with (flt mx mn). rewrite O1, O2. cbn [orb]. unfold near_circle.
      induction ps as [|p ps IH]; [reflexivity|]. inversion B as [|? ? Bp Bs]; subst. cbn [filter map]. specialize (IH Bs (fun q I => AP q (or_intror I))).
      change (@nlt AF (@nmul AF mn mn) (sqn2 (sub2 p c1))) with (flt (fmul mn mn) (@sqn2 AF (@sub2 AF p c1))). change (@nlt AF (sqn2 (sub2 p c1)) (@nmul AF mx mx)) with (flt (@sqn2 AF (@sub2 AF p c1)) (fmul mx mx)).
      destruct (ring_test p Bp) as [T1 T2]. destruct (in_ring_test (val2 p)) as [S1 S2]. destruct (AP (val2 p) (or_introl eq_refl)) as [H|H].
      - rewrite (T1 H), (S1 H). cbn [map]. f_equal. exact IH.
      - rewrite (T2 H), (S2 H). exact IH.
    Qed.
  End One.
  (** ** Both fits *)
  Theorem measured_within k d1 k' m d ps t c rad c1 rho1 c0 rho : Forall (fun p => finite2 (xy p)) ps -> (forall p, In p ps -> Rabs (fst (val2 (xy p))) <= bp k /\ Rabs (snd (val2 (xy p))) <= bp k) ->
    fixes k 2 d1 (map val2 (@closest AF (map xy ps) 3 t)) c1 rho1 -> bp (2 * k + d1 - 33) <= rho1 * rho1 -> apart (map val2 (map xy ps)) c1 rho1 ->
    fixes k' m d (near_circle (map val2 (map xy ps)) c1 rho1) c0 rho -> fit_any (A := AF) ps t c rad ->
    (fin (x2 c : f64) /\ Rabs (B2R (x2 c : f64) - fst c0) <= bp (k' + m + d - 46)) /\ (fin (y2 c : f64) /\ Rabs (B2R (y2 c : f64) - snd c0) <= bp (k' + m + d - 46)) /\
    (fin (rad : f64) /\ Rabs (B2R (rad : f64) - rho) <= bp (2 * k' + m + d - 42) / rho).
  Proof.
    intros F B FX1 RL AP FX2 (e1 & r1 & S1 & S2).
    assert (F' : Forall (@finite2 lm asc) (map xy ps)) by (rewrite Forall_map; exact F).
    assert (CI : forall q, In q (@closest AF (map xy ps) 3 t) -> In q (map xy ps)) by (exact (closest_sub (map xy ps) 3 t)).
    assert (FC : Forall (@finite2 lm asc) (@closest AF (map xy ps) 3 t)) by (rewrite Forall_forall in *; intros q I; apply F', CI, I).
    destruct (fixes_close _ _ _ _ _ _ _ _ FC FX1 S1) as (X1 & X2 & X3 & X4 & X5). pose proof FX1 as (K & M & D0 & MD & _ & _ & _ & [P0 _] & R).
    assert (RP : 0 < rho1) by (destruct P0 as [|Z]; [assumption|]; rewrite <- Z, Rmult_0_l in R; pose proof (bp_pos (2 * k + 2 + d1 - 41)); lra).
    assert (RL' : 140000 * delta 2 d1 * bp (2 * k) <= rho1 * rho1).
    { eapply Rle_trans; [|exact RL]. replace (2 * k + d1 - 33)%Z with (2 * k + 18 + 2 + d1 - 53)%Z by ring. rewrite <- (delta_bp 2 d1), bp_add. change (bp 18) with 262144. pose proof (delta_pos 2 d1 M D0). pose proof (bp_pos (2 * k)). assert (0 <= bp (2 * k) * delta 2 d1) by (apply Rmult_le_pos; lra). lra. }
    assert (BB : Forall (bnd2 lm asc k) (map xy ps)).
    { rewrite Forall_map. rewrite Forall_forall in *. intros p I. destruct (F p I) as [F1 F2]. destruct (B p I) as [B1 B2]. repeat split; assumption. }
    pose proof (kept_near k 2 d1 K M D0 e1 r1 c1 rho1 X1 X2 X3 X4 X5 RL' RP (map xy ps) BB AP) as KN. rewrite <- KN in FX2.
    eapply fit_within; [|exact FX2|exact S2]. rewrite Forall_forall in *. intros q I. apply F'. unfold Ast.between in I. destruct (_ || _); [destruct I|]. apply filter_In in I. exact (proj1 I).
  Qed.
End Ring.
