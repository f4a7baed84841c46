(** P_Circ64.v - rounding errors of the fitted circle in doubles. *)
From Coq Require Import Reals Lra Lia ZArith List Permutation.
From Flocq Require Import Core IEEE754.BinarySingleNaN.
From Verif Require Import Base Num NumReal NumF64 NumLaws Geo Stl Ast F64Spec P_Bound P_Text2 TextSpec P_Err P_Err2 P_Err3 CircleSpec P_Circle CircSpec RealSpec.
Import ListNotations.

Local Unset Implicit Arguments.
Local Open Scope R_scope.

(** ** The determinant is the sum of the squared areas *)
Lemma areas2_qf p q l : areas2 p q l = qf l (snd p * / 2 - / 2 * snd q) (/ 2 * fst q - fst p * / 2) (fst p * snd q - snd p * fst q).
Proof. induction l as [|r l IH]; [unfold qf; cbn; ring|]. cbn [areas2]. rewrite IH, qf_cons. unfold area. field. Qed.
Lemma areas1_qa p l : areas1 p l = qa l (fst p) (snd p) (/ 2).
Proof. induction l as [|q l IH]; [unfold qa; cbn; ring|]. cbn [areas1]. rewrite IH, qa_cons, areas2_qf. ring. Qed.
Lemma areas_det l : areas l = det l.
Proof. induction l as [|p l IH]; [unfold det; cbn; ring|]. cbn [areas]. rewrite IH, det_cons, areas1_qa. ring. Qed.

(** ** Sums in any order *)
Definition rsum (l : list R) : R := fold_right Rplus 0 l.
Lemma rsum_app l l' : rsum (l ++ l') = rsum l + rsum l'.
Proof. unfold rsum. induction l as [|x l IH]; cbn; [ring|]. rewrite IH. ring. Qed.
Lemma rsum_perm l l' : Permutation l l' -> rsum l = rsum l'.
Proof. induction 1; cbn; unfold rsum in *; lra. Qed.
Lemma int_format n j : (-1000 <= j)%Z -> (Z.abs n <= 2 ^ 53)%Z -> generic_format radix2 (SpecFloat.fexp 53 1024) (IZR n * bp j).
Proof.
  intros J N. destruct (Z.eq_dec (Z.abs n) (2 ^ 53)) as [Q|Q].
  - assert (G : generic_format radix2 (SpecFloat.fexp 53 1024) (bp (53 + j))) by (apply generic_format_bpow; unfold SpecFloat.fexp, SpecFloat.emin; lia).
    rewrite bp_add in G. change (bp 53) with (IZR (2 ^ 53)) in G. destruct (Z.abs_spec n) as [[_ P]|[_ P]]; rewrite P in Q; [rewrite Q; exact G|].
    replace n with (- 2 ^ 53)%Z by lia. rewrite opp_IZR, Ropp_mult_distr_l_reverse. apply generic_format_opp, G.
  - change (IZR n * bp j) with (F2R (Float radix2 n j)). apply generic_format_F2R. intro NZ. unfold cexp, SpecFloat.fexp, SpecFloat.emin.
    rewrite mag_F2R by exact NZ. assert (M : (mag radix2 (IZR n) <= 53)%Z).
    { apply mag_le_Zpower; [exact NZ|]. change (Zpower radix2 53) with (2 ^ 53)%Z. lia. }
    lia.
Qed.

(** The circle that fits best, from the solution of the normal equations. *)
Lemma best_sol l c rho : det l <> 0 -> best_circle l c rho -> fst c = sol l (r0 (adj l)) /\ snd c = sol l (r1 (adj l)) /\
  rho * rho = sol l (r2 (adj l)) + fst c * fst c + snd c * snd c.
Proof.
  intros D B. destruct (fit_best l (det_spread l D)) as (c0 & rho0 & F & B0). destruct (best_unique l _ _ _ _ B0 B) as [-> ->]. clear B.
  unfold find_circle in F. rewrite map_length in F. pose proof (det_nonempty l D). destruct (Nat.ltb_spec (length l) 3); [lia|]. rewrite (res_fin l D) in F. cbn [x3 y3 z3 emb rx ry rz] in F.
  set (a := sol l (r0 (adj l))) in *. set (b := sol l (r1 (adj l))) in *. set (z := sol l (r2 (adj l))) in *. clearbody a b z. destruct c0 as [u v]. unfold e2, emb2 in F. cbn [fst snd] in *.
  cbn [nmul nadd nsqrt XR xmul xadd xsqrt] in F. destruct (rltb (z + a * a + b * b) 0) eqn:N; [discriminate F|]. injection F as E1 E2 E3. subst u v rho0. apply rltb_false in N. rewrite sqrt_sqrt by exact N. auto.
Qed.

(** Its radius is no more than the farthest point. *)
Lemma total_le f g l : (forall p, In p l -> f p <= g p) -> total f l <= total g l.
Proof. induction l as [|p l IH]; intro H; [cbn; lra|]. rewrite !total_cons. pose proof (H p (or_introl eq_refl)). pose proof (IH (fun q I => H q (or_intror I))). lra. Qed.
Lemma best_within l c rho b : det l <> 0 -> best_circle l c rho -> (forall p, In p l -> gap2 p c <= b) -> rho * rho <= b.
Proof.
  intros D B H. destruct (best_sol l c rho D B) as (Q1 & Q2 & Q3). destruct (normal_eq l D) as (_ & _ & N3). rewrite <- Q1, <- Q2 in N3. set (z := sol l (r2 (adj l))) in *. destruct c as [u v]. cbn [fst snd] in *. pose proof (det_nonempty l D) as L.
  assert (Z : 0 < szz l).
  { unfold szz. assert (G : forall k, total (fun _ => / 2 * / 2) k = INR (length k) * (/ 2 * / 2)) by (intro k; induction k as [|p k IH]; [cbn; ring|]; rewrite total_cons, IH; cbn [length]; rewrite S_INR; ring).
    rewrite G. apply Rmult_lt_0_compat; [apply lt_0_INR; lia|lra]. }
  assert (M : total (fun p => / 4 * gap2 p (u, v)) l = szz l * (rho * rho)).
  { transitivity (vz l - (sxz l * u + syz l * v) + szz l * (u * u + v * v)).
    - unfold vz, sxz, syz, szz. clear. induction l as [|p l IH]; [cbn; ring|]. rewrite !total_cons, IH. unfold gap2, yv. cbn [fst snd]. field.
    - rewrite <- N3, Q3. ring. }
  assert (T : total (fun p => / 4 * gap2 p (u, v)) l <= total (fun p => b * (/ 2 * / 2)) l) by (apply total_le; intros p I; specialize (H p I); lra).
  rewrite M, (total_mul b (fun _ => / 2 * / 2)) in T. fold (szz l) in T. apply (Rmult_le_reg_l (szz l)); [exact Z|lra].
Qed.
Lemma tiny_bp : tiny = bp (-1075).
Proof. unfold tiny, bp. change (-1075)%Z with (- (1075))%Z. rewrite bpow_opp. f_equal. change 1075%Z with (Z.of_nat 1075). rewrite bpow_powerRZ, <- pow_powerRZ. reflexivity. Qed.

Section Fit.
  Context (lm : libm) (asc : bool).
  #[local] Instance AF : Arith := F64 lm asc.

  (** x is a sum of n numbers up to 2^j *)
  Lemma sum_step j m : (-900 <= j)%Z -> (0 <= m <= 50)%Z -> (j + m < 900)%Z -> forall l x, sum_of (A := AF) l x -> forall e ps, 0 <= e -> l = map fst ps -> Forall (fun q => apx j e (fst q) (snd q)) ps -> (Z.of_nat (length ps) <= 2 ^ m)%Z ->
    is_finite (x : f64) = true /\ Rabs (B2R (x : f64)) <= IZR (Z.of_nat (length ps)) * bp j /\ Rabs (rsum (map snd ps)) <= IZR (Z.of_nat (length ps)) * bp j /\
    Rabs (B2R (x : f64) - rsum (map snd ps)) <= IZR (Z.of_nat (length ps)) * e + IZR (Z.of_nat (Nat.pred (length ps))) * bp (j + m - 54).
  Proof.
    intros J M JM l x H. induction H as [|x|l1 l2 x y H1 IH1 H2 IH2|l l' x PM H IH]; intros e ps E0 Q F LE.
    - destruct ps; [|discriminate Q]. cbn. rewrite Rminus_0_r, !Rabs_R0. repeat split; lra.
    - destruct ps as [|[y r] [|]]; try discriminate Q. cbn in Q. injection Q as ->. inversion F as [|? ? (B & R1 & D) _]; subst. cbn [fst snd map length rsum fold_right Nat.pred] in *. pose proof (bp_pos (j + m - 54)).
      change (IZR (Z.of_nat 1)) with 1. change (IZR (Z.of_nat 0)) with 0. rewrite Rplus_0_r. destruct B as [B1 B2]. repeat split; try lra. exact B1.
    - symmetry in Q. apply map_eq_app in Q. destruct Q as (p1 & p2 & -> & <- & <-). apply Forall_app in F. destruct F as [F1 F2]. rewrite app_length, Nat2Z.inj_add in LE.
      destruct (IH1 e p1 E0 eq_refl F1) as (A1 & A2 & A3 & A4); [lia|]. destruct (IH2 e p2 E0 eq_refl F2) as (B1 & B2 & B3 & B4); [lia|]. clear IH1 IH2.
      rewrite map_app, rsum_app, app_length, Nat2Z.inj_add, plus_IZR.
      assert (PE : exists n3, IZR (Z.of_nat (Nat.pred (length p1 + length p2))) = n3 /\ (length p1 = 0%nat -> n3 = IZR (Z.of_nat (Nat.pred (length p2)))) /\ (length p2 = 0%nat -> n3 = IZR (Z.of_nat (Nat.pred (length p1)))) /\
        ((0 < length p1)%nat -> (0 < length p2)%nat -> n3 = IZR (Z.of_nat (Nat.pred (length p1))) + IZR (Z.of_nat (Nat.pred (length p2))) + 1)).
      { eexists. split; [reflexivity|]. split; [intros ->; reflexivity|]. split; [intros ->; rewrite Nat.add_0_r; reflexivity|]. intros P1 P2. rewrite <- !plus_IZR. f_equal. lia. }
      destruct PE as (n3 & -> & PE1 & PE2 & PE3). set (n1 := IZR (Z.of_nat (length p1))) in *. set (n2 := IZR (Z.of_nat (length p2))) in *.
      assert (S : Rabs (B2R (x : f64) + B2R (y : f64)) <= (n1 + n2) * bp j) by (eapply Rle_trans; [apply Rabs_triang|]; lra).
      assert (T : (n1 + n2) * bp j <= bp (j + m)).
      { rewrite Z.add_comm, bp_add. apply Rmult_le_compat_r; [apply Rlt_le, bp_pos|]. unfold n1, n2. rewrite <- plus_IZR. unfold bp. rewrite <- (IZR_Zpower radix2 m) by lia. apply IZR_le. exact LE. }
      assert (V : Valid_exp (SpecFloat.fexp 53 1024)) by (apply (fexp_correct 53 1024); reflexivity).
      assert (G : Rabs (rnd (B2R (x : f64) + B2R (y : f64))) <= (n1 + n2) * bp j).
      { apply abs_round_le_generic; [exact V|apply valid_rnd_N| |exact S]. unfold n1, n2. rewrite <- plus_IZR. apply int_format; [lia|].
        assert (2 ^ m <= 2 ^ 50)%Z by (apply Z.pow_le_mono_r; lia). rewrite Z.abs_eq by lia. assert (2 ^ 50 < 2 ^ 53)%Z by reflexivity. lia. }
      pose proof (Bplus_correct 53 1024 prec64 emax64 mode_NE (x : f64) (y : f64) A1 B1) as C.
      assert (G' : Rabs (rnd (B2R (x : f64) + B2R (y : f64))) <= bp (j + m)) by lra.
      rewrite (bp_emax (j + m)) in C by (exact G' || lia). destruct C as (C1 & C2 & _). change (@nadd AF x y : f64) with (fadd x y). change (B2R (fadd x y) = rnd (B2R (x : f64) + B2R (y : f64))) in C1.
      assert (RE : Rabs (rnd (B2R (x : f64) + B2R (y : f64)) - (B2R (x : f64) + B2R (y : f64))) <= bp (j + m - 54)) by (apply rnd_err; [lia|lra]).
      split; [exact C2|]. rewrite C1. split; [exact G|]. split; [eapply Rle_trans; [apply Rabs_triang|]; lra|].
      destruct (Nat.eq_dec (length p1) 0) as [L1|L1].
      { assert (N1 : n1 = 0) by (unfold n1; rewrite L1; reflexivity). rewrite (PE1 L1). rewrite N1 in *. rewrite Rmult_0_l in A2. assert (X0 : B2R (x : f64) = 0) by (pose proof (Rabs_pos (B2R (x : f64))); destruct (Req_dec (B2R (x : f64)) 0) as [|Z]; [assumption|]; apply Rabs_pos_lt in Z; lra).
        destruct p1; [|discriminate L1]. cbn [map rsum fold_right]. rewrite X0, !Rplus_0_l. rewrite round_generic; [exact B4|apply valid_rnd_N|apply generic_format_B2R]. }
      destruct (Nat.eq_dec (length p2) 0) as [L2|L2].
      { assert (N2 : n2 = 0) by (unfold n2; rewrite L2; reflexivity). rewrite (PE2 L2). rewrite N2 in *. rewrite Rmult_0_l in B2. assert (X0 : B2R (y : f64) = 0) by (pose proof (Rabs_pos (B2R (y : f64))); destruct (Req_dec (B2R (y : f64)) 0) as [|Z]; [assumption|]; apply Rabs_pos_lt in Z; lra).
        destruct p2; [|discriminate L2]. cbn [map rsum fold_right]. rewrite X0, !Rplus_0_r. rewrite round_generic; [exact A4|apply valid_rnd_N|apply generic_format_B2R]. }
      rewrite (PE3 ltac:(lia) ltac:(lia)).
      replace (rnd (B2R (x : f64) + B2R (y : f64)) - (rsum (map snd p1) + rsum (map snd p2))) with ((rnd (B2R (x : f64) + B2R (y : f64)) - (B2R (x : f64) + B2R (y : f64))) + ((B2R (x : f64) - rsum (map snd p1)) + (B2R (y : f64) - rsum (map snd p2)))) by ring.
      eapply Rle_trans; [apply Rabs_triang|]. eapply Rle_trans; [apply Rplus_le_compat_l, Rabs_triang|]. lra.
    - subst l'. apply Permutation_map_inv in PM. destruct PM as (ps' & -> & PM).
      destruct (IH e ps' E0 eq_refl) as (A1 & A2 & A3 & A4); [exact (Permutation_Forall PM F)|rewrite <- (Permutation_length PM); exact LE|].
      rewrite <- (Permutation_length PM) in A2, A3, A4. rewrite <- (rsum_perm _ _ (Permutation_map snd PM)) in A3, A4. auto.
  Qed.
  Lemma sum_apx j m e l x ps : (-900 <= j)%Z -> (0 <= m <= 50)%Z -> (j + m < 900)%Z -> 0 <= e -> sum_of (A := AF) l x -> l = map fst ps -> Forall (fun q => apx j e (fst q) (snd q)) ps -> (Z.of_nat (length ps) <= 2 ^ m)%Z ->
    apx (j + m) (bp m * (e + bp (j + m - 54))) (x : f64) (rsum (map snd ps)).
  Proof.
    intros J M JM E0 S Q F L. destruct (sum_step j m J M JM l x S e ps E0 Q F L) as (H1 & H2 & H3 & H4).
    assert (N : IZR (Z.of_nat (length ps)) <= bp m) by (unfold bp; rewrite <- (IZR_Zpower radix2 m) by lia; apply IZR_le; exact L).
    assert (N' : IZR (Z.of_nat (Nat.pred (length ps))) <= bp m) by (eapply Rle_trans; [|exact N]; apply IZR_le; lia).
    pose proof (bp_pos j). pose proof (bp_pos (j + m - 54)). assert (T : IZR (Z.of_nat (length ps)) * bp j <= bp (j + m)) by (rewrite Z.add_comm, bp_add; apply Rmult_le_compat_r; lra).
    split; [split; [exact H1|lra]|]. split; [lra|]. eapply Rle_trans; [exact H4|]. rewrite Rmult_plus_distr_l. apply Rplus_le_compat; apply Rmult_le_compat_r; lra.
  Qed.

  (** ** Errors relative to a power of two *)
  Definition sx (w a : Z) (e : R) (x : f64) (r : R) : Prop := apx (w + a) (bp w * e) x r.
  Lemma sx_weak w a b e e' x r : (a <= b)%Z -> e <= e' -> sx w a e x r -> sx w b e' x r.
  Proof. intros L LE H. eapply apx_weak; [| |exact H]; [lia|]. apply Rmult_le_compat_l; [apply Rlt_le, bp_pos|exact LE]. Qed.
  Lemma sx_mul w1 w2 a1 a2 e1 e2 x y r s : (-1000 <= w1 + w2 + (a1 + a2) < 1000)%Z -> sx w1 a1 e1 x r -> sx w2 a2 e2 y s ->
    sx (w1 + w2) (a1 + a2) (bp a1 * e2 + bp a2 * e1 + bp (a1 + a2 - 54)) (fmul x y) (r * s).
  Proof.
    intros L H1 H2. unfold sx in *. replace (w1 + w2 + (a1 + a2))%Z with (w1 + a1 + (w2 + a2))%Z by ring. eapply apx_weak; [apply Z.le_refl| |apply apx_mul; [lia|exact H1|exact H2]].
    replace (w1 + a1 + (w2 + a2) - 54)%Z with (w1 + w2 + (a1 + a2 - 54))%Z by ring. rewrite !(bp_add w1), !(bp_add w2), (bp_add (w1 + w2)), (bp_add w1). lra.
  Qed.
  Lemma sx_add w a e1 e2 x y r s : (-1000 <= w + a < 1000)%Z -> sx w a e1 x r -> sx w a e2 y s -> sx w (a + 1) (e1 + e2 + bp (a - 53)) (fadd x y) (r + s).
  Proof.
    intros L H1 H2. unfold sx in *. replace (w + (a + 1))%Z with (w + a + 1)%Z by ring. eapply apx_weak; [apply Z.le_refl| |apply apx_add; [lia|exact H1|exact H2]].
    replace (w + a - 53)%Z with (w + (a - 53))%Z by ring. rewrite (bp_add w). lra.
  Qed.
  Lemma sx_sub w a e1 e2 x y r s : (-1000 <= w + a < 1000)%Z -> sx w a e1 x r -> sx w a e2 y s -> sx w (a + 1) (e1 + e2 + bp (a - 53)) (fsub x y) (r - s).
  Proof.
    intros L H1 H2. unfold sx in *. replace (w + (a + 1))%Z with (w + a + 1)%Z by ring. eapply apx_weak; [apply Z.le_refl| |apply apx_sub; [lia|exact H1|exact H2]].
    replace (w + a - 53)%Z with (w + (a - 53))%Z by ring. rewrite (bp_add w). lra.
  Qed.
  Lemma sx_sum3 w a e1 e2 e3 x y z r s t : (-990 <= w + a < 990)%Z -> 0 <= e1 -> 0 <= e3 -> sx w a e1 x r -> sx w a e2 y s -> sx w a e3 z t ->
    sx w (a + 2) (e1 + e2 + e3 + 6 * bp (a - 54)) (@sum3 AF x y z : f64) (r + s + t).
  Proof.
    intros L P1 P3 H1 H2 H3. unfold sx in *. replace (w + (a + 2))%Z with (w + a + 2)%Z by ring. pose proof (bp_pos w).
    eapply apx_weak; [apply Z.le_refl| |apply (apx_sum3 lm asc (w + a)); [lia|exact H1|exact H2|exact H3|apply Rmult_le_pos; lra|apply Rmult_le_pos; lra]].
    replace (w + a - 54)%Z with (w + (a - 54))%Z by ring. rewrite (bp_add w). lra.
  Qed.
  Lemma sx_sum w a m e l x ps : (-900 <= w + a)%Z -> (0 <= m <= 50)%Z -> (w + a + m < 900)%Z -> 0 <= e -> sum_of (A := AF) l x -> l = map fst ps -> Forall (fun q => sx w a e (fst q) (snd q)) ps -> (Z.of_nat (length ps) <= 2 ^ m)%Z ->
    sx w (a + m) (bp m * (e + bp (a + m - 54))) (x : f64) (rsum (map snd ps)).
  Proof.
    intros H1 H2 H3 E0 S Q F L. unfold sx in *. replace (w + (a + m))%Z with (w + a + m)%Z by ring. eapply apx_weak; [apply Z.le_refl| |eapply sum_apx; [exact H1|exact H2|exact H3| |exact S|exact Q|exact F|exact L]].
    - replace (w + a + m - 54)%Z with (w + (a + m - 54))%Z by ring. rewrite (bp_add w). lra.
    - apply Rmult_le_pos; [apply Rlt_le, bp_pos|exact E0].
  Qed.
  (** a change of weight *)
  Lemma sx_move w w' a a' e e' x r : (w + a = w' + a')%Z -> bp w * e = bp w' * e' -> sx w a e x r -> sx w' a' e' x r.
  Proof. intros Q QE H. unfold sx in *. rewrite <- Q, <- QE. exact H. Qed.

  Context (k m d : Z) (K : (-80 <= k <= 80)%Z) (M : (2 <= m <= 40)%Z) (D0 : (0 <= d)%Z) (MD : (m + d <= 44)%Z).
  Definition U : R := bp (-53).
  Lemma U_pos : 0 < U. Proof. apply bp_pos. Qed.
  Lemma bpU z : bp (z - 53) = bp z * U. Proof. replace (z - 53)%Z with (z + -53)%Z by ring. apply bp_add. Qed.
  Lemma bpU2 z : bp (z - 54) = bp z * U / 2. Proof. replace (z - 53)%Z with (z - 54 + 1)%Z by ring. rewrite <- bpU. replace (z - 53)%Z with (z - 54 + 1)%Z by ring. rewrite bp_S. field. Qed.
  Lemma N4 : 4 <= bp m. Proof. change 4 with (bp 2). apply bp_le. lia. Qed.
  Lemma L1 : 1 <= bp d. Proof. change 1 with (bp 0). apply bp_le. lia. Qed.

  (** the rows of X *)
  Inductive col := CX | CY | CZ.
  Definition wt (c : col) : Z := match c with CZ => -1 | _ => k end.
  Definition pick (c : col) (v : @v3 AF) : f64 := match c with CX => x3 v | CY => y3 v | CZ => z3 v end.
  Definition rpick (c : col) (p : pt2) : R := match c with CX => fst p | CY => snd p | CZ => / 2 end.
  Notation val2 := (@val2 lm asc).
  Definition bnd2 (p : @v2 AF) : Prop := bnd k (x2 p : f64) /\ bnd k (y2 p : f64).
  Lemma half_val : is_finite (@of_dec AF 5 (-1) : f64) = true /\ B2R (@of_dec AF 5 (-1) : f64) = / 2.
  Proof.
    split; [vm_compute; reflexivity|]. assert (Q : B2SF (@of_dec AF 5 (-1) : f64) = SpecFloat.S754_finite false 4503599627370496 (-53)) by (vm_compute; reflexivity).
    rewrite <- SF2R_B2SF, Q. unfold SF2R, F2R. simpl. lra.
  Qed.
  Lemma row_sx p c : bnd2 p -> sx (wt c) 0 0 (pick c (fc_row p)) (rpick c (val2 p)).
  Proof.
    intros [B1 B2]. unfold sx. rewrite Z.add_0_r, Rmult_0_r. destruct c; cbn [wt pick rpick fc_row x3 y3 z3 val2 fst snd]; [apply apx_exact; exact B1|apply apx_exact; exact B2|].
    rewrite <- (proj2 half_val). apply apx_exact. split; [exact (proj1 half_val)|]. rewrite (proj2 half_val). change (bp (-1)) with (/ 2). rewrite Rabs_right; lra.
  Qed.
  Definition rentry (c1 c2 : col) (l : list pt2) : R := total (fun p => rpick c1 p * rpick c2 p) l.
  Lemma rsum_total (f : pt2 -> R) (l : list (@v2 AF)) : rsum (map (fun p => f (val2 p)) l) = total f (map val2 l).
  Proof. induction l as [|p l IH]; [reflexivity|]. cbn [map rsum fold_right]. rewrite total_cons. unfold rsum in IH. rewrite IH. reflexivity. Qed.
  Lemma entry_sx ps c1 c2 x : Forall bnd2 ps -> (Z.of_nat (length ps) <= 2 ^ m)%Z -> sum_of (A := AF) (map (fun p => @nmul AF (pick c1 (fc_row p)) (pick c2 (fc_row p))) ps) x ->
    sx (wt c1 + wt c2) m (bp m * bp m * U) (x : f64) (rentry c1 c2 (map val2 ps)).
  Proof.
    intros B L S. pose proof N4. pose proof U_pos. assert (W : forall c, (-80 <= wt c <= 80)%Z) by (intros []; cbn; lia). pose proof (W c1). pose proof (W c2).
    unfold rentry. rewrite <- (rsum_total (fun p => rpick c1 p * rpick c2 p)).
    replace (map (fun p => rpick c1 (val2 p) * rpick c2 (val2 p)) ps) with (map snd (map (fun p => (@nmul AF (pick c1 (fc_row p)) (pick c2 (fc_row p)) : f64, rpick c1 (val2 p) * rpick c2 (val2 p))) ps)) by (rewrite map_map; reflexivity).
    eapply sx_weak; [| |eapply (sx_sum (wt c1 + wt c2) 0 m (U / 2)); [lia|lia|lia|lra|exact S|rewrite map_map; reflexivity| |rewrite map_length; exact L]]; [lia| |].
    - rewrite Z.add_0_l, bpU2. assert (1 * (bp m * U) <= bp m * (bp m * U)) by (apply Rmult_le_compat_r; [apply Rmult_le_pos|]; lra). lra.
    - rewrite Forall_map. eapply Forall_impl; [|exact B]. intros p Bp. cbn [fst snd]. change (@nmul AF (pick c1 (fc_row p)) (pick c2 (fc_row p)) : f64) with (fmul (pick c1 (fc_row p)) (pick c2 (fc_row p))).
      eapply sx_weak; [apply Z.le_refl| |apply (sx_mul (wt c1) (wt c2) 0 0); [lia|apply row_sx; exact Bp|apply row_sx; exact Bp]]. change (0 + 0 - 54)%Z with (0 - 54)%Z. rewrite bpU2. change (bp 0) with 1. lra.
  Qed.

  Lemma bpm2 : bp (2 * m) = bp m * bp m. Proof. replace (2 * m)%Z with (m + m)%Z by ring. apply bp_add. Qed.
  (** cofactors *)
  Definition eE : R := bp m * bp m * U.
  Definition eC : R := 9 / 2 * (bp m * bp m * bp m * U).
  Lemma cof_sx w a b c e x y z t r1 r2 r3 r4 : (a + b = w)%Z -> (c + e = w)%Z -> (-400 <= w <= 400)%Z -> sx a m eE x r1 -> sx b m eE y r2 -> sx c m eE z r3 -> sx e m eE t r4 ->
    sx w (2 * m + 1) eC (fsub (fmul x y) (fmul z t)) (r1 * r2 - r3 * r4).
  Proof.
    intros Q1 Q2 W H1 H2 H3 H4. pose proof N4 as HN. pose proof U_pos as HU. set (N := bp m) in *.
    assert (P : 0 <= N * N * U) by (apply Rmult_le_pos; [apply Rmult_le_pos; lra|lra]). assert (P3 : 4 * (N * N * U) <= N * N * N * U) by (replace (N * N * N * U) with (N * (N * N * U)) by ring; apply Rmult_le_compat_r; lra).
    assert (G : forall a b x y r1 r2, (a + b = w)%Z -> sx a m eE x r1 -> sx b m eE y r2 -> sx w (2 * m) (17 / 8 * (N * N * N * U)) (fmul x y) (r1 * r2)).
    { clear - K M W P P3 HN HU. intros a b x y r1 r2 <- H1 H2. replace (2 * m)%Z with (m + m)%Z by ring. eapply sx_weak; [apply Z.le_refl| |apply sx_mul; [lia|exact H1|exact H2]].
      rewrite bpU2, bp_add. unfold eE. fold N. lra. }
    eapply sx_weak; [apply Z.le_refl| |apply sx_sub; [lia|exact (G _ _ _ _ _ _ Q1 H1 H2)|exact (G _ _ _ _ _ _ Q2 H3 H4)]].
    rewrite bpU. replace (2 * m)%Z with (m + m)%Z by ring. rewrite bp_add. unfold eC. fold N. lra.
  Qed.
  (** the determinant *)
  Definition eD : R := 23 * (bp m * bp m * bp m * bp m * U).
  Lemma det_sx a1 a2 a3 b1 b2 b3 x y z u v w r1 r2 r3 s1 s2 s3 : (a1 + b1 = 4 * k - 2)%Z -> (a2 + b2 = 4 * k - 2)%Z -> (a3 + b3 = 4 * k - 2)%Z ->
    sx a1 (2 * m + 1) eC x r1 -> sx a2 (2 * m + 1) eC y r2 -> sx a3 (2 * m + 1) eC z r3 -> sx b1 m eE u s1 -> sx b2 m eE v s2 -> sx b3 m eE w s3 ->
    sx (4 * k - 2) (3 * m + 3) eD (@sum3 AF (fmul x u) (fmul y v) (fmul z w) : f64) (r1 * s1 + r2 * s2 + r3 * s3).
  Proof.
    intros Q1 Q2 Q3 H1 H2 H3 G1 G2 G3. pose proof N4 as HN. pose proof U_pos as HU. set (N := bp m) in *.
    assert (P : 0 <= N * N * N * U) by (repeat apply Rmult_le_pos; lra). assert (P3 : 4 * (N * N * N * U) <= N * N * N * N * U) by (replace (N * N * N * N * U) with (N * (N * N * N * U)) by ring; apply Rmult_le_compat_r; lra).
    assert (G : forall a b x u r s, (a + b = 4 * k - 2)%Z -> sx a (2 * m + 1) eC x r -> sx b m eE u s -> sx (4 * k - 2) (3 * m + 1) (7 * (N * N * N * N * U)) (fmul x u) (r * s)).
    { clear - K M P P3 HN HU. intros a b x u r s QQ H1 H2. rewrite <- QQ. replace (3 * m + 1)%Z with (2 * m + 1 + m)%Z by ring. eapply sx_weak; [apply Z.le_refl| |apply sx_mul; [lia|exact H1|exact H2]].
      replace (2 * m + 1 + m - 54)%Z with (m + m + m + 1 - 54)%Z by ring. rewrite bpU2, !bp_S, bpm2, !bp_add. unfold eE, eC. fold N. lra. }
    replace (3 * m + 3)%Z with (3 * m + 1 + 2)%Z by ring.
    eapply sx_weak; [apply Z.le_refl| |apply sx_sum3; [lia| | |exact (G _ _ _ _ _ _ Q1 H1 G1)|exact (G _ _ _ _ _ _ Q2 H2 G2)|exact (G _ _ _ _ _ _ Q3 H3 G3)]]; [|lra|lra].
    replace (3 * m + 1 - 54)%Z with (m + m + m + 1 - 54)%Z by ring. rewrite bpU2, bp_S, !bp_add. unfold eD. fold N. lra.
  Qed.
  (** one over it *)
  Definition delta : R := bp m * (bp d * U).
  Lemma delta_pos : 0 < delta. Proof. pose proof N4. pose proof L1. pose proof U_pos. unfold delta. repeat apply Rmult_lt_0_compat; lra. Qed.
  Lemma LU_delta : 4 * (bp d * U) <= delta /\ 4 * U <= delta.
  Proof.
    pose proof N4 as HN. pose proof L1 as HL. pose proof U_pos as HU. unfold delta. set (N := bp m) in *. set (L := bp d) in *. assert (LU : 1 * U <= L * U) by (apply Rmult_le_compat_r; lra).
    assert (4 * (L * U) <= N * (L * U)) by (apply Rmult_le_compat_r; lra). lra.
  Qed.
  Lemma delta_bp z : bp z * delta = bp (z + m + d - 53).
  Proof. unfold delta, U. replace (z + m + d - 53)%Z with (z + (m + (d + -53)))%Z by ring. rewrite !bp_add. ring. Qed.
  Lemma delta_small : 512 * delta <= 1.
  Proof. change 512 with (bp 9). rewrite delta_bp. change 1 with (bp 0). apply bp_le. lia. Qed.
  Lemma id_sx (v : f64) r : bp (4 * k - 2) * bp (3 * m - d) <= r -> sx (4 * k - 2) (3 * m + 3) eD v r ->
    sx (- (4 * k - 2)) (d - 3 * m + 1) 0 (fdiv (fz_ 1) v) (B2R (fdiv (fz_ 1) v)) /\ Rabs (B2R (fdiv (fz_ 1) v) * r - 1) <= 47 * delta.
  Proof.
    intros HD (B & R1 & E). pose proof N4 as HN. pose proof L1 as HL. pose proof U_pos as HU. pose proof (bp_pos (4 * k - 2)) as HP. pose proof delta_small as X. pose proof delta_pos as DP. destruct LU_delta as [_ UD].
    assert (DE : delta = bp m * (bp d * U)) by reflexivity. set (P := bp (4 * k - 2)) in *. set (N := bp m) in *. set (L := bp d) in *.
    assert (E3 : bp (3 * m - d) = N * N * N / L).
    { unfold Rdiv. replace (3 * m - d)%Z with (m + m + m + - d)%Z by ring. rewrite !bp_add. unfold bp at 4. rewrite bpow_opp. reflexivity. }
    rewrite E3 in HD.
    assert (NN : 0 < N * N) by (apply Rmult_lt_0_compat; lra). assert (NNN : 0 < N * N * N) by (apply Rmult_lt_0_compat; lra).
    assert (NU : 0 < N * U) by (apply Rmult_lt_0_compat; lra).
    assert (Q0 : 0 < P * (N * N * N / L)) by (apply Rmult_lt_0_compat; [lra|apply Rdiv_lt_0_compat; lra]).
    assert (R0 : 0 < r) by lra.
    assert (HD' : P * (N * N * N) <= r * L).
    { apply (Rmult_le_reg_r (/ L)); [apply Rinv_0_lt_compat; lra|]. replace (r * L * / L) with r by (field; lra). replace (P * (N * N * N) * / L) with (P * (N * N * N / L)) by (field; lra). exact HD. }
    assert (E1 : Rabs (B2R v - r) <= 23 * delta * r).
    { eapply Rle_trans; [exact E|]. unfold eD. fold N. assert (Y : P * (N * N * N) * (N * U) <= r * L * (N * U)) by (apply Rmult_le_compat_r; lra). rewrite DE. lra. }
    assert (Z : r * (512 * delta) <= r * 1) by (apply Rmult_le_compat_l; lra).
    assert (E2 : Rabs (B2R v - r) <= r / 2) by lra.
    apply Rabs_le_inv in E2. assert (V0 : r / 2 <= B2R v) by lra. assert (VN : B2R v <> 0) by lra.
    assert (I1 : / r <= L / (P * (N * N * N))).
    { apply (Rmult_le_reg_r (r * (P * (N * N * N)))); [apply Rmult_lt_0_compat; [lra|apply Rmult_lt_0_compat; lra]|]. field_simplify; [|repeat split; lra|lra]. lra. }
    assert (IV : 0 < / r) by (apply Rinv_0_lt_compat; lra).
    assert (I2 : / B2R v <= 2 * / r).
    { apply (Rmult_le_reg_r (B2R v * r)); [apply Rmult_lt_0_compat; lra|]. replace (/ B2R v * (B2R v * r)) with r by (field; lra). replace (2 * / r * (B2R v * r)) with (2 * B2R v) by (field; lra). lra. }
    assert (BQ : bp (- (4 * k - 2) + (d - 3 * m + 1)) = 2 * (L / (P * (N * N * N)))).
    { replace (- (4 * k - 2) + (d - 3 * m + 1))%Z with (- (4 * k - 2) + d + - (m + m + m) + 1)%Z by ring. rewrite bp_S, !bp_add. unfold bp at 1 3. rewrite !bpow_opp. fold (bp (4 * k - 2)) (bp (m + m + m)). rewrite !bp_add. fold P N L. field. lra. }
    assert (ID : 1 / B2R v = / B2R v) by (field; exact VN). pose proof (fz_val 1 ltac:(lia)) as F1.
    assert (DV := div_val (- (4 * k - 2) + (d - 3 * m + 1)) (fz_ 1) v ltac:(lia) ltac:(reflexivity) VN). rewrite F1, ID in DV.
    assert (VI : 0 < / B2R v) by (apply Rinv_0_lt_compat; lra).
    assert (AV : Rabs (/ B2R v) <= bp (- (4 * k - 2) + (d - 3 * m + 1))) by (rewrite Rabs_right by lra; rewrite BQ; lra).
    destruct (DV AV) as [D1 D2]. split.
    { unfold sx. rewrite Rmult_0_r. apply apx_exact. exact D1. }
    rewrite D2. assert (TU : / 9007199254740992 = U) by reflexivity. pose proof (rnd_rel_pos (/ B2R v) ltac:(lra)) as RE. rewrite TU in RE.
    replace (rnd (/ B2R v) * r - 1) with ((rnd (/ B2R v) - / B2R v) * r + (r - B2R v) * / B2R v) by (field; lra).
    assert (RV : r * / B2R v <= 2) by (assert (r * / B2R v <= r * (2 * / r)) by (apply Rmult_le_compat_l; lra); replace (r * (2 * / r)) with 2 in * by (field; lra); lra).
    assert (S1 : Rabs ((rnd (/ B2R v) - / B2R v) * r) <= U * 2 + tiny * r).
    { rewrite Rabs_mult, (Rabs_right r) by lra. assert (Rabs (rnd (/ B2R v) - / B2R v) * r <= (U * / B2R v + tiny) * r) by (apply Rmult_le_compat_r; lra). assert (U * (r * / B2R v) <= U * 2) by (apply Rmult_le_compat_l; lra). lra. }
    assert (S2 : Rabs ((r - B2R v) * / B2R v) <= 23 * delta * 2).
    { rewrite Rabs_mult, (Rabs_right (/ B2R v)) by lra. rewrite Rabs_minus_sym in E1. assert (Rabs (r - B2R v) * / B2R v <= 23 * delta * r * / B2R v) by (apply Rmult_le_compat_r; lra). assert (23 * delta * (r * / B2R v) <= 23 * delta * 2) by (apply Rmult_le_compat_l; lra). lra. }
    assert (S3 : tiny * r <= U).
    { rewrite Rabs_right in R1 by lra. rewrite tiny_bp. eapply Rle_trans; [apply Rmult_le_compat_l; [apply Rlt_le, bp_pos|exact R1]|]. rewrite <- bp_add. apply bp_le. lia. }
    eapply Rle_trans; [apply Rabs_triang|]. lra.
  Qed.

  Lemma sx_eq w a e x r s : r = s -> sx w a e x r -> sx w a e x s. Proof. intros <-. auto. Qed.
  Lemma bp_neg z : bp (- z) = / bp z. Proof. unfold bp. apply bpow_opp. Qed.
  (** the entries of the inverse *)
  Definition eV : R := 10 * (bp d * U).
  Lemma inv_sx w c i r s : (-400 <= w <= 400)%Z -> sx w (2 * m + 1) eC c r -> sx (- (4 * k - 2)) (d - 3 * m + 1) 0 i s ->
    sx (w - (4 * k - 2)) (d - m + 2) eV (fmul c i) (r * s).
  Proof.
    intros W H1 H2. pose proof N4 as HN. pose proof L1 as HL. pose proof U_pos as HU. set (N := bp m) in *. set (L := bp d) in *.
    replace (w - (4 * k - 2))%Z with (w + - (4 * k - 2))%Z by ring. replace (d - m + 2)%Z with (2 * m + 1 + (d - 3 * m + 1))%Z by ring.
    eapply sx_weak; [apply Z.le_refl| |apply sx_mul; [lia|exact H1|exact H2]].
    assert (LU : 0 < L * U) by (apply Rmult_lt_0_compat; lra). assert (LL : 1 * (L * U) <= L * (L * U)) by (apply Rmult_le_compat_r; lra).
    assert (A2 : bp (d - 3 * m + 1) * eC = 9 * (L * U)).
    { unfold eC. replace (d - 3 * m + 1)%Z with (d + - (m + m + m) + 1)%Z by ring. rewrite bp_S, (bp_add d), bp_neg, !bp_add. fold N L. field. lra. }
    assert (A3 : bp (2 * m + 1 + (d - 3 * m + 1) - 54) <= L * U).
    { rewrite bpU2. replace (2 * m + 1 + (d - 3 * m + 1))%Z with (d + - (m - 2))%Z by ring. rewrite bp_add. fold L. assert (bp (- (m - 2)) <= 1) by (change 1 with (bp 0); apply bp_le; lia).
      assert (L * U * bp (- (m - 2)) <= L * U * 1) by (apply Rmult_le_compat_l; lra). lra. }
    rewrite A2. unfold eV. fold L. lra.
  Qed.
  (** a row of it times a row of X *)
  Lemma dmu : bp (d - m + 2) * U <= bp d * U.
  Proof. apply Rmult_le_compat_r; [apply Rlt_le, U_pos|]. apply bp_le. lia. Qed.
  Definition eR : R := 35 * (bp d * U).
  Lemma rowx_sx i (v : @v3 AF) (a b c : R) p : (-80 <= i <= 80)%Z -> bnd2 p -> sx (- i - wt CX) (d - m + 2) eV (x3 v : f64) a -> sx (- i - wt CY) (d - m + 2) eV (y3 v : f64) b -> sx (- i - wt CZ) (d - m + 2) eV (z3 v : f64) c ->
    sx (- i) (d - m + 4) eR (@dot3 AF v (fc_row p) : f64) (a * rpick CX (val2 p) + b * rpick CY (val2 p) + c * rpick CZ (val2 p)).
  Proof.
    intros I B H1 H2 H3. pose proof N4 as HN. pose proof L1 as HL. pose proof U_pos as HU. set (N := bp m) in *. set (L := bp d) in *.
    assert (LU : 0 < L * U) by (apply Rmult_lt_0_compat; lra). assert (LL : 1 * (L * U) <= L * (L * U)) by (apply Rmult_le_compat_r; lra).
    pose proof dmu as DM. fold L in DM. pose proof (bp_pos (d - m + 2)).
    assert (W : forall c, (-80 <= wt c <= 80)%Z) by (intros []; cbn; lia).
    assert (G : forall c (x : f64) r, sx (- i - wt c) (d - m + 2) eV x r -> sx (- i) (d - m + 2) (21 / 2 * (L * U)) (fmul x (pick c (fc_row p))) (r * rpick c (val2 p))).
    { intros c0 x r H0. pose proof (W c0). pose proof (sx_mul (- i - wt c0) (wt c0) (d - m + 2) 0 eV 0 x (pick c0 (fc_row p)) r (rpick c0 (val2 p)) ltac:(lia) H0 (row_sx p c0 B)) as S.
      replace (- i - wt c0 + wt c0)%Z with (- i)%Z in S by ring. rewrite Z.add_0_r in S. eapply sx_weak; [apply Z.le_refl| |exact S]. rewrite bpU2. change (bp 0) with 1. unfold eV. fold L. lra. }
    unfold dot3. replace (d - m + 4)%Z with (d - m + 2 + 2)%Z by ring.
    eapply sx_weak; [apply Z.le_refl| |apply sx_sum3; [lia| | |exact (G CX _ _ H1)|exact (G CY _ _ H2)|exact (G CZ _ _ H3)]]; [|lra|lra]. rewrite bpU2. unfold eR. fold L. lra.
  Qed.
  Lemma y_sx p : bnd2 p -> sx (2 * k) 0 (2 * U) (@fc_y AF p : f64) (yv (val2 p)).
  Proof.
    intros [B1 B2]. pose proof U_pos as HU. assert (G : forall x : f64, bnd k x -> sx (2 * k) 0 (U / 2) (fmul x x) (B2R x * B2R x)).
    { intros x B. assert (S : sx k 0 0 x (B2R x)) by (unfold sx; rewrite Z.add_0_r, Rmult_0_r; apply apx_exact; exact B). pose proof (sx_mul k k 0 0 0 0 x x _ _ ltac:(lia) S S) as T. replace (2 * k)%Z with (k + k)%Z by ring.
      eapply sx_weak; [apply Z.le_refl| |exact T]. change (0 + 0 - 54)%Z with (0 - 54)%Z. rewrite bpU2. change (bp 0) with 1. lra. }
    destruct (sx_add (2 * k) 0 _ _ _ _ _ _ ltac:(lia) (G _ B1) (G _ B2)) as ((F & B) & R1 & E).
    unfold fc_y, dot2. change (@ndiv AF) with fdiv. change (@nadd AF) with fadd. change (@nmul AF) with fmul. change (@of_Z AF 2) with (fz_ 2).
    set (v := fadd (fmul (x2 p) (x2 p)) (fmul (y2 p) (y2 p))) in *. set (t := B2R (x2 p : f64) * B2R (x2 p : f64) + B2R (y2 p : f64) * B2R (y2 p : f64)) in *.
    pose proof (fz_val 2 ltac:(lia)) as F2. replace (2 * k + (0 + 1))%Z with (2 * k + 1)%Z in B, R1 by ring. rewrite bp_S in B, R1.
    assert (T : Rabs (B2R v / 2) <= bp (2 * k)) by (unfold Rdiv; rewrite Rabs_mult, (Rabs_right (/ 2)) by lra; lra).
    pose proof (div_val (2 * k) v (fz_ 2) ltac:(lia) F) as DV. rewrite F2 in DV. specialize (DV ltac:(lra) T). destruct DV as [D1 D2].
    unfold sx. rewrite Z.add_0_r. assert (YV : yv (val2 p) = t / 2) by reflexivity. rewrite YV. split; [exact D1|]. split; [unfold Rdiv; rewrite Rabs_mult, (Rabs_right (/ 2)) by lra; lra|].
    rewrite D2. pose proof (rnd_err (2 * k) (B2R v / 2) ltac:(lia) T) as RE. rewrite bpU2 in RE. change (0 - 53)%Z with (-53)%Z in E. fold U in E.
    replace (rnd (B2R v / 2) - t / 2) with (rnd (B2R v / 2) - B2R v / 2 + (B2R v - t) * / 2) by field.
    eapply Rle_trans; [apply Rabs_triang|]. rewrite Rabs_mult, (Rabs_right (/ 2)) by lra. pose proof (bp_pos (2 * k)). assert (0 <= bp (2 * k) * U) by (apply Rmult_le_pos; lra). lra.
  Qed.
  (** a component of the solution *)
  Definition eS : R := 54 * (bp m * (bp d * U)).
  Lemma comp_sx i (v : @v3 AF) (a b c : R) ps x : (-80 <= i <= 80)%Z -> Forall bnd2 ps -> (Z.of_nat (length ps) <= 2 ^ m)%Z ->
    sx (- i - wt CX) (d - m + 2) eV (x3 v : f64) a -> sx (- i - wt CY) (d - m + 2) eV (y3 v : f64) b -> sx (- i - wt CZ) (d - m + 2) eV (z3 v : f64) c ->
    comp_any (A := AF) ps v x -> sx (2 * k - i) (d + 4) eS (x : f64) (a * vx (map val2 ps) + b * vy (map val2 ps) + c * vz (map val2 ps)).
  Proof.
    intros I B LE H1 H2 H3 S. pose proof N4 as HN. pose proof L1 as HL. pose proof U_pos as HU. set (N := bp m) in *. set (L := bp d) in *.
    assert (LU : 0 < L * U) by (apply Rmult_lt_0_compat; lra). assert (LL : 1 * (L * U) <= L * (L * U)) by (apply Rmult_le_compat_r; lra).
    pose proof dmu as DM. fold L in DM.
    pose (q := fun p => (@nmul AF (@dot3 AF v (fc_row p)) (fc_y p) : f64, (a * rpick CX (val2 p) + b * rpick CY (val2 p) + c * rpick CZ (val2 p)) * yv (val2 p))).
    assert (RT : rsum (map snd (map q ps)) = a * vx (map val2 ps) + b * vy (map val2 ps) + c * vz (map val2 ps)).
    { rewrite map_map. unfold q. cbn [snd]. rewrite (rsum_total (fun p => (a * rpick CX p + b * rpick CY p + c * rpick CZ p) * yv p)). unfold vx, vy, vz. rewrite <- !total_mul, <- !total_add. apply total_ext. intros p _. cbn [rpick]. ring. }
    rewrite <- RT. replace (d + 4)%Z with (d - m + 4 + m)%Z by ring.
    assert (D4 : bp (d - m + 4) * U <= 4 * (L * U)).
    { replace (d - m + 4)%Z with (d - m + 2 + 1 + 1)%Z by ring. rewrite !bp_S. lra. }
    eapply sx_weak; [apply Z.le_refl| |eapply (sx_sum (2 * k - i) (d - m + 4) m (45 * (L * U))); [lia|lia|lia| |exact S| | |rewrite map_length; exact LE]].
    - replace (d - m + 4 + m)%Z with (d + 1 + 1 + 1 + 1)%Z by ring. rewrite bpU2, !bp_S. unfold eS. fold N L.
      assert (0 <= N * (L * U)) by (apply Rmult_le_pos; lra). lra.
    - lra.
    - rewrite map_map. reflexivity.
    - rewrite Forall_map. eapply Forall_impl; [|exact B]. intros p Bp. unfold q. cbn [fst snd]. change (@nmul AF) with fmul.
      pose proof (sx_mul (- i) (2 * k) (d - m + 4) 0 eR (2 * U) _ _ _ _ ltac:(lia) (rowx_sx i v a b c p I Bp H1 H2 H3) (y_sx p Bp)) as T. rewrite Z.add_0_r in T. replace (- i + 2 * k)%Z with (2 * k - i)%Z in T by ring.
      eapply sx_weak; [apply Z.le_refl| |exact T]. rewrite bpU2. change (bp 0) with 1. unfold eR. fold L. lra.
  Qed.
  Lemma rentry_flip c1 c2 l : rentry c1 c2 l = rentry c2 c1 l. Proof. apply total_ext. intros p _. ring. Qed.
  Lemma sol_sx ps g : Forall bnd2 ps -> (Z.of_nat (length ps) <= 2 ^ m)%Z -> bp (4 * k - 2) * bp (3 * m - d) <= det (map val2 ps) -> gram_any (A := AF) ps g ->
    exists f, Rabs (f - 1) <= 47 * delta /\
    (forall x, comp_any (A := AF) ps (row0 (inv3 g)) x -> sx k (d + 4) eS (x : f64) (f * sol (map val2 ps) (r0 (adj (map val2 ps))))) /\
    (forall x, comp_any (A := AF) ps (row1 (inv3 g)) x -> sx k (d + 4) eS (x : f64) (f * sol (map val2 ps) (r1 (adj (map val2 ps))))) /\
    (forall x, comp_any (A := AF) ps (row2 (inv3 g)) x -> sx (2 * k + 1) (d + 4) eS (x : f64) (f * sol (map val2 ps) (r2 (adj (map val2 ps))))).
  Proof.
    intros B LE HD ((G00 & G01 & G02) & (G10 & G11 & G12) & (G20 & G21 & G22)). set (l := map val2 ps) in *.
    apply (entry_sx ps CX CX _ B LE) in G00. apply (entry_sx ps CX CY _ B LE) in G01. apply (entry_sx ps CX CZ _ B LE) in G02.
    apply (entry_sx ps CY CX _ B LE) in G10. apply (entry_sx ps CY CY _ B LE) in G11. apply (entry_sx ps CY CZ _ B LE) in G12.
    apply (entry_sx ps CZ CX _ B LE) in G20. apply (entry_sx ps CZ CY _ B LE) in G21. apply (entry_sx ps CZ CZ _ B LE) in G22.
    fold l in G00, G01, G02, G10, G11, G12, G20, G21, G22. fold eE in G00, G01, G02, G10, G11, G12, G20, G21, G22. rewrite (rentry_flip CY CX) in G10. rewrite (rentry_flip CZ CX) in G20. rewrite (rentry_flip CZ CY) in G21.
    change (rentry CX CX l) with (sxx l) in *. change (rentry CX CY l) with (sxy l) in *. change (rentry CX CZ l) with (sxz l) in *. change (rentry CY CY l) with (syy l) in *. change (rentry CY CZ l) with (syz l) in *. change (rentry CZ CZ l) with (szz l) in *.
    cbn [wt] in G00, G01, G02, G10, G11, G12, G20, G21, G22. destruct g as [[a b c] [a' b' c'] [a'' b'' c'']]. cbn [row0 row1 row2 x3 y3 z3] in G00, G01, G02, G10, G11, G12, G20, G21, G22.
    unfold inv3. cbn [row0 row1 row2 x3 y3 z3]. change (@ndiv AF) with fdiv. change (@nmul AF) with fmul. change (@nsub AF) with fsub. change (@n1 AF) with (fz_ 1).
    assert (DX : sx (4 * k - 2) (3 * m + 3) eD (@sum3 AF (fmul (fsub (fmul b' c'') (fmul c' b'')) a) (fmul (fsub (fmul b'' c) (fmul c'' b)) a') (fmul (fsub (fmul b c') (fmul c b')) a'') : f64) (det l)).
    { eapply sx_eq; [|eapply (det_sx (2 * k - 2) (2 * k - 2) (3 * k - 1)); [| | |eapply (cof_sx (2 * k - 2)); [| | |exact G11|exact G22|exact G12|exact G21]; lia|eapply (cof_sx (2 * k - 2)); [| | |exact G21|exact G02|exact G22|exact G01]; lia|eapply (cof_sx (3 * k - 1)); [| | |exact G01|exact G12|exact G02|exact G11]; lia|exact G00|exact G10|exact G20]; lia].
      unfold det. ring. }
    destruct (id_sx _ _ HD DX) as [IX IE]. set (id := fdiv (fz_ 1) _) in *. clearbody id. exists (B2R id * det l). split; [exact IE|].
    assert (D0' : 0 < det l) by (eapply Rlt_le_trans; [|exact HD]; apply Rmult_lt_0_compat; apply bp_pos).
    assert (V : forall w w' (x : f64) r s, (-400 <= w <= 400)%Z -> w' = (w - (4 * k - 2))%Z -> B2R id * r = s -> sx w (2 * m + 1) eC x r -> sx w' (d - m + 2) eV (fmul x id) s).
    { intros w w' x r s W -> <- H. rewrite Rmult_comm. apply inv_sx; assumption. }
    split; [|split]; intros x S.
    - assert (Q : B2R id * det l * sol l (r0 (adj l)) = B2R id * rx (r0 (adj l)) * vx l + B2R id * ry (r0 (adj l)) * vy l + B2R id * rz (r0 (adj l)) * vz l) by (unfold sol; field; lra). rewrite Q. replace k with (2 * k - k)%Z at 1 by ring.
      eapply (comp_sx k); [lia|exact B|exact LE| | | |exact S]; cbn [row0 row1 row2 x3 y3 z3 wt adj r0 rx ry rz].
      + eapply (V (2 * k - 2)%Z); [lia|lia|reflexivity|]. eapply (cof_sx (2 * k - 2)); [| | |exact G11|exact G22|exact G12|exact G21]; lia.
      + eapply (V (2 * k - 2)%Z); [lia|lia| |eapply (cof_sx (2 * k - 2)); [| | |exact G21|exact G02|exact G22|exact G01]; lia]. ring.
      + eapply (V (3 * k - 1)%Z); [lia|lia| |eapply (cof_sx (3 * k - 1)); [| | |exact G01|exact G12|exact G02|exact G11]; lia]. ring.
    - assert (Q : B2R id * det l * sol l (r1 (adj l)) = B2R id * rx (r1 (adj l)) * vx l + B2R id * ry (r1 (adj l)) * vy l + B2R id * rz (r1 (adj l)) * vz l) by (unfold sol; field; lra). rewrite Q. replace k with (2 * k - k)%Z at 1 by ring.
      eapply (comp_sx k); [lia|exact B|exact LE| | | |exact S]; cbn [row0 row1 row2 x3 y3 z3 wt adj r1 rx ry rz].
      + eapply (V (2 * k - 2)%Z); [lia|lia| |eapply (cof_sx (2 * k - 2)); [| | |exact G12|exact G20|exact G10|exact G22]; lia]. ring.
      + eapply (V (2 * k - 2)%Z); [lia|lia| |eapply (cof_sx (2 * k - 2)); [| | |exact G22|exact G00|exact G20|exact G02]; lia]. ring.
      + eapply (V (3 * k - 1)%Z); [lia|lia| |eapply (cof_sx (3 * k - 1)); [| | |exact G02|exact G10|exact G00|exact G12]; lia]. ring.
    - assert (Q : B2R id * det l * sol l (r2 (adj l)) = B2R id * rx (r2 (adj l)) * vx l + B2R id * ry (r2 (adj l)) * vy l + B2R id * rz (r2 (adj l)) * vz l) by (unfold sol; field; lra). rewrite Q. replace (2 * k + 1)%Z with (2 * k - -1)%Z at 1 by ring.
      eapply (comp_sx (-1)); [lia|exact B|exact LE| | | |exact S]; cbn [row0 row1 row2 x3 y3 z3 wt adj r2 rx ry rz].
      + eapply (V (3 * k - 1)%Z); [lia|lia| |eapply (cof_sx (3 * k - 1)); [| | |exact G10|exact G21|exact G11|exact G20]; lia]. ring.
      + eapply (V (3 * k - 1)%Z); [lia|lia| |eapply (cof_sx (3 * k - 1)); [| | |exact G20|exact G01|exact G21|exact G00]; lia]. ring.
      + eapply (V (4 * k)%Z); [lia|lia| |eapply (cof_sx (4 * k)); [| | |exact G00|exact G11|exact G01|exact G10]; lia]. ring.
  Qed.
  (** ** The circle *)
  Lemma mid_sx f (x : f64) r : Rabs (f - 1) <= 47 * delta -> Rabs r <= bp k -> sx k (d + 4) eS x (f * r) -> sx k 1 (101 * delta) x r.
  Proof.
    intros FE R0 ((F & _) & _ & E). change eS with (54 * delta) in E. pose proof delta_small. pose proof (bp_pos k).
    assert (E' : Rabs (B2R x - r) <= bp k * (101 * delta)).
    { replace (B2R x - r) with (B2R x - f * r + (f - 1) * r) by ring. eapply Rle_trans; [apply Rabs_triang|]. rewrite (Rabs_mult (f - 1)).
      assert (Rabs (f - 1) * Rabs r <= 47 * delta * bp k) by (apply Rmult_le_compat; [apply Rabs_pos|apply Rabs_pos|exact FE|exact R0]). lra. }
    unfold sx. split; [split; [exact F|]|split; [rewrite bp_S; lra|exact E']].
    rewrite bp_S. replace (B2R x) with (r + (B2R x - r)) by ring. eapply Rle_trans; [apply Rabs_triang|]. assert (bp k * (101 * delta) <= bp k * 1) by (apply Rmult_le_compat_l; lra). lra.
  Qed.
  Lemma last_sx f (x : f64) r : Rabs (f - 1) <= 47 * delta -> Rabs r <= 8 * bp (2 * k) -> sx (2 * k + 1) (d + 4) eS x (f * r) -> sx (2 * k) 4 (484 * delta) x r.
  Proof.
    intros FE R0 ((F & _) & _ & E). rewrite bp_S in E. change eS with (54 * delta) in E. pose proof delta_small. pose proof (bp_pos (2 * k)).
    assert (E' : Rabs (B2R x - r) <= bp (2 * k) * (484 * delta)).
    { replace (B2R x - r) with (B2R x - f * r + (f - 1) * r) by ring. eapply Rle_trans; [apply Rabs_triang|]. rewrite (Rabs_mult (f - 1)).
      assert (Rabs (f - 1) * Rabs r <= 47 * delta * (8 * bp (2 * k))) by (apply Rmult_le_compat; [apply Rabs_pos|apply Rabs_pos|exact FE|exact R0]). lra. }
    unfold sx. split; [split; [exact F|]|split; [rewrite bp_add; change (bp 4) with 16; lra|exact E']].
    rewrite bp_add. change (bp 4) with 16. replace (B2R x) with (r + (B2R x - r)) by ring. eapply Rle_trans; [apply Rabs_triang|]. assert (bp (2 * k) * (484 * delta) <= bp (2 * k) * 1) by (apply Rmult_le_compat_l; lra). lra.
  Qed.
  Lemma fit_close ps c rad c0 rho : Forall bnd2 ps -> (Z.of_nat (length ps) <= 2 ^ m)%Z -> bp (4 * k - 2) * bp (3 * m - d) <= det (map val2 ps) ->
    best_circle (map val2 ps) c0 rho -> Rabs (fst c0) <= bp k -> Rabs (snd c0) <= bp k -> 2 * bp (2 * k + m + d - 42) <= rho * rho -> fits_any (A := AF) ps c rad ->
    sx k 1 (101 * delta) (x2 c : f64) (fst c0) /\ sx k 1 (101 * delta) (y2 c : f64) (snd c0) /\ is_finite (rad : f64) = true /\ Rabs (B2R (rad : f64) - rho) * rho <= 1400 * delta * bp (2 * k) /\ rho * rho <= 8 * bp (2 * k).
  Proof.
    intros B LE HD BC A0 A1 RH (_ & g & z & G & C1 & C2 & C3 & ->).
    assert (DN : det (map val2 ps) <> 0) by (apply Rgt_not_eq; eapply Rlt_le_trans; [|exact HD]; apply Rmult_lt_0_compat; apply bp_pos).
    destruct (best_sol _ _ _ DN BC) as (Q1 & Q2 & Q3). destruct (sol_sx ps g B LE HD G) as (f & FE & S1 & S2 & S3). apply S1 in C1. apply S2 in C2. apply S3 in C3. clear S1 S2 S3. rewrite <- Q1 in C1. rewrite <- Q2 in C2.
    pose proof delta_pos as DP. destruct LU_delta as [LD UD]. pose proof U_pos as HU. pose proof L1 as HL.
    assert (R8 : rho * rho <= 8 * bp (2 * k)).
    { apply (best_within (map val2 ps) c0 rho); [exact DN|exact BC|]. intros p I. apply in_map_iff in I. destruct I as (q & <- & I). rewrite Forall_forall in B. destruct (B q I) as [[_ B1] [_ B2]]. unfold gap2, CircSpec.val2. cbn [fst snd].
      replace (2 * k)%Z with (k + k)%Z by ring. rewrite bp_add. assert (G1 : forall u v, Rabs u <= bp k -> Rabs v <= bp k -> (u - v) * (u - v) <= 4 * (bp k * bp k)).
      { intros u v H1 H2. apply Rabs_le_inv in H1. apply Rabs_le_inv in H2. assert (Rabs (u - v) * Rabs (u - v) <= (2 * bp k) * (2 * bp k)) by (apply Rmult_le_compat; try apply Rabs_pos; apply Rabs_le; lra).
        rewrite <- Rabs_mult in H. rewrite Rabs_right in H; [lra|]. pose proof (Rle_0_sqr (u - v)) as X. unfold Rsqr in X. lra. }
      eapply Rle_trans; [apply Rplus_le_compat; [exact (G1 _ _ B1 A0)|exact (G1 _ _ B2 A1)]|]. lra. }
    apply (mid_sx _ _ _ FE A0) in C1. apply (mid_sx _ _ _ FE A1) in C2. split; [exact C1|]. split; [exact C2|].
    set (a := fst c0) in *. set (b := snd c0) in *. set (zz := sol (map val2 ps) (r2 (adj (map val2 ps)))) in *. pose proof (bp_pos (2 * k)) as HK.
    assert (SB : forall u, Rabs u <= bp k -> 0 <= u * u <= bp (2 * k)).
    { intros u H. split; [pose proof (Rle_0_sqr u) as X; exact X|]. replace (2 * k)%Z with (k + k)%Z by ring. rewrite bp_add. replace (u * u) with (Rabs u * Rabs u) by (rewrite <- Rabs_mult; apply Rabs_right; pose proof (Rle_0_sqr u) as X; unfold Rsqr in X; lra). apply Rmult_le_compat; try apply Rabs_pos; exact H. }
    pose proof (SB a A0) as SA. pose proof (SB b A1) as SBB. pose proof (Rle_0_sqr rho) as R00. unfold Rsqr in R00.
    assert (ZB : Rabs zz <= 8 * bp (2 * k)) by (apply Rabs_le; lra).
    pose proof (last_sx _ _ _ FE ZB C3) as ZS.
    assert (SQ : forall (x : f64) r n, (2 <= n)%Z -> sx k 1 (101 * delta) x r -> sx (2 * k) n (405 * delta) (fmul x x) (r * r)).
    { intros x r n LN H. pose proof (sx_mul k k 1 1 _ _ _ _ _ _ ltac:(lia) H H) as T. replace (2 * k)%Z with (k + k)%Z by ring. eapply sx_weak; [| |exact T]; [lia|]. change (bp 1) with 2. change (1 + 1 - 54)%Z with (2 - 54)%Z. rewrite bpU2. change (bp 2) with 4. lra. }
    pose proof (sx_add (2 * k) 4 _ _ _ _ _ _ ltac:(lia) ZS (SQ _ _ 4%Z ltac:(lia) C1)) as T1. change (4 + 1)%Z with 5%Z in T1.
    pose proof (sx_add (2 * k) 5 _ _ _ _ _ _ ltac:(lia) T1 (SQ _ _ 5%Z ltac:(lia) C2)) as T2. change (5 + 1)%Z with 6%Z in T2.
    assert (T3 : sx (2 * k) 6 (1306 * delta) (fadd (fadd z (fmul (x2 c) (x2 c))) (fmul (y2 c) (y2 c))) (rho * rho)).
    { rewrite Q3. eapply sx_weak; [apply Z.le_refl| |exact T2]. rewrite !bpU. change (bp 4) with 16. change (bp 5) with 32. lra. }
    change (@nsqrt AF) with fsqrt. change (@nadd AF) with fadd. change (@nmul AF) with fmul. set (s := fadd (fadd z (fmul (x2 c) (x2 c))) (fmul (y2 c) (y2 c))) in *. clearbody s.
    destruct T3 as ((F & BS) & BR & E). assert (RB : bp (-100) <= rho).
    { apply Rsqr_incr_0; [|apply Rlt_le, bp_pos|exact (proj1 BC)]. unfold Rsqr. rewrite <- bp_add. eapply Rle_trans; [|eapply Rle_trans; [|exact RH]]; [apply (bp_le _ (2 * k + m + d - 42)); lia|]. pose proof (bp_pos (2 * k + m + d - 42)). lra. }
    replace (2 * k + m + d - 42)%Z with (2 * k + 11 + m + d - 53)%Z in RH by ring. rewrite <- delta_bp, bp_add in RH. change (bp 11) with 2048 in RH.
    set (Q := bp (2 * k)) in *. assert (QD : 0 < Q * delta) by (apply Rmult_lt_0_compat; lra).
    destruct BC as [P0 _]. assert (RP : 0 < rho * rho) by lra. assert (RP' : 0 < rho) by (pose proof (bp_pos (-100)); lra).
    apply Rabs_le_inv in E. assert (S1 : rho * rho / 4 <= B2R s) by lra. assert (S4 : B2R s <= rho * rho * 4) by lra. assert (S0 : 0 <= B2R s) by lra.
    destruct (sqrt_val s F S0) as [F1 V]. split; [exact F1|]. split; [|exact R8]. rewrite V. set (t := sqrt (B2R s)) in *. assert (TP : 0 <= t) by apply sqrt_pos. assert (TT : t * t = B2R s) by (apply sqrt_sqrt; exact S0).
    assert (T4 : rho / 2 <= t) by (apply Rsqr_incr_0; unfold Rsqr; lra). assert (T5 : t <= rho * 2) by (apply Rsqr_incr_0; unfold Rsqr; lra).
    assert (W1 : Rabs (t - rho) * (t + rho) <= Q * (1306 * delta)).
    { rewrite <- (Rabs_right (t + rho)) by lra. rewrite <- Rabs_mult. replace ((t - rho) * (t + rho)) with (B2R s - rho * rho) by (rewrite <- TT; ring). apply Rabs_le. lra. }
    assert (W2 : Rabs (t - rho) * rho <= Rabs (t - rho) * (t + rho)) by (apply Rmult_le_compat_l; [apply Rabs_pos|lra]).
    assert (TU : / 9007199254740992 = U) by reflexivity. pose proof (rnd_rel_pos t TP) as RR. rewrite TU in RR.
    assert (TI : tiny <= U * rho).
    { eapply Rle_trans; [|apply Rmult_le_compat_l; [lra|exact RB]]. unfold U. rewrite <- bp_add. rewrite tiny_bp. apply bp_le. lia. }
    assert (W3 : Rabs (rnd t - t) * rho <= 3 * (U * rho) * rho) by (apply Rmult_le_compat_r; [lra|]; assert (U * t <= U * (rho * 2)) by (apply Rmult_le_compat_l; lra); lra).
    assert (W4 : U * (rho * rho) <= U * (8 * Q)) by (apply Rmult_le_compat_l; lra).
    assert (W5 : Q * (4 * U) <= Q * delta) by (apply Rmult_le_compat_l; lra).
    replace (rnd t - rho) with (rnd t - t + (t - rho)) by ring. pose proof (Rabs_triang (rnd t - t) (t - rho)) as TR. assert (Rabs (rnd t - t + (t - rho)) * rho <= (Rabs (rnd t - t) + Rabs (t - rho)) * rho) by (apply Rmult_le_compat_r; lra). lra.
  Qed.
End Fit.
