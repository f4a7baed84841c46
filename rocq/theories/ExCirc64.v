(** ExCirc64.v - circles in doubles: a circle that is far from the origin, and one that is not. *)
From Coq Require Import Reals Lra Lia ZArith List Permutation Bool.
From Flocq Require Import Core IEEE754.BinarySingleNaN.
From Verif Require Import Base Num NumReal NumF64 NumLaws Geo Stl Env Ast Ps Draw F64Spec DocSpec P_Base P_Meta P_Dims P_Doc P_Bound P_Text P_Text2 TextSpec P_Script2 P_Shuffle P_Valid P_Value P_Value2 P_Mark P_Err P_Err2 P_Err3 P_Err4 CircleSpec P_Circle P_Circle2 CircSpec P_Circ64 P_Ring64 P_CircLabel
  ExText ErrSpec ExErr RealSpec.
Import ListNotations.

Local Unset Implicit Arguments.
Local Open Scope R_scope.

Definition zabs (l : list Z) : Z := fold_right (fun n a => Z.abs n + a)%Z 0%Z l.
Definition zsum (l : list Z) : Z := fold_right Z.add 0%Z l.
Lemma zsum_abs l : (Z.abs (zsum l) <= zabs l)%Z. Proof. induction l as [|n l IH]; cbn [zsum zabs fold_right]; [lia|]. unfold zsum, zabs in IH. lia. Qed.
Lemma zabs_app l l' : zabs (l ++ l') = (zabs l + zabs l')%Z. Proof. induction l as [|n l IH]; cbn [zabs fold_right app]; [reflexivity|]. unfold zabs in *. lia. Qed.
Lemma zsum_app l l' : zsum (l ++ l') = (zsum l + zsum l')%Z. Proof. induction l as [|n l IH]; cbn [zsum fold_right app]; [reflexivity|]. unfold zsum in *. lia. Qed.
Lemma zabs_perm l l' : Permutation l l' -> zabs l = zabs l'. Proof. induction 1; cbn; unfold zabs in *; lia. Qed.
Lemma zsum_perm l l' : Permutation l l' -> zsum l = zsum l'. Proof. induction 1; cbn; unfold zsum in *; lia. Qed.

(** Whole-number points of the circle of radius 25 about (5000, 5000), in the order of the set. *)
Definition far : list (Z * Z) := [(4975, 5000); (4976, 4993); (4976, 5007); (4980, 4985); (4980, 5015); (4985, 4980); (4985, 5020); (4993, 4976); (4993, 5024); (5000, 4975); (5000, 5025); (5007, 4976); (5007, 5024); (5015, 4980); (5015, 5020); (5020, 4985); (5020, 5015); (5024, 4993); (5024, 5007); (5025, 5000)]%Z.

Section Far.
  Context (lm : libm) (asc : bool).
  #[local] Instance AF : Arith := F64 lm asc.
  (** sums of whole numbers of quarters *)
  Lemma int_sum l x : sum_of (A := AF) l x -> forall ps, l = map fst ps -> Forall (fun q => is_finite (fst q : f64) = true /\ B2R (fst q : f64) = IZR (snd q) * bp (-2)) ps -> (zabs (map snd ps) <= 2 ^ 53)%Z ->
    is_finite (x : f64) = true /\ B2R (x : f64) = IZR (zsum (map snd ps)) * bp (-2).
  Proof.
    intro H. induction H as [|x|l1 l2 x y H1 IH1 H2 IH2|l l' x PM H IH]; intros ps Q F LE.
    - destruct ps; [|discriminate Q]. split; [reflexivity|]. cbn [map zsum fold_right]. rewrite Rmult_0_l. reflexivity.
    - destruct ps as [|[y r] [|]]; try discriminate Q. cbn in Q. injection Q as ->. inversion F as [|? ? (B & R1) _]; subst. cbn [fst snd map] in *. split; [exact B|]. rewrite R1. do 2 f_equal. cbn. lia.
    - symmetry in Q. apply map_eq_app in Q. destruct Q as (p1 & p2 & -> & <- & <-). apply Forall_app in F. destruct F as [F1 F2]. rewrite map_app, zabs_app in LE. rewrite map_app, zsum_app.
      pose proof (zsum_abs (map snd p1)) as Z1. pose proof (zsum_abs (map snd p2)) as Z2.
      destruct (IH1 p1 eq_refl F1) as [A1 A2]; [lia|]. destruct (IH2 p2 eq_refl F2) as [B1 B2]; [lia|].
      pose proof (Bplus_correct 53 1024 prec64 emax64 mode_NE (x : f64) (y : f64) A1 B1) as C. rewrite A2, B2, <- Rmult_plus_distr_r, <- plus_IZR in C.
      pose proof (int_format (zsum (map snd p1) + zsum (map snd p2)) (-2) ltac:(lia) ltac:(lia)) as G.
      rewrite round_generic in C; [|apply valid_rnd_N|exact G].
      assert (BD : Rabs (IZR (zsum (map snd p1) + zsum (map snd p2)) * bp (-2)) <= bp 53).
      { rewrite Rabs_mult, <- abs_IZR, (Rabs_right (bp (-2))) by (apply Rle_ge, Rlt_le, bp_pos). rewrite <- (Rmult_1_r (bp 53)). apply Rmult_le_compat; [apply IZR_le; lia|apply Rlt_le, bp_pos| |change 1 with (bp 0); apply bp_le; lia]. change (bp 53) with (IZR (2 ^ 53)); apply IZR_le; lia. }
      rewrite (bp_emax 53) in C by (exact BD || lia). destruct C as (C1 & C2 & _). split; [exact C2|exact C1].
    - subst l'. apply Permutation_map_inv in PM. destruct PM as (ps' & -> & PM).
      rewrite (zabs_perm _ _ (Permutation_map snd PM)) in LE. rewrite (zsum_perm _ _ (Permutation_map snd PM)). apply IH; [reflexivity|exact (Permutation_Forall PM F)|exact LE].
  Qed.
  Definition at2 (q : Z * Z) : @v2 AF := V2 (fz_ (fst q)) (fz_ (snd q)).
  Definition far_points : list (@v2 AF) := map at2 far.
  (** such sums do not depend on the order *)
  Definition quarters (x : f64) : option Z :=
    match B2SF x with
    | SpecFloat.S754_zero _ => Some 0%Z
    | SpecFloat.S754_finite b m e => if (0 <=? e + 2)%Z then Some (cond_Zopp b (Zpos m) * 2 ^ (e + 2))%Z else if (Zpos m mod 2 ^ (- (e + 2)) =? 0)%Z then Some (cond_Zopp b (Zpos m / 2 ^ (- (e + 2))))%Z else None
    | _ => None
    end.
  Lemma quarters_val x n : quarters x = Some n -> is_finite x = true /\ B2R x = IZR n * bp (-2).
  Proof.
    unfold quarters. rewrite <- (SF2R_B2SF 53 1024 x), <- is_finite_SF_B2SF. destruct (B2SF x) as [b| | |b m e]; try discriminate.
    - intros [= <-]. split; [reflexivity|]. cbn. ring.
    - destruct (Z.leb_spec 0 (e + 2)) as [L|L].
      + intros [= <-]. split; [reflexivity|]. cbn [SF2R]. unfold F2R. cbn [Fnum Fexp]. rewrite mult_IZR. change (2 ^ (e + 2))%Z with (radix2 ^ (e + 2))%Z. rewrite (IZR_Zpower radix2 (e + 2) L). change (bpow radix2 (e + 2)) with (bp (e + 2)). rewrite Rmult_assoc, <- bp_add. f_equal. unfold bp. f_equal. lia.
      + destruct (Z.eqb_spec (Zpos m mod 2 ^ (- (e + 2))) 0) as [D|D]; [|discriminate]. intros [= <-]. split; [reflexivity|]. cbn [SF2R]. unfold F2R. cbn [Fnum Fexp].
        assert (Q : (Zpos m = 2 ^ (- (e + 2)) * (Zpos m / 2 ^ (- (e + 2))))%Z) by (apply Z_div_exact_full_2; [apply Z.pow_nonzero; lia|exact D]).
        assert (QQ : (cond_Zopp b (Zpos m) = 2 ^ (- (e + 2)) * cond_Zopp b (Zpos m / 2 ^ (- (e + 2))))%Z) by (destruct b; cbn [cond_Zopp]; lia).
        rewrite QQ, mult_IZR. change (2 ^ (- (e + 2)))%Z with (radix2 ^ (- (e + 2)))%Z at 1. rewrite (IZR_Zpower radix2 (- (e + 2))) by lia. change (bpow radix2 (- (e + 2))) with (bp (- (e + 2))). change (bpow radix2 e) with (bp e). rewrite (Rmult_comm (bp _)), Rmult_assoc, <- bp_add. f_equal. unfold bp. f_equal. lia.
  Qed.
  Fixpoint all_quarters (l : list f64) : option (list Z) := match l with [] => Some [] | x :: l => match quarters x, all_quarters l with Some n, Some k => Some (n :: k) | _, _ => None end end.
  Definition same_sum (l : list f64) : bool := match all_quarters l with Some k => ((zabs k <=? 2 ^ 53) && negb (zsum k =? 0))%Z | None => false end.
  Lemma all_quarters_val l : forall k, all_quarters l = Some k -> exists ps, map fst ps = l /\ map snd ps = k /\ Forall (fun q => is_finite (fst q : f64) = true /\ B2R (fst q : f64) = IZR (snd q) * bp (-2)) ps.
  Proof.
    induction l as [|x l IH]; cbn [all_quarters]; intros k H.
    - injection H as <-. exists []. auto.
    - destruct (quarters x) as [n|] eqn:Q; [|discriminate]. destruct (all_quarters l) as [k'|]; [|discriminate]. injection H as <-. destruct (IH k' eq_refl) as (ps & <- & <- & F). exists ((x, n) :: ps).
      split; [reflexivity|]. split; [reflexivity|]. constructor; [exact (quarters_val x n Q)|exact F].
  Qed.
  Lemma same_sum_eq l x y : same_sum l = true -> sum_of (A := AF) l x -> sum_of (A := AF) l y -> x = y.
  Proof.
    unfold same_sum. destruct (all_quarters l) as [k|] eqn:Q; [|discriminate]. intros H HX HY. apply andb_true_iff in H. destruct H as [H1 H2]. apply Z.leb_le in H1. apply negb_true_iff, Z.eqb_neq in H2.
    destruct (all_quarters_val l k Q) as (ps & E1 & <- & F). destruct (int_sum l x HX ps (eq_sym E1) F H1) as [X1 X2]. destruct (int_sum l y HY ps (eq_sym E1) F H1) as [Y1 Y2].
    assert (N : IZR (zsum (map snd ps)) * bp (-2) <> 0) by (apply Rmult_integral_contrapositive_currified; [apply IZR_neq; exact H2|pose proof (bp_pos (-2)); lra]).
    apply (B2R_inj 53 1024 (x : f64) (y : f64)); [apply is_finite_strict_B2R; rewrite X2; exact N|apply is_finite_strict_B2R; rewrite Y2; exact N|rewrite X2, Y2; reflexivity].
  Qed.
  Definition ent (f g : @v3 AF -> @num AF) : list f64 := map (fun p => fmul (f (fc_row p)) (g (fc_row p))) far_points.
  Ltac calc := clear; unfold ent, far_points, at2, AF; destruct asc; vm_cast_no_check (eq_refl true).
  Lemma ent_xx : same_sum (ent x3 x3) = true. Proof. calc. Qed.
  Lemma ent_xy : same_sum (ent x3 y3) = true. Proof. calc. Qed.
  Lemma ent_xz : same_sum (ent x3 z3) = true. Proof. calc. Qed.
  Lemma ent_yx : same_sum (ent y3 x3) = true. Proof. calc. Qed.
  Lemma ent_yy : same_sum (ent y3 y3) = true. Proof. calc. Qed.
  Lemma ent_yz : same_sum (ent y3 z3) = true. Proof. calc. Qed.
  Lemma ent_zx : same_sum (ent z3 x3) = true. Proof. calc. Qed.
  Lemma ent_zy : same_sum (ent z3 y3) = true. Proof. calc. Qed.
  Lemma ent_zz : same_sum (ent z3 z3) = true. Proof. calc. Qed.
  Lemma far_gram g : gram_any (A := AF) far_points g -> g = fc_gram far_points.
  Proof.
    intros ((A1 & A2 & A3) & (B1 & B2 & B3) & (C1 & C2 & C3)). destruct g as [[a1 a2 a3] [b1 b2 b3] [c1 c2 c3]]. cbn [row0 row1 row2 x3 y3 z3] in *. unfold fc_gram.
    f_equal; f_equal; (eapply same_sum_eq; [|eassumption|apply nsum_sum]); [exact ent_xx|exact ent_xy|exact ent_xz|exact ent_yx|exact ent_yy|exact ent_yz|exact ent_zx|exact ent_zy|exact ent_zz].
  Qed.
  (** the terms of the sums that give the centre and the radius *)
  Definition terms (r : @v3 AF) : list f64 := map (fun p => fmul (dot3 r (fc_row p)) (fc_y p)) far_points.
  Fixpoint adds (u b : Z) (l : list f64) : option Z :=
    match l with
    | [] => Some 0%Z
    | x :: l => match B2SF x, adds u b l with
                | SpecFloat.S754_finite s m e, Some n => if ((u <=? e) && (Zpos m * 2 ^ (e - u) <=? b))%Z then Some (cond_Zopp s (Zpos m) * 2 ^ (e - u) + n)%Z else None
                | SpecFloat.S754_zero _, Some n => Some n
                | _, _ => None
                end
    end.
  Lemma adds_val u j b l : (u <= j)%Z -> b = (2 ^ (j - u))%Z -> forall n, adds u b l = Some n -> rsum (map (@B2R 53 1024) l) = IZR n * bp u /\ Forall (bnd j) l.
  Proof.
    intros UJ EB. induction l as [|x l IH]; cbn [adds]; intros n H.
    - injection H as <-. split; [cbn; ring|constructor].
    - assert (FX := is_finite_SF_B2SF 53 1024 x). assert (VX := SF2R_B2SF 53 1024 x). destruct (B2SF x) as [z| | |s m e]; try discriminate; (destruct (adds u b l) as [k|]; [|discriminate]).
      { injection H as <-. destruct (IH k eq_refl) as [I1 I2]. cbn in VX. split; [cbn [map rsum fold_right]; fold (rsum (map (@B2R 53 1024) l)); rewrite <- VX, I1; ring|]. constructor; [|exact I2]. split; [rewrite <- FX; reflexivity|]. rewrite <- VX, Rabs_R0. apply Rlt_le, bp_pos. }
      destruct ((u <=? e) && _)%Z eqn:C; [|discriminate]. injection H as <-.
      apply andb_true_iff in C. destruct C as [C1 C2]. apply Z.leb_le in C1. apply Z.leb_le in C2. destruct (IH k eq_refl) as [I1 I2].
      assert (V : B2R x = IZR (cond_Zopp s (Zpos m) * 2 ^ (e - u)) * bp u).
      { rewrite <- VX. cbn [SF2R]. unfold F2R. cbn [Fnum Fexp]. rewrite mult_IZR. change (2 ^ (e - u))%Z with (radix2 ^ (e - u))%Z. rewrite (IZR_Zpower radix2 (e - u)) by lia. change (bpow radix2 (e - u)) with (bp (e - u)). rewrite Rmult_assoc, <- bp_add. f_equal. unfold bp. f_equal. lia. }
      split; [cbn [map rsum fold_right]; fold (rsum (map (@B2R 53 1024) l)); rewrite I1, V, plus_IZR; ring|]. constructor; [|exact I2]. split; [rewrite <- FX; reflexivity|].
      rewrite V, Rabs_mult, <- abs_IZR, (Rabs_right (bp u)) by (apply Rle_ge, Rlt_le, bp_pos). replace j with (j - u + u)%Z by ring. rewrite bp_add. apply Rmult_le_compat_r; [apply Rlt_le, bp_pos|].
      unfold bp. rewrite <- (IZR_Zpower radix2 (j - u)) by lia. apply IZR_le. change (Z.of_nat 0) with 0%Z. change (radix2 ^ (j - u))%Z with (2 ^ (j - u))%Z. destruct s; cbn [cond_Zopp]; lia.
  Qed.
  Lemma total_near u j l n x : (-900 <= u <= j)%Z -> (j < 800)%Z -> (Z.of_nat (length l) <= 2 ^ 5)%Z -> adds u (2 ^ (j - u)) l = Some n -> sum_of (A := AF) l x -> is_finite (x : f64) = true /\ Rabs (B2R (x : f64) - IZR n * bp u) <= bp (j + 5 + 5 - 54).
  Proof.
    intros UJ J8 LE H S. destruct (adds_val u j _ l ltac:(lia) eq_refl n H) as [V F].
    destruct (sum_apx lm asc j 5 0 l x (map (fun t => (t, B2R t)) l) ltac:(lia) ltac:(lia) ltac:(lia) (Rle_refl 0) S) as ((F1 & _) & _ & D).
    - rewrite map_map. symmetry. apply map_id.
    - apply Forall_map. apply (Forall_impl _ (P := bnd j)); [|exact F]. intros t B. apply apx_exact. exact B.
    - rewrite map_length. exact LE.
    - split; [exact F1|]. rewrite map_map in D. cbn [snd] in D. rewrite <- V. eapply Rle_trans; [exact D|]. rewrite Rplus_0_l, <- bp_add. apply bp_le. lia.
  Qed.
  Definition row (i : nat) : @v3 AF := let m := inv3 (fc_gram far_points) in match i with 0%nat => row0 m | 1%nat => row1 m | _ => row2 m end.
  Definition sum_in (l : list f64) (u j lo hi : Z) : bool := match adds u (2 ^ (j - u)) l with Some n => ((lo <=? n) && (n <=? hi))%Z | None => false end.
  Ltac calc2 := clear; unfold sum_in, terms, row, far_points, at2, AF; destruct asc; vm_cast_no_check (eq_refl true).
  Lemma sum_0 : sum_in (terms (row 0)) (-40) 17 5497558138879900 5497558138880100 = true. Proof. calc2. Qed.
  Lemma sum_1 : sum_in (terms (row 1)) (-40) 17 5497558138879900 5497558138880100 = true. Proof. calc2. Qed.
  Lemma sum_2 : sum_in (terms (row 2)) (-40) 31 (-54974899823532174214) (-54974899822432662586) = true. Proof. calc2. Qed.
  Lemma terms_len r : (Z.of_nat (length (terms r)) <= 2 ^ 5)%Z.
  Proof. unfold terms, far_points. rewrite !map_length. discriminate. Qed.
  Lemma comp_terms r x : comp_any (A := AF) far_points r x -> sum_of (A := AF) (terms r) x.
  Proof. exact (fun H => H). Qed.
  Lemma sum_val l u j lo hi x : (-900 <= u <= j)%Z -> (j < 800)%Z -> (Z.of_nat (length l) <= 2 ^ 5)%Z -> sum_in l u j lo hi = true -> sum_of (A := AF) l x -> is_finite (x : f64) = true /\ IZR lo * bp u - bp (j + 5 + 5 - 54) <= B2R (x : f64) <= IZR hi * bp u + bp (j + 5 + 5 - 54).
  Proof.
    intros UJ J8 L5 S H. unfold sum_in in S. destruct (adds u (2 ^ (j - u)) l) as [n|] eqn:Q; [|discriminate]. apply andb_true_iff in S. destruct S as [S1 S2]. apply Z.leb_le, IZR_le in S1. apply Z.leb_le, IZR_le in S2.
    destruct (total_near u j l n x UJ J8 L5 Q H) as [F D]. split; [exact F|]. apply Rabs_le_inv in D. pose proof (bp_pos u) as P.
    assert (M1 : IZR lo * bp u <= IZR n * bp u) by (apply Rmult_le_compat_r; [apply Rlt_le; exact P|exact S1]). assert (M2 : IZR n * bp u <= IZR hi * bp u) by (apply Rmult_le_compat_r; [apply Rlt_le; exact P|exact S2]).
    clear Q H S1 S2 F P. revert D M1 M2. generalize (IZR lo * bp u) (IZR n * bp u) (IZR hi * bp u) (bp (j + 5 + 5 - 54)) (B2R (x : f64)). clear. intros. lra.
  Qed.
  Theorem far_fit c rad : fits_any (A := AF) far_points c rad -> is_finite (rad : f64) = true /\ 2489 / 100 <= B2R (rad : f64) <= 249 / 10.
  Proof.
    intros (_ & g & z & G & X & Y & Z & ->). apply far_gram in G. subst g.
    destruct (sum_val (terms (row 0)) (-40) 17 _ _ (x2 c) ltac:(lia) ltac:(lia) (terms_len _) sum_0 (comp_terms _ _ X)) as [FX VX]. destruct (sum_val (terms (row 1)) (-40) 17 _ _ (y2 c) ltac:(lia) ltac:(lia) (terms_len _) sum_1 (comp_terms _ _ Y)) as [FY VY]. destruct (sum_val (terms (row 2)) (-40) 31 _ _ z ltac:(lia) ltac:(lia) (terms_len _) sum_2 (comp_terms _ _ Z)) as [FZ VZ].
    assert (B40 : bp (-40) = / 1099511627776) by (unfold bp; simpl; lra). assert (B27 : bp (17 + 5 + 5 - 54) = / 134217728) by (unfold bp; simpl; lra). assert (B13 : bp (31 + 5 + 5 - 54) = / 8192) by (unfold bp; simpl; lra).
    rewrite B40, B27 in VX, VY. rewrite B40, B13 in VZ.
    assert (VX' : 5000 - / 100000000 <= B2R (x2 c : f64) <= 5000 + / 100000000) by (clear -VX; lra). assert (VY' : 5000 - / 100000000 <= B2R (y2 c : f64) <= 5000 + / 100000000) by (clear -VY; lra).
    assert (VZ' : - 49999380121 / 1000 <= B2R (z : f64) <= - 49999380118 / 1000) by (clear -VZ; lra). clear VX VY VZ.
    assert (P26 : bp 26 = 67108864) by (unfold bp; simpl; lra). assert (P13 : bp 13 = 8192) by (unfold bp; simpl; lra).
    assert (AX : apx 13 0 (x2 c : f64) (B2R (x2 c : f64))) by (apply apx_exact; split; [exact FX|apply Rabs_le; lra]). assert (AY : apx 13 0 (y2 c : f64) (B2R (y2 c : f64))) by (apply apx_exact; split; [exact FY|apply Rabs_le; lra]).
    assert (AZ : apx 26 0 (z : f64) (B2R (z : f64))) by (apply apx_exact; split; [exact FZ|apply Rabs_le; lra]).
    pose proof (apx_mul 13 13 0 0 _ _ _ _ ltac:(lia) AX AX) as MX. pose proof (apx_mul 13 13 0 0 _ _ _ _ ltac:(lia) AY AY) as MY. pose proof (apx_add 26 _ _ _ _ _ _ ltac:(lia) AZ MX) as S1. apply (apx_weak 26 27 _ _ _ _ ltac:(lia) (Rle_refl _)) in MY.
    pose proof (apx_add 27 _ _ _ _ _ _ ltac:(lia) S1 MY) as S2. change (@nsqrt AF) with fsqrt. change (@nadd AF) with fadd. change (@nmul AF) with fmul. clear AX AY AZ MX MY S1 X Y Z.
    destruct S2 as ((FS & _) & _ & D). set (s := fadd _ (fmul (y2 c) (y2 c))) in *. clearbody s. generalize dependent (B2R (x2 c : f64)). generalize dependent (B2R (y2 c : f64)). generalize dependent (B2R (z : f64)). clear FX FY FZ. intros rz VZ ry VY rx VX D.
    assert (QX : 25000000 - / 1000 <= rx * rx <= 25000000 + / 1000) by nra. assert (QY : 25000000 - / 1000 <= ry * ry <= 25000000 + / 1000) by nra.
    assert (E1 : bp (13 + 13 - 54) <= / 10000) by (unfold bp; simpl; lra). assert (E2 : bp (26 - 53) <= / 10000) by (unfold bp; simpl; lra). assert (E3 : bp (27 - 53) <= / 10000) by (unfold bp; simpl; lra).
    apply Rabs_le_inv in D. assert (VS : 61987 / 100 <= B2R s <= 61989 / 100) by lra.
    destruct (sqrt_val s FS ltac:(lra)) as [FR VR]. split; [exact FR|]. rewrite VR. set (t := sqrt (B2R s)). assert (TP : 0 <= t) by apply sqrt_pos. assert (TT : t * t = B2R s) by (apply sqrt_sqrt; lra). clearbody t.
    assert (T1 : 24896 / 1000 <= t) by (clear -TP TT VS; nra). assert (T2 : t <= 24899 / 1000) by (clear -TP TT VS; nra). assert (P5 : bp 5 = 32) by (unfold bp; simpl; lra).
    pose proof (rnd_err 5 t ltac:(lia) ltac:(apply Rabs_le; lra)) as RE. assert (E4 : bp (5 - 54) <= / 10000) by (unfold bp; simpl; lra). apply Rabs_le_inv in RE. lra.
  Qed.
  (** the whole measurement *)
  Definition at3 (q : Z * Z) : @v3 AF := V3 (fz_ (fst q)) (fz_ (snd q)) (fz_ 0).
  Lemma flat_points l : map xy (map at3 l) = map at2 l. Proof. rewrite map_map. reflexivity. Qed.
  Definition spot (x y : Z) : @v2 AF := xy (mulm (tpl lm asc x y 0) mZP).
  Definition ring_all (l : list (Z * Z)) (t : @v2 AF) : bool :=
    let k := @closest AF (map at2 l) 3 t in
    match @find_circle AF k with
    | Some (c, r) =>
        let mn := @nmul AF r (@nsub AF (@n1 AF) del) in let mx := @nmul AF r (@nadd AF (@n1 AF) del) in
        negb (@nlt AF mx nz || @ngt AF mn mx) && forallb (fun p => let r2 := sqn2 (sub2 p c) in @nlt AF (@nmul AF mn mn) r2 && @nlt AF r2 (@nmul AF mx mx)) (map at2 l)
    | None => false
    end.
  Lemma forallb_filter {T} (f : T -> bool) l : forallb f l = true -> filter f l = l.
  Proof. induction l as [|x l IH]; [reflexivity|]. cbn. intro H. apply andb_true_iff in H. destruct H as [-> H]. rewrite (IH H). reflexivity. Qed.
  Lemma ring_all_fit l t : ring_all l t = true -> @fit_circle AF (map at3 l) t = @find_circle AF (map at2 l).
  Proof.
    unfold ring_all, fit_circle. rewrite flat_points. cbv zeta. destruct (find_circle (closest (map at2 l) 3 t)) as [[c r]|]; [|discriminate]. intro H. apply andb_true_iff in H. destruct H as [H1 H2]. apply negb_true_iff in H1.
    unfold Ast.between. rewrite H1. rewrite (forallb_filter _ _ H2). reflexivity.
  Qed.
  Lemma far_ring : ring_all far (spot 5025 5000) = true.
  Proof. clear. unfold ring_all, spot, tpl, at2, AF, ExErr.AX. destruct asc; vm_cast_no_check (eq_refl true). Qed.
  Lemma find_some l : (3 <= length l)%nat -> exists c r, @find_circle AF l = Some (c, r).
  Proof. intro H. unfold find_circle. destruct (Nat.ltb_spec (length l) 3) as [L|L]; [lia|]. cbv zeta. do 2 eexists. reflexivity. Qed.
  Lemma far_measured : exists c r, @fit_circle AF (map at3 far) (spot 5025 5000) = Some (c, r) /\ is_finite (r : f64) = true /\ 2489 / 100 <= B2R (r : f64) <= 249 / 10.
  Proof.
    destruct (find_some far_points) as (c & r & Q); [unfold far_points; rewrite map_length; cbn; lia|]. exists c, r. split; [rewrite (ring_all_fit far (spot 5025 5000) far_ring); exact Q|]. exact (far_fit c r (find_any _ _ _ Q)).
  Qed.
End Far.

(** Whole-number points of the circle of radius 5 about the origin, the origin, and a point
    well outside. *)
Definition close_by : list (Z * Z) := [(-8, 0); (-5, 0); (-4, -3); (-4, 3); (-3, -4); (-3, 4); (0, -5); (0, 0); (0, 5); (3, -4); (3, 4); (4, -3); (4, 3); (5, 0)]%Z.
Definition rpair (q : Z * Z) : pt2 := (IZR (fst q), IZR (snd q)).
Definition on5 (q : Z * Z) : bool := (fst q * fst q + snd q * snd q =? 25)%Z.

(** ** Dimensions of circles *)
Section Dims.
  Context (lm : libm) (asc : bool) (E : @Env (F64 lm asc)).
  #[local] Instance AD : Arith := F64 lm asc.
  Definition circ_case (k : dkind) (x y : Z) : dim := Dim k lc [mt lm asc "at" (tpl lm asc x y 0); mt lm asc "dir" (tpl lm asc 1 1 0); mt lm asc "center" (tpl lm asc x y 0)].
  Lemma circ_case_args k x y ps c r : (3 <= length ps)%nat -> @fit_circle AD ps (spot lm asc x y) = Some (c, r) -> @circ_args AD E ps mZP (d_meta (circ_case k x y)) <> None.
  Proof.
    intros L F. change (@circ_args AD E ps mZP (d_meta (circ_case k x y))) with
      (if (length ps <? 3)%nat then None else match @fit_circle AD ps (spot lm asc x y) with Some (ce, rad) => Some (B "%.3f", ce, spot lm asc x y, spot lm asc 1 1, rad) | None => None end).
    destruct (Nat.ltb_spec (length ps) 3) as [H|H]; [lia|]. rewrite F. discriminate.
  Qed.
  Lemma circ_case_ok k x y (s : @vst AD) c r : k = KRad \/ k = KDia -> v_rot s = mZP -> (3 <= length (v_points s))%nat -> @fit_circle AD (v_points s) (spot lm asc x y) = Some (c, r) ->
    exists s' d', visit_base_dim (circ_case k x y) s = Ret (s', d', true).
  Proof.
    intros K V L F. assert (G := circ_case_args k x y _ _ _ L F). assert (VO : @eqm AD (v_rot s) zerom = false) by (rewrite V; exact (view_ok lm asc E)).
    assert (OK : NoDup (names (d_meta (circ_case k x y))) /\ only circ_keys (d_meta (circ_case k x y)) /\ @circ_args AD E (v_points s) (v_rot s) (d_meta (circ_case k x y)) <> None).
    { split; [cbn; repeat constructor; cbn; intuition discriminate|]. split; [|rewrite V; exact G]. intros n [<-|[<-|[<-|[]]]]; eexists; (split; [|reflexivity]); cbn; tauto. }
    unfold visit_base_dim. destruct K as [-> | ->].
    - destruct (visit_circ_spec "rad" draw_rad (circ_case KRad x y) s VO) as (s' & ml' & ok & H & K1 & _). assert (O : ok = true) by (apply K1; exact OK). subst ok.
      exists s', (Dim KRad lc ml'). change (d_kind (circ_case KRad x y)) with KRad. change (d_loc (circ_case KRad x y)) with lc. cbv iota. unfold visit_rad. rewrite H. reflexivity.
    - destruct (visit_circ_spec "dia" draw_dia (circ_case KDia x y) s VO) as (s' & ml' & ok & H & K1 & _). assert (O : ok = true) by (apply K1; exact OK). subst ok.
      exists s', (Dim KDia lc ml'). change (d_kind (circ_case KDia x y)) with KDia. change (d_loc (circ_case KDia x y)) with lc. cbv iota. unfold visit_dia. rewrite H. reflexivity.
  Qed.
  Lemma circ_case_on k x y (s : @vst AD) ps c r : k = KRad \/ k = KDia -> v_rot s = mZP -> v_points s = ps -> (3 <= length ps)%nat -> @fit_circle AD ps (spot lm asc x y) = Some (c, r) ->
    exists s' d', visit_base_dim (circ_case k x y) s = Ret (s', d', true).
  Proof. intros K V <-. apply circ_case_ok; assumption. Qed.
  Lemma circ_case_names k x y : NoDup (names (d_meta (circ_case k x y))). Proof. cbn; repeat constructor; cbn; intuition discriminate. Qed.
  Lemma circ_case_center k x y ps : evaluates ps mZP (d_meta (circ_case k x y)) "center" (@mulm AD (tpl lm asc x y 0) mZP).
  Proof.
    exists (mt lm asc "center" (tpl lm asc x y 0)), (PVal (tpl lm asc x y 0) lc), (PVal (@mulm AD (tpl lm asc x y 0) mZP) lc). split; [cbn; tauto|]. split; [reflexivity|]. split; [reflexivity|]. split; [split; [reflexivity|split; reflexivity]|reflexivity].
  Qed.
  Lemma circ_case_format k x y : format64 lm asc (d_meta (circ_case k x y)) 3 [] 3 []. Proof. left; split; [cbn; intuition discriminate|auto]. Qed.
  (** ** Far away the label of a radius of 25 says less than 24.91 *)
  Lemma far_label (STD : std64 lm asc E) (s : @vst AD) : v_rot s = mZP -> v_points s = map (at3 lm asc) far ->
    exists s' d' w pos q, visit_base_dim (circ_case KRad 5025 5000) s = Ret (s', d', true) /\ o_text (v_page s') = o_text (v_page s) ++ [Text pos (B "R" ++ w) true false] /\ fixed 3 w q /\ q < 2491 / 100.
  Proof.
    intros V P. destruct (far_measured lm asc) as (c & r & FC & FR & VR).
    destruct (circ_case_ok KRad 5025 5000 s c r (or_introl eq_refl) V) as (s' & d' & H); [rewrite P, map_length; cbn; lia|rewrite P; exact FC|].
    destruct (circ_visit_any (circ_case KRad 5025 5000) s s' d' (or_intror eq_refl) H) as (N & fm & a & dr & t' & ce & r' & FA & EV' & FC' & Q). rewrite V in EV'. rewrite (evaluates_fun _ _ _ _ _ _ N EV' (circ_case_center KRad 5025 5000 (v_points s))) in FC'. rewrite P in FC'.
    assert (FC2 : Some (ce, r') = Some (c, r)) by (transitivity (@fit_circle AD (map (at3 lm asc) far) (spot lm asc 5025 5000)); [symmetry; exact FC'|exact FC]). injection FC2 as -> ->.
    change (d_kind (circ_case KRad 5025 5000)) with KRad in Q. cbv iota in Q. destruct (rad_text_any fm c (xy a) (xy dr) r s) as (pos & TX).
    assert (C : close 0 (r : f64) (B2R (r : f64))) by (split; [exact FR|rewrite Rminus_diag_eq, Rabs_R0 by reflexivity; apply Rle_refl]).
    destruct (formatted64 lm asc E STD _ "%.3f" (B "3") 3 fm [] 3 [] _ _ _ N eq_refl ltac:(split; [discriminate|reflexivity]) ltac:(lia) FA (circ_case_format KRad 5025 5000) C) as (w & QW & q & FX & DW).
    exists s', d', w, pos, q. split; [exact H|]. split; [rewrite Q; eapply eq_trans; [exact TX|]; do 3 f_equal; f_equal; eapply eq_trans; [exact QW|apply app_nil_r]|]. split; [exact FX|]. apply Rabs_le_inv in DW. assert (T : ten (- Z.of_nat 3) = / 1000) by (unfold ten; simpl; lra). rewrite T in DW. lra.
  Qed.
  (** ** Near the origin *)
  Lemma val_at q : (Z.abs (fst q) < 2 ^ 53)%Z -> (Z.abs (snd q) < 2 ^ 53)%Z -> finite2 (at2 lm asc q) /\ val2 (at2 lm asc q) = rpair q.
  Proof.
    intros H1 H2. destruct (apx_int 53 (fst q) ltac:(lia) ltac:(lia) ltac:(lia)) as ((A1 & _) & _). destruct (apx_int 53 (snd q) ltac:(lia) ltac:(lia) ltac:(lia)) as ((B1 & _) & _).
    split; [split; [exact A1|exact B1]|]. unfold val2, at2, rpair. cbn [x2 y2]. rewrite !fz_val by lia. reflexivity.
  Qed.
  Definition small (q : Z * Z) : Prop := (Z.abs (fst q) <= 8)%Z /\ (Z.abs (snd q) <= 8)%Z.
  Lemma vals l : (forall q, In q l -> small q) -> Forall (@finite2 lm asc) (map (at2 lm asc) l) /\ map val2 (map (at2 lm asc) l) = map rpair l.
  Proof.
    intro H. rewrite map_map. split.
    - apply Forall_forall. intros p I. apply in_map_iff in I. destruct I as (q & <- & I). destruct (H q I). apply val_at; lia.
    - apply map_ext_in. intros q I. destruct (H q I). apply val_at; lia.
  Qed.
  Lemma close_small q : In q close_by -> small q.
  Proof. intro I. unfold small. repeat (destruct I as [<-|I]; [cbn; lia|]). destruct I. Qed.
  Lemma rpair_bnd q : small q -> Rabs (fst (rpair q)) <= bp 3 /\ Rabs (snd (rpair q)) <= bp 3.
  Proof. intros [H1 H2]. unfold rpair. cbn [fst snd]. rewrite <- !abs_IZR. change (bp 3) with (IZR 8). split; apply IZR_le; lia. Qed.
  Definition pick_ok (l : list (@v2 AD)) : bool :=
    match l with
    | [a; b; c] => let t p x y := match quarters (x2 p : f64), quarters (y2 p : f64) with Some m, Some n => (m =? 4 * x)%Z && (n =? 4 * y)%Z | _, _ => false end in t a 5%Z 0%Z && t b 4%Z (-3)%Z && t c 4%Z 3%Z
    | _ => false
    end.
  Lemma pick_true : pick_ok (@closest AD (map (at2 lm asc) close_by) 3 (spot lm asc 5 0)) = true.
  Proof. clear. unfold pick_ok, spot, tpl, at2, AD, AF, ExErr.AX. destruct asc; vm_cast_no_check (eq_refl true). Qed.
  Lemma quarters_pair (p : @v2 AD) x y : match quarters (x2 p : f64), quarters (y2 p : f64) with Some m, Some n => (m =? 4 * x)%Z && (n =? 4 * y)%Z | _, _ => false end = true -> val2 p = rpair (x, y).
  Proof.
    destruct (quarters (x2 p)) as [m|] eqn:Q1; [|discriminate]. destruct (quarters (y2 p)) as [n|] eqn:Q2; [|discriminate]. intro H. apply andb_true_iff in H. destruct H as [H1 H2]. apply Z.eqb_eq in H1. apply Z.eqb_eq in H2. subst m n.
    apply quarters_val in Q1. apply quarters_val in Q2. destruct Q1 as [_ Q1]. destruct Q2 as [_ Q2]. assert (B : bp (-2) = / 4) by (unfold bp; simpl; lra). rewrite B, mult_IZR in Q1, Q2.
    assert (W1 : B2R (x2 p : f64) = IZR x) by (eapply eq_trans; [exact Q1|field]). assert (W2 : B2R (y2 p : f64) = IZR y) by (eapply eq_trans; [exact Q2|field]). unfold val2, rpair. cbn [fst snd]. f_equal; assumption.
  Qed.
  Lemma pick_vals l : pick_ok l = true -> map val2 l = map rpair [(5, 0); (4, -3); (4, 3)]%Z.
  Proof.
    unfold pick_ok. intro H. destruct l as [|a [|b [|c [|]]]]; try discriminate. cbv zeta in H.
    apply andb_true_iff in H. destruct H as [H H3]. apply andb_true_iff in H. destruct H as [H1 H2]. cbn [map]. rewrite (quarters_pair _ _ _ H1), (quarters_pair _ _ _ H2), (quarters_pair _ _ _ H3). reflexivity.
  Qed.
  Lemma close_first : map val2 (@closest AD (map (at2 lm asc) close_by) 3 (spot lm asc 5 0)) = map rpair [(5, 0); (4, -3); (4, 3)]%Z.
  Proof. exact (pick_vals _ pick_true). Qed.
  Definition is_some {T} (o : option T) : bool := match o with Some _ => true | None => false end.
  Lemma is_some_ex {T} (o : option T) : is_some o = true -> exists x, o = Some x. Proof. destruct o as [x|]; [exists x; reflexivity|discriminate]. Qed.
  Lemma near_fits_true : is_some (@fit_circle AD (map (at3 lm asc) close_by) (spot lm asc 5 0)) = true.
  Proof. clear. unfold spot, tpl, at3, AD, AF, ExErr.AX. destruct asc; vm_cast_no_check (eq_refl true). Qed.
  Lemma close_len : (3 <= length (map (at3 lm asc) close_by))%nat. Proof. rewrite map_length. cbn. lia. Qed.
  Lemma near_case_ok k (s : @vst AD) : k = KRad \/ k = KDia -> v_rot s = mZP -> v_points s = map (at3 lm asc) close_by -> exists s' d', visit_base_dim (circ_case k 5 0) s = Ret (s', d', true).
  Proof.
    intros K V P. destruct (is_some_ex _ near_fits_true) as ([c r] & Q).
    exact (circ_case_on k 5 0 s (map (at3 lm asc) close_by) c r K V P close_len Q).
  Qed.
End Dims.
Lemma gap_pair q : gap2 (rpair q) (0, 0) = IZR (fst q * fst q + snd q * snd q).
Proof. unfold gap2, rpair. cbn [fst snd]. rewrite plus_IZR, !mult_IZR. ring. Qed.
Lemma dist_5 q : on5 q = true -> dist (rpair q) (0, 0) = 5.
Proof. unfold on5. intro H. apply Z.eqb_eq in H. unfold dist. rewrite gap_pair, H. replace 25 with (5 * 5) by ring. apply sqrt_square. lra. Qed.
Lemma far_5 q : In q close_by -> on5 q = false -> 5 / 8 <= Rabs (dist (rpair q) (0, 0) - 5).
Proof.
  intros I O. repeat (destruct I as [<-|I]; [first [discriminate O|idtac]|]); [| |destruct I]; unfold dist; rewrite gap_pair; cbn [fst snd].
  - change (IZR (-8 * -8 + 0 * 0)) with 64. replace 64 with (8 * 8) by ring. rewrite sqrt_square by lra. rewrite Rabs_right by lra. lra.
  - change (IZR (0 * 0 + 0 * 0)) with 0. rewrite sqrt_0, Rabs_left by lra. lra.
Qed.
Lemma close_apart : apart (map rpair close_by) (0, 0) 5.
Proof. intros p I. apply in_map_iff in I. destruct I as (q & <- & I). destruct (on5 q) eqn:O; [left; rewrite (dist_5 q O), Rminus_diag_eq, Rabs_R0 by reflexivity; lra|right; apply (far_5 q I O)]. Qed.
Lemma close_ring : near_circle (map rpair close_by) (0, 0) 5 = map rpair (filter on5 close_by).
Proof.
  unfold near_circle. assert (T : forall q, In q close_by -> in_ring (5 * (9 / 10)) (5 * (11 / 10)) (0, 0) (rpair q) = on5 q).
  { intros q I. destruct (on5 q) eqn:O; [apply ring_iff; rewrite (dist_5 q O); lra|]. pose proof (far_5 q I O) as H. destruct (in_ring _ _ _ _) eqn:Q; [|reflexivity]. apply ring_iff in Q. exfalso. unfold Rabs in H. destruct (Rcase_abs _); lra. }
  revert T. generalize close_by. induction l as [|q l IH]; intro T; [reflexivity|]. cbn [map filter]. rewrite (T q (or_introl eq_refl)), (IH (fun p I => T p (or_intror I))). destruct (on5 q); reflexivity.
Qed.
Lemma best_5 l : (forall q, In q l -> on5 q = true) -> det (map rpair l) <> 0 -> best_circle (map rpair l) (0, 0) 5.
Proof.
  intros H D. apply circle_best; [apply det_spread; exact D|lra|]. intros p I. apply in_map_iff in I. destruct I as (q & <- & I). specialize (H q I). unfold on5 in H. apply Z.eqb_eq in H. rewrite gap_pair, H. lra.
Qed.
Ltac dets := unfold det, sxx, sxy, syy, sxz, syz, szz, total, rpair; cbn [map fold_right fst snd].
Lemma fixes_5 k m d l : (2 <= m <= 40)%Z -> (0 <= d)%Z -> (m + d <= 44)%Z -> (-80 <= k <= 80)%Z -> (3 <= k)%Z -> (Z.of_nat (length l) <= 2 ^ m)%Z -> (forall q, In q l -> on5 q = true) -> bp (4 * k - 2) * bp (3 * m - d) <= det (map rpair l) ->
  bp (2 * k + m + d - 41) <= 25 -> fixes k m d (map rpair l) (0, 0) 5.
Proof.
  intros M D MD K K3 L O A R. split; [exact K|]. split; [exact M|]. split; [exact D|]. split; [exact MD|]. split; [rewrite map_length; exact L|]. pose proof (bp_le 3 k K3) as K8.
  split; [|split; [rewrite areas_det; exact A|split; [apply best_5; [exact O|]|]]].
  - intros p [<-|I]; [cbn [fst snd]; rewrite Rabs_R0; pose proof (bp_pos k); lra|]. apply in_map_iff in I. destruct I as (q & <- & I). specialize (O q I). unfold on5 in O. apply Z.eqb_eq in O.
    assert (S : small q) by (unfold small; nia). destruct (rpair_bnd q S). split; (eapply Rle_trans; [eassumption|exact K8]).
  - apply Rgt_not_eq. eapply Rlt_le_trans; [|exact A]. apply Rmult_lt_0_compat; apply bp_pos.
  - eapply Rle_trans; [exact R|]. lra.
Qed.
Lemma first_fixes : fixes 3 2 13 (map rpair [(5, 0); (4, -3); (4, 3)]%Z) (0, 0) 5.
Proof.
  apply fixes_5; try lia.
  - cbn. lia.
  - intros q [<-|[<-|[<-|[]]]]; reflexivity.
  - dets. unfold bp. simpl. lra.
  - unfold bp. simpl. lra.
Qed.
Lemma second_fixes : fixes 3 4 6 (map rpair (filter on5 close_by)) (0, 0) 5.
Proof.
  assert (Q : filter on5 close_by = [(-5, 0); (-4, -3); (-4, 3); (-3, -4); (-3, 4); (0, -5); (0, 5); (3, -4); (3, 4); (4, -3); (4, 3); (5, 0)]%Z) by reflexivity.
  apply fixes_5; try lia.
  - cbn. lia.
  - intros q I. apply filter_In in I. apply I.
  - rewrite Q. dets. unfold bp. simpl. lra.
  - unfold bp. simpl. lra.
Qed.
Section Near.
  Context (lm : libm) (asc : bool) (E : @Env (F64 lm asc)).
  #[local] Instance AN : Arith := F64 lm asc.
  Lemma near_meets : Forall (fun p => finite2 (xy p)) (map (at3 lm asc) close_by) /\ (forall p, In p (map (at3 lm asc) close_by) -> Rabs (fst (val2 (xy p))) <= bp 3 /\ Rabs (snd (val2 (xy p))) <= bp 3) /\
    fixes 3 2 13 (map val2 (@closest AN (map xy (map (at3 lm asc) close_by)) 3 (xy (@mulm AN (tpl lm asc 5 0 0) mZP)))) (0, 0) 5 /\ bp (2 * 3 + 13 - 33) <= 5 * 5 /\ apart (map val2 (map xy (map (at3 lm asc) close_by))) (0, 0) 5 /\
    fixes 3 4 6 (near_circle (map val2 (map xy (map (at3 lm asc) close_by))) (0, 0) 5) (0, 0) 5.
  Proof.
    assert (V1 : Forall (fun p => @finite2 lm asc (@xy AN p)) (map (at3 lm asc) close_by)) by (apply Forall_map; apply -> Forall_map; exact (proj1 (vals lm asc close_by close_small))).
    pose proof (proj2 (vals lm asc close_by close_small)) as V2. assert (FP : map (@xy AN) (map (at3 lm asc) close_by) = map (at2 lm asc) close_by) by exact (flat_points lm asc close_by).
    split; [exact V1|]. split.
    { intros p I. assert (J : In (val2 (xy p)) (map rpair close_by)) by (rewrite <- V2, <- FP; apply in_map, in_map, I). apply in_map_iff in J. destruct J as (q & <- & J). apply rpair_bnd, close_small, J. }
    assert (V3 : map val2 (map (@xy AN) (map (at3 lm asc) close_by)) = map rpair close_by) by (rewrite FP; exact V2).
    assert (C1 : map val2 (@closest AN (map (@xy AN) (map (at3 lm asc) close_by)) 3 (xy (@mulm AN (tpl lm asc 5 0 0) mZP))) = map rpair [(5, 0); (4, -3); (4, 3)]%Z) by (rewrite FP; exact (close_first lm asc)).
    split; [exact (eq_rect_r (fun l => fixes 3 2 13 l (0, 0) 5) first_fixes C1)|]. split; [unfold bp; simpl; lra|]. split; [exact (eq_rect_r (fun l => apart l (0, 0) 5) close_apart V3)|].
    apply (eq_rect_r (fun l => fixes 3 4 6 (near_circle l (0, 0) 5) (0, 0) 5) (x := map rpair close_by)); [rewrite close_ring; exact second_fixes|exact V3].
  Qed.
  Lemma near_all : let ps := map (at3 lm asc) close_by in let t := @mulm AN (tpl lm asc 5 0 0) mZP in
   Forall (fun p => finite2 (xy p)) ps /\ (forall p, In p ps -> Rabs (fst (val2 (xy p))) <= bp 3 /\ Rabs (snd (val2 (xy p))) <= bp 3) /\
   fixes 3 2 13 (map val2 (@closest AN (map xy ps) 3 (xy t))) (0, 0) 5 /\ bp (2 * 3 + 13 - 33) <= 5 * 5 /\ apart (map val2 (map xy ps)) (0, 0) 5 /\
   fixes 3 4 6 (near_circle (map val2 (map xy ps)) (0, 0) 5) (0, 0) 5 /\
   (exists c rad, @fit_circle AN ps (xy t) = Some (c, rad)) /\
   forall k, k = KRad \/ k = KDia -> d_kind (circ_case lm asc k 5 0) = k /\ format64 lm asc (d_meta (circ_case lm asc k 5 0)) 3 [] 3 [] /\
   forall s, v_rot s = mZP -> v_points s = ps -> evaluates (v_points s) (v_rot s) (d_meta (circ_case lm asc k 5 0)) "center" t /\
     exists s' d', visit_base_dim (circ_case lm asc k 5 0) s = Ret (s', d', true).
  Proof.
    cbv zeta. destruct near_meets as (H1 & H2 & H3 & H4 & H5 & H6). do 6 (split; [assumption|]). split.
    - destruct (is_some_ex _ (near_fits_true lm asc)) as ([c r] & Q). exists c, r. exact Q.
    - intros k K. split; [reflexivity|]. split; [apply circ_case_format|]. intros s V P. split; [rewrite V; apply (circ_case_center lm asc)|]. exact (near_case_ok lm asc E k s K V P).
  Qed.
End Near.

(** ** The far circle *)
Lemma far_on q : In q far -> (Z.abs (fst q) < 2 ^ 53)%Z /\ (Z.abs (snd q) < 2 ^ 53)%Z /\ gap2 (rpair q) (5000, 5000) = 25 * 25.
Proof.
  intro I. assert (H : ((Z.abs (fst q) <? 2 ^ 53) && (Z.abs (snd q) <? 2 ^ 53) && ((fst q - 5000) * (fst q - 5000) + (snd q - 5000) * (snd q - 5000) =? 625))%Z = true).
  { revert q I. apply forallb_forall. vm_compute. reflexivity. }
  apply andb_true_iff in H. destruct H as [H H3]. apply andb_true_iff in H. destruct H as [H1 H2]. apply Z.ltb_lt in H1. apply Z.ltb_lt in H2. apply Z.eqb_eq in H3. split; [exact H1|]. split; [exact H2|].
  apply (f_equal IZR) in H3. rewrite plus_IZR, !mult_IZR, !minus_IZR in H3. unfold gap2, rpair. cbn [fst snd]. rewrite H3. lra.
Qed.
Lemma far_spread : spread (map rpair far).
Proof.
  exists (rpair (4975, 5000)%Z), (rpair (5025, 5000)%Z), (rpair (5000, 5025)%Z). split; [apply in_map; cbn; tauto|]. split; [apply in_map; cbn; tauto|]. split; [apply in_map; cbn; tauto|].
  unfold corner, rpair. cbn [fst snd]. lra.
Qed.
Lemma far_vals lm asc : map val2 (map (at2 lm asc) far) = map rpair far.
Proof. rewrite map_map. apply map_ext_in. intros q I. destruct (far_on q I) as (H1 & H2 & _). apply (val_at lm asc q H1 H2). Qed.
Lemma far_circle : forall (lm : libm) (asc : bool), exists ps : list (@v2 (F64 lm asc)),
  length ps = 20%nat /\ (forall p, In p ps -> finite2 p /\ gap2 (val2 p) (5000, 5000) = 25 * 25) /\ best_circle (map val2 ps) (5000, 5000) 25 /\
  forall c rad, fits_any ps c rad -> is_finite (rad : f64) = true /\ B2R (rad : f64) <= 249 / 10.
Proof.
  intros lm asc. exists (far_points lm asc). split; [unfold far_points; rewrite map_length; reflexivity|]. split; [|split].
  - intros p I. apply in_map_iff in I. destruct I as (q & <- & I). destruct (far_on q I) as (H1 & H2 & H3). destruct (val_at lm asc q H1 H2) as [V1 V2]. split; [exact V1|]. rewrite V2. exact H3.
  - unfold far_points. rewrite (far_vals lm asc). apply circle_best; [exact far_spread|lra|]. intros p I. apply in_map_iff in I. destruct I as (q & <- & I). apply (far_on q I).
  - intros c rad H. destruct (far_fit lm asc c rad H) as (F & _ & L). split; [exact F|exact L].
Qed.
Lemma far_rad : forall (lm : libm) (asc : bool) (E : @Env (F64 lm asc)), std64 lm asc E ->
  exists (d : @dim (F64 lm asc)) (ps : list (@v3 (F64 lm asc))), d_kind d = KRad /\ length ps = 20%nat /\ (forall p, In p ps -> finite2 (xy p) /\ gap2 (val2 (xy p)) (5000, 5000) = 25 * 25) /\
  forall s, v_rot s = mZP -> v_points s = ps -> exists s' d' w pos q, visit_base_dim d s = Ret (s', d', true) /\
    o_text (v_page s') = o_text (v_page s) ++ [Text pos (B "R" ++ w) true false] /\ fixed 3 w q /\ q < 2491 / 100.
Proof.
  intros lm asc E STD. exists (circ_case lm asc KRad 5025 5000), (map (at3 lm asc) far). split; [reflexivity|]. split; [rewrite map_length; reflexivity|]. split.
  - intros p I. apply in_map_iff in I. destruct I as (q & <- & I). destruct (far_on q I) as (H1 & H2 & H3). destruct (val_at lm asc q H1 H2) as [V1 V2]. split; [exact V1|]. rewrite <- H3, <- V2. reflexivity.
  - intros s V P. exact (far_label lm asc E STD s V P).
Qed.
