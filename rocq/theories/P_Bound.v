(** P_Bound.v - rounding bounds in binary64: line generation never aborts for
    models of bounded size. *)
From Coq Require Import Reals Lra ZArith Lia Permutation.
From Flocq Require Import Core IEEE754.BinarySingleNaN.
From Verif Require Import Base Num NumReal NumF64 NumLaws Geo Stl Ast F64Spec P_Base P_Order P_Part P_Index P_Hide.

Local Unset Implicit Arguments.
Local Open Scope R_scope.

Lemma bp_pos k : 0 < bp k. Proof. apply bpow_gt_0. Qed.
Lemma bp_le j k : (j <= k)%Z -> bp j <= bp k. Proof. apply bpow_le. Qed.
Lemma bp_S k : bp (k + 1) = 2 * bp k.
Proof. unfold bp. rewrite bpow_plus. change (bpow radix2 1) with 2. ring. Qed.
Lemma bnd_mono j k x : (j <= k)%Z -> bnd j x -> bnd k x.
Proof. intros L [F B]. split; [exact F|]. pose proof (bp_le j k L). lra. Qed.

Notation rnd := (round radix2 (SpecFloat.fexp 53 1024) (round_mode mode_NE)).
Lemma rnd_bound k r : (-1074 <= k)%Z -> Rabs r <= bp k -> Rabs (rnd r) <= bp k.
Proof.
  intros L H. assert (V : Valid_exp (SpecFloat.fexp 53 1024)) by (apply (fexp_correct 53 1024); reflexivity).
  apply (abs_round_le_generic radix2 (SpecFloat.fexp 53 1024) (round_mode mode_NE)); [|exact H].
  apply generic_format_bpow. unfold SpecFloat.fexp, SpecFloat.emin. lia.
Qed.
Lemma bp_emax k r : (k < 1024)%Z -> Rabs r <= bp k -> Rlt_bool (Rabs r) (bpow radix2 1024) = true.
Proof. intros L H. apply Rlt_bool_true. eapply Rle_lt_trans; [exact H|]. apply bpow_lt. exact L. Qed.

Lemma bnd_add k x y : (-1075 <= k < 1023)%Z -> bnd k x -> bnd k y -> bnd (k + 1) (fadd x y).
Proof.
  intros L [F1 B1] [F2 B2]. assert (B : Rabs (rnd (B2R x + B2R y)) <= bp (k + 1)).
  { apply rnd_bound; [lia|]. rewrite bp_S. eapply Rle_trans; [apply Rabs_triang|]. lra. }
  pose proof (Bplus_correct 53 1024 prec64 emax64 mode_NE x y F1 F2) as C. rewrite (bp_emax (k + 1)) in C by (exact B || lia).
  destruct C as (C1 & C2 & _). split; [exact C2|]. unfold fadd. rewrite C1. exact B.
Qed.
Lemma bnd_sub k x y : (-1075 <= k < 1023)%Z -> bnd k x -> bnd k y -> bnd (k + 1) (fsub x y).
Proof.
  intros L [F1 B1] [F2 B2]. assert (B : Rabs (rnd (B2R x - B2R y)) <= bp (k + 1)).
  { apply rnd_bound; [lia|]. rewrite bp_S. unfold Rminus. eapply Rle_trans; [apply Rabs_triang|]. rewrite Rabs_Ropp. lra. }
  pose proof (Bminus_correct 53 1024 prec64 emax64 mode_NE x y F1 F2) as C. rewrite (bp_emax (k + 1)) in C by (exact B || lia).
  destruct C as (C1 & C2 & _). split; [exact C2|]. unfold fsub. rewrite C1. exact B.
Qed.
Lemma bnd_mul j k x y : (-1074 <= j + k < 1024)%Z -> bnd j x -> bnd k y -> bnd (j + k) (fmul x y).
Proof.
  intros L [F1 B1] [F2 B2]. assert (B : Rabs (rnd (B2R x * B2R y)) <= bp (j + k)).
  { apply rnd_bound; [lia|]. unfold bp. rewrite bpow_plus, Rabs_mult. apply Rmult_le_compat; try apply Rabs_pos; assumption. }
  pose proof (Bmult_correct 53 1024 prec64 emax64 mode_NE x y) as C. rewrite (bp_emax (j + k)) in C by (exact B || lia).
  destruct C as (C1 & C2 & _). split; [unfold fmul; rewrite C2, F1, F2; reflexivity|]. unfold fmul. rewrite C1. exact B.
Qed.
Lemma bnd_neg k x : bnd k x -> bnd k (fneg x).
Proof. intros [F B]. split; [unfold fneg; rewrite is_finite_Bopp; exact F|]. unfold fneg. rewrite B2R_Bopp, Rabs_Ropp. exact B. Qed.
Lemma bnd_ok k x : bnd k x -> feq x x = true.
Proof. intros [F _]. rewrite feq_key. destruct x; try discriminate; simpl; apply reqb_iff; reflexivity. Qed.
Lemma bnd_zero k : bnd k (fz_ 0).
Proof. split; [reflexivity|]. replace (B2R (fz_ 0)) with 0 by reflexivity. rewrite Rabs_R0. apply Rlt_le, bp_pos. Qed.
Lemma bnd_one : bnd 0 (fz_ 1).
Proof. split; [vm_compute; reflexivity|]. unfold fz_, norm64. pose proof (binary_normalize_correct 53 1024 prec64 emax64 mode_NE 1 0 false) as C.
  assert (R1 : F2R (Float radix2 1 0) = 1) by (unfold F2R; simpl; ring). rewrite R1 in C.
  assert (B : Rabs (rnd 1) <= bp 0) by (apply rnd_bound; [lia|]; unfold bp; simpl; rewrite Rabs_R1; lra).
  cbv zeta in C. rewrite (bp_emax 0) in C by (exact B || lia). destruct C as (C1 & _). rewrite C1. exact B.
Qed.
(** 0 <= j <= 1 *)
Lemma bnd_unit x : fle (fz_ 0) x = true -> fle x (fz_ 1) = true -> bnd 0 x.
Proof.
  rewrite !fle_key. assert (K1 : key (fz_ 1) = Fin (B2R (fz_ 1))) by reflexivity. rewrite K1.
  change (key (fz_ 0)) with (Fin 0). intros H1 H2. pose proof bnd_one as [_ B1].
  destruct x as [s|[]| |s m e He]; try discriminate; split; try reflexivity.
  - cbn [B2R]. rewrite Rabs_R0. apply Rlt_le, bp_pos.
  - unfold key in *. rewrite xle_fin in *. destruct (rleb_spec 0 (B2R (B754_finite s m e He))) as [P|]; [|discriminate].
    destruct (rleb_spec (B2R (B754_finite s m e He)) (B2R (fz_ 1))) as [Q|]; [|discriminate]. rewrite Rabs_pos_eq by exact P.
    eapply Rle_trans; [exact Q|]. eapply Rle_trans; [apply Rle_abs|exact B1].
Qed.
(** x - x is zero *)
Lemma fsub_self x : is_finite x = true -> fsub x x = B754_zero false.
Proof.
  intro F. pose proof (Bminus_correct 53 1024 prec64 emax64 mode_NE x x F F) as C. rewrite Rminus_diag_eq in C by reflexivity.
  rewrite round_0 in C by apply valid_rnd_N. rewrite Rabs_R0, Rlt_bool_true in C by apply bpow_gt_0. destruct C as (C1 & C2 & C3).
  rewrite Rcompare_Eq in C3 by reflexivity. unfold fsub. destruct (Bminus mode_NE x x) as [s|s| |s m e He]; try discriminate.
  - simpl in C3. rewrite C3. destruct (Bsign x); reflexivity.
  - simpl in C1. exfalso. apply eq_0_F2R in C1. simpl in C1. destruct s; discriminate.
Qed.

Section Lines.
  Context (lm : libm) (asc : bool).
  #[local] Instance AF : Arith := F64 lm asc.
  Notation bnd3 := (bnd3 lm asc). Notation bndm := (bndm lm asc). Notation bndF := (bndF lm asc). Notation fin3 := (fin3 lm asc).
  Notation finF := (finF lm asc). Notation unitm := (unitm lm asc). Notation trig_bounded := (trig_bounded lm).
  Lemma bnd3_mono j k p : (j <= k)%Z -> bnd3 j p -> bnd3 k p.
  Proof. intros L (H1 & H2 & H3). split; [|split]; eapply bnd_mono; eassumption. Qed.
  Lemma bnd3_ok k p : bnd3 k p -> ok3 p.
  Proof. intros (H1 & H2 & H3). split; [|split]; eapply bnd_ok; eassumption. Qed.
  Lemma bnd3_sub k p q : (-1075 <= k < 1023)%Z -> bnd3 k p -> bnd3 k q -> bnd3 (k + 1) (sub3 p q).
  Proof. intros L (H1 & H2 & H3) (G1 & G2 & G3). split; [|split]; apply bnd_sub; assumption. Qed.
  Lemma bnd3_add k p q : (-1075 <= k < 1023)%Z -> bnd3 k p -> bnd3 k q -> bnd3 (k + 1) (add3 p q).
  Proof. intros L (H1 & H2 & H3) (G1 & G2 & G3). split; [|split]; apply bnd_add; assumption. Qed.
  Lemma bnd3_mul j k p x : (-1074 <= j + k < 1024)%Z -> bnd3 j p -> bnd k x -> bnd3 (j + k) (mul3 p x).
  Proof. intros L (H1 & H2 & H3) G. split; [|split]; apply bnd_mul; assumption. Qed.
  Lemma bnd_sum3 k x y z : (-1074 <= k < 1022)%Z -> bnd k x -> bnd k y -> bnd k z -> bnd (k + 2) (sum3 x y z).
  Proof.
    intros L H1 H2 H3. replace (k + 2)%Z with ((k + 1) + 1)%Z by ring. cbn [sum3 AF F64]. destruct asc.
    - apply bnd_add; [lia|apply bnd_add; [lia|assumption..]|eapply bnd_mono; [|exact H3]; lia].
    - apply bnd_add; [lia|eapply bnd_mono; [|exact H1]; lia|apply bnd_add; [lia|assumption..]].
  Qed.
  Lemma bnd_dot k j p q : (-1074 <= k + j < 1022)%Z -> bnd3 k p -> bnd3 j q -> bnd (k + j + 2) (dot3 p q).
  Proof.
    intros L (H1 & H2 & H3) (G1 & G2 & G3). unfold dot3. apply bnd_sum3; [lia| | |]; apply bnd_mul; (assumption || lia).
  Qed.
  Lemma bnd_mulm k j v m : (-1074 <= k + j < 1022)%Z -> bnd3 k v -> bndm j m -> bnd3 (k + j + 2) (mulm v m).
  Proof.
    intros L (H1 & H2 & H3) ((A1 & A2 & A3) & (B1 & B2 & B3) & (C1 & C2 & C3)).
    split; [|split]; unfold mulm; cbn [x3 y3 z3]; apply bnd_sum3; try lia; apply bnd_mul; (assumption || lia).
  Qed.

  (** ** Crossing points stay near the edges *)
  Definition bndE (k : Z) (e : edge) : Prop := bnd3 k (e1 e) /\ bnd3 k (e2 e).
  Lemma cross_bnd k ev eu pu pv : (0 <= k < 1000)%Z -> bndE k ev -> bndE k eu -> cross_at ev eu = Some (pu, pv) -> bnd3 (k + 2) pu /\ bnd3 (k + 2) pv.
  Proof.
    intros L [V1 V2] [U1 U2]. unfold cross_at. cbv zeta.
    match goal with |- context [nle nz ?i && nle ?i n1 && nle nz ?j && nle ?j n1] => generalize i; generalize j end. intros j i.
    destruct (nle nz i) eqn:I1; [|discriminate]. destruct (nle i n1) eqn:I2; [|discriminate].
    destruct (nle nz j) eqn:J1; [|discriminate]. destruct (nle j n1) eqn:J2; [|discriminate]. cbn [andb].
    intro E; injection E as <- <-. replace (k + 2)%Z with (((k + 1) + 0) + 1)%Z by ring.
    split; (apply bnd3_add; [lia|eapply bnd3_mono; [|eassumption]; lia|]; apply bnd3_mul; [lia|apply bnd3_sub; [lia|assumption..]|]; apply bnd_unit; assumption).
  Qed.
  Lemma dist_bnd k ev p : (0 <= k < 510)%Z -> bnd3 k (e1 ev) -> bnd3 k p -> exists j, bnd j (dist ev p).
  Proof. intros L H1 H2. exists ((k + 1) + (k + 1) + 2)%Z. unfold dist, sqn3. apply bnd_dot; [lia|apply bnd3_sub; [lia|assumption..]|apply bnd3_sub; [lia|assumption..]]. Qed.
  Lemma dist_self p k : bnd3 k p -> feq (fz_ 0) (sqn3 (sub3 p p)) = true.
  Proof.
    intros ((F1 & _) & (F2 & _) & (F3 & _)). unfold sqn3, dot3, sub3. cbn [x3 y3 z3 nsub nmul sum3 AF F64].
    rewrite !fsub_self by assumption. destruct asc; reflexivity.
  Qed.
  Lemma okzero : ok (nz : num).
  Proof. apply (bnd_ok 0), bnd_zero. Qed.

  Lemma lines_bnd s k : (0 <= k < 508)%Z -> (unseen s <= length (edges s))%nat -> (length (facets s) <= length (face_edge s))%nat ->
    Forall (bndE k) (edges s) -> exists ls, to_lines s = Ret ls.
  Proof.
    intros L LU LF HE. apply (to_lines_total (F64_ordered lm asc)); [exact okzero|exact LU|exact LF|].
    rewrite Forall_forall in HE. intros v ev Hv N. pose proof (HE _ (nth_error_In _ _ N)) as [E1 E2].
    destruct (dist_bnd k ev (e1 ev) ltac:(lia) E1 E1) as (j1 & D1). destruct (dist_bnd k ev (e2 ev) ltac:(lia) E1 E2) as (j2 & D2).
    split; [eapply bnd_ok; exact D1|]. split; [|split; [eapply bnd_ok; exact D2|]].
    - apply (num_eqv (F64_ordered lm asc)); [exact okzero|eapply bnd_ok; exact D1|]. exact (dist_self (e1 ev) k E1).
    - intros u p HI. apply hidden_in in HI. destruct HI as (v' & u' & ev' & eu' & pu & pv & _ & _ & Nv & Nu & X & HI).
      destruct (cross_bnd k ev' eu' pu pv ltac:(lia) (HE _ (nth_error_In _ _ Nv)) (HE _ (nth_error_In _ _ Nu)) X) as [B1 B2].
      assert (P : bnd3 (k + 2) p) by (destruct HI as [(_ & _ & -> & _)|(_ & _ & -> & _)]; assumption).
      edestruct (dist_bnd (k + 2) ev p) as (j3 & D3); [lia|eapply bnd3_mono; [|exact E1]; lia|exact P|]. eapply bnd_ok; exact D3.
  Qed.

  (** ** Rotating, indexing and drawing a bounded model *)
  Lemma bndF_ok k f : bndF k f -> okF f.
  Proof. intros (H1 & H2 & H3). split; [|split]; eapply bnd3_ok; eassumption. Qed.
  Lemma side_bnd k f i : bndF k f -> bndE k (side f i).
  Proof.
    intros (H1 & H2 & H3). assert (M : forall a b, bnd3 k a -> bnd3 k b -> bndE k (mk_edge a b)) by (intros a b Ha Hb; unfold mk_edge; destruct (order a b); split; assumption).
    destruct i as [|[|i]]; apply M; assumption.
  Qed.
  Lemma index_lines k fs : (0 <= k < 508)%Z -> Forall (bndF k) fs -> exists m ls, index fs = Ret m /\ to_lines m = Ret ls.
  Proof.
    intros L HF. destruct (index_spec (F64_ordered lm asc) (fs := fs)) as (m & HI & IX).
    { eapply Forall_impl; [|exact HF]. intros f. apply bndF_ok. }
    destruct (index_range _ HI) as (R1 & R2 & R3). exists m.
    destruct (lines_bnd m k L R2) as (ls & HL); [apply Nat.eq_le_incl; transitivity (length fs); [apply (f_equal (@length _) R1)|symmetry; exact R3]| |eauto].
    rewrite Forall_forall. intros e He. destruct (ix_only IX _ He) as (f & i & Hf & _ & ->). apply side_bnd. rewrite Forall_forall in HF. auto.
  Qed.
  Lemma rotate_lines k j s m : (0 <= k)%Z -> (0 <= j)%Z -> (k + j + 2 < 508)%Z -> bndm j m -> Forall (bndF k) (facets s) ->
    exists r ls, rotate s m = Ret r /\ to_lines r = Ret ls.
  Proof.
    intros L1 L2 L3 HM HF. unfold rotate. apply (index_lines (k + j + 2)); [lia|].
    rewrite Forall_forall in *. intros f Hf. apply cull_in in Hf. destruct Hf as [Hf _]. apply in_map_iff in Hf. destruct Hf as (g & <- & Hg).
    destruct (HF _ Hg) as (H1 & H2 & H3). split; [|split]; apply bnd_mulm; (assumption || lia).
  Qed.

  (** ** Any finite model: rotation gives no NaN and never aborts *)
  Lemma fin_mul x y : fin x -> bnd 0 y -> fin (fmul x y).
  Proof.
    intros F [G B].
    assert (L : Rlt_bool (Rabs (rnd (B2R x * B2R y))) (bpow radix2 1024) = true).
    { apply Rlt_bool_true. eapply Rle_lt_trans; [|apply (abs_B2R_lt_emax _ _ x)].
      assert (V : Valid_exp (SpecFloat.fexp 53 1024)) by (apply (fexp_correct 53 1024); reflexivity).
      apply (abs_round_le_generic radix2 (SpecFloat.fexp 53 1024) (round_mode mode_NE)).
      - apply generic_format_abs. apply generic_format_B2R.
      - rewrite Rabs_mult. change (bp 0) with 1 in B. pose proof (Rabs_pos (B2R x)). pose proof (Rabs_pos (B2R y)). nra. }
    pose proof (Bmult_correct 53 1024 prec64 emax64 mode_NE x y) as C. rewrite L in C. destruct C as (_ & C & _). unfold fin, fmul. rewrite C, F, G. reflexivity.
  Qed.
  Lemma fin_ok x : fin x -> feq x x = true.
  Proof. intro F. apply (bnd_ok 1024). split; [exact F|]. apply Rlt_le, (abs_B2R_lt_emax _ _ x). Qed.
  Lemma notnan_add x y : is_nan x = false -> fin y -> is_nan (fadd x y) = false.
  Proof.
    intros N F. unfold fadd, Bplus. destruct x as [[]|[]| |sx mx ex Hx], y as [[]|[]| |sy my ey Hy]; try discriminate; try reflexivity.
    all: rewrite is_nan_binary_normalize; reflexivity.
  Qed.
  Lemma notnan_ok x : is_nan x = false -> feq x x = true.
  Proof. intro N. rewrite feq_key. destruct x as [s|[]| |s m e H]; try discriminate; try reflexivity; simpl; apply reqb_iff; reflexivity. Qed.
  Lemma notnan_sym x y : is_nan (fadd x y) = is_nan (fadd y x).
  Proof.
    unfold fadd, Bplus. destruct x as [[]|[]| |sx mx ex Hx], y as [[]|[]| |sy my ey Hy]; try reflexivity.
    all: rewrite !is_nan_binary_normalize; reflexivity.
  Qed.
  Lemma fin_notnan x : fin x -> is_nan x = false. Proof. destruct x; try discriminate; reflexivity. Qed.
  Lemma sum3_notnan x y z : fin x -> fin y -> fin z -> ok (sum3 x y z : num).
  Proof.
    intros F1 F2 F3. apply notnan_ok. cbn [sum3 AF F64]. destruct asc.
    - apply notnan_add; [|exact F3]. apply notnan_add; [apply fin_notnan; exact F1|exact F2].
    - rewrite notnan_sym. apply notnan_add; [|exact F1]. apply notnan_add; [apply fin_notnan; exact F2|exact F3].
  Qed.
  Lemma mulm_notnan v m : fin3 v -> unitm m -> ok3 (mulm v m).
  Proof.
    intros (F1 & F2 & F3) ((A1 & A2 & A3) & (B1 & B2 & B3) & (C1 & C2 & C3)).
    split; [|split]; unfold mulm; cbn [x3 y3 z3]; apply sum3_notnan; apply fin_mul; assumption.
  Qed.
  Lemma rotate_total s m : unitm m -> Forall finF (facets s) -> exists r, rotate s m = Ret r /\ Forall okF (facets r).
  Proof.
    intros HM HF. unfold rotate.
    assert (HO : Forall okF (cull_facets (map (rotate_facet m) (facets s)))).
    { rewrite Forall_forall in *. intros f Hf. apply cull_in in Hf. destruct Hf as [Hf _]. apply in_map_iff in Hf. destruct Hf as (g & <- & Hg).
      destruct (HF _ Hg) as (H1 & H2 & H3). split; [|split]; apply mulm_notnan; assumption. }
    destruct (index_spec (F64_ordered lm asc) HO) as (r & HI & IX). exists r. split; [exact HI|].
    pose proof (ix_facets IX) as E. rewrite Forall_forall in *. intros f Hf. apply HO. exact (eq_ind (facets r) (fun l => In f l) Hf _ E).
  Qed.

  (** ** The view matrices have entries of at most one *)
  Lemma bnd0 : bnd 0 (fz_ 0). Proof. apply bnd_zero. Qed.
  Lemma px_unit : bnd3 0 px /\ bnd3 0 py /\ bnd3 0 pz.
  Proof. split; [|split]; (split; [|split]); first [exact bnd_one|exact bnd0]. Qed.
  Lemma neg3_unit p : bnd3 0 p -> bnd3 0 (neg3 p).
  Proof. intros (H1 & H2 & H3). split; [|split]; apply bnd_neg; assumption. Qed.
  Lemma rotate_unit a b : trig_bounded -> fin a -> fin b -> unitm (geo_rotate a b).
  Proof.
    intros T Fa Fb. destruct (T a Fa) as [S1 C1].
    assert (Fb' : fin (fneg b)) by (unfold fin, fneg; rewrite is_finite_Bopp; exact Fb). destruct (T _ Fb') as [S2 C2].
    assert (M : forall x y, bnd 0 x -> bnd 0 y -> bnd 0 (fmul x y)) by (intros x y; apply (bnd_mul 0 0); lia).
    split; [|split]; (split; [|split]); cbn; try (apply M; assumption); try assumption; try (apply bnd_neg; assumption). exact bnd0.
  Qed.
  Lemma named_unit n m : matrix_by_name n = Some m -> unitm m.
  Proof.
    destruct px_unit as (HX & HY & HZ). unfold matrix_by_name.
    repeat match goal with |- (if ?c then _ else _) = _ -> _ => destruct c; [intro H; injection H as <-; split; [|split]; cbn [row0 row1 row2 mXP mXN mYP mYN mZP mZN]; first [assumption|apply neg3_unit; assumption]|] end.
    discriminate.
  Qed.
  Lemma fz_val z : (Z.abs z < 2 ^ 53)%Z -> B2R (fz_ z) = IZR z.
  Proof.
    intro L. unfold fz_, norm64. pose proof (binary_normalize_correct 53 1024 prec64 emax64 mode_NE z 0 false) as C. cbv zeta in C.
    assert (R1 : F2R (Float radix2 z 0) = IZR z) by (unfold F2R; simpl; ring). rewrite R1 in C.
    assert (V : Valid_exp (SpecFloat.fexp 53 1024)) by (apply (fexp_correct 53 1024); reflexivity).
    assert (G : generic_format radix2 (SpecFloat.fexp 53 1024) (IZR z)).
    { rewrite <- R1.
      apply generic_format_F2R. intro NZ. unfold cexp, SpecFloat.fexp, SpecFloat.emin.
        assert (M : (mag radix2 (F2R (Float radix2 z 0)) <= 53)%Z).
        { apply mag_le_bpow; [rewrite R1; intro H0; apply eq_IZR in H0; contradiction|]. rewrite R1, <- abs_IZR. change (bpow radix2 53) with (IZR (2 ^ 53)). apply IZR_lt. lia. }
        lia. }
    rewrite round_generic in C by (apply valid_rnd_N || exact G).
    rewrite (bp_emax 53) in C; [|lia|rewrite <- abs_IZR; change (bp 53) with (IZR (2 ^ 53)); apply IZR_le; lia].
    exact (proj1 C).
  Qed.
  Lemma val180 : B2R (fz_ 180) = 180. Proof. apply fz_val. lia. Qed.
  Lemma bnd_div180 k x : (-1074 <= k < 1024)%Z -> bnd k x -> bnd k (fdiv x (fz_ 180)).
  Proof.
    intros L [F B]. assert (NZ : B2R (fz_ 180) <> 0) by (rewrite val180; lra).
    assert (R : Rabs (rnd (B2R x / B2R (fz_ 180))) <= bp k).
    { apply rnd_bound; [lia|]. rewrite val180. unfold Rdiv. rewrite Rabs_mult. rewrite (Rabs_pos_eq (/ 180)) by lra. pose proof (Rabs_pos (B2R x)). lra. }
    pose proof (Bdiv_correct 53 1024 prec64 emax64 mode_NE x (fz_ 180) NZ) as C. rewrite (bp_emax k) in C by (exact R || lia).
    destruct C as (C1 & C2 & _). split; [unfold fdiv; rewrite C2; exact F|]. unfold fdiv. rewrite C1. exact R.
  Qed.
  Lemma bnd_pi : bnd 2 (fdec 31415926535897932 (-16)).
  Proof.
    split; [vm_compute; reflexivity|]. rewrite <- SF2R_B2SF, fdec_pi. unfold SF2R, F2R, bp. simpl. rewrite Rabs_pos_eq by lra. lra.
  Qed.
  Lemma angles_unit a : trig_bounded -> bnd 1000 (x2 a) -> bnd 1000 (y2 a) -> unitm (matrix_by_ang a).
  Proof.
    intros T Ha Hb. unfold matrix_by_ang.
    assert (D : forall x, bnd 1000 x -> fin (fdiv (fmul x (fdec 31415926535897932 (-16))) (fz_ 180))).
    { intros x Hx. refine (proj1 (bnd_div180 1002 _ _ _)); [lia|]. apply (bnd_mul 1000 2); [lia|exact Hx|exact bnd_pi]. }
    apply rotate_unit; [exact T|apply D; exact Ha|apply D; exact Hb].
  Qed.
  Lemma rotate_lines_500 s m : Forall (bndF 500) (facets s) -> unitm m -> exists r ls, rotate s m = Ret r /\ to_lines r = Ret ls.
  Proof. intros HF HM. exact (rotate_lines 500 0 s m ltac:(lia) ltac:(lia) ltac:(lia) HM HF). Qed.
  Lemma doubles_ordered : ordered AF /\ forall x : f64, @ok AF x <-> is_nan x = false.
  Proof.
    split; [apply F64_ordered|]. intro x. split; [|apply notnan_ok]. unfold ok. cbn [neq AF F64]. destruct x; try reflexivity. discriminate.
  Qed.
  Lemma rotate_comparable s m : unitm m -> Forall finF (facets s) -> exists r, rotate s m = Ret r /\ Forall (fun f => Forall ok3 [fe0 f; fe1 f; fe2 f]) (facets r).
  Proof.
    intros HM HF. destruct (rotate_total s m HM HF) as (r & HR & HO). exists r. split; [exact HR|].
    eapply Forall_impl; [|exact HO]. intros f (H0 & H1 & H2). repeat constructor; first [apply H0|apply H1|apply H2].
  Qed.
  Lemma views_unit : (forall n m, matrix_by_name n = Some m -> unitm m) /\
    (trig_bounded -> forall a, bnd 1000 (x2 a) -> bnd 1000 (y2 a) -> unitm (matrix_by_ang a)).
  Proof. split; [exact named_unit|]. intros T a. apply angles_unit. exact T. Qed.
End Lines.
