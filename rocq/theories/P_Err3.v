(** P_Err3.v - views and dimensions in doubles. *)
From Coq Require Import Reals Lra ZArith Lia.
From Flocq Require Import Core IEEE754.BinarySingleNaN.
From Verif Require Import Base Num NumReal NumF64 NumLaws Geo Stl Env Ast Ps Draw F64Spec DocSpec P_Base P_Meta P_Dims P_Doc P_Script3 P_Script4 P_Bound P_Text P_Text2
  DimSpec TextSpec P_Real P_Value P_Err P_Err2 ErrSpec RealSpec.

Local Unset Implicit Arguments.
Local Open Scope R_scope.

Section Views.
  Context (lm : libm) (asc : bool).
  #[local] Instance AF : Arith := F64 lm asc.
  Lemma apx_int k z : (0 <= k)%Z -> (Z.abs z <= 2 ^ k)%Z -> (Z.abs z < 2 ^ 53)%Z -> apx k 0 (fz_ z) (IZR z).
  Proof.
    intros K L H. pose proof (fz_val z H) as V. rewrite <- V. apply apx_exact. split.
    - unfold fz_, norm64. pose proof (binary_normalize_correct 53 1024 prec64 emax64 mode_NE z 0 false) as C. cbv zeta in C.
      assert (R1 : F2R (Float radix2 z 0) = IZR z) by (unfold F2R; simpl; ring). rewrite R1 in C.
      rewrite (bp_emax 53) in C; [apply C|lia|]. apply rnd_bound; [lia|]. rewrite <- abs_IZR. change (bp 53) with (IZR (2 ^ 53)). apply IZR_le. lia.
    - rewrite V, <- abs_IZR. replace (bp k) with (IZR (2 ^ k)) by (change (2 ^ k)%Z with (Zpower radix2 k); rewrite IZR_Zpower by exact K; reflexivity). apply IZR_le, L.
  Qed.
  Lemma apx_nz : apx 0 0 (fz_ 0) 0. Proof. apply apx_int; lia. Qed.
  Lemma apx_n1 : apx 0 0 (fz_ 1) 1. Proof. apply apx_int; lia. Qed.
  Lemma apx_m1 : apx 0 0 (fneg (fz_ 1)) (-1). Proof. apply apx_neg, apx_n1. Qed.
  Lemma apx_m0 : apx 0 0 (fneg (fz_ 0)) 0. Proof. rewrite <- Ropp_0 at 2. apply apx_neg, apx_nz. Qed.
  Ltac nm r := exists r; split; [reflexivity|]; split; [apply rotation_mat; unfold rdot, rcross; cbn [r0 r1 r2 rx ry rz]; try lra; apply pt_ext; cbn [rx ry rz]; lra|];
    split; [|split]; (split; [|split]); first [exact apx_nz|exact apx_n1|exact apx_m1|exact apx_m0].
  (** The rotation of a named view. *)
  Definition named_mat (n : bytes) : option rmat :=
    if bytes_eqb n (B "X+") then Some (RM (P3 0 0 1) (P3 1 0 0) (P3 0 1 0))
    else if bytes_eqb n (B "X-") then Some (RM (P3 0 0 (-1)) (P3 (-1) 0 0) (P3 0 1 0))
    else if bytes_eqb n (B "Y+") then Some (RM (P3 (-1) 0 0) (P3 0 0 1) (P3 0 1 0))
    else if bytes_eqb n (B "Y-") then Some (RM (P3 1 0 0) (P3 0 0 (-1)) (P3 0 1 0))
    else if bytes_eqb n (B "Z+") then Some (RM (P3 1 0 0) (P3 0 1 0) (P3 0 0 1))
    else if bytes_eqb n (B "Z-") then Some (RM (P3 1 0 0) (P3 0 (-1) 0) (P3 0 0 (-1)))
    else None.
  Lemma named_apx n m : matrix_by_name n = Some m -> exists r, named_mat n = Some r /\ rotation r /\ apxm lm asc 0 m r.
  Proof.
    unfold matrix_by_name, named_mat.
    destruct (bytes_eqb n (B "X+")); [intro H; injection H as <-; nm (RM (P3 0 0 1) (P3 1 0 0) (P3 0 1 0))|].
    destruct (bytes_eqb n (B "X-")); [intro H; injection H as <-; nm (RM (P3 0 0 (-1)) (P3 (-1) 0 0) (P3 0 1 0))|].
    destruct (bytes_eqb n (B "Y+")); [intro H; injection H as <-; nm (RM (P3 (-1) 0 0) (P3 0 0 1) (P3 0 1 0))|].
    destruct (bytes_eqb n (B "Y-")); [intro H; injection H as <-; nm (RM (P3 1 0 0) (P3 0 0 (-1)) (P3 0 1 0))|].
    destruct (bytes_eqb n (B "Z+")); [intro H; injection H as <-; nm (RM (P3 1 0 0) (P3 0 1 0) (P3 0 0 1))|].
    destruct (bytes_eqb n (B "Z-")); [intro H; injection H as <-; nm (RM (P3 1 0 0) (P3 0 (-1) 0) (P3 0 0 (-1)))|].
    discriminate.
  Qed.
  Lemma apxm_weak e e' m r : e <= e' -> apxm lm asc e m r -> apxm lm asc e' m r.
  Proof. intros L (H1 & H2 & H3). split; [|split]; (eapply apx3_weak; [apply Z.le_refl|exact L|assumption]). Qed.
  Lemma rotate_apx (a b : f64) : trig_close lm -> fin a -> fin b -> apxm lm asc (5 * bp (-54)) (geo_rotate (a : @num AF) (b : @num AF)) (rrot (B2R a) (B2R b)).
  Proof.
    intros T Fa Fb. assert (Fb' : fin (fneg b)) by (unfold fin, fneg; rewrite is_finite_Bopp; exact Fb).
    destruct (T a Fa) as (S1 & C1 & [_ ES1] & [_ EC1]). destruct (T _ Fb') as (S2 & C2 & [_ ES2] & [_ EC2]).
    assert (VB : B2R (fneg b) = - B2R b) by (unfold fneg; apply B2R_Bopp). rewrite VB in ES2, EC2.
    assert (B53 : bp (-53) = 2 * bp (-54)) by (rewrite <- bp_S; reflexivity). pose proof (bp_pos (-54)) as U.
    assert (SB : forall x, Rabs (sin x) <= bp 0) by (intro x; change (bp 0) with 1; apply Rabs_le; pose proof (SIN_bound x); lra).
    assert (CB : forall x, Rabs (cos x) <= bp 0) by (intro x; change (bp 0) with 1; apply Rabs_le; pose proof (COS_bound x); lra).
    assert (X1 : apx 0 (bp (-53)) (l_sin lm a) (sin (B2R a))) by (split; [exact S1|split; [apply SB|exact ES1]]).
    assert (X2 : apx 0 (bp (-53)) (l_cos lm a) (cos (B2R a))) by (split; [exact C1|split; [apply CB|exact EC1]]).
    assert (Y1 : apx 0 (bp (-53)) (l_sin lm (fneg b)) (sin (- B2R b))) by (split; [exact S2|split; [apply SB|exact ES2]]).
    assert (Y2 : apx 0 (bp (-53)) (l_cos lm (fneg b)) (cos (- B2R b))) by (split; [exact C2|split; [apply CB|exact EC2]]).
    assert (W : forall x r, apx 0 (bp (-53)) x r -> apx 0 (5 * bp (-54)) x r) by (intros x r; apply apx_weak; [lia|lra]).
    assert (M : forall x y r s, apx 0 (bp (-53)) x r -> apx 0 (bp (-53)) y s -> apx 0 (5 * bp (-54)) (fmul x y) (r * s)).
    { intros x y r s HX HY. eapply apx_weak; [apply Z.le_refl| |exact (apx_mul 0 0 _ _ _ _ _ _ ltac:(lia) HX HY)]. change (0 + 0 - 54)%Z with (-54)%Z. change (bp 0) with 1. lra. }
    assert (Z0 : apx 0 (5 * bp (-54)) (fz_ 0) 0) by (eapply apx_weak; [apply Z.le_refl| |exact apx_nz]; lra).
    split; [|split]; (split; [|split]); cbn [geo_rotate rrot row0 row1 row2 r0 r1 r2 x3 y3 z3 rx ry rz]; first [exact Z0|apply W; assumption|apply W, apx_neg; assumption|apply M; assumption].
  Qed.
  Lemma view_apx m : trig_close lm -> a_view lm asc m -> exists r, rotation r /\ apxm lm asc (5 * bp (-54)) m r.
  Proof.
    intros T [(n & H)|(a & Ba & Bb & ->)].
    - destruct (named_apx n m H) as (r & _ & R & A). exists r. split; [exact R|]. eapply apxm_weak; [|exact A]. pose proof (bp_pos (-54)). lra.
    - assert (D : forall x : f64, bnd 1000 x -> fin (fdiv (fmul x (fdec 31415926535897932 (-16))) (fz_ 180))).
      { intros x Hx. refine (proj1 (bnd_div180 1002 _ _ _)); [lia|]. apply (bnd_mul 1000 2); [lia|exact Hx|exact bnd_pi]. }
      eexists. split; [apply rrot_rotation|]. apply rotate_apx; [exact T|apply D; exact Ba|apply D; exact Bb].
  Qed.
End Views.

(** ** dim *)
Section DimErr.
  Context (lm : libm) (asc : bool).
  #[local] Instance AG : Arith := F64 lm asc.
  Lemma exact3 k p : bnd3 lm asc k p -> apx3 lm asc k 0 p (rv lm asc p).
  Proof. intros (H1 & H2 & H3). split; [|split]; apply apx_exact; assumption. Qed.
  Lemma turned_apx k p m r : (-900 <= k < 900)%Z -> bnd3 lm asc k p -> apxm lm asc (5 * bp (-54)) m r -> apx3 lm asc (k + 2) (24 * bp (k - 54)) (mulm p m) (rmul (rv lm asc p) r).
  Proof.
    intros L H M. pose proof (bp_pos (-54)). assert (Q : bp (k - 54) = bp k * bp (-54)) by (rewrite <- bp_add; f_equal; ring).
    eapply apx3_weak; [apply Z.le_refl| |apply (apx_mulm lm asc k 0 (5 * bp (-54))); [lia|lra|lra|exact (exact3 k p H)|exact M]]. rewrite Q. pose proof (bp_pos k). nra.
  Qed.
  Lemma dir_apx j u m r : (-300 <= j <= 300)%Z -> bnd3 lm asc j u -> bp (j - 1) <= rlen (rv lm asc u) -> rotation r -> apxm lm asc (5 * bp (-54)) m r ->
    apx3 lm asc 1 (bp (-42)) (normalized3 (mulm u m)) (rscale (/ rlen (rv lm asc u)) (rmul (rv lm asc u) r)).
  Proof.
    intros L H LU [RD _] M. pose proof (turned_apx j u m r ltac:(lia) H M) as T. pose proof (bp_pos (j - 54)) as U.
    assert (RL : rlen (rmul (rv lm asc u) r) = rlen (rv lm asc u)) by (unfold rlen; rewrite RD; reflexivity).
    assert (E6 : 24 * bp (j - 54) <= bp (j + 2 - 6)).
    { replace (j + 2 - 6)%Z with (j - 54 + 50)%Z by ring. rewrite bp_shift by lia. change (IZR (2 ^ 50)) with 1125899906842624. lra. }
    assert (E7 : 0 <= 24 * bp (j - 54) <= bp (j + 2 - 6)) by (split; [lra|exact E6]).
    pose proof (normalized_apx lm asc (j + 2) (24 * bp (j - 54)) _ _ ltac:(lia) E7 T) as N. rewrite RL in N. replace (j + 2 - 3)%Z with (j - 1)%Z in N by ring.
    eapply apx3_weak; [apply Z.le_refl| |exact (N LU)]. replace (j + 2)%Z with (j - 54 + 56)%Z by ring. rewrite bp_shift by lia. change (IZR (2 ^ 56)) with 72057594037927936.
    replace (48 * (24 * bp (j - 54)) * / (72057594037927936 * bp (j - 54))) with (1152 / 72057594037927936) by (field; lra).
    assert (Q : bp (-42) = / 4398046511104) by reflexivity. assert (Q' : bp (-43) = / 8796093022208) by reflexivity. rewrite Q, Q'. lra.
  Qed.
  (** The way from arrow to arrow, exactly. *)
  Lemma way_len w a f t : rdot w w = 1 ->
    rlen (rsub (radd a (rscale (rdot w (rsub t a)) w)) (radd a (rscale (rdot w (rsub f a)) w))) = Rabs (rdot w (rsub t f)).
  Proof.
    intro W. unfold rlen. rewrite <- sqrt_Rsqr_abs. f_equal. replace (rsub (radd a (rscale (rdot w (rsub t a)) w)) (radd a (rscale (rdot w (rsub f a)) w))) with (rscale (rdot w (rsub t f)) w) by (apply pt_ext; unfold rdot, rsub, radd, rscale; cbn [rx ry rz]; ring).
    transitivity (rdot w (rsub t f) * rdot w (rsub t f) * rdot w w); [unfold rdot, rscale; cbn [rx ry rz]; ring|]. rewrite W. unfold Rsqr. ring.
  Qed.
  Lemma dim_err k j m r a u f t : (-300 <= k <= 300)%Z -> (-300 <= j <= 300)%Z -> rotation r -> apxm lm asc (5 * bp (-54)) m r ->
    bnd3 lm asc k a -> bnd3 lm asc k f -> bnd3 lm asc k t -> bnd3 lm asc j u -> bp (j - 1) <= rlen (rv lm asc u) ->
    let dir := normalized3 (mulm u m) in let a' := mulm a m in let f' := mulm f m in let t' := mulm t m in
    close (bp (k - 33)) (norm3 (sub3 (add3 a' (mul3 dir (dot3 dir (sub3 t' a')))) (add3 a' (mul3 dir (dot3 dir (sub3 f' a'))))) : f64) (along (rv lm asc u) (rv lm asc f) (rv lm asc t)).
  Proof.
    intros LK LJ RR M Ba Bf Bt Bu LU dir a' f' t'. destruct RR as [RD RC]. pose proof (conj RD RC : rotation r) as RR.
    pose proof (turned_apx k a m r ltac:(lia) Ba M) as Ta. pose proof (turned_apx k f m r ltac:(lia) Bf M) as Tf. pose proof (turned_apx k t m r ltac:(lia) Bt M) as Tt.
    pose proof (dir_apx j u m r LJ Bu LU RR M) as D. fold dir a' f' t' in Ta, Tf, Tt, D.
    set (ra := rmul (rv lm asc a) r) in *. set (rf := rmul (rv lm asc f) r) in *. set (rt := rmul (rv lm asc t) r) in *. set (w := rscale (/ rlen (rv lm asc u)) (rmul (rv lm asc u) r)) in *.
    set (U := bp (k - 54)) in *. assert (UP : 0 < U) by apply bp_pos.
    assert (SH : forall n, (0 <= n)%Z -> bp (k - 54 + n) = IZR (2 ^ n) * U) by (intros n Hn; apply bp_shift, Hn).
    assert (W42 : bp (k - 42) = 4096 * U) by (replace (k - 42)%Z with (k - 54 + 12)%Z by ring; rewrite SH by lia; reflexivity).
    assert (X : forall p rp, apx3 lm asc (k + 2) (24 * U) p rp -> apx3 lm asc (k + 8) (461000 * U) (add3 a' (mul3 dir (dot3 dir (sub3 p a')))) (radd ra (rscale (rdot w (rsub rp ra)) w))).
    { intros p rp Tp.
      assert (S : apx3 lm asc (k + 3) (56 * U) (sub3 p a') (rsub rp ra)).
      { pose proof (apx3_sub lm asc (k + 2) _ _ _ _ _ _ ltac:(lia) Tp Ta) as Z. replace (k + 2 + 1)%Z with (k + 3)%Z in Z by ring. eapply apx3_weak; [apply Z.le_refl| |exact Z].
        replace (k + 2 - 53)%Z with (k - 54 + 3)%Z by ring. rewrite SH by lia. change (IZR (2 ^ 3)) with 8. lra. }
      assert (DT : apx (k + 6) (98784 * U) (dot3 dir (sub3 p a') : f64) (rdot w (rsub rp ra))).
      { pose proof (bp_pos (-42)). pose proof (apx_dot lm asc 1 (k + 3) (bp (-42)) (56 * U) _ _ _ _ ltac:(lia) ltac:(lra) ltac:(lra) D S) as Z. replace (1 + (k + 3) + 2)%Z with (k + 6)%Z in Z by ring. eapply apx_weak; [apply Z.le_refl| |exact Z].
        replace (1 + (k + 3) - 54)%Z with (k - 54 + 4)%Z by ring. rewrite SH by lia. change (IZR (2 ^ 4)) with 16. change (bp 1) with 2.
        replace (bp (k + 3) * bp (-42)) with (bp (k - 54 + 15)) by (rewrite <- bp_add; f_equal; ring). rewrite SH by lia. change (IZR (2 ^ 15)) with 32768. lra. }
      assert (ML : apx3 lm asc (k + 7) (460000 * U) (mul3 dir (dot3 dir (sub3 p a'))) (rscale (rdot w (rsub rp ra)) w)).
      { pose proof (apx3_mul lm asc 1 (k + 6) _ _ _ _ _ _ ltac:(lia) D DT) as Z. replace (1 + (k + 6))%Z with (k + 7)%Z in Z by ring. eapply apx3_weak; [apply Z.le_refl| |exact Z].
        replace (k + 7 - 54)%Z with (k - 54 + 7)%Z by ring. rewrite SH by lia. change (IZR (2 ^ 7)) with 128. change (bp 1) with 2.
        replace (bp (k + 6) * bp (-42)) with (bp (k - 54 + 18)) by (rewrite <- bp_add; f_equal; ring). rewrite SH by lia. change (IZR (2 ^ 18)) with 262144. lra. }
      pose proof (apx3_add lm asc (k + 7) _ _ _ _ _ _ ltac:(lia) (apx3_weak lm asc (k + 2) (k + 7) _ _ _ _ ltac:(lia) (Rle_refl _) Ta) ML) as Z. replace (k + 7 + 1)%Z with (k + 8)%Z in Z by ring. eapply apx3_weak; [apply Z.le_refl| |exact Z].
      replace (k + 7 - 53)%Z with (k - 54 + 8)%Z by ring. rewrite SH by lia. change (IZR (2 ^ 8)) with 256. lra. }
    pose proof (apx3_sub lm asc (k + 8) _ _ _ _ _ _ ltac:(lia) (X _ _ Tt) (X _ _ Tf)) as LN. replace (k + 8 + 1)%Z with (k + 9)%Z in LN by ring.
    replace (k + 8 - 53)%Z with (k - 54 + 9)%Z in LN by ring. rewrite SH in LN by lia. change (IZR (2 ^ 9)) with 512 in LN.
    assert (EP : 0 <= 461000 * U + 461000 * U + 512 * U) by lra. destruct (norm_apx lm asc (k + 9) _ _ _ ltac:(lia) EP LN) as (F & _ & Q). split; [exact F|].
    assert (LP : 0 < rlen (rv lm asc u)) by (pose proof (bp_pos (j - 1)); lra). assert (L2 : rlen (rv lm asc u) * rlen (rv lm asc u) = rdot (rv lm asc u) (rv lm asc u)) by apply rlen_sq.
    assert (W1 : rdot w w = 1).
    { unfold w. transitivity (/ rlen (rv lm asc u) * / rlen (rv lm asc u) * rdot (rmul (rv lm asc u) r) (rmul (rv lm asc u) r)); [unfold rdot, rscale; cbn [rx ry rz]; ring|]. rewrite RD, <- L2. field. lra. }
    rewrite (way_len w ra rf rt W1) in Q.
    assert (AL : Rabs (rdot w (rsub rt rf)) = along (rv lm asc u) (rv lm asc f) (rv lm asc t)).
    { unfold along. fold (rlen (rv lm asc u)). unfold w, rt, rf. rewrite rmul_sub. transitivity (Rabs (/ rlen (rv lm asc u) * rdot (rmul (rv lm asc u) r) (rmul (rsub (rv lm asc t) (rv lm asc f)) r))).
      - f_equal. unfold rdot, rscale. cbn [rx ry rz]. ring.
      - rewrite RD, Rabs_mult, (Rabs_pos_eq (/ rlen (rv lm asc u))) by (apply Rlt_le, Rinv_0_lt_compat, LP). unfold Rdiv. rewrite Rmult_comm. f_equal. f_equal. unfold rdot. ring. }
    rewrite AL in Q. eapply Rle_trans; [exact Q|]. replace (k + 9 - 48)%Z with (k - 54 + 15)%Z by ring. replace (k - 33)%Z with (k - 54 + 21)%Z by ring. rewrite !SH by lia.
    change (IZR (2 ^ 15)) with 32768. change (IZR (2 ^ 21)) with 2097152. lra.
  Qed.
End DimErr.
