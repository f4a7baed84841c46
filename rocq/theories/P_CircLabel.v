(** P_CircLabel.v - the labels of diameters and radii in doubles. *)
From Coq Require Import Reals Lra ZArith Lia.
From Flocq Require Import Core Mult_error IEEE754.BinarySingleNaN.
From Verif Require Import Base Num NumReal NumF64 NumLaws Geo Stl Env Ast Ps Draw F64Spec DocSpec P_Base P_Meta P_Dims P_Doc P_Script3 P_Script4 P_Bound P_Text P_Text2
  DimSpec TextSpec P_Real P_Value P_Value2 P_Ps3 P_Shuffle P_Script2 P_Valid P_Mark P_Err P_Err2 P_Err3 P_Err4 CircleSpec P_Circle CircSpec P_Circ64 P_Ring64 ErrSpec RealSpec.

Local Unset Implicit Arguments.
Local Open Scope R_scope.

Lemma fixes_size k m d l c rho : fixes k m d l c rho -> 0 < rho /\ rho <= bp (k + 2) /\ bp (2 * k + m + d - 42) / rho <= bp (k + 2) /\ (-80 <= k <= 80)%Z.
Proof.
  intros (K & M & D0 & MD & L & C & HA & BC & R). rewrite areas_det in HA.
  assert (DN : det l <> 0) by (apply Rgt_not_eq; eapply Rlt_le_trans; [|exact HA]; apply Rmult_lt_0_compat; apply bp_pos).
  destruct (C c (or_introl eq_refl)) as [A0 A1]. pose proof (bp_pos k) as HK.
  assert (R8 : rho * rho <= 8 * (bp k * bp k)).
  { apply (best_within l c rho _ DN BC). intros p I. destruct (C p (or_intror I)) as [B1 B2]. unfold gap2.
    assert (G1 : forall u v, Rabs u <= bp k -> Rabs v <= bp k -> (u - v) * (u - v) <= 4 * (bp k * bp k)).
    { intros u v H1 H2. apply Rabs_le_inv in H1. apply Rabs_le_inv in H2. assert (H : Rabs (u - v) * Rabs (u - v) <= (2 * bp k) * (2 * bp k)) by (apply Rmult_le_compat; try apply Rabs_pos; apply Rabs_le; lra).
      rewrite <- Rabs_mult in H. rewrite Rabs_right in H; [lra|]. pose proof (Rle_0_sqr (u - v)) as X. unfold Rsqr in X. lra. }
    pose proof (G1 _ _ B1 A0). pose proof (G1 _ _ B2 A1). lra. }
  destruct BC as [P0 _]. pose proof (bp_pos (2 * k + m + d - 41)). assert (RP : 0 < rho) by (destruct P0 as [|Z]; [assumption|]; rewrite <- Z, Rmult_0_l in R; lra).
  assert (0 < bp k * bp k) by (apply Rmult_lt_0_compat; lra).
  assert (R4 : rho <= 4 * bp k) by (apply Rsqr_incr_0; unfold Rsqr; lra). rewrite bp_add. change (bp 2) with 4.
  split; [exact RP|]. split; [lra|]. split; [|exact K]. apply (Rmult_le_reg_r rho); [exact RP|]. replace (bp (2 * k + m + d - 42) / rho * rho) with (bp (2 * k + m + d - 42)) by (field; lra).
  replace (2 * k + m + d - 41)%Z with (2 * k + m + d - 42 + 1)%Z in R by ring. rewrite bp_S in R. pose proof (bp_pos (2 * k + m + d - 42)). assert (rho * rho <= bp k * 4 * rho) by (apply Rmult_le_compat_r; lra). lra.
Qed.
Section Gen.
  Context {A : Arith} {E : Env}.
  Lemma circ_visit_any d s s' d' : d_kind d = KDia \/ d_kind d = KRad -> visit_base_dim d s = Ret (s', d', true) -> NoDup (names (d_meta d)) /\
    exists fm a dd t ce r, fmt_arg "%.3f" (d_meta d) = Some fm /\ evaluates (v_points s) (v_rot s) (d_meta d) "center" t /\ fit_circle (v_points s) (xy t) = Some (ce, r) /\
      s' = match d_kind d with KDia => draw_dia fm ce (xy a) (xy dd) r s | _ => draw_rad fm ce (xy a) (xy dd) r s end.
  Proof.
    intros K H. pose proof (used_once _ _ H) as U. destruct (eqm (v_rot s) zerom) eqn:Z.
    { destruct (base_dim_null _ _ Z H) as (Q & _). destruct K; congruence. }
    assert (N : NoDup (names (d_meta d))).
    { destruct (base_dim_spec d s Z) as (s2 & d2 & k & Q & KK & _). rewrite H in Q. injection Q as <- <- <-. destruct (proj1 KK eq_refl) as [N _]. exact N. }
    split; [exact N|]. unfold uses_once in U. cbv zeta in U.
    assert (F : forall fm, format_used (d_meta d) "%.3f" fm -> fmt_arg "%.3f" (d_meta d) = Some fm) by (intros fm U0; destruct (proj2 (fmt_iff "%.3f" (d_meta d) N) (ex_intro _ fm U0)) as (fm' & Q); rewrite Q; f_equal; eapply format_fun; [exact N|eapply fmt_used; exact Q|exact U0]).
    destruct K as [K|K]; rewrite K in U |- *; destruct U as (fm & a & dd & t & ce & r & HF & _ & _ & HC & HI & ->); exists fm, a, dd, t, ce, r; auto.
  Qed.
  Lemma rad_text_any fm ce a dd r s : exists pos, o_text (v_page (draw_rad fm ce a dd r s)) = o_text (v_page s) ++ [Text pos (B "R" ++ pf_format fm r) true false].
  Proof.
    unfold draw_rad. cbv zeta. unfold add_text. cbn [v_page set_page o_text map t_str t_center t_raw]. rewrite add_lines_text.
    match goal with |- context [if ?b then _ else _] => destruct b end; rewrite add_lines_text; eexists; reflexivity.
  Qed.
End Gen.

Section Label.
  Context (lm : libm) (asc : bool) (E : @Env (F64 lm asc)) (STD : std64 lm asc E).
  #[local] Instance AL : Arith := F64 lm asc.
  (** Twice a double. *)
  Lemma twice_close (x : f64) r e : (-300 <= e <= 300)%Z -> Rabs r <= bp e -> Rabs (B2R x - r) <= bp e -> fin x -> fin (fmul x (fz_ 2)) /\ B2R (fmul x (fz_ 2)) = 2 * B2R x.
  Proof.
    intros LE R X F. assert (B : Rabs (B2R x) <= bp (e + 1)) by (rewrite bp_S; replace (B2R x) with (B2R x - r + r) by ring; eapply Rle_trans; [apply Rabs_triang|]; lra).
    pose proof (Bmult_correct 53 1024 prec64 emax64 mode_NE x (fz_ 2)) as C. rewrite (fz_val 2 ltac:(lia)) in C.
    assert (G : generic_format radix2 (SpecFloat.fexp 53 1024) (B2R x * 2)) by (exact (mult_bpow_pos_exact_FLT radix2 (-1074) 53 (B2R x) 1 (generic_format_B2R 53 1024 x) ltac:(lia))).
    rewrite round_generic in C; [|apply valid_rnd_N|exact G].
    assert (B2 : Rabs (B2R x * 2) <= bp (e + 2)) by (replace (e + 2)%Z with (e + 1 + 1)%Z by ring; rewrite bp_S, Rabs_mult, (Rabs_right 2) by lra; lra).
    rewrite (bp_emax (e + 2)) in C by (exact B2 || lia). destruct C as (C1 & C2 & _). change (B2R (fmul x (fz_ 2)) = B2R x * 2) in C1. split; [|rewrite C1; ring].
    unfold fin. unfold fmul. rewrite C2. unfold fin in F. rewrite F. reflexivity.
  Qed.
  Lemma measured_at s t k d1 k' m dd c1 rho1 c0 rho ce r : Forall (fun p => finite2 (xy p)) (v_points s) -> (forall p, In p (v_points s) -> Rabs (fst (val2 (xy p))) <= bp k /\ Rabs (snd (val2 (xy p))) <= bp k) ->
    fixes k 2 d1 (map val2 (@closest AL (map xy (v_points s)) 3 t)) c1 rho1 -> bp (2 * k + d1 - 33) <= rho1 * rho1 -> apart (map val2 (map xy (v_points s))) c1 rho1 ->
    fixes k' m dd (near_circle (map val2 (map xy (v_points s))) c1 rho1) c0 rho -> @fit_circle AL (v_points s) t = Some (ce, r) -> close (bp (2 * k' + m + dd - 42) / rho) (r : f64) rho.
  Proof. intros H1 H2 H3 H4 H5 H6 H7. destruct (measured_within lm asc k d1 k' m dd _ t ce r c1 rho1 c0 rho H1 H2 H3 H4 H5 H6 (fit_is_any _ _ _ _ H7)) as (_ & _ & C). exact C. Qed.
  Theorem rad_label64 d s s' d' t k d1 k' m dd c1 rho1 c0 rho p n q : d_kind d = KRad -> evaluates (v_points s) (v_rot s) (d_meta d) "center" t ->
    Forall (fun p => finite2 (xy p)) (v_points s) -> (forall p, In p (v_points s) -> Rabs (fst (val2 (xy p))) <= bp k /\ Rabs (snd (val2 (xy p))) <= bp k) ->
    fixes k 2 d1 (map val2 (@closest AL (map xy (v_points s)) 3 (xy t))) c1 rho1 -> bp (2 * k + d1 - 33) <= rho1 * rho1 -> apart (map val2 (map xy (v_points s))) c1 rho1 ->
    fixes k' m dd (near_circle (map val2 (map xy (v_points s))) c1 rho1) c0 rho ->
    visit_base_dim d s = Ret (s', d', true) -> format64 lm asc (d_meta d) 3 p n q ->
    exists w pos, o_text (v_page s') = o_text (v_page s) ++ [Text pos (B "R" ++ p ++ w ++ q) true false] /\ decimal_within n (bp (2 * k' + m + dd - 42) / rho) rho w.
  Proof.
    intros K EV H1 H2 H3 H4 H5 H6 H FD. destruct (circ_visit_any d s s' d' (or_intror K) H) as (N & fm & a & dr & t' & ce & r & FA & EV' & FC & ->). rewrite (evaluates_fun _ _ _ _ _ _ N EV' EV) in FC. rewrite K.
    pose proof (measured_at s _ _ _ _ _ _ _ _ _ _ _ _ H1 H2 H3 H4 H5 H6 FC) as C. destruct (rad_text_any fm ce (xy a) (xy dr) r s) as (pos & TX).
    destruct (formatted64 lm asc E STD _ "%.3f" (B "3") 3 fm p n q _ _ _ N eq_refl ltac:(split; [discriminate|reflexivity]) ltac:(lia) FA FD C) as (w & Q & DW). exists w, pos. split; [|exact DW].
    rewrite TX. do 3 f_equal. f_equal. exact Q.
  Qed.
  Theorem dia_label64 d s s' d' t k d1 k' m dd c1 rho1 c0 rho p n q : d_kind d = KDia -> evaluates (v_points s) (v_rot s) (d_meta d) "center" t ->
    Forall (fun p => finite2 (xy p)) (v_points s) -> (forall p, In p (v_points s) -> Rabs (fst (val2 (xy p))) <= bp k /\ Rabs (snd (val2 (xy p))) <= bp k) ->
    fixes k 2 d1 (map val2 (@closest AL (map xy (v_points s)) 3 (xy t))) c1 rho1 -> bp (2 * k + d1 - 33) <= rho1 * rho1 -> apart (map val2 (map xy (v_points s))) c1 rho1 ->
    fixes k' m dd (near_circle (map val2 (map xy (v_points s))) c1 rho1) c0 rho ->
    visit_base_dim d s = Ret (s', d', true) -> format64 lm asc (d_meta d) 3 p n q ->
    exists w pos, o_text (v_page s') = o_text (v_page s) ++ [Text pos (B "\351" ++ p ++ w ++ q) true true] /\ decimal_within n (2 * (bp (2 * k' + m + dd - 42) / rho)) (2 * rho) w.
  Proof.
    intros K EV H1 H2 H3 H4 H5 H6 H FD. destruct (circ_visit_any d s s' d' (or_introl K) H) as (N & fm & a & dr & t' & ce & r & FA & EV' & FC & ->). rewrite (evaluates_fun _ _ _ _ _ _ N EV' EV) in FC. rewrite K.
    pose proof (measured_at s _ _ _ _ _ _ _ _ _ _ _ _ H1 H2 H3 H4 H5 H6 FC) as [F C]. destruct (dia_text_any fm ce (xy a) (xy dr) r s) as (pos & TX).
    assert (C2 : close (2 * (bp (2 * k' + m + dd - 42) / rho)) (fmul r (fz_ 2)) (2 * rho)).
    { destruct (fixes_size _ _ _ _ _ _ H6) as (R1 & R2 & R3 & KB). destruct (twice_close r rho (k' + 2) ltac:(lia)) as [T1 T2]; [rewrite Rabs_right by lra; exact R2|lra|exact F|].
      split; [exact T1|]. rewrite T2. replace (2 * B2R r - 2 * rho) with (2 * (B2R r - rho)) by ring. rewrite Rabs_mult, (Rabs_right 2) by lra. lra. }
    destruct (formatted64 lm asc E STD _ "%.3f" (B "3") 3 fm p n q _ _ _ N eq_refl ltac:(split; [discriminate|reflexivity]) ltac:(lia) FA FD C2) as (w & Q & DW). exists w, pos. split; [|exact DW].
    rewrite TX. do 3 f_equal. f_equal. exact Q.
  Qed.
End Label.
