(** ExErr.v - cases for the labels in doubles. *)
From Coq Require Import Reals Lra ZArith Lia.
From Flocq Require Import Core IEEE754.BinarySingleNaN.
From Verif Require Import Base Num NumReal NumF64 NumLaws Geo Stl Env Ast Ps Draw F64Spec DocSpec P_Base P_Meta P_Dims P_Doc P_Script3 P_Script4 P_Bound P_Text P_Text2
  DimSpec TextSpec P_Real P_Value P_Mark P_Pi P_Err P_Err2 P_Err3 P_Err4 P_Err5 ExText ErrSpec RealSpec.

Local Unset Implicit Arguments.
Local Open Scope R_scope.

(** A library of functions that round correctly. *)
Definition rounded (f : R -> R) (x : f64) : f64 := if is_finite x then of_real (FLT_exp (-1074) 53) (f (B2R x)) else B754_nan.
Definition good_libm : libm :=
  Libm (rounded sin) (rounded cos) (fun x => if Rle_dec (Rabs (B2R x)) 1 then rounded acos x else B754_nan) (fun _ _ => fz_ 0) stable.
Lemma rounded_close f x k : fin x -> (-900 <= k <= 900)%Z -> Rabs (f (B2R x)) <= bp k -> bnd k (rounded f x) /\ close (bp (k - 54)) (rounded f x) (f (B2R x)).
Proof.
  intros F L H. assert (P : Prec_gt_0 53) by reflexivity. unfold rounded. unfold fin in F. rewrite F.
  assert (V := of_real_val (-1074) 53 (f (B2R x)) ltac:(lia) ltac:(lia) ltac:(eapply Rle_trans; [exact H|apply bp_le; lia])). apply val64_some in V. destruct V as [V1 V2].
  split; (split; [exact V1|]); rewrite V2.
  - apply abs_round_le_generic; [typeclasses eauto|typeclasses eauto| |exact H]. apply generic_format_bpow. unfold FLT_exp. lia.
  - exact (rnd_err k _ ltac:(lia) H).
Qed.
Lemma good_trig : trig_close good_libm.
Proof.
  intros x F. assert (B54 : bp (0 - 54) <= bp (-53)) by (apply bp_le; lia).
  destruct (rounded_close sin x 0 F ltac:(lia)) as [B1 [F1 C1]]; [change (bp 0) with 1; apply Rabs_le; apply SIN_bound|].
  destruct (rounded_close cos x 0 F ltac:(lia)) as [B2 [F2 C2]]; [change (bp 0) with 1; apply Rabs_le; apply COS_bound|].
  split; [exact B1|]. split; [exact B2|]. split; (split; [assumption|]); (eapply Rle_trans; [|exact B54]); assumption.
Qed.
Lemma good_acos : acos_close good_libm.
Proof.
  intros x F H. cbn [good_libm l_acos]. destruct (Rle_dec (Rabs (B2R x)) 1) as [_|N]; [|contradiction].
  destruct (rounded_close acos x 2 F ltac:(lia)) as [_ [F1 C1]].
  - change (bp 2) with 4. pose proof (acos_bound (B2R x)). pose proof pi_bounds. apply Rabs_le. lra.
  - split; [exact F1|]. eapply Rle_trans; [exact C1|]. apply bp_le. lia.
Qed.
Lemma good_nan x : 1 < B2R x -> l_acos good_libm x = B754_nan.
Proof. intro H. cbn [good_libm l_acos]. destruct (Rle_dec (Rabs (B2R x)) 1) as [L|_]; [|reflexivity]. apply Rabs_le_inv in L. lra. Qed.

Section Cases.
  Context (lm : libm) (asc : bool) (E : @Env (F64 lm asc)).
  #[local] Instance AX : Arith := F64 lm asc.
  Definition lc := Loc (B "s") 3.
  Definition tpl (a b c : Z) : @v3 AX := V3 (fz_ a) (fz_ b) (fz_ c).
  Definition mt (n : string) (p : @v3 AX) : meta := Meta (B n) (MPoint (PVal p lc)) lc.
  Lemma view_z : a_view lm asc mZP.
  Proof. left. exists (B "Z+"). reflexivity. Qed.
  Lemma view_ok : @eqm AX mZP zerom = false.
  Proof. unfold AX. destruct asc; vm_compute; reflexivity. Qed.
  Definition n3 (a b c : Z) : @v3 AX := normalized3 (mulm (tpl a b c) mZP).
  Ltac calc := clear; unfold n3, tpl, AX; destruct asc; vm_compute; reflexivity.
  Lemma fact1 : @eq3 AX (mulm (tpl 1 1 0) mZP) zero3 = false. Proof. calc. Qed.
  Lemma fact2 : @neq AX (z3 (cross3 (normalized3 (sub3 (mulm (tpl 2 3 0) mZP) (mulm (tpl 1 1 0) mZP))) (n3 1 0 0))) nz = false. Proof. calc. Qed.
  Lemma fact3 : @neq AX (z3 (cross3 (n3 270 100 10) (n3 27 10 1))) nz = false. Proof. calc. Qed.
  Lemma fact4 : @ngt AX (z3 (cross3 (n3 270 100 10) (n3 27 10 1))) nz = true. Proof. calc. Qed.
  Lemma fact5 : B2SF (dot3 (n3 270 100 10) (normalized3 (n3 27 10 1)) : f64) = SpecFloat.S754_finite false 4503599627370497 (-52). Proof. calc. Qed.
  (** The distance between two points at right angles to [1 -1 0]. *)
  Definition dim_case : dim := Dim KDim lc [mt "at" (tpl 1 1 0); mt "dir" (tpl 1 1 0); mt "from" (tpl 0 0 0); mt "to" (tpl 3 4 5)].
  Lemma dim_case_ok (s : vst) : v_rot s = mZP -> exists s' d', visit_base_dim dim_case s = Ret (s', d', true).
  Proof.
    intro V. destruct (visit_dim_spec dim_case s) as (s' & ml' & ok & H & K & _); [rewrite V; exact view_ok|].
    exists s', (Dim KDim lc ml'). unfold visit_base_dim. cbn [d_kind dim_case]. fold dim_case. rewrite H. cbn [obind]. assert (O : ok = true).
    { apply K. split; [|split].
      - cbn. repeat constructor; cbn; intuition discriminate.
      - intros n [<-|[<-|[<-|[<-|[]]]]]; eexists; (split; [|reflexivity]); cbn; tauto.
      - rewrite V.
        change (dim_args _ _ _) with (if @eq3 AX (mulm (tpl 1 1 0) mZP) zero3 then None else Some (B "%.3f", mulm (tpl 1 1 0) mZP, mulm (tpl 1 1 0) mZP, mulm (tpl 0 0 0) mZP, mulm (tpl 3 4 5) mZP)). rewrite fact1. discriminate. }
    rewrite O. reflexivity.
  Qed.
  Lemma in_written n p ml : In (mt n p) ml -> forall k l, written lm asc (Dim k l ml) n p.
  Proof. intros I k l. exists (mt n p), lc. auto. Qed.
  Lemma tri_bnd k a b c : (0 <= k < 53)%Z -> (Z.abs a <= 2 ^ k)%Z -> (Z.abs b <= 2 ^ k)%Z -> (Z.abs c <= 2 ^ k)%Z -> bnd3 lm asc k (tpl a b c) /\ val3 lm asc (tpl a b c) = P3 (IZR a) (IZR b) (IZR c).
  Proof.
    intros L HA HB HC. assert (P : (2 ^ k < 2 ^ 53)%Z) by (apply Z.pow_lt_mono_r; lia).
    destruct (apx_int k a ltac:(lia) HA ltac:(lia)) as (A1 & _ & _). destruct (apx_int k b ltac:(lia) HB ltac:(lia)) as (B1 & _ & _). destruct (apx_int k c ltac:(lia) HC ltac:(lia)) as (C1 & _ & _).
    split; [split; [exact A1|split; [exact B1|exact C1]]|]. unfold val3. cbn [tpl x3 y3 z3]. rewrite !fz_val by lia. reflexivity.
  Qed.
  (** The angle between [1 0 0] and the way from the apex to a point. *)
  Definition angle_case : dim := Dim KAngle lc [mt "at" (tpl 2 2 0); mt "apex" (tpl 1 1 0); mt "from_dir" (tpl 1 0 0); mt "to_point" (tpl 2 3 0)].
  (** Sides in the same direction. *)
  Definition nan_case : dim := Dim KAngle lc [mt "at" (tpl 3 4 0); mt "apex" (tpl 0 0 0); mt "from_dir" (tpl 27 10 1); mt "to_dir" (tpl 270 100 10)].
  Lemma angle_case_names : NoDup (names (d_meta angle_case)).
  Proof. cbn. repeat constructor; cbn; intuition discriminate. Qed.
  Lemma angle_case_keys : only angle_keys (d_meta angle_case).
  Proof. intros n [<-|[<-|[<-|[<-|[]]]]]; eexists; (split; [|reflexivity]); cbn; tauto. Qed.
  Lemma nan_case_names : NoDup (names (d_meta nan_case)).
  Proof. cbn. repeat constructor; cbn; intuition discriminate. Qed.
  Lemma nan_case_keys : only angle_keys (d_meta nan_case).
  Proof. intros n [<-|[<-|[<-|[<-|[]]]]]; eexists; (split; [|reflexivity]); cbn; tauto. Qed.
  Lemma angle_ok d (s : vst) fm a p f t : d_kind d = KAngle -> v_rot s = mZP -> NoDup (names (d_meta d)) -> only angle_keys (d_meta d) ->
    angle_args (v_points s) mZP (d_meta d) = Some (fm, a, p, f, t) -> exists s' d', visit_base_dim d s = Ret (s', d', true) /\ (s', true) = draw_angle (d_loc d) fm a p (fst f) (snd f) (fst t) (snd t) s.
  Proof.
    intros K V N O G. destruct (visit_angle_spec d s) as (s' & ml' & ok & H & K1 & _ & K2); [rewrite V; exact view_ok|]. rewrite V in K1, K2.
    assert (OK : ok = true) by (apply K1; rewrite G; split; [exact N|split; [exact O|discriminate]]). destruct (K2 OK) as (_ & fm' & a' & p' & f' & t' & G' & D). rewrite G in G'. injection G' as <- <- <- <- <-.
    exists s', (Dim KAngle (d_loc d) ml'). split; [|exact D]. unfold visit_base_dim. rewrite K, H, OK. reflexivity.
  Qed.
  Lemma angle_case_ok (s : vst) : v_rot s = mZP -> exists s' d', visit_base_dim angle_case s = Ret (s', d', true).
  Proof.
    intro V. set (ap := mulm (tpl 1 1 0) mZP). set (fd := n3 1 0 0). set (td := normalized3 (sub3 (mulm (tpl 2 3 0) mZP) ap)).
    assert (G : angle_args (v_points s) mZP (d_meta angle_case) = Some (B "%.1f", mulm (tpl 2 2 0) mZP, ap, (fd, ap), (td, mulm (tpl 2 3 0) mZP))).
    { assert (Z : @neq AX (z3 (cross3 td fd)) nz = false) by exact fact2.
      change (angle_args _ _ _) with (if @neq AX (z3 (cross3 td fd)) nz then None else Some (B "%.1f", mulm (tpl 2 2 0) mZP, ap, (fd, ap), (td, mulm (tpl 2 3 0) mZP))). rewrite Z. reflexivity. }
    destruct (angle_ok angle_case s _ _ _ _ _ eq_refl V angle_case_names angle_case_keys G) as (s' & d' & H & _). exists s', d'. exact H.
  Qed.
  Lemma nan_label (s : vst) : (forall x, 1 < B2R x -> l_acos lm x = B754_nan) -> v_rot s = mZP ->
    exists s' d' pos, visit_base_dim nan_case s = Ret (s', d', true) /\ o_text (v_page s') = o_text (v_page s) ++ [Text pos (pf_format (B "%.1f") (B754_nan : @num AX) ++ B " deg") true false].
  Proof.
    intros AC V. set (ap := mulm (tpl 0 0 0) mZP). pose proof fact3 as Z. pose proof fact4 as W. set (fd := n3 27 10 1) in *. set (td := n3 270 100 10) in *.
    assert (G : angle_args (v_points s) mZP (d_meta nan_case) = Some (B "%.1f", mulm (tpl 3 4 0) mZP, ap, (fd, ap), (td, ap))).
    { change (angle_args _ _ _) with (if @neq AX (z3 (cross3 td fd)) nz then None else Some (B "%.1f", mulm (tpl 3 4 0) mZP, ap, (fd, ap), (td, ap))). rewrite Z. reflexivity. }
    destruct (angle_ok nan_case s _ _ _ _ _ eq_refl V nan_case_names nan_case_keys G) as (s' & d' & H & D).
    exists s', d'. cbn [fst snd] in D. unfold draw_angle in D. cbv zeta in D. rewrite Z, W in D. apply (f_equal fst) in D. cbn [fst] in D.
      assert (C : 1 < B2R (dot3 td (normalized3 fd) : f64)).
      { rewrite <- SF2R_B2SF. unfold td, fd. rewrite fact5. unfold SF2R, F2R. cbn [Fnum Fexp cond_Zopp bpow]. simpl. lra. }
      eexists. split; [exact H|]. rewrite D. unfold add_text. cbn [v_page set_page o_text map t_str t_center t_raw]. rewrite add_arcs_text, add_lines_text.
      change (@nacos AX) with (l_acos lm). rewrite (AC _ C). reflexivity.
  Qed.
  Lemma nan_sides : exists u v, written lm asc nan_case "from_dir" u /\ written lm asc nan_case "to_dir" v /\ val3 lm asc v = rscale 10 (val3 lm asc u).
  Proof.
    exists (tpl 27 10 1), (tpl 270 100 10). split; [apply in_written; cbn; tauto|]. split; [apply in_written; cbn; tauto|].
    rewrite (proj2 (tri_bnd 9 27 10 1 ltac:(lia) ltac:(lia) ltac:(lia) ltac:(lia))), (proj2 (tri_bnd 9 270 100 10 ltac:(lia) ltac:(lia) ltac:(lia) ltac:(lia))). unfold rscale. cbn [rx ry rz]. f_equal; ring.
  Qed.
  (** A format with text around the number. *)
  Definition with_fmt (d : dim) : list meta := Meta (B "fmt") (MStr (B "about " ++ (B "%." ++ B "4" ++ B "f") ++ B " mm")) lc :: d_meta d.
  Lemma case_format : format64 lm asc (d_meta dim_case) 3 [] 3 [] /\ format64 lm asc (d_meta angle_case) 1 [] 1 [] /\ format64 lm asc (with_fmt dim_case) 3 (B "about ") 4 (B " mm").
  Proof.
    split; [left; split; [cbn; intuition discriminate|auto]|]. split; [left; split; [cbn; intuition discriminate|auto]|].
    right. exists (Meta (B "fmt") (MStr (B "about " ++ (B "%." ++ B "4" ++ B "f") ++ B " mm")) lc), (B "4"). split; [left; reflexivity|]. split; [reflexivity|]. split; [reflexivity|].
    split; [split; [discriminate|reflexivity]|]. split; [lia|]. split; cbn; intuition discriminate.
  Qed.
  Lemma dim_case_meets (s : vst) : v_rot s = mZP ->
    is_point lm asc s dim_case "at" (tpl 1 1 0) /\ is_point lm asc s dim_case "dir" (tpl 1 1 0) /\ is_point lm asc s dim_case "from" (tpl 0 0 0) /\ is_point lm asc s dim_case "to" (tpl 3 4 5) /\
    bnd3 lm asc 3 (tpl 1 1 0) /\ bnd3 lm asc 3 (tpl 0 0 0) /\ bnd3 lm asc 3 (tpl 3 4 5) /\ bnd3 lm asc 200 (tpl 1 1 0) /\
    bp (-200) <= sqrt (rdot (val3 lm asc (tpl 1 1 0)) (val3 lm asc (tpl 1 1 0))).
  Proof.
    intro V. assert (B1 : bnd3 lm asc 3 (tpl 1 1 0)) by (apply tri_bnd; lia).
    split; [apply written_point, in_written; cbn; tauto|]. split; [apply written_point, in_written; cbn; tauto|]. split; [apply written_point, in_written; cbn; tauto|]. split; [apply written_point, in_written; cbn; tauto|].
    split; [exact B1|]. split; [apply tri_bnd; lia|]. split; [apply tri_bnd; lia|]. split.
    - destruct B1 as ([? ?] & [? ?] & [? ?]). repeat split; try assumption; (eapply Rle_trans; [eassumption|apply bp_le; lia]).
    - rewrite (proj2 (tri_bnd 3 1 1 0 ltac:(lia) ltac:(lia) ltac:(lia) ltac:(lia))). unfold rdot. cbn [rx ry rz]. replace (1 * 1 + 1 * 1 + 0 * 0) with 2 by ring.
      apply Rle_trans with 1; [change 1 with (bp 0); apply bp_le; lia|]. rewrite <- sqrt_1. apply sqrt_le_1_alt. lra.
  Qed.
  Lemma angle_case_meets (s : vst) : v_rot s = mZP ->
    is_point lm asc s angle_case "apex" (tpl 1 1 0) /\ bnd3 lm asc 3 (tpl 1 1 0) /\
    side64 lm asc s angle_case 3 "from_dir" "from_point" (tpl 1 1 0) (P3 1 0 0) /\ side64 lm asc s angle_case 3 "to_dir" "to_point" (tpl 1 1 0) (P3 1 2 0) /\
    Rabs (cosine (P3 1 0 0) (P3 1 2 0)) <= 1 - bp (-2 * 1).
  Proof.
    intro V. split; [apply written_point, in_written; cbn; tauto|]. assert (BA : bnd3 lm asc 3 (tpl 1 1 0)) by (apply tri_bnd; lia). split; [exact BA|].
    assert (S5 : 2 <= sqrt 5) by (rewrite <- (sqrt_square 2) by lra; apply sqrt_le_1_alt; lra).
    split; [|split].
    - left. exists (tpl 1 0 0). split; [apply written_point, in_written; cbn; tauto|]. destruct (tri_bnd 3 1 0 0 ltac:(lia) ltac:(lia) ltac:(lia) ltac:(lia)) as [B1 V1]. split; [|split].
      + destruct B1 as ([? ?] & [? ?] & [? ?]). repeat split; try assumption; (eapply Rle_trans; [eassumption|apply bp_le; lia]).
      + rewrite V1. reflexivity.
      + unfold rdot. cbn [rx ry rz]. replace (1 * 1 + 0 * 0 + 0 * 0) with 1 by ring. rewrite sqrt_1. change 1 with (bp 0). apply bp_le. lia.
    - right. exists (tpl 2 3 0). split; [apply written_point, in_written; cbn; tauto|]. destruct (tri_bnd 3 2 3 0 ltac:(lia) ltac:(lia) ltac:(lia) ltac:(lia)) as [B1 V1]. split; [exact B1|]. split.
      + rewrite V1, (proj2 (tri_bnd 3 1 1 0 ltac:(lia) ltac:(lia) ltac:(lia) ltac:(lia))). unfold rsub. cbn [rx ry rz]. f_equal; ring.
      + unfold rdot. cbn [rx ry rz]. replace (1 * 1 + 2 * 2 + 0 * 0) with 5 by ring. apply Rle_trans with 1; [change 1 with (bp 0); apply bp_le; lia|lra].
    - unfold cosine, rdot. cbn [rx ry rz]. replace (1 * 1 + 0 * 0 + 0 * 0) with 1 by ring. replace (1 * 1 + 2 * 2 + 0 * 0) with 5 by ring. replace (1 * 1 + 0 * 2 + 0 * 0) with 1 by ring. rewrite sqrt_1, Rmult_1_l.
      change (bp (-2 * 1)) with (/ 4). assert (I : / sqrt 5 <= / 2) by (apply Rinv_le_contravar; lra). assert (0 < / sqrt 5) by (apply Rinv_0_lt_compat; lra). unfold Rdiv. rewrite Rmult_1_l, Rabs_pos_eq; lra.
  Qed.
End Cases.
