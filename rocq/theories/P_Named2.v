(** P_Named2.v - what draws with a named view or with angles show. *)
From Coq Require Import Reals Lra ZArith Lia Permutation.
From Flocq Require Import Core IEEE754.BinarySingleNaN.
From Verif Require Import Base Num NumReal NumF64 NumLaws Geo Stl Env Ast Ps Draw GeoSpec DocSpec F64Spec P_Base P_Index P_Part P_Real P_Script2 P_Total P_Value P_Doc P_Dims P_Lang2 P_Centre P_Move P_Move2 P_Named DimSpec ViewSpec RealSpec.

Local Unset Implicit Arguments.
Local Open Scope R_scope.
Section NamedDraw.
  Context (lm : libm) (asc : bool).
  Notation AN := (F64 lm asc).
  Lemma shown_looks n m (s p : @stl AN) : @matrix_by_name AN n = Some m -> Forall (fun f => fin3 lm asc (fnorm f) /\ finF lm asc f) (facets s) -> rotate s m = Ret p ->
    Permutation (map (fun f => map Some (value_facet f)) (facets p)) (map (fun f => looks n (value_facet f)) (filter (fun f => turned_to n (value3 (fnorm f))) (facets s))).
  Proof.
    intros H F R. assert (FN : Forall (fun f => fin3 lm asc (fnorm f)) (facets s)) by (eapply Forall_impl; [|exact F]; intros f [K _]; exact K).
    rewrite (named_facets lm asc n m s p H FN R), map_map. apply eq_rect with (P := Permutation _) (x := map (fun f => map Some (value_facet (rotate_facet m f))) (filter (fun f => turned_to n (value3 (fnorm f))) (facets s))); [reflexivity|].
    apply map_ext_in. intros f I. apply filter_In in I. destruct I as [I _]. rewrite Forall_forall in F. destruct (F f I) as (N & F0 & F1 & F2).
    unfold looks, value_facet, rotate_facet. cbn [fnorm fe0 fe1 fe2 map].
    pose proof (proj2 (named_exact lm asc n m _ H N)) as Q. pose proof (proj2 (named_exact lm asc n m _ H F0)) as Q0.
    pose proof (proj2 (named_exact lm asc n m _ H F1)) as Q1. pose proof (proj2 (named_exact lm asc n m _ H F2)) as Q2.
    repeat (apply f_equal2; [symmetry; assumption|]). reflexivity.
  Qed.
  (** A named view is asked for once, whatever it is called elsewhere. *)
  Theorem named_drawing (E : @Env AN) st l n ml ds s s1 ds1 f x v : visit_draw st l n ml ds s = Ret (s1, ds1, true) -> smap_find bytes_ltb n st = Some (Some f) ->
    In x ml -> m_name x = B "view" -> m_val x = MStr v -> Forall (fun f => fin3 lm asc (fnorm f) /\ finF lm asc f) (facets f) ->
    exists proj ls q (sc : @num AN) off, shows st n ml proj ls /\ v_page s1 = plus_page (v_page s) (put_page sc off (plus_page (OPage ls [] []) q)) /\
      Permutation (map (fun f => map Some (value_facet f)) (facets proj)) (map (fun f => looks v (value_facet f)) (filter (fun f => turned_to v (value3 (fnorm f))) (facets f))).
  Proof.
    intros V M I NX VX F. destruct (placed_off _ _ _ _ _ _ _ _ V) as (a & b & proj & ls & q & pl & AS & SH & HP & HV). cbv zeta in HV.
    exists proj, ls, q. eexists. eexists. split; [exact SH|]. split; [exact HV|].
    destruct SH as (f' & rot & pr & M' & AV & R & -> & L). rewrite M in M'. injection M' as <-. rewrite (rotated_culled _ _ _ R).
    apply (shown_looks v rot f pr); [|exact F|exact R].
    pose proof (drawn_nodup _ _ _ _ _ _ _ _ V) as ND. pose proof (asks_view_of ml _ ND AV) as Q. unfold view_of in Q. rewrite (arg_unique _ _ _ ND I NX) in Q. unfold as_loc, as_str in Q. rewrite VX in Q. exact Q.
  Qed.
End NamedDraw.
(** Views given by angles. *)
Theorem angle_view (a b : R) (p : rpt) : mulm (emb p) (matrix_by_ang (emb2 a b)) = emb (tilt (degrees b) (spin (degrees a) p)).
Proof.
  unfold matrix_by_ang. cbn [emb2 x2 y2].
  assert (W : forall d, (ndiv (nmul (Fin d : @num XR) PI) (of_Z 180)) = (Fin (degrees d) : @num XR)).
  { intro d. unfold degrees. simpl. destruct (reqb_spec 180 0) as [Z|_]; [lra|]. reflexivity. }
  rewrite !W, rotate_rotation, mulm_emb. f_equal. unfold tilt, spin, rrot. rewrite cos_neg, sin_neg. apply pt_ext; rgeo; ring.
Qed.
Theorem angle_turn (E : @Env XR) ml x a b : In x ml -> m_name x = B "view" -> m_val x = MLoc (emb2 a b) ->
  exists r, rotation r /\ asks_view ml (embm r) /\ forall p, rmul p r = tilt (degrees b) (spin (degrees a) p).
Proof.
  intros I N V. destruct (angle_rotation a b) as (r & Q & H). exists r. split; [exact H|]. split; [rewrite <- Q; eapply AV_angles; eassumption|].
  intro p. pose proof (angle_view a b p) as K. rewrite Q, mulm_emb in K. injection K as K1 K2 K3. apply pt_ext; assumption.
Qed.
Theorem flat_view p : tilt 0 (spin 0 p) = p /\ look (B "Z+") p = Some (tilt 0 (spin 0 p)) /\ look (B "Y-") p = Some (tilt (Rtrigo1.PI / 2) (spin 0 p)) /\
  look (B "X+") p = Some (tilt (Rtrigo1.PI / 2) (spin (- (Rtrigo1.PI / 2)) p)) /\ look (B "X-") p = Some (tilt (Rtrigo1.PI / 2) (spin (Rtrigo1.PI / 2) p)) /\
  look (B "Y+") p = Some (tilt (Rtrigo1.PI / 2) (spin Rtrigo1.PI p)) /\ look (B "Z-") p = Some (tilt Rtrigo1.PI (spin 0 p)).
Proof.
  unfold look, tilt, spin. cbn [bytes_eqb]. rewrite ?sin_neg, ?cos_neg, ?cos_PI2, ?sin_PI2, ?cos_0, ?sin_0, ?cos_PI, ?sin_PI. destruct p as [x y z].
  repeat split; simpl; try (apply f_equal); apply pt_ext; simpl; ring.
Qed.
