(** P_Value2.v - dimensions with coordinates succeed; the values of dia, rad and
    center(), in exact arithmetic. *)
From Coq Require Import Reals Lra.
From Verif Require Import Base Num NumReal Geo Stl RealSpec Env Ast Ps Draw DocSpec P_Base P_Meta P_Dims P_Doc P_Script3 P_Script4 P_Real
  CircleSpec P_Circle P_Circle2 DimSpec P_Value.

Local Unset Implicit Arguments.
Local Open Scope R_scope.

Section Values.
  Context {E : @Env XR}.
  #[local] Instance AX2 : Arith := XR.
  Lemma rotation_nonzero r : rotation r -> @eqm XR (embm r) zerom = false.
  Proof.
    intros [D _]. destruct (@eqm XR (embm r) zerom) eqn:Z; [|reflexivity]. exfalso. specialize (D (P3 1 0 0) (P3 1 0 0)).
    destruct r as [[a b c] [a1 b1 c1] [a2 b2 c2]]. unfold eqm, eq3 in Z. cbn in Z. rewrite !andb_true_iff in Z. destruct Z as [[[[Z1 Z2] Z3] _] _].
    apply reqb_iff in Z1. apply reqb_iff in Z2. apply reqb_iff in Z3. unfold rdot, rmul in D. cbn [rx ry rz r0 r1 r2] in D. subst. lra.
  Qed.
  Lemma dim_succeeds d s r a u f t : d_kind d = KDim -> v_rot s = embm r -> rotation r -> NoDup (map m_name (d_meta d)) ->
    (forall x, In x (d_meta d) -> In (m_name x) (map B ["at"; "dir"; "from"; "to"]%string)) ->
    coordinate (d_meta d) "at" a -> coordinate (d_meta d) "dir" u -> coordinate (d_meta d) "from" f -> coordinate (d_meta d) "to" t -> u <> rzero ->
    exists s' d', visit_base_dim d s = Ret (s', d', true).
  Proof.
    intros K R0 RR N O Ca Cu Cf Ct U. assert (Z : eqm (v_rot s) zerom = false) by (rewrite R0; apply rotation_nonzero, RR).
    destruct (visit_dim_spec d s Z) as (s2 & ml2 & ok2 & H1 & H2 & _ & _). unfold visit_base_dim. rewrite K, H1. cbn [obind].
    assert (OK : ok2 = true); [|rewrite OK; eauto]. apply H2. split; [exact N|]. split.
    - intros n I. unfold names in I. apply in_map_iff in I. destruct I as (x & <- & I). specialize (O x I). apply in_map_iff in O. destruct O as (k & Q & O).
      exists k. split; [|congruence]. cbn in O |- *. tauto.
    - unfold dim_args. rewrite R0. rewrite (coord_arg _ r _ _ _ N Ca), (coord_arg _ r _ _ _ N Cu), (coord_arg _ r _ _ _ N Cf), (coord_arg _ r _ _ _ N Ct).
      unfold fmt_arg. rewrite (arg_absent "fmt"). 2:{ intro F. unfold has in F. apply in_map_iff in F. destruct F as (x & Q & I). specialize (O x I). rewrite Q in O. apply in_map_iff in O. destruct O as (k & Q2 & O).
        cbn in O. destruct O as [<-|[<-|[<-|[<-|[]]]]]; discriminate Q2. }
      destruct (eq3 (emb (rmul u r)) zero3) eqn:G; [|discriminate]. exfalso. apply U, (rmul_zero r u RR). unfold eq3 in G. cbn in G. rewrite !andb_true_iff in G. destruct G as [[G1 G2] G3].
      apply reqb_iff in G1. apply reqb_iff in G2. apply reqb_iff in G3. apply pt_ext; assumption.
  Qed.
  Lemma angle_succeeds d s r a ap u v : d_kind d = KAngle -> v_rot s = embm r -> rotation r -> NoDup (map m_name (d_meta d)) ->
    (forall x, In x (d_meta d) -> In (m_name x) (map B ["at"; "apex"; "from_dir"; "to_dir"]%string)) ->
    coordinate (d_meta d) "at" a -> coordinate (d_meta d) "apex" ap -> coordinate (d_meta d) "from_dir" u -> coordinate (d_meta d) "to_dir" v ->
    rz (rcross (rmul u r) (rmul v r)) <> 0 -> exists s' d', visit_base_dim d s = Ret (s', d', true).
  Proof.
    intros K R0 RR N O Ca Cp Cu Cv X. assert (Z : eqm (v_rot s) zerom = false) by (rewrite R0; apply rotation_nonzero, RR).
    destruct (visit_angle_spec d s Z) as (s2 & ml2 & ok2 & H1 & H2 & _ & _). unfold visit_base_dim. rewrite K, H1. cbn [obind].
    assert (OK : ok2 = true); [|rewrite OK; eauto]. apply H2. split; [exact N|]. split.
    - intros n I. unfold names in I. apply in_map_iff in I. destruct I as (x & <- & I). specialize (O x I). apply in_map_iff in O. destruct O as (k & Q & O).
      exists k. split; [|congruence]. cbn in O |- *. tauto.
    - assert (AB : forall n, ~ In (B n) (map B ["at"; "apex"; "from_dir"; "to_dir"]%string) -> arg n (d_meta d) = None).
      { intros n H. apply arg_absent. intro F. unfold has in F. apply in_map_iff in F. destruct F as (x & Q & I). specialize (O x I). rewrite Q in O. contradiction. }
      unfold angle_args. rewrite R0. rewrite (coord_arg _ r _ _ _ N Ca), (coord_arg _ r _ _ _ N Cp). unfold side_arg, fmt_arg.
      rewrite (AB "from_point"%string), (AB "to_point"%string), (AB "fmt"%string) by (cbn; intuition discriminate).
      pose proof (coord_arg (v_points s) r _ _ _ N Cu) as Vu. pose proof (coord_arg (v_points s) r _ _ _ N Cv) as Vv. unfold point_arg in Vu, Vv.
      destruct (arg "from_dir" (d_meta d)) as [xu|]; [|discriminate Vu]. destruct (arg "to_dir" (d_meta d)) as [xv|]; [|discriminate Vv]. rewrite Vu, Vv. cbn [fst snd].
      assert (NZ : rmul u r <> rzero /\ rmul v r <> rzero).
      { split; intro Q; apply X; rewrite Q; unfold rcross, rzero; cbn [rx ry rz]; ring. }
      destruct NZ as [NU NV]. rewrite (normalized_emb _ NU), (normalized_emb _ NV), cross_emb. cbn [z3 emb]. destruct (neq _ _) eqn:G; [|discriminate]. exfalso. apply X.
      change (reqb (rz (rcross (runit (rmul v r)) (runit (rmul u r)))) 0 = true) in G. apply reqb_iff in G.
      set (ku := / sqrt (rdot (rmul u r) (rmul u r))). set (kv := / sqrt (rdot (rmul v r) (rmul v r))).
      assert (Q : rz (rcross (runit (rmul v r)) (runit (rmul u r))) = - (ku * kv * rz (rcross (rmul u r) (rmul v r)))).
      { unfold runit. fold ku kv. unfold rcross, rscale. cbn [rx ry rz]. ring. }
      rewrite Q in G. assert (KU : 0 < ku) by (apply Rinv_0_lt_compat, sqrt_lt_R0, rdot_nz, NU). assert (KV : 0 < kv) by (apply Rinv_0_lt_compat, sqrt_lt_R0, rdot_nz, NV).
      assert (G' : ku * kv * rz (rcross (rmul u r) (rmul v r)) = 0) by lra. apply Rmult_integral in G'. destruct G' as [G'|G']; [|exact G'].
      pose proof (Rmult_lt_0_compat _ _ KU KV). lra.
  Qed.

  (** ** dia, rad, center() *)
  Lemma fit_measures ps t res : @fit_circle XR (map emb ps) (e2 t) = Some res -> exists c rho, res = (e2 c, Fin rho : @num XR) /\ measured ps t c rho.
  Proof.
    intro H. destruct (fit_two ps t) as (k & EK & [[_ F]|(S & c0 & rho0 & c & rho & P & G & F & BC)]); [congruence|]. rewrite F in H. injection H as <-. exists c, rho. split; [reflexivity|].
    exists k, c0, rho0. split; [|auto]. rewrite <- EK. f_equal. rewrite !map_map. apply map_ext. reflexivity.
  Qed.
  Lemma dia_text fm ce a dd r s : exists pos, o_text (v_page (draw_dia fm ce a dd r s)) = o_text (v_page s) ++ [Text pos (B "\351" ++ pf_format fm (r * n2)%num) true true].
  Proof.
    unfold draw_dia. cbv zeta. unfold add_text. cbn [v_page set_page o_text map t_str t_center t_raw]. rewrite add_lines_text.
    match goal with |- context [if ?b then _ else _] => destruct b end; rewrite add_lines_text; eexists; reflexivity.
  Qed.
  Lemma rad_text fm ce a dd r s : exists pos, o_text (v_page (draw_rad fm ce a dd r s)) = o_text (v_page s) ++ [Text pos (B "R" ++ pf_format fm r) true false].
  Proof.
    unfold draw_rad. cbv zeta. unfold add_text. cbn [v_page set_page o_text map t_str t_center t_raw]. rewrite add_lines_text.
    match goal with |- context [if ?b then _ else _] => destruct b end; rewrite add_lines_text; eexists; reflexivity.
  Qed.
  Lemma circ_known what draw d s s' ml' r c : visit_circ what draw d s = Ret (s', ml', true) -> v_rot s = embm r -> rotation r -> coordinate (d_meta d) "center" c ->
    exists fm ce a dd rr, format_of (d_meta d) "%.3f" fm /\ @fit_circle XR (v_points s) (e2 (flat2 (rmul c r))) = Some (ce, rr) /\ s' = draw fm ce a dd rr s.
  Proof.
    intros H R0 RR C. assert (Z : eqm (v_rot s) zerom = false) by (rewrite R0; apply rotation_nonzero, RR).
    destruct (visit_circ_spec what draw d s Z) as (s2 & ml2 & ok2 & H1 & H2 & _ & H4). rewrite H1 in H. injection H as -> _ ->.
    destruct (H4 eq_refl) as (_ & fm & ce & a & dd & rr & G & ->). assert (N : NoDup (names (d_meta d))) by (apply H2; reflexivity).
    unfold circ_args in G. rewrite R0, (coord_arg _ r _ _ _ N C) in G. destruct (point_arg _ _ "at" _) as [va|]; [|discriminate]. destruct (point_arg _ _ "dir" _) as [vd|]; [|discriminate].
    destruct (fmt_arg "%.3f" (d_meta d)) as [fm'|] eqn:FM; [|discriminate]. destruct (_ <? _)%nat; [discriminate|].
    destruct (@fit_circle XR (v_points s) (xy (emb (rmul c r)))) as [[ce' r']|] eqn:F; [|discriminate]. injection G as -> -> _ _ ->.
    exists fm, ce, a, dd, rr. split; [exact (fmt_known _ _ _ FM)|]. split; [exact F|reflexivity].
  Qed.
  Theorem dia_value d s s' d' r ps c : d_kind d = KDia -> v_rot s = embm r -> rotation r -> v_points s = map emb ps -> coordinate (d_meta d) "center" c ->
    visit_base_dim d s = Ret (s', d', true) ->
    exists ce rho fm pos, measured ps (flat2 (rmul c r)) ce rho /\ format_of (d_meta d) "%.3f" fm /\
      o_text (v_page s') = o_text (v_page s) ++ [Text pos (B "\351" ++ pf_format fm (Fin (2 * rho) : @num XR)) true true].
  Proof.
    intros K R0 RR PS C H. unfold visit_base_dim in H. rewrite K, obind_ret in H. destruct H as ([[s1 ml] ok] & H & HR). injection HR as -> _ ->.
    destruct (circ_known _ _ _ _ _ _ r c H R0 RR C) as (fm & ce & a & dd & rr & FM & F & ->). rewrite PS in F.
    destruct (fit_measures _ _ _ F) as (c1 & rho & Q & M). injection Q as -> ->. destruct (dia_text fm (e2 c1) a dd (Fin rho : @num XR) s) as (pos & T).
    exists c1, rho, fm, pos. split; [exact M|]. split; [exact FM|]. rewrite T. rewrite (Rmult_comm 2 rho). reflexivity.
  Qed.
  Theorem rad_value d s s' d' r ps c : d_kind d = KRad -> v_rot s = embm r -> rotation r -> v_points s = map emb ps -> coordinate (d_meta d) "center" c ->
    visit_base_dim d s = Ret (s', d', true) ->
    exists ce rho fm pos, measured ps (flat2 (rmul c r)) ce rho /\ format_of (d_meta d) "%.3f" fm /\
      o_text (v_page s') = o_text (v_page s) ++ [Text pos (B "R" ++ pf_format fm (Fin rho : @num XR)) true false].
  Proof.
    intros K R0 RR PS C H. unfold visit_base_dim in H. rewrite K, obind_ret in H. destruct H as ([[s1 ml] ok] & H & HR). injection HR as -> _ ->.
    destruct (circ_known _ _ _ _ _ _ r c H R0 RR C) as (fm & ce & a & dd & rr & FM & F & ->). rewrite PS in F.
    destruct (fit_measures _ _ _ F) as (c1 & rho & Q & M). injection Q as -> ->. destruct (rad_text fm (e2 c1) a dd (Fin rho : @num XR) s) as (pos & T).
    exists c1, rho, fm, pos. auto.
  Qed.
  Theorem center_value ps q l t v : snd (@invoke XR (map emb ps) q) = Some (emb t) -> snd (@invoke XR (map emb ps) (PFunc (B "center") q l)) = Some v ->
    exists c rho, measured ps (flat2 t) c rho /\ v = emb (P3 (fst c) (snd c) 0).
  Proof.
    intros I. cbn [invoke]. change (bytes_eqb (B "center") (B "near")) with false. change (bytes_eqb (B "center") (B "center")) with true. cbv iota.
    destruct (_ <? _)%nat; [discriminate|]. destruct (@invoke XR (map emb ps) q) as [lg o]. cbn [snd] in I. subst o.
    change (xy (emb t)) with (e2 (flat2 t)). destruct (@fit_circle XR (map emb ps) (e2 (flat2 t))) as [[c rr]|] eqn:F; [|discriminate]. intro H. injection H as <-.
    destruct (fit_measures _ _ _ F) as (c1 & rho & Q & M). injection Q as -> _. exists c1, rho. split; [exact M|reflexivity].
  Qed.
End Values.
