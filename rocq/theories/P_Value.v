(** P_Value.v - the values of dimensions, in exact arithmetic. *)
From Coq Require Import Reals Lra.
From Verif Require Import Base Num NumReal Geo Stl RealSpec Env Ast Ps Draw DocSpec P_Base P_Meta P_Dims P_Doc P_Script3 P_Script4 P_Real DimSpec.

Local Unset Implicit Arguments.
Local Open Scope R_scope.

Section Args.
  Context {A : Arith} {E : Env}.
  Lemma arg_unique n (ml : list meta) x : NoDup (names ml) -> In x ml -> m_name x = B n -> arg n ml = Some x.
  Proof.
    intros N I H. destruct (arg_prop n ml) as [(i & y & P & NE & Q & AE)|[P AE]].
    - rewrite AE. f_equal. apply nth_error_In in NE.
      unfold names in N. clear P AE. induction ml as [|z ml IH]; [destruct I|]. cbn in N. inversion N as [|? ? N1 N2]; subst.
      destruct I as [->|I], NE as [->|NE]; [reflexivity| | |auto].
      + exfalso. apply N1. rewrite H, <- Q. apply in_map, NE.
      + exfalso. apply N1. rewrite Q, <- H. apply in_map, I.
    - exfalso. unfold prop in P. apply index_of_none in P. apply P. rewrite <- H. unfold names. apply in_map, I.
  Qed.
  Lemma arg_absent n (ml : list meta) : ~ has ml n -> arg n ml = None.
  Proof. intro H. destruct (arg n ml) as [x|] eqn:G; [|reflexivity]. destruct (arg_in _ _ G) as [I Q]. exfalso. apply H. unfold has. rewrite <- Q. apply in_map, I. Qed.
  Lemma add_lines_text l s : o_text (v_page (add_lines l s)) = o_text (v_page s). Proof. reflexivity. Qed.
  Lemma add_arcs_text l s : o_text (v_page (add_arcs l s)) = o_text (v_page s). Proof. reflexivity. Qed.
  Lemma dim_text fm a dd f t s : exists pos, o_text (v_page (draw_dim fm a dd f t s)) =
    o_text (v_page s) ++ [Text pos (pf_format fm (norm3 (sub3 (add3 a (mul3 dd (dot3 dd (sub3 t a)))) (add3 a (mul3 dd (dot3 dd (sub3 f a))))))) true false].
  Proof.
    unfold draw_dim. cbv zeta. rewrite add_lines_text.
    match goal with |- context [if ?b then _ else _] => destruct b end; rewrite add_lines_text; unfold add_text; cbn [v_page set_page o_text map t_str t_center t_raw]; eexists; reflexivity.
  Qed.
  Lemma angle_text l fm a p fd fp td tp s s' : (s', true) = draw_angle l fm a p fd fp td tp s ->
    (z3 (cross3 td fd) =? nz)%num = false /\ exists pos x y, ((x = fd /\ y = td) \/ (x = td /\ y = fd)) /\
    o_text (v_page s') = o_text (v_page s) ++ [Text pos (pf_format fm (nacos (dot3 x (normalized3 y)) * of_Z 180 / Geo.PI)%num ++ B " deg") true false].
  Proof.
    unfold draw_angle. cbv zeta. destruct (z3 (cross3 td fd) =? nz)%num; [discriminate|]. intro H. apply (f_equal fst) in H. cbn [fst] in H. rewrite H. clear H. split; [reflexivity|].
    destruct (ngt (z3 (cross3 td fd)) nz); eexists; [exists td, fd|exists fd, td]; (split; [auto|]); unfold add_text; cbn [v_page set_page o_text map t_str t_center t_raw]; rewrite add_arcs_text, add_lines_text; reflexivity.
  Qed.
End Args.

Section Values.
  Context {E : @Env XR}.
  #[local] Instance AX : Arith := XR.
  Lemma coord_arg ps r ml n p : NoDup (names ml) -> coordinate ml n p -> point_arg ps (embm r) n ml = Some (emb (rmul p r)).
  Proof.
    intros N (x & l & I & Q & V). unfold point_arg. rewrite (arg_unique n ml x N I Q). unfold ev, as_point. rewrite V. cbn [point_rotate invoke snd]. rewrite <- mulm_emb. reflexivity.
  Qed.
  Lemma fmt_known ml dflt fm : fmt_arg dflt ml = Some fm -> format_of ml dflt fm.
  Proof.
    unfold fmt_arg. destruct (arg "fmt" ml) as [x|] eqn:G.
    - destruct (arg_in _ _ G) as [I Q]. destruct (as_str x) as [f|] eqn:F; [|discriminate]. destruct (pf_ok f); [|discriminate]. intro H; injection H as ->.
      left. exists x. split; [exact I|]. split; [exact Q|]. unfold as_str in F. destruct (m_val x); congruence.
    - intro H; injection H as <-. right. split; [|reflexivity]. intro K. unfold has in K. apply in_map_iff in K. destruct K as (x & Q & I).
      destruct (arg_prop "fmt" ml) as [(i & y & P & NE & Q' & AE)|[P AE]]; [congruence|]. unfold prop in P. apply index_of_none in P. apply P. rewrite <- Q. unfold names. apply in_map, I.
  Qed.
  Lemma side_known ps r kd kp ml ap u f : NoDup (names ml) -> side_dir ml kd kp ap u ->
    side_arg ps (embm r) kd kp ml (emb (rmul ap r)) = Some f -> fst f = normalized3 (emb (rmul u r)).
  Proof.
    intros N [C|(p & C & ->)] H; unfold side_arg in H.
    - pose proof (coord_arg ps r ml kd u N C) as V. unfold point_arg in V. destruct (arg kd ml) as [x|]; [|discriminate V].
      destruct (arg kp ml); [discriminate H|]. rewrite V in H. injection H as <-. reflexivity.
    - pose proof (coord_arg ps r ml kp p N C) as V. unfold point_arg in V. destruct (arg kp ml) as [x|]; [|discriminate V].
      destruct (arg kd ml); [discriminate H|]. rewrite V in H. injection H as <-. cbn [fst]. rewrite sub_emb, rmul_sub. reflexivity.
  Qed.
  (** Visits by kind. *)
  Lemma dim_visit d s s' d' : d_kind d = KDim -> visit_base_dim d s = Ret (s', d', true) -> NoDup (names (d_meta d)) /\
    exists fm a dd f t, dim_args (v_points s) (v_rot s) (d_meta d) = Some (fm, a, dd, f, t) /\ s' = draw_dim fm a (normalized3 dd) f t s.
  Proof.
    intros K H. destruct (eqm (v_rot s) zerom) eqn:Z.
    { destruct (base_dim_null _ _ Z H) as (Q & _). discriminate Q. }
    unfold visit_base_dim in H. rewrite K, obind_ret in H. destruct H as ([[s1 ml] ok] & H & HR). injection HR as -> _ ->.
    destruct (visit_dim_spec d s Z) as (s2 & ml2 & ok2 & H1 & H2 & _ & H4). rewrite H1 in H. injection H as -> _ ->.
    split; [apply H2; reflexivity|]. destruct (H4 eq_refl) as (_ & fm & a & dd & f & t & G & Q). exists fm, a, dd, f, t. auto.
  Qed.
  Lemma angle_visit d s s' d' : d_kind d = KAngle -> visit_base_dim d s = Ret (s', d', true) -> NoDup (names (d_meta d)) /\
    exists fm a p f t, angle_args (v_points s) (v_rot s) (d_meta d) = Some (fm, a, p, f, t) /\
      (s', true) = draw_angle (d_loc d) fm a p (fst f) (snd f) (fst t) (snd t) s.
  Proof.
    intros K H. destruct (eqm (v_rot s) zerom) eqn:Z.
    { destruct (base_dim_null _ _ Z H) as (Q & _). discriminate Q. }
    unfold visit_base_dim in H. rewrite K, obind_ret in H. destruct H as ([[s1 ml] ok] & H & HR). injection HR as -> _ ->.
    destruct (visit_angle_spec d s Z) as (s2 & ml2 & ok2 & H1 & H2 & _ & H4). rewrite H1 in H. injection H as -> _ ->.
    split; [apply H2; reflexivity|]. destruct (H4 eq_refl) as (_ & fm & a & dd & f & t & G & Q). exists fm, a, dd, f, t. auto.
  Qed.

  (** ** dim *)
  Lemma length_along u a f t : u <> rzero ->
    norm3 (sub3 (add3 (emb a) (mul3 (emb (runit u)) (dot3 (emb (runit u)) (sub3 (emb t) (emb a))))) (add3 (emb a) (mul3 (emb (runit u)) (dot3 (emb (runit u)) (sub3 (emb f) (emb a)))))) =
    Fin (along u f t).
  Proof.
    intro U. rewrite !sub_emb, !dot_emb, !mul_emb, !add_emb, sub_emb. unfold norm3. rewrite sqn_emb. cbn [nsqrt AX XR xsqrt].
    set (w := runit u). set (k := rdot w (rsub t f)).
    assert (Q : forall v, rdot (rsub (radd a (rscale (rdot w (rsub t a)) w)) (radd a (rscale (rdot w (rsub f a)) w))) v = k * rdot w v).
    { intro v. unfold k, rdot, rsub, radd, rscale. cbn [rx ry rz]. ring. }
    assert (W : rdot w w = 1) by (apply runit_unit; exact U).
    assert (S : rdot (rsub (radd a (rscale (rdot w (rsub t a)) w)) (radd a (rscale (rdot w (rsub f a)) w))) (rsub (radd a (rscale (rdot w (rsub t a)) w)) (radd a (rscale (rdot w (rsub f a)) w))) = Rsqr k).
    { rewrite Q. assert (C : forall x y, rdot x y = rdot y x) by (intros; unfold rdot; ring). rewrite C, Q, W. unfold Rsqr. ring. }
    rewrite S. rewrite (proj2 (rltb_false (Rsqr k) 0)) by apply Rle_0_sqr. rewrite sqrt_Rsqr_abs. unfold k, along, w. rewrite runit_dot by exact U.
    assert (C : rdot u (rsub t f) = rdot (rsub t f) u) by (unfold rdot; ring). rewrite C. pose proof (rdot_nz u U) as P. pose proof (sqrt_lt_R0 _ P) as SP.
    unfold Rdiv. rewrite Rabs_mult, (Rabs_pos_eq (/ sqrt (rdot u u))); [reflexivity|]. apply Rlt_le, Rinv_0_lt_compat, SP.
  Qed.
  Lemma rmul_zero r u : rotation r -> rmul u r = rzero -> u = rzero.
  Proof. intros [D _] H. apply rdot_zero. rewrite <- (D u u), H. unfold rdot, rzero. cbn [rx ry rz]. ring. Qed.
  Lemma along_turned r u f t : rotation r -> along (rmul u r) (rmul f r) (rmul t r) = along u f t.
  Proof. intros [D _]. unfold along. rewrite rmul_sub, !D. reflexivity. Qed.
  Theorem dim_value d s s' d' r a u f t : d_kind d = KDim -> v_rot s = embm r -> rotation r ->
    coordinate (d_meta d) "at" a -> coordinate (d_meta d) "dir" u -> coordinate (d_meta d) "from" f -> coordinate (d_meta d) "to" t ->
    visit_base_dim d s = Ret (s', d', true) ->
    u <> rzero /\ exists fm pos, format_of (d_meta d) "%.3f" fm /\
      o_text (v_page s') = o_text (v_page s) ++ [Text pos (pf_format fm (Fin (along u f t) : @num XR)) true false].
  Proof.
    intros K R0 RR Ca Cu Cf Ct H. destruct (dim_visit d s s' d' K H) as (N & fm & va & vd & vf & vt & G & ->). rewrite R0 in G. unfold dim_args in G.
    rewrite (coord_arg _ r _ _ _ N Ca), (coord_arg _ r _ _ _ N Cu), (coord_arg _ r _ _ _ N Cf), (coord_arg _ r _ _ _ N Ct) in G.
    destruct (fmt_arg "%.3f" (d_meta d)) as [fm'|] eqn:F; [|discriminate]. destruct (eq3 (emb (rmul u r)) zero3) eqn:Z; [discriminate|]. injection G as -> <- <- <- <-.
    assert (U : u <> rzero).
    { intros ->. assert (Q : rmul rzero r = rzero) by (apply pt_ext; unfold rmul, rzero; cbn [rx ry rz]; ring). rewrite Q in Z.
      unfold eq3 in Z. cbn in Z. destruct (reqb_spec 0 0) as [_|X]; [discriminate Z|lra]. }
    split; [exact U|]. assert (U' : rmul u r <> rzero) by (intro Q; apply U, (rmul_zero r u RR Q)).
    destruct (dim_text fm (emb (rmul a r)) (normalized3 (emb (rmul u r))) (emb (rmul f r)) (emb (rmul t r)) s) as (pos & T).
    exists fm, pos. split; [exact (fmt_known _ _ _ F)|]. rewrite T, (normalized_emb _ U'), (length_along _ _ _ _ U'), (along_turned r u f t RR). reflexivity.
  Qed.


  (** ** angle *)
  Lemma normalized_zero : normalized3 (emb rzero) = emb rzero.
  Proof. unfold normalized3. rewrite sqn_emb. cbv zeta. change (nz : @num XR) with (Fin 0). cbn [nlt AX XR xlt]. rewrite (proj2 (rltb_false 0 (rdot rzero rzero))) by (unfold rdot, rzero; cbn [rx ry rz]; lra). reflexivity. Qed.
  Lemma zero_dec u : u = rzero \/ u <> rzero.
  Proof. destruct (Req_EM_T (rdot u u) 0) as [Z|Z]; [left; apply rdot_zero, Z|right; intros ->; apply Z; unfold rdot, rzero; cbn [rx ry rz]; ring]. Qed.
  Lemma runit_again u : u <> rzero -> runit (runit u) = runit u.
  Proof. intro U. unfold runit at 1. rewrite (runit_unit u U), sqrt_1, Rinv_1. apply pt_ext; unfold rscale; cbn [rx ry rz]; ring. Qed.
  Lemma runit_nz u : u <> rzero -> runit u <> rzero.
  Proof. intros U Q. pose proof (runit_unit u U) as W. rewrite Q in W. unfold rdot, rzero in W. cbn [rx ry rz] in W. lra. Qed.
  Lemma units_bound x y : rdot x x = 1 -> rdot y y = 1 -> -1 <= rdot x y <= 1.
  Proof.
    intros X Y. pose proof (rdot_pos (radd x y)) as P. pose proof (rdot_pos (rsub x y)) as M.
    assert (EP : rdot (radd x y) (radd x y) = rdot x x + 2 * rdot x y + rdot y y) by (unfold rdot, radd; cbn [rx ry rz]; ring).
    assert (EM : rdot (rsub x y) (rsub x y) = rdot x x - 2 * rdot x y + rdot y y) by (unfold rdot, rsub; cbn [rx ry rz]; ring).
    lra.
  Qed.
  Lemma runits_dot u v : u <> rzero -> v <> rzero -> rdot (runit u) (runit v) = rdot u v / (sqrt (rdot u u) * sqrt (rdot v v)).
  Proof.
    intros U V. rewrite (runit_dot u _ U). assert (C : rdot u (runit v) = rdot (runit v) u) by (unfold rdot; ring). rewrite C, (runit_dot v _ V).
    pose proof (sqrt_lt_R0 _ (rdot_nz u U)). pose proof (sqrt_lt_R0 _ (rdot_nz v V)). assert (C' : rdot v u = rdot u v) by (unfold rdot; ring). rewrite C'. field. split; lra.
  Qed.
  Lemma degrees_sym u v : degrees u v = degrees v u.
  Proof. unfold degrees. assert (C : rdot u v = rdot v u) by (unfold rdot; ring). rewrite C, (Rmult_comm (sqrt (rdot u u))). reflexivity. Qed.
  Lemma degrees_turned r u v : rotation r -> degrees (rmul u r) (rmul v r) = degrees u v.
  Proof. intros [D _]. unfold degrees. rewrite !D. reflexivity. Qed.
  Lemma pi_dec : @Geo.PI XR = Fin (31415926535897932 / 10000000000000000).
  Proof.
    unfold Geo.PI. change (Fin (31415926535897932 * / (10 ^ 16)) = Fin (31415926535897932 / 10000000000000000)).
    replace (10 ^ 16) with 10000000000000000 by (cbn [pow]; ring). reflexivity.
  Qed.
  Lemma angle_of u v : u <> rzero -> v <> rzero ->
    (nacos (dot3 (emb (runit u)) (normalized3 (emb (runit v)))) * of_Z 180 / Geo.PI)%num = (Fin (degrees u v) : @num XR).
  Proof.
    intros U V. rewrite (normalized_emb _ (runit_nz v V)), (runit_again v V), dot_emb. rewrite pi_dec.
    pose proof (units_bound _ _ (runit_unit u U) (runit_unit v V)) as [L H]. cbn [nacos AX XR xacos].
    destruct (rleb_spec (-1) (rdot (runit u) (runit v))) as [_|N]; [|contradiction]. destruct (rleb_spec (rdot (runit u) (runit v)) 1) as [_|N]; [|contradiction]. cbn [andb].
    cbn [nmul of_Z ndiv XR xmul xdiv]. destruct (reqb_spec (31415926535897932 / 10000000000000000) 0) as [Z|_]; [exfalso; lra|].
    rewrite runits_dot by assumption. reflexivity.
  Qed.
  Theorem angle_value d s s' d' r ap u v : d_kind d = KAngle -> v_rot s = embm r -> rotation r -> coordinate (d_meta d) "apex" ap ->
    side_dir (d_meta d) "from_dir" "from_point" ap u -> side_dir (d_meta d) "to_dir" "to_point" ap v ->
    visit_base_dim d s = Ret (s', d', true) ->
    rz (rcross (rmul u r) (rmul v r)) <> 0 /\ exists fm pos, format_of (d_meta d) "%.1f" fm /\
      o_text (v_page s') = o_text (v_page s) ++ [Text pos (pf_format fm (Fin (degrees u v) : @num XR) ++ B " deg") true false].
  Proof.
    intros K R0 RR Cp Su Sv H. destruct (angle_visit d s s' d' K H) as (N & fm & va & vp & f & t & G & Q). rewrite R0 in G. unfold angle_args in G.
    destruct (point_arg _ _ "at" _) as [a'|]; [|discriminate]. rewrite (coord_arg _ r _ _ _ N Cp) in G.
    destruct (side_arg _ _ "from_dir" _ _ _) as [f'|] eqn:F1; [|discriminate]. destruct (side_arg _ _ "to_dir" _ _ _) as [t'|] eqn:T1; [|discriminate].
    destruct (fmt_arg "%.1f" (d_meta d)) as [fm'|] eqn:FM; [|discriminate]. destruct (neq _ _) eqn:Z; [discriminate|]. injection G as -> -> <- -> ->.
    apply (side_known _ _ _ _ _ _ u _ N Su) in F1. apply (side_known _ _ _ _ _ _ v _ N Sv) in T1.
    destruct (angle_text _ _ _ _ _ _ _ _ _ _ Q) as (_ & pos & x & y & XY & T). rewrite F1, T1 in *. clear Q.
    assert (NZ : rmul u r <> rzero /\ rmul v r <> rzero).
    { split.
      - intro O. rewrite O, normalized_zero in Z. destruct (zero_dec (rmul v r)) as [O2|O2].
        + rewrite O2, normalized_zero, cross_emb in Z. cbn in Z. match type of Z with reqb ?a ?b = false => destruct (reqb_spec a b) as [|X]; [discriminate|apply X; ring] end.
        + rewrite (normalized_emb _ O2), cross_emb in Z. cbn in Z. match type of Z with reqb ?a ?b = false => destruct (reqb_spec a b) as [|X]; [discriminate|apply X; ring] end.
      - intro O. rewrite O, normalized_zero in Z. destruct (zero_dec (rmul u r)) as [O2|O2].
        + rewrite O2, normalized_zero, cross_emb in Z. cbn in Z. match type of Z with reqb ?a ?b = false => destruct (reqb_spec a b) as [|X]; [discriminate|apply X; ring] end.
        + rewrite (normalized_emb _ O2), cross_emb in Z. cbn in Z. match type of Z with reqb ?a ?b = false => destruct (reqb_spec a b) as [|X]; [discriminate|apply X; ring] end. }
    destruct NZ as [U V]. rewrite (normalized_emb _ U), (normalized_emb _ V) in *. split.
    - intro O. rewrite cross_emb in Z. cbn [z3 emb] in Z. cbn [neq AX XR xeq] in Z. unfold nz in Z. cbn [of_Z XR] in Z.
      match type of Z with reqb ?a ?b = false => destruct (reqb_spec a b) as [|X]; [discriminate|apply X] end.
      transitivity (- (/ sqrt (rdot (rmul u r) (rmul u r)) * / sqrt (rdot (rmul v r) (rmul v r)) * rz (rcross (rmul u r) (rmul v r)))); [|rewrite O; ring].
      unfold runit, rcross, rscale. cbn [rx ry rz]. ring.
    - exists fm, pos. split; [exact (fmt_known _ _ _ FM)|]. rewrite T. do 3 f_equal.
      destruct XY as [[-> ->]|[-> ->]]; rewrite angle_of by assumption; [rewrite degrees_turned by exact RR; reflexivity|].
      rewrite degrees_turned by exact RR. rewrite degrees_sym. reflexivity.
  Qed.
End Values.
