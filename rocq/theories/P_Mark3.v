(** P_Mark3.v - where the marks of an angle are, in exact arithmetic. *)
From Coq Require Import Reals Lra Psatz.
From Verif Require Import Base Num NumReal NumLaws Geo Stl Env Ast Ps Draw DocSpec RealSpec CircleSpec DimSpec MarkSpec P_Base P_Meta P_Dims P_Doc P_Frame P_Real P_Value P_Value2 P_Mark P_Mark2.

Local Unset Implicit Arguments.
Local Open Scope R_scope.

Section Shape.
  Context {A : Arith} {E : Env}.
  Definition ang_out (fm : bytes) (at_ apex F SF T ST fa ta fb tb : v3) (len gap : num) (s : vst) (pg : opage) : Prop :=
    let fpt := add3 apex (mul3 F len) in let tpt := add3 apex (mul3 T len) in
    o_text pg = o_text (v_page s) ++ [Text (place s (xy at_)) (pf_format fm (nacos (dot3 F (normalized3 T)) * of_Z 180 / PI)%num ++ B " deg") true false] /\
    o_arcs pg = o_arcs (v_page s) ++ [Arc (place s (xy apex)) (len * v_scale s)%num (natan2 (y3 F) (x3 F)) (natan2 (y3 T) (x3 T))] /\
    o_lines pg = o_lines (v_page s) ++ map (placed s)
        [ line3 (add3 SF (mul3 F gap)) (add3 apex (mul3 F (len + gap * n2)%num));
          line3 (add3 ST (mul3 T gap)) (add3 apex (mul3 T (len + gap * n2)%num));
          line3 fpt (add3 (add3 fpt (mul3 fa (of_Z 2))) (mul3 fb (of_Z 6)));
          line3 fpt (add3 (add3 fpt (mul3 fa (of_Z (-2)))) (mul3 fb (of_Z 6)));
          line3 tpt (add3 (add3 tpt (mul3 ta (of_Z 2))) (mul3 tb (of_Z 6)));
          line3 tpt (add3 (add3 tpt (mul3 ta (of_Z (-2)))) (mul3 tb (of_Z 6))) ].
  Lemma angle_shape l fm at_ apex fd fp td tp s s' : draw_angle l fm at_ apex fd fp td tp s = (s', true) ->
    neq (z3 (cross3 td fd)) nz = false /\
    exists F SF T ST, ((F, SF, T, ST) = if ngt (z3 (cross3 td fd)) nz then (td, tp, fd, fp) else (fd, fp, td, tp)) /\
    forall fa ta fb tb len gap, norm3 (sub3 at_ apex) = len -> to_f32 (n2 / v_scale s)%num = gap ->
      div3 (normalized3 F) (v_scale s) = fa -> div3 (normalized3 T) (v_scale s) = ta ->
      div3 (normalized3 (sub3 T (div3 (mul3 F (dot3 F T)) (norm3 F)))) (v_scale s) = fb ->
      div3 (normalized3 (sub3 F (div3 (mul3 T (dot3 F T)) (norm3 T)))) (v_scale s) = tb ->
      ang_out fm at_ apex F SF T ST fa ta fb tb len gap s (v_page s').
  Proof.
    unfold draw_angle. cbv zeta. destruct (neq _ nz); [discriminate|]. intro H. split; [reflexivity|]. revert H.
    destruct (ngt _ nz); intro H; injection H as <-; do 4 eexists; (split; [reflexivity|]); intros fa ta fb tb len gap <- <- <- <- <- <-; repeat split.
  Qed.
End Shape.

Section Angle.
  Context {E : @Env XR}.
  #[local] Existing Instance XR.
  Lemma atan2_angle x y : (x, y) <> (0, 0) -> has_angle (x, y) (ratan2 y x).
  Proof.
    intro N. pose proof PI_RGT_0 as P0. unfold ratan2, has_angle. pose proof (atan_bound (y / x)) as B. pose proof (cos_gt_0 (atan (y / x))) as C.
    assert (C0 : 0 < cos (atan (y / x))) by (apply C; lra). clear C.
    assert (T : x <> 0 -> x * sin (atan (y / x)) = y * cos (atan (y / x))).
    { intro X. pose proof (tan_atan (y / x)) as Q. unfold tan in Q. apply (Rmult_eq_reg_r (/ (x * cos (atan (y / x))))); [|apply Rinv_neq_0_compat, Rmult_integral_contrapositive; lra].
      transitivity (sin (atan (y / x)) / cos (atan (y / x))); [field; lra|]. rewrite Q. field. lra. }
    destruct (rltb_spec 0 x) as [X|X].
    - split; [lra|]. exists (x / cos (atan (y / x))). split; [apply Rdiv_lt_0_compat; assumption|]. f_equal; [field; lra|].
      transitivity (x * sin (atan (y / x)) / cos (atan (y / x))); [rewrite T by lra; field; lra|field; lra].
    - destruct (rltb_spec x 0) as [X'|X'].
      + assert (XN : x <> 0) by lra. specialize (T XN).
        assert (R : forall th, cos th = - cos (atan (y / x)) -> sin th = - sin (atan (y / x)) -> exists k, 0 < k /\ (x, y) = (k * cos th, k * sin th)).
        { intros th C S. exists (- x / cos (atan (y / x))). split; [apply Rdiv_lt_0_compat; lra|]. rewrite C, S. f_equal; [field; lra|].
          transitivity (x * sin (atan (y / x)) / cos (atan (y / x))); [rewrite T; field; lra|field; lra]. }
        assert (YX : forall b, y / x < b * / x <-> b < y).
        { intro b. unfold Rdiv. assert (I : / x < 0) by (apply Rinv_lt_0_compat; exact X'). split; intro H; [apply Rnot_le_lt; intro L|]; nra. }
        destruct (rltb_spec y 0) as [Y|Y].
        * split; [|apply R; [rewrite cos_minus, cos_PI, sin_PI; ring|rewrite sin_minus, cos_PI, sin_PI; ring]].
          assert (0 < atan (y / x)); [|lra]. rewrite <- atan_0. apply atan_increasing. assert (I : / x < 0) by (apply Rinv_lt_0_compat; exact X'). unfold Rdiv. nra.
        * split; [|apply R; [rewrite cos_plus, cos_PI, sin_PI; ring|rewrite sin_plus, cos_PI, sin_PI; ring]].
          assert (atan (y / x) <= 0); [|lra]. rewrite <- atan_0. assert (I : / x < 0) by (apply Rinv_lt_0_compat; exact X'). assert (Q : y / x <= 0) by (unfold Rdiv; nra).
          destruct (Req_dec (y / x) 0) as [ -> |Z]; [lra|]. apply Rlt_le, atan_increasing. lra.
      + assert (x = 0) by lra. subst x. destruct (rltb_spec 0 y) as [Y|Y].
        * split; [lra|]. exists y. split; [exact Y|]. rewrite cos_PI2, sin_PI2. f_equal; ring.
        * destruct (rltb_spec y 0) as [Y'|Y'].
          -- split; [lra|]. exists (- y). split; [lra|]. rewrite cos_neg, sin_neg, cos_PI2, sin_PI2. f_equal; ring.
          -- exfalso. apply N. f_equal. lra.
  Qed.

  Lemma rdot_sym x y : rdot x y = rdot y x. Proof. unfold rdot. ring. Qed.
  Lemma norm_unit U : rdot U U = 1 -> norm3 (emb U) = (Fin 1 : num).
  Proof. intro H. unfold norm3. rewrite sqn_emb, H. cbn. rewrite (proj2 (rltb_false 1 0)) by lra. rewrite sqrt_1. reflexivity. Qed.
  Lemma unit_nz U : rdot U U = 1 -> U <> rzero.
  Proof. intros H ->. unfold rdot, rzero in H. cbn [rx ry rz] in H. lra. Qed.
  Lemma unit_same U : rdot U U = 1 -> runit U = U.
  Proof. intro H. unfold runit. rewrite H, sqrt_1, Rinv_1. destruct U as [x y z]. unfold rscale. cbn [rx ry rz]. f_equal; ring. Qed.
  Lemma square_vec U V sc : rdot U U = 1 -> rz (rcross U V) <> 0 -> sc <> 0 -> exists W, square_to U V W /\
    div3 (normalized3 (sub3 (emb V) (div3 (mul3 (emb U) (dot3 (emb U) (emb V))) (norm3 (emb U))))) (Fin sc : num) = emb (rscale (/ sc) W).
  Proof.
    intros HU HC S. rewrite (norm_unit U HU), dot_emb, mul_emb, div_emb, sub_emb by lra.
    set (w := rsub V (rscale (/ 1) (rscale (rdot U V) U))).
    assert (E1 : w = rsub V (rscale (rdot U V) U)) by (unfold w, rsub, rscale; cbn [rx ry rz]; f_equal; field).
    assert (NZ : w <> rzero).
    { intro Z. apply HC. rewrite E1 in Z. injection Z as Z1 Z2 Z3. unfold rcross, rscale in *. cbn [rx ry rz] in *. 
      replace (ry V) with (rdot U V * ry U) by lra. replace (rx V) with (rdot U V * rx U) by lra. ring. }
    pose proof (sqrt_lt_R0 _ (rdot_nz w NZ)) as P. exists (runit w). split.
    - split; [apply runit_unit, NZ|]. split.
      + rewrite runit_dot by exact NZ. assert (Q : rdot w U = 0); [|rewrite Q; unfold Rdiv; ring].
        rewrite E1. transitivity (rdot U V * (1 - rdot U U)); [unfold rdot, rsub, rscale; cbn [rx ry rz]; ring|rewrite HU; ring].
      + exists (- (rdot U V) / sqrt (rdot w w)), (/ sqrt (rdot w w)). split; [apply Rinv_0_lt_compat, P|]. unfold runit. set (q := sqrt (rdot w w)) in *. rewrite E1. unfold rscale, rsub, radd. cbn [rx ry rz]. f_equal; field; lra.
    - rewrite normalized_emb by exact NZ. apply div_emb, S.
  Qed.
  Lemma div_two sc : sc <> 0 -> to_f32 (n2 / (Fin sc : num))%num = (Fin (2 / sc) : num).
  Proof. intro S. cbn. destruct (reqb_spec sc 0); [contradiction|reflexivity]. Qed.
  Lemma norm_far p q : norm3 (sub3 (emb p) (emb q)) = (Fin (far_from p q) : num).
  Proof. rewrite sub_emb. unfold norm3. rewrite sqn_emb. cbn. rewrite (proj2 (rltb_false _ 0)) by apply rdot_pos. reflexivity. Qed.
  Lemma flat_nz U V : turns_left (flat2 U) (flat2 V) -> flat2 U <> (0, 0) /\ flat2 V <> (0, 0).
  Proof. unfold turns_left. intro H. split; intro Z; rewrite Z in H; cbn [fst snd] in H; lra. Qed.
  (** One way round. *)
  Lemma angle_once fm a p U SU V SV s pg sc off : v_scale s = (Fin sc : num) -> 0 < sc -> v_d s = e2 off -> rdot U U = 1 -> rdot V V = 1 -> 0 < rz (rcross U V) ->
    (forall fa ta fb tb len gap, norm3 (sub3 (emb a) (emb p)) = len -> to_f32 (n2 / v_scale s)%num = gap ->
      div3 (normalized3 (emb U)) (v_scale s) = fa -> div3 (normalized3 (emb V)) (v_scale s) = ta ->
      div3 (normalized3 (sub3 (emb V) (div3 (mul3 (emb U) (dot3 (emb U) (emb V))) (norm3 (emb U))))) (v_scale s) = fb ->
      div3 (normalized3 (sub3 (emb U) (div3 (mul3 (emb V) (dot3 (emb U) (emb V))) (norm3 (emb V))))) (v_scale s) = tb ->
      ang_out fm (emb a) (emb p) (emb U) (emb SU) (emb V) (emb SV) fa ta fb tb len gap s pg) ->
    exists ls ars, o_lines pg = o_lines (v_page s) ++ ls /\ o_arcs pg = o_arcs (v_page s) ++ ars /\
      o_text pg = o_text (v_page s) ++ [Text (e2 (shown_at sc off a)) (pf_format fm (nacos (dot3 (emb U) (normalized3 (emb V))) * of_Z 180 / PI)%num ++ B " deg") true false] /\
      angle_marks (shown_at sc off p) (shown_at sc off SU) (shown_at sc off SV) U V (far_from a p * sc) ls ars.
  Proof.
    intros HS S HO HU HV HC H. assert (S0 : sc <> 0) by lra. rewrite HS in H.
    destruct (square_vec U V sc HU ltac:(lra) S0) as (W & SW & EW). assert (HC' : rz (rcross V U) <> 0) by (unfold rcross in *; cbn [rx ry rz] in *; lra).
    destruct (square_vec V U sc HV HC' S0) as (X & SX & EX).
    assert (DC : dot3 (emb V) (emb U) = dot3 (emb U) (emb V)) by (rewrite !dot_emb, rdot_sym; reflexivity). rewrite DC in EX.
    assert (EU : div3 (normalized3 (emb U)) (Fin sc : num) = emb (rscale (/ sc) U)) by (rewrite normalized_emb, unit_same by (try apply unit_nz; exact HU); apply div_emb, S0).
    assert (EV : div3 (normalized3 (emb V)) (Fin sc : num) = emb (rscale (/ sc) V)) by (rewrite normalized_emb, unit_same by (try apply unit_nz; exact HV); apply div_emb, S0).
    destruct (H _ _ _ _ _ _ (norm_far a p) (div_two sc S0) EU EV EW EX) as (T1 & T2 & T3). clear H.
    assert (TL : turns_left (flat2 U) (flat2 V)) by (unfold turns_left, flat2; unfold rcross in HC; cbn [rx ry rz fst snd] in *; lra). destruct (flat_nz U V TL) as [NU NV].
    eexists. eexists. split; [exact T3|]. split; [exact T2|]. split; [rewrite T1, (place_emb s sc off a HS HO); reflexivity|].
    split; [exact TL|]. exists W, X, (ratan2 (ry U) (rx U)), (ratan2 (ry V) (rx V)). split; [exact SW|]. split; [exact SX|]. split; [apply atan2_angle, NU|]. split; [apply atan2_angle, NV|]. split.
    - cbn [map]. assert (EL : forall x y, @nadd XR (Fin x) (@nmul XR (Fin y) n2) = Fin (x + y * 2)) by reflexivity. rewrite EL.
      rewrite !mul_ofZ, !mul_emb, !add_emb, !(put_line s sc off _ _ HS HO). unfold side_line, arc_barbs. cbn [app].
      assert (Q1 : forall x k Y, shown_at sc off (radd x (rscale k Y)) = go (shown_at sc off x) (k * sc) (flat2 Y)) by (intros; unfold shown_at, go, radd, rscale, flat2; cbn [rx ry fst snd]; f_equal; ring).
      assert (Q2 : forall x k Y, shown_at sc off (radd x (rscale k (rscale (/ sc) Y))) = go (shown_at sc off x) k (flat2 Y)) by (intros; unfold shown_at, go, radd, rscale, flat2; cbn [rx ry fst snd]; f_equal; field; lra).
      rewrite !Q2, !Q1. replace (2 / sc * sc) with 2 by (field; lra). replace ((far_from a p + 2 / sc * 2) * sc) with (far_from a p * sc + 4) by (field; lra). reflexivity.
    - rewrite (place_emb s sc off p HS HO), HS. reflexivity.
  Qed.
  Lemma unit_direction u : u <> rzero -> direction u (runit u).
  Proof.
    intro H. split; [apply runit_unit, H|]. pose proof (sqrt_lt_R0 _ (rdot_nz u H)) as P. exists (sqrt (rdot u u)). split; [exact P|]. unfold runit. destruct u as [x y z]. unfold rscale. cbn [rx ry rz]. set (q := sqrt _) in *. f_equal; field; lra.
  Qed.
  Lemma side_eval s ml kd kp p u st f : NoDup (names ml) -> side_seen s ml kd kp p u st ->
    side_arg (v_points s) (v_rot s) kd kp ml (emb p) = Some f -> f = (normalized3 (emb u), emb st).
  Proof.
    intros N [[EV ->]|[EV ->]] H; pose proof (evaluates_arg _ _ _ _ _ N EV) as V; unfold point_arg in V; unfold side_arg in H.
    - destruct (arg kd ml) as [x|]; [|discriminate V]. destruct (arg kp ml); [discriminate H|]. rewrite V in H. injection H as <-. reflexivity.
    - destruct (arg kp ml) as [x|]; [|discriminate V]. destruct (arg kd ml); [discriminate H|]. rewrite V in H. injection H as <-. rewrite sub_emb. reflexivity.
  Qed.
  Theorem angle_marked d s s' d' sc off a p u su v sv : d_kind d = KAngle -> v_scale s = (Fin sc : num) -> 0 < sc -> v_d s = e2 off ->
    evaluates (v_points s) (v_rot s) (d_meta d) "at" (emb a) -> evaluates (v_points s) (v_rot s) (d_meta d) "apex" (emb p) ->
    side_seen s (d_meta d) "from_dir" "from_point" p u su -> side_seen s (d_meta d) "to_dir" "to_point" p v sv ->
    visit_base_dim d s = Ret (s', d', true) ->
    exists fm U V ls ars, format_of (d_meta d) "%.1f" fm /\ direction u U /\ direction v V /\
      o_lines (v_page s') = o_lines (v_page s) ++ ls /\ o_arcs (v_page s') = o_arcs (v_page s) ++ ars /\
      o_text (v_page s') = o_text (v_page s) ++ [Text (e2 (shown_at sc off a)) (pf_format fm (Fin (degrees u v) : num) ++ B " deg") true false] /\
      (angle_marks (shown_at sc off p) (shown_at sc off su) (shown_at sc off sv) U V (far_from a p * sc) ls ars \/
       angle_marks (shown_at sc off p) (shown_at sc off sv) (shown_at sc off su) V U (far_from a p * sc) ls ars).
  Proof.
    intros K HS S HO Ea Ep Su Sv H. destruct (angle_visit d s s' d' K H) as (N & fm & va & vp & f & t & G & Q). unfold angle_args in G.
    rewrite (evaluates_arg _ _ _ _ _ N Ea), (evaluates_arg _ _ _ _ _ N Ep) in G.
    destruct (side_arg _ _ "from_dir" _ _ _) as [f'|] eqn:F1; [|discriminate]. destruct (side_arg _ _ "to_dir" _ _ _) as [t'|] eqn:T1; [|discriminate].
    destruct (fmt_arg "%.1f" (d_meta d)) as [fm'|] eqn:FM; [|discriminate]. destruct (neq _ _) eqn:Z; [discriminate|]. injection G as -> <- <- -> ->.
    apply (side_eval _ _ _ _ _ _ _ _ N Su) in F1. apply (side_eval _ _ _ _ _ _ _ _ N Sv) in T1. subst f t. cbn [fst snd] in *.
    assert (NZ : u <> rzero /\ v <> rzero).
    { split; intros ->; rewrite normalized_zero in Z; [destruct (zero_dec v) as [ -> |O]|destruct (zero_dec u) as [ -> |O]]; [rewrite normalized_zero in Z|rewrite (normalized_emb _ O) in Z|rewrite normalized_zero in Z|rewrite (normalized_emb _ O) in Z];
        rewrite cross_emb in Z; cbn in Z; (match type of Z with reqb ?a ?b = false => destruct (reqb_spec a b) as [|X]; [discriminate|apply X; ring] end). }
    destruct NZ as [U V]. rewrite (normalized_emb _ U), (normalized_emb _ V) in *. clear Z.
    symmetry in Q. apply angle_shape in Q. destruct Q as (Z & F & SF & T & ST & QQ & L).
    rewrite cross_emb in Z, QQ. cbn [z3 emb] in Z, QQ. set (c := rz (rcross (runit v) (runit u))) in *. change (@neq XR (Fin c) nz) with (reqb c 0) in Z. change (@ngt XR (Fin c) nz) with (rltb 0 c) in QQ.
    assert (CZ : rz (rcross (runit u) (runit v)) = - c) by (unfold c, rcross; cbn [rx ry rz]; ring).
    pose proof (runit_unit u U) as UU. pose proof (runit_unit v V) as UV.
    destruct (rltb_spec 0 c) as [C|C]; injection QQ as -> -> -> ->.
    - destruct (angle_once fm a p _ sv _ su s _ sc off HS S HO UV UU C L) as (ls & ars & R1 & R2 & R3 & R4). exists fm, (runit u), (runit v), ls, ars.
      split; [exact (fmt_known _ _ _ FM)|]. split; [apply unit_direction, U|]. split; [apply unit_direction, V|]. split; [exact R1|]. split; [exact R2|]. split; [|right; exact R4].
      rewrite R3, (angle_of v u V U), (degrees_sym v u). reflexivity.
    - assert (C' : 0 < rz (rcross (runit u) (runit v))) by (rewrite CZ; destruct (reqb_spec c 0) as [|X]; [discriminate Z|lra]).
      destruct (angle_once fm a p _ su _ sv s _ sc off HS S HO UU UV C' L) as (ls & ars & R1 & R2 & R3 & R4). exists fm, (runit u), (runit v), ls, ars.
      split; [exact (fmt_known _ _ _ FM)|]. split; [apply unit_direction, U|]. split; [apply unit_direction, V|]. split; [exact R1|]. split; [exact R2|]. split; [|left; exact R4].
      rewrite R3, (angle_of u v U V). reflexivity.
  Qed.
End Angle.

(** Both sides parallel to the page: the arrow heads are at the ends of the arc. *)
Section Flat.
  Lemma flat_unit U : rdot U U = 1 -> rz U = 0 -> unit2 (flat2 U).
  Proof. intros H Z. unfold rdot in H. rewrite Z in H. unfold unit2, dot, flat2. cbn [fst snd]. lra. Qed.
  Lemma unit_angle d a : unit2 d -> has_angle d a -> d = rim a.
  Proof.
    intros U (_ & k & K & ->). unfold unit2, dot in U. cbn [fst snd] in U. pose proof (sin2_cos2 a) as S. unfold Rsqr in S.
    assert (Q : k * k = 1) by (transitivity (k * cos a * (k * cos a) + k * sin a * (k * sin a)); [transitivity (k * k * (sin a * sin a + cos a * cos a)); [rewrite S|]; ring|exact U]).
    assert (k = 1) by nra. subst k. unfold rim. f_equal; ring.
  Qed.
  Lemma square_flat U V W : rdot U U = 1 -> rz U = 0 -> rz V = 0 -> square_to U V W ->
    flat2 W = (if Rlt_dec 0 (rz (rcross U V)) then left_of (flat2 U) else go (0, 0) (-1) (left_of (flat2 U))) \/ rz (rcross U V) = 0.
  Proof.
    intros HU ZU ZV (W1 & W2 & x & y & Y & ->). unfold rdot, radd, rscale in W1, W2. unfold rdot in HU. cbn [rx ry rz] in W1, W2. rewrite ZU in HU. rewrite ZU, ZV in W1. rewrite ZU in W2. clear ZU ZV.
    unfold flat2, radd, rscale, left_of, go, rcross. cbn [rx ry rz fst snd]. set (p := rx U) in *. set (q := ry U) in *. set (m := x * p + y * rx V) in *. set (n := x * q + y * ry V) in *.
    assert (M : m * m + n * n = 1) by lra. assert (O : m * p + n * q = 0) by lra. assert (UU : p * p + q * q = 1) by lra.
    assert (C : p * n - q * m = y * (p * ry V - q * rx V)) by (unfold m, n; ring). set (c := p * ry V - q * rx V) in *.
    assert (CC : (p * n - q * m) * (p * n - q * m) = 1).
    { transitivity ((p * p + q * q) * (m * m + n * n) - (m * p + n * q) * (m * p + n * q)); [ring|rewrite UU, M, O; ring]. }
    assert (MQ : m = - q * (p * n - q * m)) by (transitivity (m * (p * p + q * q) - p * (m * p + n * q)); [rewrite UU, O; ring|ring]).
    assert (NP : n = p * (p * n - q * m)) by (transitivity (n * (p * p + q * q) - q * (m * p + n * q)); [rewrite UU, O; ring|ring]).
    set (t := p * n - q * m) in *. clearbody t m n c. assert (TT : t = 1 \/ t = -1) by (assert (Q : (t - 1) * (t + 1) = 0) by lra; apply Rmult_integral in Q; destruct Q; [left|right]; lra). destruct (Rlt_dec 0 c) as [L|L].
    - left. destruct TT as [ -> | -> ]; [|exfalso; pose proof (Rmult_lt_0_compat _ _ Y L); lra]. f_equal; lra.
    - destruct (Req_dec c 0) as [Z|Z]; [right; exact Z|left]. destruct TT as [ -> | -> ]; [exfalso; assert (0 < y * - c) by (apply Rmult_lt_0_compat; lra); lra|]. f_equal; lra.
  Qed.
  Theorem angle_flat P SU SV U V rad ls ars : angle_marks P SU SV U V rad ls ars -> rdot U U = 1 -> rdot V V = 1 -> rz U = 0 -> rz V = 0 ->
    exists a b, ars = [Arc (e2 P) (Fin rad : @num XR) (Fin a : @num XR) (Fin b : @num XR)] /\
      let A := go P rad (rim a) in let B := go P rad (rim b) in
      ls = [seg (go SU 2 (rim a)) (go P (rad + 4) (rim a)); seg (go SV 2 (rim b)) (go P (rad + 4) (rim b));
            seg A (go (go A 2 (rim a)) 6 (left_of (rim a))); seg A (go (go A (-2) (rim a)) 6 (left_of (rim a)));
            seg B (go (go B 2 (rim b)) (-6) (left_of (rim b))); seg B (go (go B (-2) (rim b)) (-6) (left_of (rim b)))].
  Proof.
    intros (TL & W & X & a & b & SW & SX & AA & AB & -> & ->) HU HV ZU ZV. exists a, b. split; [reflexivity|]. cbv zeta.
    assert (C : 0 < rz (rcross U V)) by (unfold turns_left, flat2 in TL; unfold rcross; cbn [rx ry rz fst snd] in *; lra).
    assert (C' : rz (rcross V U) < 0) by (unfold rcross in *; cbn [rx ry rz] in *; lra).
    pose proof (square_flat U V W HU ZU ZV SW) as QW. pose proof (square_flat V U X HV ZV ZU SX) as QX.
    destruct (Rlt_dec 0 (rz (rcross U V))) as [_|N]; [|contradiction]. destruct (Rlt_dec 0 (rz (rcross V U))) as [N|_]; [exfalso; lra|].
    destruct QW as [QW|QW]; [|exfalso; lra]. destruct QX as [QX|QX]; [|exfalso; lra].
    unfold side_line, arc_barbs. rewrite QW, QX, (unit_angle _ a (flat_unit U HU ZU) AA), (unit_angle _ b (flat_unit V HV ZV) AB). cbn [app].
    assert (G : forall T d, go T 6 (go (0, 0) (-1) d) = go T (-6) d) by (intros; unfold go; cbn [fst snd]; f_equal; ring). rewrite !G. reflexivity.
  Qed.
End Flat.
