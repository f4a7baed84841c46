(** P_Mark2.v - where the marks of dia and rad are, in exact arithmetic. *)
From Coq Require Import Reals Lra Psatz.
From Verif Require Import Base Num NumReal NumLaws Geo Stl Env Ast Ps Draw DocSpec RealSpec CircleSpec DimSpec MarkSpec P_Base P_Meta P_Dims P_Doc P_Frame P_Real P_Value P_Value2 P_Mark.

Local Unset Implicit Arguments.
Local Open Scope R_scope.

Section Shape.
  Context {A : Arith} {E : Env}.
  Definition tick (p dr cr : v2) (x : Z) : list line := [Line p (add2 p (comb2 x dr 2 cr)); Line p (add2 p (comb2 x dr (-2) cr))].
  Lemma dia_shape fm c at_ dir0 r s dir dr :
    normalized2 dir0 = dir -> div2 dir (v_scale s) = dr ->
    let a := add2 c (mul2 dir r) in let b := sub2 c (mul2 dir r) in let len := nmin (x2 (sub2 at_ c) / x2 dir)%num (y2 (sub2 at_ c) / y2 dir)%num in
    let str := B "\351" ++ pf_format fm (r * n2)%num in let x := if ngt len n1 then add2 c (mul2 dir len) else a in
    let pg := v_page (draw_dia fm c at_ dir0 r s) in
    o_text pg = o_text (v_page s) ++ [Text (place s (V2 (x2 at_ + char_half * of_Z (Z.of_nat (length str) - 2) / v_scale s)%num (y2 at_))) str true true] /\ o_arcs pg = o_arcs (v_page s) /\
    o_lines pg = o_lines (v_page s) ++ map (placed s) ([Line b x; Line x at_] ++ tick a dr (V2 (- y2 dr)%num (x2 dr)) (-6) ++ tick b dr (V2 (- y2 dr)%num (x2 dr)) 6).
  Proof.
    intros <- <-. cbv zeta. unfold draw_dia. cbv zeta. destruct (ngt _ _); repeat split; cbn; rewrite <- app_assoc; reflexivity.
  Qed.
  Lemma rad_shape fm c at_ dir0 r s dir dr :
    normalized2 dir0 = dir -> div2 dir (v_scale s) = dr ->
    let a := add2 c (mul2 dir r) in let len := nmin (x2 (sub2 at_ c) / x2 dir)%num (y2 (sub2 at_ c) / y2 dir)%num in
    let str := B "R" ++ pf_format fm r in let x := if ngt len n1 then add2 c (mul2 dir len) else a in
    let pg := v_page (draw_rad fm c at_ dir0 r s) in
    o_text pg = o_text (v_page s) ++ [Text (place s (V2 (x2 at_ + char_half * of_Z (Z.of_nat (length str) + 2) / v_scale s)%num (y2 at_))) str true false] /\ o_arcs pg = o_arcs (v_page s) /\
    o_lines pg = o_lines (v_page s) ++ map (placed s) ([Line c x; Line x at_] ++ tick a dr (V2 (- y2 dr)%num (x2 dr)) (-6)).
  Proof.
    intros <- <-. cbv zeta. unfold draw_rad. cbv zeta. destruct (ngt _ _); repeat split; cbn; rewrite <- app_assoc; reflexivity.
  Qed.
End Shape.

Section Circ.
  Context {E : @Env XR}.
  #[local] Existing Instance XR.
  Lemma unit_e2 u : u <> (0, 0) -> exists d, normalized2 (e2 u) = e2 d /\ unit2 d /\ exists k, 0 < k /\ u = go (0, 0) k d.
  Proof.
    intro U. set (m := fst u * fst u + snd u * snd u). assert (P : 0 < m).
    { unfold m. destruct u as [x y]. cbn [fst snd]. destruct (Req_dec x 0) as [->|X]; [destruct (Req_dec y 0) as [->|Y]; [destruct U; reflexivity|]|]; nra. }
    pose proof (sqrt_lt_R0 _ P) as Q. pose proof (sqrt_sqrt m (Rlt_le _ _ P)) as SS.
    exists (fst u / sqrt m, snd u / sqrt m). split.
    - unfold normalized2. cbv zeta. change (sqn2 (e2 u)) with (Fin m : num). change (@nlt XR nz (Fin m)) with (rltb 0 m). rewrite (proj2 (rltb_iff 0 m)) by exact P.
      unfold div2, e2, emb2. cbn. rewrite (proj2 (rltb_false m 0)) by lra. cbn. destruct (reqb_spec (sqrt m) 0) as [N|_]; [lra|]. reflexivity.
    - split.
      + unfold unit2, dot. cbn [fst snd]. replace (_ + _) with (m / (sqrt m * sqrt m)) by (unfold m; field; fold m; lra). rewrite SS. field. lra.
      + exists (sqrt m). split; [exact Q|]. unfold go. cbn [fst snd]. destruct u as [x y]. cbn [fst snd]. f_equal; field; lra.
  Qed.
  Lemma div_sc d sc : sc <> 0 -> div2 (e2 d) (Fin sc : num) = e2 (fst d / sc, snd d / sc).
  Proof. intro H. unfold div2, e2, emb2. cbn. destruct (reqb_spec sc 0); [contradiction|reflexivity]. Qed.
  Lemma put_line2 s sc off p q : v_scale s = (Fin sc : num) -> v_d s = e2 off -> placed s (Line (e2 p) (e2 q)) = seg (go off sc p) (go off sc q).
  Proof. intros H1 H2. unfold placed. cbn [lo lt_]. rewrite !(place_e2 s sc off _ H1 H2). reflexivity. Qed.
  Lemma add2_e2 c d k : add2 (e2 c) (mul2 (e2 d) (Fin k : num)) = e2 (go c k d).
  Proof. unfold add2, mul2, e2, emb2, go. cbn. f_equal; f_equal; ring. Qed.
  Lemma sub2_e2 c d k : sub2 (e2 c) (mul2 (e2 d) (Fin k : num)) = e2 (go c (- k) d).
  Proof. unfold sub2, mul2, e2, emb2, go. cbn. f_equal; f_equal; ring. Qed.
  Lemma go_go off sc c k d : go off sc (go c k d) = go (go off sc c) (k * sc) d.
  Proof. unfold go. cbn [fst snd]. f_equal; ring. Qed.
  Lemma tick_e2 s sc off p d k : v_scale s = (Fin sc : num) -> sc <> 0 -> v_d s = e2 off ->
    map (placed s) (tick (e2 p) (e2 (fst d / sc, snd d / sc)) (V2 (nneg (y2 (e2 (fst d / sc, snd d / sc)))) (x2 (e2 (fst d / sc, snd d / sc)))) k) = barbs (go off sc p) (IZR k) d.
  Proof.
    intros HS S HO. unfold tick. cbn [map].
    assert (Q : forall x y, add2 (e2 p) (comb2 x (e2 (fst d / sc, snd d / sc)) y (V2 (nneg (y2 (e2 (fst d / sc, snd d / sc)))) (x2 (e2 (fst d / sc, snd d / sc))))) =
      e2 (go p (/ sc) (go (0, 0) 1 (go (IZR x * fst d, IZR x * snd d) (IZR y) (left_of d))))).
    { intros x y. unfold add2, comb2, add2, mul2, e2, emb2, go, left_of. cbn. f_equal; f_equal; field; exact S. }
    rewrite !Q, !(put_line2 s sc off _ _ HS HO). unfold barbs. f_equal; [|f_equal]; f_equal; unfold go, left_of; cbn [fst snd]; f_equal; field; exact S.
  Qed.

  (** Where the leader bends. *)
  Lemma bend_x c a d r sc off : unit2 d -> 0 < sc ->
    let len := nmin (x2 (sub2 (e2 a) (e2 c)) / x2 (e2 d))%num (y2 (sub2 (e2 a) (e2 c)) / y2 (e2 d))%num in
    exists x, (if ngt len n1 then add2 (e2 c) (mul2 (e2 d) len) else add2 (e2 c) (mul2 (e2 d) (Fin r : num))) = e2 x /\ bend (go off sc c) (go off sc a) d sc (r * sc) (go off sc x).
  Proof.
    intros U S. cbv zeta.
    assert (LV : forall l, level (go off sc c) (go off sc a) d l <-> (fst d <> 0 /\ l / sc = (fst a - fst c) / fst d) \/ (snd d <> 0 /\ l / sc = (snd a - snd c) / snd d)).
    { intro l. unfold level, go. cbn [fst snd].
      assert (Q : forall o x y z, y <> 0 -> (l * y = o + sc * x - (o + sc * z) <-> l / sc = (x - z) / y)).
      { intros o x y z Y. split; intro H.
        - apply (Rmult_eq_reg_r (sc * y)); [|apply Rmult_integral_contrapositive; lra]. transitivity (l * y); [field; lra|]. rewrite H. field. exact Y.
        - apply (Rmult_eq_reg_r (/ sc)); [|apply Rinv_neq_0_compat; lra]. transitivity (l / sc * y); [field; lra|]. rewrite H. field. lra. }
      split; (intros [[N H]|[N H]]; [left|right]; (split; [exact N|]); apply (Q _ _ _ _ N) in H || (apply (Q _ _ _ _ N)); exact H). }
    assert (AC : forall o x y, (o + sc * x <= o + sc * y <-> x <= y) /\ (o + sc * x < o + sc * y <-> x < y)) by (intros; nra).
    assert (DV : forall x y, (y = 0 /\ 0 < x /\ ndiv (Fin x : num) (Fin y : num) = PInf) \/ (y = 0 /\ x < 0 /\ ndiv (Fin x : num) (Fin y : num) = NInf) \/
                 (y = 0 /\ x = 0 /\ ndiv (Fin x : num) (Fin y : num) = NaN) \/ (y <> 0 /\ ndiv (Fin x : num) (Fin y : num) = Fin (x / y))).
    { intros x y. cbn. destruct (reqb_spec y 0) as [Y|Y]; [|auto]. unfold xsgn. destruct (rltb_spec 0 x) as [P|P]; [auto|]. destruct (rltb_spec x 0) as [Q|Q]; [auto|]. right; right; left. split; [exact Y|]. split; [lra|reflexivity]. }
    change (x2 (sub2 (e2 a) (e2 c))) with (Fin (fst a - fst c)). change (y2 (sub2 (e2 a) (e2 c))) with (Fin (snd a - snd c)). change (x2 (e2 d)) with (Fin (fst d)). change (y2 (e2 d)) with (Fin (snd d)).
    set (dx := fst a - fst c) in *. set (dy := snd a - snd c) in *.
    (** The first level place is at len = m. *)
    assert (LB : forall m, level (go off sc c) (go off sc a) d (m * sc) -> (forall l, level (go off sc c) (go off sc a) d l -> m <= l / sc) -> (fst d = 0 -> 0 < dx) -> (snd d = 0 -> 0 <= dy) ->
      exists x, (if ngt (Fin m : num) n1 then add2 (e2 c) (mul2 (e2 d) (Fin m : num)) else add2 (e2 c) (mul2 (e2 d) (Fin r : num))) = e2 x /\ bend (go off sc c) (go off sc a) d sc (r * sc) (go off sc x)).
    { intros m H1 H2 H3 H4. change (@ngt XR (Fin m) n1) with (rltb 1 m). destruct (rltb_spec 1 m) as [L|L].
      - exists (go c m d). split; [apply add2_e2|]. rewrite go_go. apply Bend_label; [exact H1|nra| | |].
        + intros l' H. apply H2 in H. apply (Rmult_le_compat_r sc) in H; [|lra]. replace (l' / sc * sc) with l' in H by (field; lra). exact H.
        + intro Z. cbn [go fst snd]. apply AC. specialize (H3 Z). unfold dx in H3. lra.
        + intro Z. cbn [go fst snd]. apply AC. specialize (H4 Z). unfold dy in H4. lra.
      - exists (go c r d). split; [apply add2_e2|]. rewrite go_go. apply Bend_rim. left. exists (m * sc). split; [exact H1|]. nra. }
    assert (RIM : forall z, ngt z n1 = false -> (fst d = 0 /\ dx <= 0) \/ (snd d = 0 /\ dy < 0) ->
      exists x, (if ngt z n1 then add2 (e2 c) (mul2 (e2 d) z) else add2 (e2 c) (mul2 (e2 d) (Fin r : num))) = e2 x /\ bend (go off sc c) (go off sc a) d sc (r * sc) (go off sc x)).
    { intros z Z H. rewrite Z. exists (go c r d). split; [apply add2_e2|]. rewrite go_go. apply Bend_rim. right. destruct H as [[H1 H2]|[H1 H2]]; [left|right]; (split; [exact H1|]); cbn [go fst snd]; apply AC; unfold dx, dy in *; lra. }
    assert (MS : forall m, m * sc / sc = m) by (intro; field; lra).
    assert (ND : fst d = 0 -> snd d <> 0) by (intros Z1 Z2; unfold unit2, dot in U; rewrite Z1, Z2 in U; lra).
    destruct (DV dx (fst d)) as [(X1 & X2 & EX)|[(X1 & X2 & EX)|[(X1 & X2 & EX)|(X1 & EX)]]]; rewrite EX.
    - destruct (DV dy (snd d)) as [(Y1 & Y2 & EY)|[(Y1 & Y2 & EY)|[(Y1 & Y2 & EY)|(Y1 & EY)]]]; try (destruct (ND X1 Y1)). rewrite EY.
      change (@nmin XR PInf (Fin (dy / snd d))) with (Fin (dy / snd d)). apply LB; [| |auto|lra].
      + apply LV. right. rewrite MS. auto.
      + intros l H. apply LV in H. destruct H as [[H _]|[_ H]]; [destruct (H X1)|]. rewrite H. lra.
    - assert (MN : forall z, @nmin XR NInf z = NInf) by (intros [| | |]; reflexivity). rewrite MN. apply RIM; [reflexivity|left; lra].
    - assert (MN : forall z, @nmin XR NaN z = NaN) by (intros [| | |]; reflexivity). rewrite MN. apply RIM; [reflexivity|left; lra].
    - assert (SX : forall y, y = PInf \/ y = NaN -> nmin (Fin (dx / fst d) : num) y = Fin (dx / fst d)) by (intros y [ -> | -> ]; reflexivity).
      destruct (DV dy (snd d)) as [(Y1 & Y2 & EY)|[(Y1 & Y2 & EY)|[(Y1 & Y2 & EY)|(Y1 & EY)]]]; rewrite EY.
      + rewrite SX by auto. apply LB; [| |intro; contradiction|lra].
        * apply LV. left. rewrite MS. auto.
        * intros l H. apply LV in H. destruct H as [[_ H]|[H _]]; [|destruct (H Y1)]. rewrite H. lra.
      + apply RIM; [reflexivity|right; lra].
      + rewrite SX by auto. apply LB; [| |intro; contradiction|lra].
        * apply LV. left. rewrite MS. auto.
        * intros l H. apply LV in H. destruct H as [[_ H]|[H _]]; [|destruct (H Y1)]. rewrite H. lra.
      + unfold nmin. change (@nlt XR (Fin (dy / snd d)) (Fin (dx / fst d))) with (rltb (dy / snd d) (dx / fst d)). destruct (rltb_spec (dy / snd d) (dx / fst d)) as [L|L].
        * apply LB; [| |intro; contradiction|intro; contradiction].
          -- apply LV. right. rewrite MS. auto.
          -- intros l H. apply LV in H. destruct H as [[_ H]|[_ H]]; rewrite H; lra.
        * apply LB; [| |intro; contradiction|intro; contradiction].
          -- apply LV. left. rewrite MS. auto.
          -- intros l H. apply LV in H. destruct H as [[_ H]|[_ H]]; rewrite H; lra.
  Qed.

  Lemma label_off a k sc off : sc <> 0 -> go off sc (fst a + k / sc, snd a) = go (go off sc a) k (1, 0).
  Proof. intro S. unfold go. cbn [fst snd]. f_equal; field; exact S. Qed.
  Lemma label_x a n s sc off : v_scale s = (Fin sc : num) -> sc <> 0 -> v_d s = e2 off ->
    place s (V2 (x2 (e2 a) + char_half * of_Z n / v_scale s)%num (y2 (e2 a))) = e2 (go (go off sc a) (8 * (3 / 10) * IZR n) (1, 0)).
  Proof.
    intros HS S HO. rewrite HS.
    assert (Q : V2 (x2 (e2 a) + char_half * of_Z n / (Fin sc : num))%num (y2 (e2 a)) = e2 (fst a + 8 * (3 / 10) * IZR n / sc, snd a)).
    { unfold e2, emb2, char_half, kFontSize. cbn. destruct (reqb_spec sc 0); [contradiction|]. cbn. change (Pos.to_nat 1) with 1%nat. cbn [pow]. f_equal. f_equal. field. exact S. }
    rewrite Q, (place_e2 s sc off _ HS HO), label_off by exact S. reflexivity.
  Qed.
  Lemma dia_lines fm c a u r s sc off : v_scale s = (Fin sc : num) -> 0 < sc -> v_d s = e2 off -> u <> (0, 0) ->
    exists d ls, unit2 d /\ (exists k, 0 < k /\ u = go (0, 0) k d) /\
      let txt := B "\351" ++ pf_format fm ((Fin r : num) * n2)%num in
      let pg := v_page (draw_dia fm (e2 c) (e2 a) (e2 u) (Fin r : num) s) in
      o_lines pg = o_lines (v_page s) ++ ls /\ o_arcs pg = o_arcs (v_page s) /\
      o_text pg = o_text (v_page s) ++ [Text (e2 (go (go off sc a) (8 * (3 / 10) * (INR (length txt) - 2)) (1, 0))) txt true true] /\
      dia_marks (go off sc c) (go off sc a) d sc (r * sc) ls.
  Proof.
    intros HS S HO U. destruct (unit_e2 u U) as (d & ND & UD & K). exists d.
    assert (DR : div2 (e2 d) (v_scale s) = e2 (fst d / sc, snd d / sc)) by (rewrite HS; apply div_sc; lra).
    destruct (dia_shape fm (e2 c) (e2 a) (e2 u) (Fin r) s (e2 d) _ ND DR) as (T1 & T2 & T3). destruct (bend_x c a d r sc off UD S) as (x & BX & BD). cbv zeta in BX. rewrite BX in T3.
    eexists. split; [exact UD|]. split; [exact K|]. cbv zeta. split; [exact T3|]. split; [exact T2|]. split.
    - rewrite T1, (label_x _ _ s sc off HS (Rgt_not_eq _ _ S) HO), minus_IZR, <- INR_IZR_INZ. reflexivity.
    - exists (go off sc x). split; [exact BD|]. rewrite !map_app, add2_e2, sub2_e2, !(tick_e2 s sc off _ d _ HS (Rgt_not_eq _ _ S) HO), !go_go.
      rewrite <- Ropp_mult_distr_l. f_equal. cbn [map]. rewrite !(put_line2 s sc off _ _ HS HO), go_go, <- Ropp_mult_distr_l. reflexivity.
  Qed.
  Lemma rad_lines fm c a u r s sc off : v_scale s = (Fin sc : num) -> 0 < sc -> v_d s = e2 off -> u <> (0, 0) ->
    exists d ls, unit2 d /\ (exists k, 0 < k /\ u = go (0, 0) k d) /\
      let txt := B "R" ++ pf_format fm (Fin r : num) in
      let pg := v_page (draw_rad fm (e2 c) (e2 a) (e2 u) (Fin r : num) s) in
      o_lines pg = o_lines (v_page s) ++ ls /\ o_arcs pg = o_arcs (v_page s) /\
      o_text pg = o_text (v_page s) ++ [Text (e2 (go (go off sc a) (8 * (3 / 10) * (INR (length txt) + 2)) (1, 0))) txt true false] /\
      rad_marks (go off sc c) (go off sc a) d sc (r * sc) ls.
  Proof.
    intros HS S HO U. destruct (unit_e2 u U) as (d & ND & UD & K). exists d.
    assert (DR : div2 (e2 d) (v_scale s) = e2 (fst d / sc, snd d / sc)) by (rewrite HS; apply div_sc; lra).
    destruct (rad_shape fm (e2 c) (e2 a) (e2 u) (Fin r) s (e2 d) _ ND DR) as (T1 & T2 & T3). destruct (bend_x c a d r sc off UD S) as (x & BX & BD). cbv zeta in BX. rewrite BX in T3.
    eexists. split; [exact UD|]. split; [exact K|]. cbv zeta. split; [exact T3|]. split; [exact T2|]. split.
    - rewrite T1, (label_x _ _ s sc off HS (Rgt_not_eq _ _ S) HO), plus_IZR, <- INR_IZR_INZ. reflexivity.
    - exists (go off sc x). split; [exact BD|]. rewrite !map_app, add2_e2, !(tick_e2 s sc off _ d _ HS (Rgt_not_eq _ _ S) HO), !go_go. f_equal.
      cbn [map]. rewrite !(put_line2 s sc off _ _ HS HO). reflexivity.
  Qed.

  Lemma circ_eval what draw d s s' ml' a u c : visit_circ what draw d s = Ret (s', ml', true) -> eqm (v_rot s) zerom = false ->
    evaluates (v_points s) (v_rot s) (d_meta d) "at" (emb a) -> evaluates (v_points s) (v_rot s) (d_meta d) "dir" (emb u) -> evaluates (v_points s) (v_rot s) (d_meta d) "center" (emb c) ->
    exists fm ce rr, format_of (d_meta d) "%.3f" fm /\ fit_circle (v_points s) (e2 (flat2 c)) = Some (ce, rr) /\ s' = draw fm ce (e2 (flat2 a)) (e2 (flat2 u)) rr s.
  Proof.
    intros H Z Ea Eu Ec. destruct (visit_circ_spec what draw d s Z) as (s2 & ml2 & ok2 & H1 & H2 & _ & H4). rewrite H1 in H. injection H as -> _ ->.
    destruct (H4 eq_refl) as (_ & fm & ce & va & dd & rr & G & ->). assert (N : NoDup (names (d_meta d))) by (apply H2; reflexivity).
    unfold circ_args in G. rewrite (evaluates_arg _ _ _ _ _ N Ea), (evaluates_arg _ _ _ _ _ N Eu), (evaluates_arg _ _ _ _ _ N Ec) in G.
    destruct (fmt_arg "%.3f" (d_meta d)) as [fm'|] eqn:FM; [|discriminate]. destruct (_ <? _)%nat; [discriminate|].
    change (xy (emb c)) with (e2 (flat2 c)) in G.
    destruct (fit_circle (v_points s) (e2 (flat2 c))) as [[ce' r']|] eqn:F; [|discriminate]. injection G as -> -> <- <- ->.
    exists fm, ce, rr. split; [exact (fmt_known _ _ _ FM)|]. split; [reflexivity|reflexivity].
  Qed.
  Lemma shown_flat sc off p : shown_at sc off p = go off sc (flat2 p).
  Proof. unfold shown_at, go, flat2. cbn [fst snd]. f_equal; ring. Qed.
  Theorem dia_marked d s s' d' sc off ps a u c : d_kind d = KDia -> v_scale s = (Fin sc : num) -> 0 < sc -> v_d s = e2 off -> v_points s = map emb ps ->
    evaluates (v_points s) (v_rot s) (d_meta d) "at" (emb a) -> evaluates (v_points s) (v_rot s) (d_meta d) "dir" (emb u) -> evaluates (v_points s) (v_rot s) (d_meta d) "center" (emb c) ->
    flat2 u <> (0, 0) -> visit_base_dim d s = Ret (s', d', true) ->
    exists fm ce rho e ls, format_of (d_meta d) "%.3f" fm /\ measured ps (flat2 c) ce rho /\ unit2 e /\ (exists k, 0 < k /\ flat2 u = go (0, 0) k e) /\
      let txt := B "\351" ++ pf_format fm (Fin (2 * rho) : num) in
      o_lines (v_page s') = o_lines (v_page s) ++ ls /\ o_arcs (v_page s') = o_arcs (v_page s) /\
      o_text (v_page s') = o_text (v_page s) ++ [Text (e2 (go (shown_at sc off a) (8 * (3 / 10) * (INR (length txt) - 2)) (1, 0))) txt true true] /\
      dia_marks (go off sc ce) (shown_at sc off a) e sc (rho * sc) ls.
  Proof.
    intros K HS S HO PS Ea Eu Ec U H. destruct (eqm (v_rot s) zerom) eqn:Z.
    { destruct (base_dim_null _ _ Z H) as (Q & _). discriminate Q. }
    unfold visit_base_dim in H. rewrite K, obind_ret in H. destruct H as ([[s1 ml] ok] & H & HR). injection HR as -> _ ->.
    destruct (circ_eval _ _ _ _ _ _ a u c H Z Ea Eu Ec) as (fm & ce & rr & FM & F & ->). rewrite PS in F. destruct (fit_measures _ _ _ F) as (c1 & rho & Q & M). injection Q as -> ->.
    destruct (dia_lines fm c1 (flat2 a) (flat2 u) rho s sc off HS S HO U) as (e & ls & UE & KE & T1 & T2 & T3 & T4). exists fm, c1, rho, e, ls.
    split; [exact FM|]. split; [exact M|]. split; [exact UE|]. split; [exact KE|]. cbv zeta. rewrite (Rmult_comm 2 rho), shown_flat. auto.
  Qed.
  Theorem rad_marked d s s' d' sc off ps a u c : d_kind d = KRad -> v_scale s = (Fin sc : num) -> 0 < sc -> v_d s = e2 off -> v_points s = map emb ps ->
    evaluates (v_points s) (v_rot s) (d_meta d) "at" (emb a) -> evaluates (v_points s) (v_rot s) (d_meta d) "dir" (emb u) -> evaluates (v_points s) (v_rot s) (d_meta d) "center" (emb c) ->
    flat2 u <> (0, 0) -> visit_base_dim d s = Ret (s', d', true) ->
    exists fm ce rho e ls, format_of (d_meta d) "%.3f" fm /\ measured ps (flat2 c) ce rho /\ unit2 e /\ (exists k, 0 < k /\ flat2 u = go (0, 0) k e) /\
      let txt := B "R" ++ pf_format fm (Fin rho : num) in
      o_lines (v_page s') = o_lines (v_page s) ++ ls /\ o_arcs (v_page s') = o_arcs (v_page s) /\
      o_text (v_page s') = o_text (v_page s) ++ [Text (e2 (go (shown_at sc off a) (8 * (3 / 10) * (INR (length txt) + 2)) (1, 0))) txt true false] /\
      rad_marks (go off sc ce) (shown_at sc off a) e sc (rho * sc) ls.
  Proof.
    intros K HS S HO PS Ea Eu Ec U H. destruct (eqm (v_rot s) zerom) eqn:Z.
    { destruct (base_dim_null _ _ Z H) as (Q & _). discriminate Q. }
    unfold visit_base_dim in H. rewrite K, obind_ret in H. destruct H as ([[s1 ml] ok] & H & HR). injection HR as -> _ ->.
    destruct (circ_eval _ _ _ _ _ _ a u c H Z Ea Eu Ec) as (fm & ce & rr & FM & F & ->). rewrite PS in F. destruct (fit_measures _ _ _ F) as (c1 & rho & Q & M). injection Q as -> ->.
    destruct (rad_lines fm c1 (flat2 a) (flat2 u) rho s sc off HS S HO U) as (e & ls & UE & KE & T1 & T2 & T3 & T4). exists fm, c1, rho, e, ls.
    split; [exact FM|]. split; [exact M|]. split; [exact UE|]. split; [exact KE|]. cbv zeta. rewrite shown_flat. auto.
  Qed.

  (** The leader meets the arrow tips. *)
  Lemma on_ray C d k m : 0 <= k <= m -> 0 < m -> on_seg C (go C m d) (go C k d).
  Proof.
    intros [K0 K1] M. exists (k / m). split.
    - split; [apply Rmult_le_pos; [lra|apply Rlt_le, Rinv_0_lt_compat, M]|]. apply (Rmult_le_reg_r m); [exact M|]. unfold Rdiv. rewrite Rmult_assoc, Rinv_l by lra. lra.
    - unfold go, diff. cbn [fst snd]. f_equal; field; lra.
  Qed.
  Theorem dia_reaches C A d sc rho ls : dia_marks C A d sc rho ls -> 0 < rho -> 
    (forall l, level C A d l -> sc < l -> rho <= l) -> exists p q rest, ls = seg p q :: rest /\ on_seg p q (go C rho d) /\ on_seg p q (go C (- rho) d).
  Proof.
    intros (X & BX & ->) R L. assert (Q : exists m, rho <= m /\ X = go C m d).
    { destruct BX as [|l H1 H2 H3 H4 H5]; [exists rho; split; [lra|reflexivity]|exists l; split; [apply L; assumption|reflexivity]]. }
    destruct Q as (m & M & ->). exists (go C (- rho) d), (go C m d). eexists. split; [reflexivity|].
    assert (Q : forall k, go C k d = go (go C (- rho) d) (k + rho) d) by (intro k; unfold go; cbn [fst snd]; f_equal; ring). split.
    - rewrite (Q rho), (Q m). apply on_ray; lra.
    - exists 0. split; [lra|]. unfold go, diff. cbn [fst snd]. f_equal; ring.
  Qed.
  Theorem rad_reaches C A d sc rho ls : rad_marks C A d sc rho ls -> 0 < rho -> 
    (forall l, level C A d l -> sc < l -> rho <= l) -> exists q rest, ls = seg C q :: rest /\ on_seg C q (go C rho d).
  Proof.
    intros (X & BX & ->) R L. assert (Q : exists m, rho <= m /\ X = go C m d).
    { destruct BX as [|l H1 H2 H3 H4 H5]; [exists rho; split; [lra|reflexivity]|exists l; split; [apply L; assumption|reflexivity]]. }
    destruct Q as (m & M & ->). exists (go C m d). eexists. split; [reflexivity|]. apply on_ray; lra.
  Qed.
End Circ.
