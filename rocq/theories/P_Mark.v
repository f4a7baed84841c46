(** P_Mark.v - where the marks of a dimension are, in exact arithmetic. *)
From Coq Require Import Reals Lra Psatz.
From Verif Require Import Base Num NumReal NumLaws Geo Stl Env Ast Ps Draw DocSpec RealSpec CircleSpec DimSpec MarkSpec P_Base P_Meta P_Dims P_Doc P_Frame P_Real P_Value.

Local Unset Implicit Arguments.
Local Open Scope R_scope.

Section Args.
  Context {A : Arith} {E : Env}.
  Lemma multiplied_eq r p p' : multiplied_by r p p' -> p' = point_rotate r p.
  Proof.
    intros (T & F & L). revert p' T F L. induction p as [v l|n q IH l]; intros [v' l'|n' q' l'] T F L; simpl in *; try discriminate.
    - congruence.
    - injection F as -> -> F. f_equal. apply IH; assumption.
  Qed.
  Lemma evaluates_arg ps r ml n v : NoDup (names ml) -> evaluates ps r ml n v -> point_arg ps r n ml = Some v.
  Proof.
    intros N (x & p & p' & I & Q & V & M & H). unfold point_arg. rewrite (arg_unique n ml x N I Q). unfold ev, as_point. rewrite V.
    rewrite <- (multiplied_eq _ _ _ M). exact H.
  Qed.
End Args.

Section Shape.
  Context {A : Arith} {E : Env}.
  Definition placed (s : vst) (l : line) : line := Line (place s (lo l)) (place s (lt_ l)).
  Definition tails (a b af at_ from to : v3) (fs ts : num) : list line :=
    let comb x y := add3 (mul3 a (of_Z x)) (mul3 b (of_Z y)) in
      [ line3 (sub3 af (mul3 (mul3 b (of_Z 4)) fs)) (sub3 from (mul3 (mul3 b (of_Z 2)) fs));
        line3 (sub3 at_ (mul3 (mul3 b (of_Z 4)) ts)) (sub3 to (mul3 (mul3 b (of_Z 2)) ts));
        line3 af (add3 af (comb 6 2)%Z); line3 af (add3 af (comb 6 (-2))%Z);
        line3 at_ (add3 at_ (comb (-6) 2)%Z); line3 at_ (add3 at_ (comb (-6) (-2))%Z) ].
  (** Drawing a dim, with every intermediate value named. *)
  Lemma dim_shape fm p dir from to s af tt len v a b fs ts w h g :
    add3 p (mul3 dir (dot3 dir (sub3 from p))) = af -> add3 p (mul3 dir (dot3 dir (sub3 to p))) = tt ->
    sub3 tt af = len -> norm3 len = v -> div3 (normalized3 (V3 (x3 len) (y3 len) nz)) (v_scale s) = a ->
    V3 (- y3 a)%num (x3 a) nz = b ->
    (if ngt (dot3 (sub3 from p) b) nz then n1 else of_Z (-1)) = fs -> (if ngt (dot3 (sub3 to p) b) nz then n1 else of_Z (-1)) = ts ->
    (char_half * of_Z (Z.of_nat (length (pf_format fm v))) + n1)%num = w -> (of_Z kFontSize * of_dec 333 (-3) + n1)%num = h ->
    (nmin (nabs (w / x3 a)) (nabs (h / y3 a)) / v_scale s)%num = g ->
    let pg := v_page (draw_dim fm p dir from to s) in
    o_text pg = o_text (v_page s) ++ [Text (place s (xy p)) (pf_format fm v) true false] /\ o_arcs pg = o_arcs (v_page s) /\
    o_lines pg = o_lines (v_page s) ++ map (placed s)
      (if (g * n2 <? v * v_scale s)%num
       then [line3 af (sub3 p (mul3 a g)); line3 (add3 p (mul3 a g)) tt] ++ tails a b af tt from to fs ts
       else [line3 af (sub3 af (mul3 a (of_Z 10))); line3 tt (add3 tt (mul3 a (of_Z 10)))] ++ tails (neg3 a) b af tt from to fs ts).
  Proof.
    intros <- <- <- <- <- <- <- <- <- <- <-. cbv zeta. unfold draw_dim. cbv zeta. destruct (nlt _ _); repeat split; cbn; rewrite <- app_assoc; reflexivity.
  Qed.
End Shape.

Section Marks.
  Context {E : @Env XR}.
  #[local] Existing Instance XR.
  Lemma place_emb s sc off p : v_scale s = (Fin sc : num) -> v_d s = e2 off -> place s (xy (emb p)) = e2 (shown_at sc off p).
  Proof. intros H1 H2. unfold place. rewrite H1, H2. reflexivity. Qed.
  Lemma place_e2 s sc off p : v_scale s = (Fin sc : num) -> v_d s = e2 off -> place s (e2 p) = e2 (go off sc p).
  Proof. intros H1 H2. unfold place. rewrite H1, H2. unfold e2, emb2, go, add2, mul2. cbn. rewrite !(Rplus_comm (fst off)), !(Rplus_comm (snd off)), !(Rmult_comm sc). reflexivity. Qed.
  (** One point long vectors. *)
  Definition pvec (sc : R) (d : pt2) : rpt := P3 (fst d / sc) (snd d / sc) 0.
  Lemma pvec_go sc off p k d : sc <> 0 -> shown_at sc off (radd p (rscale k (pvec sc d))) = go (shown_at sc off p) k d.
  Proof. intro H. unfold shown_at, go, radd, rscale, pvec. cbn [rx ry fst snd]. f_equal; field; exact H. Qed.

  Lemma len_nz x y : P3 x y 0 <> rzero -> 0 < x * x + y * y.
  Proof. intro H. pose proof (rdot_nz _ H) as P. unfold rdot in P. cbn [rx ry rz] in P. lra. Qed.
  (** The unit vector along a dimension on the page. *)
  Lemma head_vec sc off p q : 0 < sc -> exists d, heading (shown_at sc off p) (shown_at sc off q) d /\
    div3 (normalized3 (V3 (x3 (emb (rsub q p))) (y3 (emb (rsub q p))) nz)) (Fin sc : num) = emb (pvec sc d).
  Proof.
    intro S. set (l := P3 (rx q - rx p) (ry q - ry p) 0). change (V3 (x3 (emb (rsub q p))) (y3 (emb (rsub q p))) nz) with (emb l).
    destruct (zero_dec l) as [Z|Z].
    - exists (0, 0). split.
      + left. split; [|reflexivity]. injection Z as Z1 Z2. unfold shown_at. f_equal; f_equal; f_equal; lra.
      + rewrite Z, normalized_zero, div_emb by lra. f_equal. unfold pvec, rscale, rzero. cbn [rx ry rz fst snd]. f_equal; field; lra.
    - pose proof (len_nz _ _ Z) as P. set (m := (rx q - rx p) * (rx q - rx p) + (ry q - ry p) * (ry q - ry p)) in *. pose proof (sqrt_lt_R0 _ P) as Q. pose proof (sqrt_sqrt m (Rlt_le _ _ P)) as SS.
      exists ((rx q - rx p) / sqrt m, (ry q - ry p) / sqrt m). split.
      + right. split.
        * unfold unit2, dot. cbn [fst snd]. replace (_ + _) with (m / (sqrt m * sqrt m)) by (unfold m; field; fold m; lra). rewrite SS. field. lra.
        * exists (sc * sqrt m). split; [apply Rmult_lt_0_compat; assumption|]. unfold go, shown_at. cbn [fst snd]. f_equal; field; lra.
      + rewrite normalized_emb by exact Z. rewrite div_emb by lra. f_equal. unfold runit. replace (rdot l l) with m by (unfold rdot, l, m; cbn [rx ry rz]; ring).
        unfold pvec, rscale, l. cbn [rx ry rz fst snd]. f_equal; field; lra.
  Qed.

  (** The border of the label box. *)
  Lemma border_gap w h d sc : 0 < sc -> 0 < w -> 0 < h ->
    let g := ndiv (nmin (nabs (ndiv (Fin w : num) (Fin (fst d / sc) : num))) (nabs (ndiv (Fin h : num) (Fin (snd d / sc) : num)))) (Fin sc : num) in
    (exists k, g = Fin k /\ to_border w h d k /\ forall k', to_border w h d k' -> k' = k) \/ (g = PInf /\ forall k, ~ to_border w h d k).
  Proof.
    intros S W H. cbv zeta.
    assert (D : forall x y, 0 < y -> (x = 0 /\ nabs (ndiv (Fin y : num) (Fin (x / sc) : num)) = PInf) \/
                (x <> 0 /\ nabs (ndiv (Fin y : num) (Fin (x / sc) : num)) = Fin (y / Rabs x * sc))).
    { intros x y Y. destruct (Req_dec x 0) as [->|X]; [left|right]; (split; [auto|]).
      - cbn. destruct (reqb_spec (0 / sc) 0) as [_|N]; [|exfalso; apply N; field; lra]. unfold xsgn. rewrite (proj2 (rltb_iff 0 y)) by lra. reflexivity.
      - cbn. destruct (reqb_spec (x / sc) 0) as [N|_].
        { exfalso. apply X. apply (Rmult_eq_reg_r (/ sc)); [|apply Rinv_neq_0_compat; lra]. unfold Rdiv in N. lra. }
        cbn. f_equal. unfold Rdiv. rewrite !Rabs_mult, !Rabs_inv, Rabs_mult, Rabs_inv, (Rabs_pos_eq y), (Rabs_pos_eq sc) by lra. field.
        split; [apply Rabs_no_R0, X|lra]. }
    assert (DV : forall x, ndiv (Fin (x * sc) : num) (Fin sc : num) = Fin x).
    { intro x. cbn. destruct (reqb_spec sc 0) as [N|_]; [lra|]. f_equal. field. lra. }
    assert (AB : forall x, x <> 0 -> 0 < Rabs x) by apply Rabs_pos_lt.
    assert (Q : forall y x, x <> 0 -> y / Rabs x * Rabs x = y) by (intros y x X; field; apply Rabs_no_R0, X).
    destruct (D (fst d) w W) as [[X1 E1]|[X1 E1]], (D (snd d) h H) as [[X2 E2]|[X2 E2]]; rewrite E1, E2.
    - right. split; [cbn; rewrite (proj2 (rltb_false sc 0)) by lra; reflexivity|]. intros k (_ & _ & _ & [B|B]); [rewrite X1 in B|rewrite X2 in B]; rewrite Rabs_R0 in B; lra.
    - left. exists (h / Rabs (snd d)). split; [unfold nmin; cbn [nlt XR xlt]; apply DV|]. pose proof (AB _ X2). split.
      + split; [apply Rlt_le, Rdiv_lt_0_compat; assumption|]. rewrite X1, Rabs_R0, Q by exact X2. split; [lra|]. split; [lra|]. right; reflexivity.
      + intros k' (_ & _ & _ & [B|B]); [rewrite X1, Rabs_R0 in B; lra|]. apply (Rmult_eq_reg_r (Rabs (snd d))); [|lra]. rewrite Q by exact X2. exact B.
    - left. exists (w / Rabs (fst d)). split; [unfold nmin; cbn [nlt XR xlt]; apply DV|]. pose proof (AB _ X1). split.
      + split; [apply Rlt_le, Rdiv_lt_0_compat; assumption|]. rewrite X2, Rabs_R0, Q by exact X1. split; [lra|]. split; [lra|]. left; reflexivity.
      + intros k' (_ & _ & _ & [B|B]); [|rewrite X2, Rabs_R0 in B; lra]. apply (Rmult_eq_reg_r (Rabs (fst d))); [|lra]. rewrite Q by exact X1. exact B.
    - left. pose proof (AB _ X1) as P1. pose proof (AB _ X2) as P2. unfold nmin. cbn [nlt XR xlt].
      assert (C1 : forall k, k * Rabs (fst d) <= w <-> k <= w / Rabs (fst d)).
      { intro k. split; intro L.
        - apply (Rmult_le_reg_r (Rabs (fst d))); [exact P1|]. rewrite Q by exact X1. exact L.
        - rewrite <- (Q w _ X1). apply Rmult_le_compat_r; lra. }
      assert (C2 : forall k, k * Rabs (snd d) <= h <-> k <= h / Rabs (snd d)).
      { intro k. split; intro L.
        - apply (Rmult_le_reg_r (Rabs (snd d))); [exact P2|]. rewrite Q by exact X2. exact L.
        - rewrite <- (Q h _ X2). apply Rmult_le_compat_r; lra. }
      assert (C3 : forall k, k * Rabs (fst d) = w <-> k = w / Rabs (fst d)).
      { intro k. split; intro L; [apply (Rmult_eq_reg_r (Rabs (fst d))); [|lra]; rewrite Q by exact X1; exact L|rewrite L; apply Q, X1]. }
      assert (C4 : forall k, k * Rabs (snd d) = h <-> k = h / Rabs (snd d)).
      { intro k. split; intro L; [apply (Rmult_eq_reg_r (Rabs (snd d))); [|lra]; rewrite Q by exact X2; exact L|rewrite L; apply Q, X2]. }
      pose proof (Rdiv_lt_0_compat _ _ W P1) as Z1. pose proof (Rdiv_lt_0_compat _ _ H P2) as Z2.
      unfold to_border. destruct (rltb_spec (h / Rabs (snd d) * sc) (w / Rabs (fst d) * sc)) as [L|L].
      + apply Rmult_lt_reg_r in L; [|exact S]. exists (h / Rabs (snd d)). split; [apply DV|]. split.
        * split; [lra|]. split; [apply C1; lra|]. split; [apply C2; lra|]. right. apply C4. reflexivity.
        * intros k' (K0 & K1 & K2 & K3). apply C1 in K1. apply C2 in K2. destruct K3 as [K3|K3]; [apply C3 in K3; lra|apply C4 in K3; exact K3].
      + assert (L' : w / Rabs (fst d) <= h / Rabs (snd d)) by (apply Rnot_lt_le; intro N; apply L, Rmult_lt_compat_r; assumption). exists (w / Rabs (fst d)). split; [apply DV|]. split.
        * split; [lra|]. split; [apply C1; lra|]. split; [apply C2; lra|]. left. apply C3. reflexivity.
        * intros k' (K0 & K1 & K2 & K3). apply C1 in K1. apply C2 in K2. destruct K3 as [K3|K3]; [apply C3 in K3; exact K3|apply C4 in K3; lra].
  Qed.

  (** ** dim *)
  Lemma along_feet u a f t : u <> rzero -> let w := runit u in
    let qf := radd a (rscale (rdot w (rsub f a)) w) in let qt := radd a (rscale (rdot w (rsub t a)) w) in
    foot a u f qf /\ foot a u t qt /\ norm3 (emb (rsub qt qf)) = Fin (along u f t).
  Proof.
    intros U w qf qt. pose proof (runit_unit u U) as W. fold w in W. pose proof (sqrt_lt_R0 _ (rdot_nz u U)) as SP.
    assert (FT : forall p, foot a u p (radd a (rscale (rdot w (rsub p a)) w))).
    { intro p. split.
      - exists (rdot w (rsub p a) * / sqrt (rdot u u)). f_equal. unfold w, runit, rscale. cbn [rx ry rz]. f_equal; ring.
      - assert (Q : rdot (rsub p (radd a (rscale (rdot w (rsub p a)) w))) w = rdot w (rsub p a) * (1 - rdot w w)) by (unfold rdot, rsub, radd, rscale; cbn [rx ry rz]; ring).
        rewrite W in Q. assert (Q2 : forall x, rdot x u = sqrt (rdot u u) * rdot x w).
        { intro x. unfold w, runit. unfold rdot at 1 3. unfold rscale. cbn [rx ry rz]. field. lra. }
        rewrite Q2, Q. ring. }
    split; [apply FT|]. split; [apply FT|]. pose proof (length_along u a f t U) as L. fold w in L. rewrite !sub_emb, !dot_emb, !mul_emb, !add_emb, sub_emb in L. exact L.
  Qed.
  Lemma lines_added ls s : o_lines (v_page (add_lines ls s)) = o_lines (v_page s) ++ map (fun l => Line (place s (lo l)) (place s (lt_ l))) ls.
  Proof. reflexivity. Qed.
  Lemma put_line s sc off p q : v_scale s = (Fin sc : num) -> v_d s = e2 off ->
    placed s (line3 (emb p) (emb q)) = seg (shown_at sc off p) (shown_at sc off q).
  Proof. intros H1 H2. unfold placed, line3. cbn [lo lt_]. rewrite !(place_emb s sc off _ H1 H2). reflexivity. Qed.

  Lemma half_width_eq n : (char_half * of_Z (Z.of_nat n) + n1)%num = Fin (half_width n).
  Proof. unfold half_width. rewrite INR_IZR_INZ. unfold char_half. cbn. f_equal. unfold kFontSize. cbn. change (Pos.to_nat 1) with 1%nat. cbn [pow]. field. Qed.
  Lemma half_height_eq : (of_Z kFontSize * of_dec 333 (-3) + n1)%num = Fin half_height.
  Proof. unfold half_height, kFontSize. cbn. f_equal. change (Pos.to_nat 3) with 3%nat. cbn [pow]. field. Qed.
  Lemma half_width_pos n : 0 < half_width n. Proof. unfold half_width. pose proof (pos_INR n). lra. Qed.
  Lemma half_height_pos : 0 < half_height. Proof. unfold half_height. lra. Qed.

  Lemma gt_fin k : ngt (Fin k : num) nz = rltb 0 k. Proof. reflexivity. Qed.
  Lemma side_sign sc off a p d : 0 < sc -> exists sg, sided (shown_at sc off a) d (shown_at sc off p) sg /\
    (if ngt (dot3 (emb (rsub p a)) (V3 (- (y3 (emb (pvec sc d))))%num (x3 (emb (pvec sc d))) nz)) nz then n1 else of_Z (-1)) = (Fin sg : num).
  Proof.
    intro S. change (V3 (- (y3 (emb (pvec sc d))))%num (x3 (emb (pvec sc d))) nz) with (emb (P3 (- (snd d / sc)) (fst d / sc) 0)). rewrite dot_emb.
    set (k := rdot _ _). assert (K : dot (diff (shown_at sc off p) (shown_at sc off a)) (left_of d) = k * (sc * sc)).
    { unfold dot, diff, shown_at, left_of, k, rdot, rsub. cbn [rx ry rz fst snd]. field. lra. }
    unfold sided. rewrite K. rewrite gt_fin. assert (0 < sc * sc) by nra. destruct (rltb_spec 0 k) as [L|L].
    - exists 1. split; [left; split; [nra|reflexivity]|reflexivity].
    - exists (-1). split; [right; split; [nra|lra]|reflexivity].
  Qed.

  Lemma lt_fin g v sc : ((Fin g : num) * n2 <? (Fin v : num) * (Fin sc : num))%num = rltb (g * 2) (v * sc). Proof. reflexivity. Qed.
  Lemma inf_lt v sc : ((PInf : num) * n2 <? (Fin v : num) * (Fin sc : num))%num = false.
  Proof. cbn. unfold xsgn. rewrite (proj2 (rltb_iff 0 2)) by lra. reflexivity. Qed.
  Lemma mul_ofZ a k : mul3 (emb a) (of_Z k) = emb (rscale (IZR k) a). Proof. apply mul_emb. Qed.
  Lemma dim_lines fm a u f t s sc off : v_scale s = (Fin sc : num) -> 0 < sc -> v_d s = e2 off -> u <> rzero ->
    exists qf qt ls, foot a u f qf /\ foot a u t qt /\
      o_lines (v_page (draw_dim fm (emb a) (normalized3 (emb u)) (emb f) (emb t) s)) = o_lines (v_page s) ++ ls /\
      o_arcs (v_page (draw_dim fm (emb a) (normalized3 (emb u)) (emb f) (emb t) s)) = o_arcs (v_page s) /\
      o_text (v_page (draw_dim fm (emb a) (normalized3 (emb u)) (emb f) (emb t) s)) = o_text (v_page s) ++
        [Text (e2 (shown_at sc off a)) (pf_format fm (Fin (along u f t) : num)) true false] /\
      dim_marks (shown_at sc off a) (shown_at sc off qf) (shown_at sc off qt) (shown_at sc off f) (shown_at sc off t)
        (length (pf_format fm (Fin (along u f t) : num))) (along u f t * sc) ls.
  Proof.
    intros HS S HO U. rewrite normalized_emb by exact U. destruct (along_feet u a f t U) as (F1 & F2 & L). set (w := runit u) in *.
    set (qf := radd a (rscale (rdot w (rsub f a)) w)) in *. set (qt := radd a (rscale (rdot w (rsub t a)) w)) in *.
    destruct (head_vec sc off qf qt S) as (d & HD & HA). rewrite <- HS in HA at 1.
    destruct (side_sign sc off a f d S) as (sf & SF1 & SF2). destruct (side_sign sc off a t d S) as (st & ST1 & ST2).
    set (txt := @pf_format XR E fm (Fin (along u f t))).
    assert (EF : add3 (emb a) (mul3 (emb w) (dot3 (emb w) (sub3 (emb f) (emb a)))) = emb qf) by (rewrite sub_emb, dot_emb, mul_emb; reflexivity).
    assert (ET : add3 (emb a) (mul3 (emb w) (dot3 (emb w) (sub3 (emb t) (emb a)))) = emb qt) by (rewrite sub_emb, dot_emb, mul_emb; reflexivity).
    pose proof (fun g => dim_shape fm (emb a) (emb w) (emb f) (emb t) s (emb qf) (emb qt) (emb (rsub qt qf)) (Fin (along u f t)) (emb (pvec sc d)) _ (Fin sf) (Fin st)
      (Fin (half_width (length txt))) (Fin half_height) g EF ET eq_refl L HA eq_refl SF2 ST2 (half_width_eq _) half_height_eq) as SH.
    assert (EB : V3 (- y3 (emb (pvec sc d)))%num (x3 (emb (pvec sc d))) nz = emb (pvec sc (left_of d))).
    { unfold pvec, left_of, emb. cbn. do 2 f_equal. field. lra. }
    rewrite EB in SH.
    assert (TL : forall k, map (placed s) (tails (emb (rscale k (pvec sc d))) (emb (pvec sc (left_of d))) (emb qf) (emb qt) (emb f) (emb t) (Fin sf) (Fin st)) =
      [seg (go (shown_at sc off qf) (-4 * sf) (left_of d)) (go (shown_at sc off f) (-2 * sf) (left_of d));
       seg (go (shown_at sc off qt) (-4 * st) (left_of d)) (go (shown_at sc off t) (-2 * st) (left_of d))] ++
      barbs (shown_at sc off qf) (k * 6) d ++ barbs (shown_at sc off qt) (k * -6) d).
    { intro k. unfold tails. cbv zeta. cbn [map]. rewrite !mul_ofZ, !mul_emb, !add_emb, !sub_emb, !(put_line s sc off _ _ HS HO). cbn [app barbs].
      assert (Q1 : forall x b c, shown_at sc off (rsub x (rscale c (rscale b (pvec sc (left_of d))))) = go (shown_at sc off x) (- b * c) (left_of d)).
      { intros x b c. unfold shown_at, go, rsub, rscale, pvec, left_of. cbn [rx ry fst snd]. f_equal; field; lra. }
      assert (Q2 : forall x b c, shown_at sc off (radd x (radd (rscale b (rscale k (pvec sc d))) (rscale c (pvec sc (left_of d))))) = go (go (shown_at sc off x) (k * b) d) c (left_of d)).
      { intros x b c. unfold shown_at, go, radd, rscale, pvec, left_of. cbn [rx ry fst snd]. f_equal; field; lra. }
      rewrite !Q1, !Q2. reflexivity. }
    exists qf, qt.
    assert (A1 : rscale 1 (pvec sc d) = pvec sc d) by (unfold rscale; destruct (pvec sc d); cbn; f_equal; ring).
    assert (EP : place s (xy (emb a)) = e2 (shown_at sc off a)) by (apply place_emb; assumption).
    assert (XS : forall l x, sided (shown_at sc off a) d (shown_at sc off x) l -> forall y, extension (shown_at sc off a) d y (shown_at sc off x)
              (seg (go y (-4 * l) (left_of d)) (go (shown_at sc off x) (-2 * l) (left_of d)))) by (intros l x H y; exists l; split; [exact H|reflexivity]).
    assert (OUT : map (placed s) ([line3 (emb qf) (sub3 (emb qf) (mul3 (emb (pvec sc d)) (of_Z 10))); line3 (emb qt) (add3 (emb qt) (mul3 (emb (pvec sc d)) (of_Z 10)))] ++
        tails (neg3 (emb (pvec sc d))) (emb (pvec sc (left_of d))) (emb qf) (emb qt) (emb f) (emb t) (Fin sf) (Fin st)) =
      [seg (shown_at sc off qf) (go (shown_at sc off qf) (-10) d); seg (shown_at sc off qt) (go (shown_at sc off qt) 10 d)] ++
      [seg (go (shown_at sc off qf) (-4 * sf) (left_of d)) (go (shown_at sc off f) (-2 * sf) (left_of d));
       seg (go (shown_at sc off qt) (-4 * st) (left_of d)) (go (shown_at sc off t) (-2 * st) (left_of d))] ++
      barbs (shown_at sc off qf) (-6) d ++ barbs (shown_at sc off qt) 6 d).
    { assert (NE : neg3 (emb (pvec sc d)) = emb (rscale (-1) (pvec sc d))) by (unfold neg3, emb, rscale, pvec; cbn; f_equal; f_equal; ring).
      rewrite NE, map_app, TL. replace (-1 * 6) with (-6) by ring. replace (-1 * -6) with 6 by ring.
      f_equal. cbn [map]. rewrite !mul_ofZ, add_emb, sub_emb, !(put_line s sc off _ _ HS HO). f_equal; [|f_equal]; f_equal.
      - unfold shown_at, go, rsub, rscale, pvec. cbn [rx ry fst snd]. f_equal; field; lra.
      - apply pvec_go. lra. }
    pose proof (border_gap (half_width (length txt)) half_height d sc S (half_width_pos _) half_height_pos) as BG. cbv zeta in BG.
    rewrite <- HS in BG.
    destruct BG as [(g & G1 & G2 & G3)|(G1 & G2)].
    - destruct (SH _ G1) as (T1 & T2 & T3). rewrite EP in T1. rewrite HS in T3. eexists. split; [exact F1|]. split; [exact F2|]. split; [exact T3|]. split; [exact T2|]. split; [exact T1|].
      exists d. eexists. eexists. split; [exact HD|]. split; [apply XS; exact SF1|]. split; [apply XS; exact ST1|].
      rewrite lt_fin. destruct (rltb_spec (g * 2) (along u f t * sc)) as [C|C]; [left|right].
      + exists g. split; [exact G2|]. split; [lra|]. rewrite <- A1 at 3. rewrite map_app, TL. replace (1 * 6) with 6 by ring. replace (1 * -6) with (-6) by ring. f_equal. 
        cbn [map]. rewrite !mul_emb, add_emb, sub_emb, !(put_line s sc off _ _ HS HO). f_equal; [|f_equal]; f_equal.
        * unfold shown_at, go, rsub, rscale, pvec. cbn [rx ry fst snd]. f_equal; field; lra.
        * apply pvec_go. lra.
      + split; [intros k K; rewrite (G3 k K); lra|]. exact OUT.
    - destruct (SH _ G1) as (T1 & T2 & T3). rewrite EP in T1. rewrite HS in T3. eexists. split; [exact F1|]. split; [exact F2|]. split; [exact T3|]. split; [exact T2|]. split; [exact T1|].
      exists d. eexists. eexists. split; [exact HD|]. split; [apply XS; exact SF1|]. split; [apply XS; exact ST1|]. right.
      split; [intros k K; destruct (G2 k K)|]. rewrite inf_lt. exact OUT.
  Qed.

  Theorem dim_marked d s s' d' sc off a u f t : d_kind d = KDim -> v_scale s = (Fin sc : num) -> 0 < sc -> v_d s = e2 off ->
    evaluates (v_points s) (v_rot s) (d_meta d) "at" (emb a) -> evaluates (v_points s) (v_rot s) (d_meta d) "dir" (emb u) ->
    evaluates (v_points s) (v_rot s) (d_meta d) "from" (emb f) -> evaluates (v_points s) (v_rot s) (d_meta d) "to" (emb t) ->
    visit_base_dim d s = Ret (s', d', true) ->
    exists fm qf qt ls, format_of (d_meta d) "%.3f" fm /\ foot a u f qf /\ foot a u t qt /\
      o_lines (v_page s') = o_lines (v_page s) ++ ls /\ o_arcs (v_page s') = o_arcs (v_page s) /\
      o_text (v_page s') = o_text (v_page s) ++ [Text (e2 (shown_at sc off a)) (pf_format fm (Fin (along u f t) : num)) true false] /\
      dim_marks (shown_at sc off a) (shown_at sc off qf) (shown_at sc off qt) (shown_at sc off f) (shown_at sc off t)
        (length (pf_format fm (Fin (along u f t) : num))) (along u f t * sc) ls.
  Proof.
    intros K HS S HO Ea Eu Ef Et H. destruct (dim_visit d s s' d' K H) as (N & fm & va & vd & vf & vt & G & ->). unfold dim_args in G.
    rewrite (evaluates_arg _ _ _ _ _ N Ea), (evaluates_arg _ _ _ _ _ N Eu), (evaluates_arg _ _ _ _ _ N Ef), (evaluates_arg _ _ _ _ _ N Et) in G.
    destruct (fmt_arg "%.3f" (d_meta d)) as [fm'|] eqn:F; [|discriminate]. destruct (eq3 (emb u) zero3) eqn:Z; [discriminate|]. injection G as -> <- <- <- <-.
    assert (U : u <> rzero).
    { intros ->. unfold eq3 in Z. cbn in Z. destruct (reqb_spec 0 0) as [_|X]; [discriminate Z|lra]. }
    destruct (dim_lines fm a u f t s sc off HS S HO U) as (qf & qt & ls & F1 & F2 & T1 & T2 & T3 & T4).
    exists fm, qf, qt, ls. split; [exact (fmt_known _ _ _ F)|]. auto 10.
  Qed.

  (** The extension lines of a dim whose direction is parallel to the page. *)
  Theorem extension_upright sc off a u f t qf qt d l : 0 < sc -> rz u = 0 -> foot a u f qf -> foot a u t qt ->
    unit2 d -> (exists k, 0 < k /\ shown_at sc off qt = go (shown_at sc off qf) k d) ->
    extension (shown_at sc off a) d (shown_at sc off qf) (shown_at sc off f) l ->
    exists m sg, 0 <= m /\ (sg = 1 \/ sg = -1) /\ shown_at sc off f = go (shown_at sc off qf) (m * sg) (left_of d) /\
      l = seg (go (shown_at sc off qf) (-4 * sg) (left_of d)) (go (shown_at sc off qf) ((m - 2) * sg) (left_of d)).
  Proof.
    intros S UZ ((x & X) & FX) ((y & Y) & FY) UD (k & K & Q) (sg & SG & ->). subst qf qt. unfold unit2, dot in UD.
    injection Q as Q1 Q2. unfold go, shown_at, radd, rscale in Q1, Q2. cbn [rx ry fst snd] in Q1, Q2.
    assert (D1 : k * fst d = (y - x) * sc * rx u) by lra. assert (D2 : k * snd d = (y - x) * sc * ry u) by lra.
    set (F := shown_at sc off (radd a (rscale x u))) in *. set (P := shown_at sc off f) in *.
    assert (O : dot (diff P F) d = 0).
    { apply (Rmult_eq_reg_l k); [|lra]. replace (k * dot (diff P F) d) with (fst (diff P F) * (k * fst d) + snd (diff P F) * (k * snd d)) by (unfold dot; ring). rewrite D1, D2.
      transitivity ((y - x) * sc * sc * rdot (rsub f (radd a (rscale x u))) u); [|rewrite FX; ring].
      unfold diff, P, F, shown_at, rdot, rsub, radd, rscale. cbn [rx ry rz fst snd]. rewrite UZ. ring. }
    set (q := dot (diff P F) (left_of d)).
    assert (PF : P = go F q (left_of d)).
    { unfold q. unfold dot, left_of, diff in O. cbn [fst snd] in O. unfold go, dot, left_of, diff. cbn [fst snd]. destruct P as [p1 p2]. cbn [fst snd] in *. f_equal.
      - transitivity (fst F + (p1 - fst F) * (fst d * fst d + snd d * snd d)); [rewrite UD; ring|].
        transitivity (fst F + (p1 - fst F) * (fst d * fst d + snd d * snd d) - fst d * ((p1 - fst F) * fst d + (p2 - snd F) * snd d)); [rewrite O; ring|ring].
      - transitivity (snd F + (p2 - snd F) * (fst d * fst d + snd d * snd d)); [rewrite UD; ring|].
        transitivity (snd F + (p2 - snd F) * (fst d * fst d + snd d * snd d) - snd d * ((p1 - fst F) * fst d + (p2 - snd F) * snd d)); [rewrite O; ring|ring]. }
    assert (QA : dot (diff P (shown_at sc off a)) (left_of d) = q).
    { transitivity (q + dot (diff F (shown_at sc off a)) (left_of d)); [unfold q, dot, diff; cbn [fst snd]; ring|]. replace (dot (diff F (shown_at sc off a)) (left_of d)) with 0; [ring|].
      apply (Rmult_eq_reg_l k); [|lra]. transitivity (fst (diff F (shown_at sc off a)) * - (k * snd d) + snd (diff F (shown_at sc off a)) * (k * fst d)); [|unfold dot, left_of; cbn [fst snd]; ring].
      rewrite D1, D2. unfold diff, F, shown_at, radd, rscale. cbn [rx ry fst snd]. ring. }
    unfold sided in SG. rewrite QA in SG. exists (q * sg), sg. destruct SG as [[L ->]|[L ->]].
    - split; [lra|]. split; [auto|]. split; [rewrite PF at 1; f_equal; ring|]. f_equal. rewrite PF. unfold go. cbn [fst snd]. f_equal; ring.
    - split; [lra|]. split; [auto|]. split; [rewrite PF at 1; f_equal; ring|]. f_equal. rewrite PF. unfold go. cbn [fst snd]. f_equal; ring.
  Qed.
End Marks.
