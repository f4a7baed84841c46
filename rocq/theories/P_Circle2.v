(** P_Circle2.v - the annulus, degenerate circles and the two-stage fit in exact
    arithmetic. *)
From Coq Require Import Reals Lra Nsatz Permutation Bool.
From Verif Require Import Base Num NumLaws NumReal Geo Stl RealSpec Env Ast P_Real CircleSpec PickSpec P_Pick P_Circle.

Local Unset Implicit Arguments.
Local Open Scope R_scope.

(** ** The annulus *)
Lemma sqd_fin p q : @sqn2 XR (sub2 (e2 p) (e2 q)) = Fin (gap2 p q).
Proof. unfold sqn2, sub2, e2, emb2, gap2. cbn [x2 y2]. cbn [nsub nmul nadd XR xsub xneg xadd xmul]. reflexivity. Qed.
Lemma gap2_nonneg p q : 0 <= gap2 p q.
Proof. unfold gap2. pose proof (Rle_0_sqr (fst p - fst q)) as X. pose proof (Rle_0_sqr (snd p - snd q)) as Y. unfold Rsqr in *. lra. Qed.
Lemma sqrt_lt_iff a b : 0 <= a -> 0 <= b -> (a * a < b <-> a < sqrt b).
Proof.
  intros Ha Hb. pose proof (sqrt_pos b) as P. pose proof (sqrt_sqrt b Hb) as S. split; intro H.
  - rewrite <- (sqrt_square a Ha). apply sqrt_lt_1; [apply Rmult_le_pos; assumption|exact Hb|exact H].
  - rewrite <- S. apply Rmult_le_0_lt_compat; lra.
Qed.
Lemma lt_sqrt_iff a b : 0 <= a -> 0 <= b -> (b < a * a <-> sqrt b < a).
Proof.
  intros Ha Hb. pose proof (sqrt_pos b) as P. pose proof (sqrt_sqrt b Hb) as S. split; intro H.
  - rewrite <- (sqrt_square a Ha). apply sqrt_lt_1; [exact Hb|apply Rmult_le_pos; assumption|exact H].
  - rewrite <- S. apply Rmult_le_0_lt_compat; lra.
Qed.
Lemma ring_iff mn mx c p : in_ring mn mx c p = true <-> mn < dist p c < mx.
Proof. unfold in_ring. rewrite andb_true_iff, !rltb_iff. tauto. Qed.
Lemma filter_pull {X Y} (g : X -> Y) (f : Y -> bool) l : filter f (map g l) = map g (filter (fun x => f (g x)) l).
Proof. induction l as [|x l IH]; [reflexivity|]. cbn. destruct (f (g x)); cbn; rewrite IH; reflexivity. Qed.
Lemma between_fin l mn mx c : 0 <= mn -> mn <= mx ->
  @Ast.between XR (map e2 l) (Fin mn : @num XR) (Fin mx : @num XR) (e2 c) = map e2 (filter (in_ring mn mx c) l).
Proof.
  intros H1 H2. unfold Ast.between.
  replace ((@nlt XR (Fin mx : @num XR) nz) || (@ngt XR (Fin mn : @num XR) (Fin mx : @num XR)))%bool with false.
  2:{ symmetry. apply orb_false_iff. split; cbn; apply rltb_false; lra. }
  rewrite filter_pull. f_equal. apply filter_ext. intro p. cbv zeta. rewrite sqd_fin. cbn [nmul nlt XR xmul xlt].
  apply eq_iff_eq_true. rewrite ring_iff, andb_true_iff, !rltb_iff. unfold dist.
  rewrite sqrt_lt_iff by (try apply gap2_nonneg; lra). rewrite lt_sqrt_iff by (try apply gap2_nonneg; lra). tauto.
Qed.

(** ** Degenerate sets *)
Definition wild (x : @num XR) : Prop := forall r, x <> Fin r.
Lemma wild_neg x : wild x -> wild (@nneg XR x). Proof. intros H r. destruct x; cbn; try discriminate. destruct (H r0 eq_refl). Qed.
Lemma wild_add_l x y : wild x -> wild (@nadd XR x y).
Proof. intros H r. destruct x as [a| | |]; [destruct (H a eq_refl)| | |]; destruct y; cbn; discriminate. Qed.
Lemma wild_add_r x y : wild y -> wild (@nadd XR x y).
Proof. intros H r. destruct y as [a| | |]; [destruct (H a eq_refl)| | |]; destruct x; cbn; discriminate. Qed.
Lemma xsgn_wild r b : wild (xsgn r b).
Proof. intros s. unfold xsgn. destruct (rltb 0 r), (rltb r 0), b; discriminate. Qed.
Lemma wild_mul_l x y : wild x -> wild (@nmul XR x y).
Proof. intros H r. destruct x as [a| | |]; [destruct (H a eq_refl)| | |]; destruct y; cbn; try discriminate; apply xsgn_wild. Qed.
Lemma wild_mul_r x y : wild y -> wild (@nmul XR x y).
Proof. intros H r. destruct y as [a| | |]; [destruct (H a eq_refl)| | |]; destruct x; cbn; try discriminate; apply xsgn_wild. Qed.
Lemma wild_sqrt x : wild x -> wild (@nsqrt XR x).
Proof. intros H r. destruct x as [a| | |]; [destruct (H a eq_refl)| | |]; cbn; discriminate. Qed.
Lemma wild_sum3 x y z : wild x -> wild (@sum3 XR x y z).
Proof. intro H. change (wild (@nadd XR (@nadd XR x y) z)). apply wild_add_l, wild_add_l, H. Qed.
Lemma wild_fold l : forall a, wild a -> wild (fold_left (@nadd XR) l a).
Proof. induction l as [|x l IH]; intros a H; [exact H|]. cbn [fold_left]. apply IH, wild_add_l, H. Qed.
Lemma wild_nsum x l : wild x -> wild (@nsum XR (x :: l)).
Proof. intro H. unfold nsum. cbn [fold_left]. apply wild_fold, wild_add_r, H. Qed.
Lemma inv_wild l : det l = 0 -> forall r, r = row0 (@inv3 XR (embm (gram l))) \/ r = row1 (@inv3 XR (embm (gram l))) \/ r = row2 (@inv3 XR (embm (gram l))) -> wild (x3 r).
Proof.
  intros D r H. unfold inv3 in H. cbv zeta in H.
  match type of H with context [@ndiv XR n1 ?d] => assert (E : d = Fin (det l)) end.
  { unfold embm, gram, emb. cbn [row0 row1 row2 x3 y3 z3 r0 r1 r2 rx ry rz].
    cbn [nmul nsub nadd sum3 XR xmul xsub xneg xadd]. unfold det. 
    match goal with |- Fin ?u = Fin ?v => assert (K : u = v) by ring; rewrite K; reflexivity end. }
  rewrite E, D in H. assert (W : wild (@ndiv XR n1 (Fin 0 : @num XR))).
  { unfold n1. cbn. destruct (reqb_spec 0 0) as [_|N]; [|lra]. apply xsgn_wild. }
  destruct H as [ -> | [ -> | -> ]]; cbn [row0 row1 row2 x3]; apply wild_mul_r; exact W.
Qed.
Lemma comp_wild l r : l <> [] -> wild (x3 r) -> wild (@nsum XR (map (fun p => @nmul XR (@dot3 XR r (fc_row p)) (fc_y p)) (map e2 l))).
Proof.
  intros N W. destruct l as [|p l]; [congruence|]. cbn [map]. apply wild_nsum, wild_mul_l. unfold dot3. apply wild_sum3, wild_mul_l, W.
Qed.
Lemma fit_degenerate l c rad : det l = 0 -> @find_circle XR (map e2 l) = Some (c, rad) -> wild rad.
Proof.
  intros D. unfold find_circle. rewrite map_length. destruct (length l <? 3)%nat eqn:L; [discriminate|]. cbv zeta. intro H. injection H as <- <-.
  assert (N : l <> []) by (intros ->; discriminate). apply (wild_sqrt (@nadd XR (@nadd XR (z3 (fc_res (map e2 l))) _) _)), wild_add_l, wild_add_l.
  assert (W : wild (x3 (row2 (@inv3 XR (embm (gram l)))))) by (apply (inv_wild l D); auto).
  rewrite <- gram_fin in W. exact (comp_wild l _ N W).
Qed.
Lemma filter_none {X} (f : X -> bool) l : (forall x, f x = false) -> filter f l = [].
Proof. intro H. induction l as [|x l IH]; [reflexivity|]. cbn. rewrite H. exact IH. Qed.
Lemma del_fin : @del XR = Fin (/ 10).
Proof. unfold del. change (Fin (1 * / (10 ^ 1)) = Fin (/ 10)). rewrite pow_1, Rmult_1_l. reflexivity. Qed.
(** A radius that is not a number leaves nothing in the annulus. *)
Lemma between_wild (l : list (@v2 XR)) rad c : wild rad -> @Ast.between XR l (@nmul XR rad (@nsub XR n1 del)) (@nmul XR rad (@nadd XR n1 del)) c = [].
Proof.
  intro W.
  assert (M : @nsub XR n1 del = Fin (9 / 10)).
  { rewrite del_fin. unfold n1. cbn [of_Z nsub nadd XR xsub xneg xadd]. match goal with |- Fin ?u = Fin ?v => assert (K : u = v) by field; rewrite K; reflexivity end. }
  assert (P : @nadd XR n1 del = Fin (11 / 10)).
  { rewrite del_fin. unfold n1. cbn [of_Z nsub nadd XR xsub xneg xadd]. match goal with |- Fin ?u = Fin ?v => assert (K : u = v) by field; rewrite K; reflexivity end. }
  rewrite M, P. clear M P.
  assert (E : forall k, 0 < k -> @nmul XR rad (Fin k : @num XR) = rad).
  { intros k K. destruct rad as [r| | |]; [destruct (W r eq_refl)| | |]; cbn; [unfold xsgn; rewrite (proj2 (rltb_iff 0 k) K); reflexivity..|reflexivity]. }
  rewrite !E by lra. unfold Ast.between. destruct rad as [r| | |]; [destruct (W r eq_refl)| | |].
  - match goal with |- (if ?b then _ else _) = _ => change b with false end. cbv iota. apply filter_none. intro p. cbv zeta.
    destruct (@sqn2 XR (sub2 p c)); reflexivity.
  - reflexivity.
  - match goal with |- (if ?b then _ else _) = _ => change b with false end. cbv iota. apply filter_none. reflexivity.
Qed.
Lemma fit_wild (ps : list (@v3 XR)) t c rad : @find_circle XR (@closest XR (map xy ps) 3 t) = Some (c, rad) -> wild rad -> @fit_circle XR ps t = None.
Proof. intros H W. unfold fit_circle. cbv zeta. rewrite H, (between_wild _ rad c W). reflexivity. Qed.

(** ** The circle through three points *)
Lemma squares_zero a b : a * a + b * b = 0 -> a = 0 /\ b = 0.
Proof. intro H. apply Rplus_sqr_eq_0. exact H. Qed.
Lemma circum p q r : corner p q r -> exists c rho, 0 < rho /\ gap2 p c = rho * rho /\ gap2 q c = rho * rho /\ gap2 r c = rho * rho.
Proof.
  destruct p as [px py], q as [qx qy], r as [sx sy]. unfold corner. cbn [fst snd]. intro D.
  set (d := (qx - px) * (sy - py) - (qy - py) * (sx - px)) in *.
  set (bq := (qx * qx + qy * qy - px * px - py * py) / 2). set (br := (sx * sx + sy * sy - px * px - py * py) / 2).
  set (cx := (bq * (sy - py) - br * (qy - py)) / d). set (cy := ((qx - px) * br - (sx - px) * bq) / d).
  assert (Eq : (qx - px) * cx + (qy - py) * cy = bq) by (unfold cx, cy, d; field; exact D).
  assert (Er : (sx - px) * cx + (sy - py) * cy = br) by (unfold cx, cy, d; field; exact D).
  exists (cx, cy), (sqrt (gap2 (px, py) (cx, cy))).
  assert (G : gap2 (px, py) (cx, cy) <> 0).
  { intro Z. assert (Gq : gap2 (qx, qy) (cx, cy) = gap2 (px, py) (cx, cy)).
    { unfold gap2. cbn [fst snd]. unfold bq in Eq. clearbody cx cy. nra. }
    rewrite Z in Gq. unfold gap2 in Z, Gq. cbn [fst snd] in Z, Gq.
    destruct (squares_zero _ _ Z) as [A1 A2]. destruct (squares_zero _ _ Gq) as [A3 A4].
    apply D. unfold d. replace (qx - px) with 0 by lra. replace (qy - py) with 0 by lra. ring. }
  assert (P : 0 < gap2 (px, py) (cx, cy)) by (pose proof (gap2_nonneg (px, py) (cx, cy)); lra).
  split; [apply sqrt_lt_R0; exact P|]. rewrite sqrt_sqrt by lra. split; [reflexivity|].
  unfold gap2. cbn [fst snd]. unfold bq in Eq. unfold br in Er. clearbody cx cy. split; nra.
Qed.
Lemma corner_perm p q r : corner p q r -> corner q p r /\ corner q r p.
Proof. destruct p, q, r. unfold corner. cbn [fst snd]. intro H. split; intro E; apply H; lra. Qed.
Lemma corner_neq p q r : corner p q r -> p <> q /\ q <> r /\ p <> r.
Proof.
  destruct p, q, r. unfold corner. cbn [fst snd]. intro H. repeat split; intro E; injection E as -> ->; apply H; ring.
Qed.
(** At most three points that are not on one line lie on one circle. *)
Lemma three_circle l : (length l <= 3)%nat -> spread l -> exists c rho, 0 < rho /\ forall p, In p l -> gap2 p c = rho * rho.
Proof.
  intros L (p & q & r & Hp & Hq & Hr & C). destruct (corner_neq _ _ _ C) as (N1 & N2 & N3). destruct (circum p q r C) as (c & rho & P & G1 & G2 & G3).
  exists c, rho. split; [exact P|]. intros x Hx.
  assert (I : incl l [p; q; r]).
  { apply NoDup_length_incl; [|cbn; exact L|].
    - constructor; [cbn; intuition congruence|]. constructor; [cbn; intuition congruence|]. constructor; [intros []|constructor].
    - intros y [<-|[<-|[<-|[]]]]; assumption. }
  destruct (I x Hx) as [<-|[<-|[<-|[]]]]; assumption.
Qed.
Lemma fin_ok r : @ok XR (Fin r : @num XR). Proof. apply (proj2 (reqb_iff r r)). reflexivity. Qed.
Lemma closest_sub l t : exists k, @closest XR (map e2 l) 3 (e2 t) = map e2 k /\ incl k l /\ (length k <= 3)%nat.
Proof.
  destruct (closest_picks XR_ordered (e2 t) (map e2 l) 3) as (L & _ & sel & M & P & _).
  { rewrite Forall_map, Forall_forall. intros p _. unfold sq_dist. change (ok (@sqn2 XR (sub2 (e2 p) (e2 t)))). rewrite sqd_fin. apply fin_ok. }
  assert (I : forall x, In x (@closest XR (map e2 l) 3 (e2 t)) -> exists p, In p l /\ x = e2 p).
  { intros x Hx. apply (Permutation_in _ P) in Hx. unfold selected in Hx. apply in_map_iff in Hx. destruct Hx as ((y & b) & <- & Hy).
    apply filter_In in Hy. destruct Hy as [Hy _]. unfold marks in M. apply (in_map fst) in Hy. rewrite M in Hy. apply in_map_iff in Hy. destruct Hy as (p & <- & Hp). eauto. }
  clear M P. revert L I. generalize (@closest XR (map e2 l) 3 (e2 t)). intros r. intros L I.
  assert (E : exists k, r = map e2 k /\ incl k l).
  { clear L. induction r as [|x r IH]; [exists []; split; [reflexivity|intros ? []]|]. destruct IH as (k & -> & K); [intros; apply I; right; assumption|].
    destruct (I x (or_introl eq_refl)) as (p & Hp & ->). exists (p :: k). split; [reflexivity|]. intros y [<-|Hy]; [exact Hp|exact (K _ Hy)]. }
  destruct E as (k & -> & K). exists k. rewrite map_length in L. split; [reflexivity|]. split; [exact K|lia].
Qed.
(** The two-stage fit on points with real coordinates. *)
Lemma fit_two (ps : list rpt) t : exists k, @closest XR (map xy (map emb ps)) 3 (e2 t) = map e2 k /\
  ((~ spread k /\ @fit_circle XR (map emb ps) (e2 t) = None) \/
   (spread k /\ exists c0 rho0 c rho, 0 < rho0 /\ (forall p, In p k -> gap2 p c0 = rho0 * rho0) /\
      @fit_circle XR (map emb ps) (e2 t) = Some (e2 c, Fin rho : @num XR) /\ best_circle (near_circle (map flat2 ps) c0 rho0) c rho)).
Proof.
  assert (X : map (@xy XR) (map emb ps) = map e2 (map flat2 ps)) by (rewrite !map_map; apply map_ext; intro p; reflexivity).
  unfold fit_circle. cbv zeta. rewrite X. destruct (closest_sub (map flat2 ps) t) as (k & E & K & L). rewrite E. exists k. split; [reflexivity|].
  destruct (Req_EM_T (det k) 0) as [D|D].
  { left. split; [intro S; exact (spread_det k S D)|]. destruct (@find_circle XR (map e2 k)) as [[c rad]|] eqn:F; [|reflexivity].
    pose proof (fit_degenerate k c rad D F) as W. rewrite (between_wild _ rad c W). reflexivity. }
  right. pose proof (det_spread k D) as S. split; [exact S|]. destruct (three_circle k L S) as (c0 & rho0 & P0 & G). destruct (fit_best k S) as (c1 & rho1 & F & B).
  destruct (best_unique k c0 rho0 c1 rho1 (circle_best k c0 rho0 S (Rlt_le _ _ P0) G) B) as [-> ->]. rewrite F.
  assert (M : @nmul XR (Fin rho0 : @num XR) (@nsub XR n1 del) = Fin (rho0 * (9 / 10))).
  { rewrite del_fin. unfold n1. cbn [of_Z nsub nadd nmul XR xsub xneg xadd xmul]. match goal with |- Fin ?u = Fin ?v => assert (Q : u = v) by field; rewrite Q; reflexivity end. }
  assert (N : @nmul XR (Fin rho0 : @num XR) (@nadd XR n1 del) = Fin (rho0 * (11 / 10))).
  { rewrite del_fin. unfold n1. cbn [of_Z nsub nadd nmul XR xsub xneg xadd xmul]. match goal with |- Fin ?u = Fin ?v => assert (Q : u = v) by field; rewrite Q; reflexivity end. }
  rewrite M, N. rewrite between_fin by lra. fold (near_circle (map flat2 ps) c0 rho0).
  assert (S2 : spread (near_circle (map flat2 ps) c0 rho0)).
  { assert (J : forall p, In p k -> In p (near_circle (map flat2 ps) c0 rho0)).
    { intros p Hp. unfold near_circle. apply filter_In. split; [exact (K p Hp)|]. apply ring_iff. unfold dist. rewrite (G p Hp), sqrt_square by lra. lra. }
    destruct S as (p & q & r & Hp & Hq & Hr & C). exists p, q, r. auto. }
  destruct (fit_best _ S2) as (c & rho & F2 & B2). rewrite F2. exists c0, rho0, c, rho. split; [exact P0|]. split; [exact G|]. split; [reflexivity|exact B2].
Qed.
