(** P_Circle4.v - the fitted circle follows rigid motions and stretching. *)
From Coq Require Import Reals Lra.
From Verif Require Import Base Num NumReal Geo Stl RealSpec Env Ast P_Real CircleSpec P_Circle P_Circle2.

Local Unset Implicit Arguments.
Local Open Scope R_scope.
Lemma total_map f (g : pt2 -> pt2) l : total f (map g l) = total (fun p => f (g p)) l.
Proof. induction l as [|p l IH]; [reflexivity|]. cbn [map]. rewrite !total_cons, IH. reflexivity. Qed.
Lemma rigid_misfit g l c s : rigid g -> misfit (map g l) (g c) s = misfit l c s.
Proof. intros [G _]. unfold misfit. rewrite total_map. apply total_ext. intros p _. rewrite G. reflexivity. Qed.
Lemma rigid_inj g p q : rigid g -> g p = g q -> p = q.
Proof.
  intros [G _] H. assert (Z : gap2 p q = 0) by (rewrite <- (G p q), H; unfold gap2; ring). unfold gap2 in Z. destruct (squares_zero _ _ Z) as [X Y].
  destruct p, q. cbn [fst snd] in *. f_equal; lra.
Qed.
Lemma rigid_best g l c rho : rigid g -> best_circle l c rho -> best_circle (map g l) (g c) rho.
Proof.
  intros G [P H]. split; [exact P|]. intros c' s'. destruct (proj2 G c') as [c0 <-]. rewrite !(rigid_misfit g) by exact G. destruct (H c0 s') as [H1 H2].
  split; [exact H1|]. intro Q. destruct (H2 Q) as [-> ->]. auto.
Qed.
(** Four times the squared area from the sides. *)
Lemma corner_sides p q r : ((fst q - fst p) * (snd r - snd p) - (snd q - snd p) * (fst r - fst p)) * ((fst q - fst p) * (snd r - snd p) - (snd q - snd p) * (fst r - fst p)) =
  gap2 q p * gap2 r p - (gap2 q p + gap2 r p - gap2 q r) * (gap2 q p + gap2 r p - gap2 q r) / 4.
Proof. unfold gap2. field. Qed.
Lemma rigid_spread g l : rigid g -> spread l -> spread (map g l).
Proof.
  intros [G _] (p & q & r & Hp & Hq & Hr & C). exists (g p), (g q), (g r). repeat split; try (apply in_map; assumption). unfold corner. intro Z. apply C.
  assert (S : ((fst q - fst p) * (snd r - snd p) - (snd q - snd p) * (fst r - fst p)) * ((fst q - fst p) * (snd r - snd p) - (snd q - snd p) * (fst r - fst p)) = 0).
  { rewrite corner_sides, <- (G q p), <- (G r p), <- (G q r), <- corner_sides, Z. ring. }
  apply Rmult_integral in S. destruct S as [S|S]; exact S.
Qed.
Lemma fit_rigid g l : rigid g -> spread l -> exists c rho, @find_circle XR (map e2 l) = Some (e2 c, Fin rho : @num XR) /\
  @find_circle XR (map e2 (map g l)) = Some (e2 (g c), Fin rho : @num XR).
Proof.
  intros G S. destruct (fit_best l S) as (c & rho & F & BC). destruct (fit_best _ (rigid_spread g l G S)) as (c' & rho' & F' & BC').
  destruct (best_unique _ _ _ _ _ (rigid_best g l c rho G BC) BC') as [-> ->]. eauto.
Qed.
Lemma shift_rigid d : rigid (shift d).
Proof. split; [intros p q; unfold gap2, shift; cbn [fst snd]; ring|]. intros [x y]. exists (x - fst d, y - snd d). unfold shift. cbn [fst snd]. f_equal; ring. Qed.
Lemma fit_shift d l : spread l -> exists c rho, @find_circle XR (map e2 l) = Some (e2 c, Fin rho : @num XR) /\
  @find_circle XR (map e2 (map (shift d) l)) = Some (e2 (shift d c), Fin rho : @num XR).
Proof. apply fit_rigid, shift_rigid. Qed.
Lemma stretch_gap k p q : gap2 (stretch k p) (stretch k q) = k * k * gap2 p q.
Proof. unfold gap2, stretch. cbn [fst snd]. ring. Qed.
Lemma stretch_misfit k l c s : misfit (map (stretch k) l) (stretch k c) (k * k * s) = k * k * (k * k) * misfit l c s.
Proof. unfold misfit. rewrite total_map, <- total_mul. apply total_ext. intros p _. rewrite stretch_gap. ring. Qed.
Lemma stretch_best k l c rho : 0 < k -> best_circle l c rho -> best_circle (map (stretch k) l) (stretch k c) (k * rho).
Proof.
  intros K [P H]. split; [apply Rmult_le_pos; lra|]. intros [x y] s'.
  assert (K2 : 0 < k * k) by (apply Rmult_lt_0_compat; exact K). assert (K4 : 0 < k * k * (k * k)) by (apply Rmult_lt_0_compat; exact K2).
  assert (EC : (x, y) = stretch k (x / k, y / k)) by (unfold stretch; cbn [fst snd]; f_equal; field; lra).
  assert (ES : s' = k * k * (s' / (k * k))) by (field; lra). rewrite EC, ES. replace (k * rho * (k * rho)) with (k * k * (rho * rho)) by ring.
  rewrite !stretch_misfit. destruct (H (x / k, y / k) (s' / (k * k))) as [H1 H2]. split; [apply Rmult_le_compat_l; [lra|exact H1]|].
  intro Q. apply Rmult_eq_reg_l in Q; [|lra]. destruct (H2 Q) as [Hc Hs]. rewrite Hc, Hs. auto.
Qed.
Lemma stretch_spread k l : 0 < k -> spread l -> spread (map (stretch k) l).
Proof.
  intros K (p & q & r & Hp & Hq & Hr & C). exists (stretch k p), (stretch k q), (stretch k r). repeat split; try (apply in_map; assumption).
  unfold corner in *. unfold stretch. cbn [fst snd]. intro Z. apply C. apply (Rmult_eq_reg_l (k * k)); [|pose proof (Rmult_lt_0_compat _ _ K K); lra].
  rewrite Rmult_0_r, <- Z. ring.
Qed.
Lemma fit_stretch k l : 0 < k -> spread l -> exists c rho, @find_circle XR (map e2 l) = Some (e2 c, Fin rho : @num XR) /\
  @find_circle XR (map e2 (map (stretch k) l)) = Some (e2 (stretch k c), Fin (k * rho) : @num XR).
Proof.
  intros K S. destruct (fit_best l S) as (c & rho & F & BC). destruct (fit_best _ (stretch_spread k l K S)) as (c' & rho' & F' & BC').
  destruct (best_unique _ _ _ _ _ (stretch_best k l c rho K BC) BC') as [-> ->]. eauto.
Qed.
Lemma fit_circle_exact l c rho : spread l -> 0 <= rho -> (forall p, In p l -> dist p c = rho) -> @find_circle XR (map e2 l) = Some (e2 c, Fin rho : @num XR).
Proof.
  intros S P G. assert (G2 : forall p, In p l -> gap2 p c = rho * rho) by (intros p I; rewrite <- (G p I); unfold dist; rewrite sqrt_sqrt by apply gap2_nonneg; reflexivity).
  destruct (fit_best l S) as (c' & rho' & F & BC). destruct (best_unique _ _ _ _ _ (circle_best l c rho S P G2) BC) as [-> ->]. exact F.
Qed.
Lemma fit_few (A : Arith) (l : list v2) : (length l < 3)%nat -> find_circle l = None.
Proof. intro H. unfold find_circle. apply Nat.ltb_lt in H. rewrite H. reflexivity. Qed.
