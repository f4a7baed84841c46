(** P_Real.v - the model's vector operations on real values; facets and views. *)
From Coq Require Import Reals Lra Psatz Nsatz.
From Verif Require Import Base Num NumReal NumLaws Geo Stl Ast RealSpec.

Local Unset Implicit Arguments.
Local Open Scope R_scope.

Lemma sub_emb a b : sub3 (emb a) (emb b) = emb (rsub a b). Proof. reflexivity. Qed.
Lemma add_emb a b : add3 (emb a) (emb b) = emb (radd a b). Proof. reflexivity. Qed.
Lemma cross_emb a b : cross3 (emb a) (emb b) = emb (rcross a b). Proof. reflexivity. Qed.
Lemma dot_emb a b : dot3 (emb a) (emb b) = Fin (rdot a b). Proof. reflexivity. Qed.
Lemma sqn_emb a : sqn3 (emb a) = Fin (rdot a a). Proof. reflexivity. Qed.
Lemma mul_emb a k : mul3 (emb a) (Fin k : @num XR) = emb (rscale k a).
Proof. unfold mul3, emb, rscale. simpl. f_equal; f_equal; ring. Qed.
Lemma mulm_emb v m : mulm (emb v) (embm m) = emb (rmul v m). Proof. reflexivity. Qed.
Lemma pt_ext a b : rx a = rx b -> ry a = ry b -> rz a = rz b -> a = b.
Proof. destruct a, b; simpl; intros -> -> ->; reflexivity. Qed.
Lemma emb_inj a b : emb a = emb b -> a = b.
Proof. destruct a, b. unfold emb. simpl. intro H. injection H as -> -> ->. reflexivity. Qed.
Lemma emb_ok a : ok3 (emb a).
Proof. repeat split; unfold ok; simpl; apply reqb_iff; reflexivity. Qed.

Ltac rgeo := unfold between, rdot, rcross, rsub, radd, rscale, rmul, rzero in *; simpl in *.

Lemma rdot_pos a : 0 <= rdot a a. Proof. rgeo. nra. Qed.
Lemma rdot_zero a : rdot a a = 0 -> a = rzero.
Proof. intro H. rgeo. assert (rx a = 0) by nra. assert (ry a = 0) by nra. assert (rz a = 0) by nra. apply pt_ext; assumption. Qed.
Lemma rdot_nz a : a <> rzero -> 0 < rdot a a.
Proof. intro H. destruct (Rle_lt_or_eq_dec _ _ (rdot_pos a)) as [L|E]; [exact L|]. exfalso. apply H, rdot_zero. symmetry; exact E. Qed.

Lemma div_emb a k : k <> 0 -> div3 (emb a) (Fin k : @num XR) = emb (rscale (/ k) a).
Proof.
  intro H. unfold div3, emb, rscale. simpl. destruct (reqb_spec k 0) as [E|_]; [contradiction|].
  f_equal; f_equal; unfold Rdiv; ring.
Qed.
Definition runit (a : rpt) : rpt := rscale (/ sqrt (rdot a a)) a.
Lemma normalized_emb a : a <> rzero -> normalized3 (emb a) = emb (runit a).
Proof.
  intro H. pose proof (rdot_nz a H) as P. unfold normalized3. rewrite sqn_emb. cbv zeta.
  change (nz : @num XR) with (Fin 0). cbn [nlt XR xlt nsqrt xsqrt].
  rewrite (proj2 (rltb_iff 0 (rdot a a)) P). rewrite (proj2 (rltb_false (rdot a a) 0)) by lra.
  apply div_emb. apply Rgt_not_eq, sqrt_lt_R0, P.
Qed.
Lemma runit_dot a b : a <> rzero -> rdot (runit a) b = rdot a b / sqrt (rdot a a).
Proof. intro H. unfold runit. rgeo. unfold Rdiv. ring. Qed.
Lemma runit_unit a : a <> rzero -> rdot (runit a) (runit a) = 1.
Proof.
  intro H. pose proof (rdot_nz a H) as P. pose proof (sqrt_lt_R0 _ P) as Q. pose proof (sqrt_sqrt (rdot a a) (Rlt_le _ _ P)) as S.
  replace (rdot (runit a) (runit a)) with (rdot a a * (/ sqrt (rdot a a) * / sqrt (rdot a a))) by (unfold runit; rgeo; ring).
  rewrite <- S at 1. field. lra.
Qed.

Lemma facet_real n p0 p1 p2 : rcross (rsub p1 p0) (rsub p2 p0) <> rzero ->
  exists t, mk_facet (emb n) (emb p0) (emb p1) (emb p2) = embf t /\ proper t /\ 0 <= rdot n (tn t) /\
    t1 t = p1 /\ ((t0 t = p0 /\ t2 t = p2) \/ (t0 t = p2 /\ t2 t = p0)).
Proof.
  intro H. set (c := rcross (rsub p1 p0) (rsub p2 p0)) in *. pose proof (rdot_nz c H) as P. pose proof (sqrt_lt_R0 _ P) as Q.
  pose proof (runit_unit c H) as U.
  assert (D1 : rdot c (rsub p1 p0) = 0) by (unfold c; rgeo; ring). assert (D2 : rdot c (rsub p2 p0) = 0) by (unfold c; rgeo; ring).
  assert (N1 : rdot (runit c) (rsub p1 p0) = 0) by (rewrite runit_dot by exact H; rewrite D1; unfold Rdiv; ring).
  assert (N2 : rdot (runit c) (rsub p2 p0) = 0) by (rewrite runit_dot by exact H; rewrite D2; unfold Rdiv; ring).
  assert (O : 0 < rdot (runit c) c) by (rewrite runit_dot by exact H; apply Rdiv_lt_0_compat; assumption).
  unfold mk_facet. rewrite !sub_emb, cross_emb. fold c. rewrite (normalized_emb c H). rewrite dot_emb. cbv zeta.
  change (nz : @num XR) with (Fin 0). cbn [nlt XR xlt]. destruct (rltb_spec (rdot n (runit c)) 0) as [L|L].
  - exists (T3 (rscale (-1) (runit c)) p2 p1 p0 (((rdot (rscale (-1) (runit c)) p2 + rdot (rscale (-1) (runit c)) p1) + rdot (rscale (-1) (runit c)) p0) / 3)).
    split.
    + change (of_Z (-1) : @num XR) with (Fin (-1)). rewrite mul_emb, !dot_emb. unfold embf. cbn [tn t0 t1 t2 tr]. f_equal.
      simpl. destruct (reqb_spec 3 0) as [E|_]; [lra|reflexivity].
    + unfold proper. cbn [tn t0 t1 t2 tr]. generalize dependent (runit c). intros u U N1 N2 O L. unfold c in O. clear - U N1 N2 O L.
      split; [|split; [rgeo; lra|split; [reflexivity|right; split; reflexivity]]].
      split; [rgeo; lra|]. split; [rgeo; lra|]. split; [rgeo; lra|]. split; [rgeo; lra|].
      split; [|split]; rgeo; lra.
  - exists (T3 (runit c) p0 p1 p2 (((rdot (runit c) p0 + rdot (runit c) p1) + rdot (runit c) p2) / 3)).
    split.
    + rewrite !dot_emb. unfold embf. cbn [tn t0 t1 t2 tr]. f_equal. simpl. destruct (reqb_spec 3 0) as [E|_]; [lra|reflexivity].
    + unfold proper. cbn [tn t0 t1 t2 tr]. generalize dependent (runit c). intros u U N1 N2 O L. unfold c in O. clear - U N1 N2 O L.
      split; [|split; [lra|split; [reflexivity|left; split; reflexivity]]].
      split; [exact U|]. split; [exact N1|]. split; [exact N2|]. split; [exact O|]. split; [|split]; rgeo; lra.
Qed.

(** ** Views *)
Lemma rotation_mat m : rdot (r0 m) (r0 m) = 1 -> rdot (r1 m) (r1 m) = 1 -> rdot (r2 m) (r2 m) = 1 ->
  rdot (r0 m) (r1 m) = 0 -> rdot (r0 m) (r2 m) = 0 -> rdot (r1 m) (r2 m) = 0 ->
  rcross (r0 m) (r1 m) = r2 m -> rcross (r1 m) (r2 m) = r0 m -> rcross (r2 m) (r0 m) = r1 m -> rotation m.
Proof.
  destruct m as [[a b c] [d e f] [g h i]]. cbn [r0 r1 r2]. intros A1 A2 A3 A4 A5 A6 C1 C2 C3. split.
  - intros [x y z] [x' y' z']. rgeo.
    replace (_ + _ + _) with (x * x' * (a*a+b*b+c*c) + y * y' * (d*d+e*e+f*f) + z * z' * (g*g+h*h+i*i) + (x*y'+y*x') * (a*d+b*e+c*f) + (x*z'+z*x') * (a*g+b*h+c*i) + (y*z'+z*y') * (d*g+e*h+f*i)) by ring.
    rewrite A1, A2, A3, A4, A5, A6. ring.
  - intros [x y z] [x' y' z']. injection C1 as E1 E2 E3. injection C2 as F1 F2 F3. injection C3 as G1 G2 G3. rgeo.
    apply pt_ext; simpl.
    + replace (_ - _) with ((x*y'-y*x') * (b*f-c*e) + (y*z'-z*y') * (e*i-f*h) + (z*x'-x*z') * (h*c-i*b)) by ring. rewrite E1, F1, G1. ring.
    + replace (_ - _) with ((x*y'-y*x') * (c*d-a*f) + (y*z'-z*y') * (f*g-d*i) + (z*x'-x*z') * (i*a-g*c)) by ring. rewrite E2, F2, G2. ring.
    + replace (_ - _) with ((x*y'-y*x') * (a*e-b*d) + (y*z'-z*y') * (d*h-e*g) + (z*x'-x*z') * (g*b-h*a)) by ring. rewrite E3, F3, G3. ring.
Qed.
Ltac named r := exists r; split; [unfold embm, emb, mXP, mXN, mYP, mYN, mZP, mZN, neg3, px, py, pz; simpl; repeat (f_equal; try lra)|apply rotation_mat; rgeo; try lra; apply pt_ext; simpl; lra].
Lemma named_rotation n m : @matrix_by_name XR n = Some m -> exists r, m = embm r /\ rotation r.
Proof.
  unfold matrix_by_name.
  destruct (bytes_eqb n (B "X+")); [intro H; injection H as <-; named (RM (P3 0 0 1) (P3 1 0 0) (P3 0 1 0))|].
  destruct (bytes_eqb n (B "X-")); [intro H; injection H as <-; named (RM (P3 0 0 (-1)) (P3 (-1) 0 0) (P3 0 1 0))|].
  destruct (bytes_eqb n (B "Y+")); [intro H; injection H as <-; named (RM (P3 (-1) 0 0) (P3 0 0 1) (P3 0 1 0))|].
  destruct (bytes_eqb n (B "Y-")); [intro H; injection H as <-; named (RM (P3 1 0 0) (P3 0 0 (-1)) (P3 0 1 0))|].
  destruct (bytes_eqb n (B "Z+")); [intro H; injection H as <-; named (RM (P3 1 0 0) (P3 0 1 0) (P3 0 0 1))|].
  destruct (bytes_eqb n (B "Z-")); [intro H; injection H as <-; named (RM (P3 1 0 0) (P3 0 (-1) 0) (P3 0 0 (-1)))|].
  discriminate.
Qed.
Definition rrot (a b : R) : rmat :=
  RM (P3 (cos a) (sin a * cos (- b)) (sin a * sin (- b))) (P3 (- sin a) (cos a * cos (- b)) (cos a * sin (- b))) (P3 0 (- sin (- b)) (cos (- b))).
Lemma rrot_rotation a b : rotation (rrot a b).
Proof.
  pose proof (sin2_cos2 a) as S1. pose proof (sin2_cos2 (- b)) as S2. unfold Rsqr in *. unfold rrot.
  generalize dependent (sin (- b)). generalize dependent (cos (- b)). generalize dependent (sin a). generalize dependent (cos a). intros c s H1 c' s' H2.
  apply rotation_mat; rgeo; try (apply pt_ext; simpl).
  all: clear a b; nsatz.
Qed.
Lemma rotate_rotation a b : geo_rotate (Fin a : @num XR) (Fin b : @num XR) = embm (rrot a b).
Proof. reflexivity. Qed.
Lemma angle_rotation (a b : R) : exists r, @matrix_by_ang XR (emb2 a b) = embm r /\ rotation r.
Proof.
  unfold matrix_by_ang. set (k := 31415926535897932 * powerRZ 10 (-16)).
  assert (E : forall x, ndiv (nmul (Fin x : @num XR) (Geo.PI : @num XR)) (of_Z 180) = Fin (x * k / 180)).
  { intro x. simpl. destruct (reqb_spec 180 0) as [Q|_]; [lra|reflexivity]. }
  cbn [x2 y2 emb2]. rewrite !E, rotate_rotation. eexists. split; [reflexivity|apply rrot_rotation].
Qed.

(** ** Rotating a facet *)
Lemma rotate_embf m t : rotate_facet (embm m) (embf t) = embf (turned m t). Proof. reflexivity. Qed.
Lemma rmul_sub a b m : rsub (rmul a m) (rmul b m) = rmul (rsub a b) m.
Proof. rgeo. apply pt_ext; simpl; ring. Qed.
Lemma rot_proper m t : rotation m -> proper t -> proper (turned m t).
Proof.
  intros [D C] (P1 & P2 & P3 & P4 & P5 & P6 & P7). unfold proper, turned. cbn [tn t0 t1 t2 tr].
  rewrite !rmul_sub, C, !D. repeat split; assumption.
Qed.
