(** ExDim.v - concrete cases for the properties of points, circles and dimensions. *)
From Coq Require Import Reals Lra Permutation.
From Flocq Require Import IEEE754.BinarySingleNaN.
From Verif Require Import Base Num NumReal NumF64 NumLaws Geo Stl GeoSpec RealSpec Env Ast Ps Draw DocSpec F64Spec EnvEx ExGeo ExReal ExLang
  P_Part P_Geo1 P_Real P_Span P_Span2 P_Total PickSpec P_Pick P_Near CircleSpec P_Circle P_Circle2 P_Circle3 P_Circle4 DimSpec P_Value P_Value2 P_Centre.

Local Unset Implicit Arguments.
(** ** near *)
Definition ex_model : stl := Stl ex_sq [] [] 0.
Definition ex_target : v3 := V3 (fdec 3 (-1) : num) (fdec 2 (-1) : num) (fz_ 5 : num).
Lemma ok_flt (x : f64) : feq x x = true -> @ok ExA x. Proof. intro H. exact H. Qed.
Definition okb (x : f64) : bool := feq x x.
Definition sameb (p q : v3) : bool := feq (x3 p) (x3 q) && feq (y3 p) (y3 q) && feq (z3 p) (z3 q).
Lemma near_example : Forall comparable (vertices ex_model) /\ comparable ex_target /\ (forall v, In v (vertices ex_model) -> ~ GeoSpec.same ex_target v) /\
  (forall v, In v (points ex_model) -> ok (page_dist ex_target v)) /\ (exists v, In v (points ex_model) /\ nlt (page_dist ex_target v) dbl_max = true).
Proof.
  split; [exact (proj1 (proj2 ex_sq_limits))|].
  assert (C : okb (x3 ex_target) && okb (y3 ex_target) && okb (z3 ex_target) = true) by (vm_compute; reflexivity). rewrite !andb_true_iff in C. destruct C as [[C1 C2] C3].
  split; [repeat split; assumption|]. split.
  { intros v I S. assert (K : forallb (fun v => negb (sameb ex_target v)) (vertices ex_model) = true) by (vm_compute; reflexivity). rewrite forallb_forall in K. specialize (K v I).
    destruct S as (S1 & S2 & S3). unfold sameb in K. change (feq (x3 ex_target) (x3 v) = true) in S1. change (feq (y3 ex_target) (y3 v) = true) in S2. change (feq (z3 ex_target) (z3 v) = true) in S3. rewrite S1, S2, S3 in K. discriminate K. }
  split.
  { intros v I. assert (K : forallb (fun v => okb (page_dist ex_target v)) (points ex_model) = true) by (vm_compute; reflexivity). rewrite forallb_forall in K. exact (K v I). }
  assert (K : existsb (fun v => flt (page_dist ex_target v) f_max) (points ex_model) = true) by (vm_compute; reflexivity). apply existsb_exists in K. exact K.
Qed.
(** Everything is farther than DBL_MAX: near gives the origin. *)
Definition far_model : stl := Stl [Facet (pt 0 0 1) (V3 (fdec 1 200 : num) (fz_ 0 : num) (fz_ 0 : num)) (V3 (fdec 1 201 : num) (fz_ 0 : num) (fz_ 0 : num)) (V3 (fdec 1 200 : num) (fdec 1 200 : num) (fz_ 0 : num)) (fz_ 0 : num)] [] [] 0.
Definition isz (x : f64) : bool := match x with B754_zero false => true | _ => false end.
Lemma isz_eq x : isz x = true -> x = fz_ 0. Proof. destruct x as [[]| | |]; try discriminate. reflexivity. Qed.
Lemma far_refutes : Forall comparable (vertices far_model) /\ comparable (pt 0 1 0) /\ points far_model <> [] /\ near_of (points far_model) (pt 0 1 0) = zero3 /\
  forall v, In v (points far_model) -> V3 (x3 v) (y3 v) nz <> near_of (points far_model) (pt 0 1 0).
Proof.
  assert (CV : forallb (fun v => okb (x3 v) && okb (y3 v) && okb (z3 v)) (pt 0 1 0 :: vertices far_model) = true) by (vm_compute; reflexivity). rewrite forallb_forall in CV.
  assert (CO : forall v, In v (pt 0 1 0 :: vertices far_model) -> comparable v).
  { intros v I. specialize (CV v I). rewrite !andb_true_iff in CV. destruct CV as [[C1 C2] C3]. repeat split; assumption. }
  split; [apply Forall_forall; intros v I; apply CO; right; exact I|]. split; [apply CO; left; reflexivity|].
  assert (L : length (points far_model) = 3%nat) by (vm_compute; reflexivity). split; [intro Z; rewrite Z in L; discriminate L|].
  assert (Z : near_of (points far_model) (pt 0 1 0) = zero3).
  { assert (K : let r := near_of (points far_model) (pt 0 1 0) in isz (x3 r) && isz (y3 r) && isz (z3 r) = true) by (vm_compute; reflexivity).
    cbv zeta in K. destruct (near_of (points far_model) (pt 0 1 0)) as [x y z]. cbn [x3 y3 z3] in K. rewrite !andb_true_iff in K. destruct K as [[K1 K2] K3].
    rewrite (isz_eq _ K1), (isz_eq _ K2), (isz_eq _ K3). reflexivity. }
  split; [exact Z|]. rewrite Z. intros v I Q. assert (K : forallb (fun v => negb (isz (x3 v))) (points far_model) = true) by (vm_compute; reflexivity).
  rewrite forallb_forall in K. specialize (K v I). apply (f_equal x3) in Q. cbn [x3] in Q. rewrite Q in K. discriminate K.
Qed.
(** ** Closest *)
Definition q2 (x y : Z) : v2 := V2 (fz_ x : num) (fz_ y : num).
Lemma closest_few : length (closest [q2 1 0; q2 2 0] 2 (q2 0 0)) = 1%nat. Proof. vm_compute. reflexivity. Qed.
Lemma number_case : Forall (fun q => ok (sq_dist q (q2 0 0))) [q2 2 0; q2 1 0; q2 3 0] /\
  (forall pre q post, [q2 2 0; q2 1 0; q2 3 0] = pre ++ q :: post -> forall p, In p pre -> ~ coincides (q2 0 0) q p) /\
  length (filter (not_farther (q2 0 0) (q2 2 0)) [q2 2 0; q2 1 0; q2 3 0]) = 2%nat /\ length (closest [q2 2 0; q2 1 0; q2 3 0] 3 (q2 0 0)) = 2%nat.
Proof.
  split; [repeat constructor|]. split; [|split; vm_compute; reflexivity].
  intros pre q post H p I [[C1 C2] _]. destruct pre as [|a [|b [|c pre]]]; [destruct I|..]; cbn in H.
  - injection H as <- <- _. destruct I as [<-|[]]. apply C1. vm_compute. reflexivity.
  - injection H as <- <- <- _. destruct I as [<-|[<-|[]]]; apply C2; vm_compute; reflexivity.
  - injection H as _ _ _ H. destruct pre; discriminate H.
Qed.
Lemma two_split {X} (x y : X) pre q post p : [x; y] = pre ++ q :: post -> In p pre -> p = x /\ q = y.
Proof.
  destruct pre as [|a [|b pre]]; cbn; intros H I; [destruct I|injection H as -> -> _; destruct I as [<-|[]]; auto|]. injection H as _ _ H. destruct pre; discriminate H.
Qed.
Lemma closest_all : (1 <= 2)%Z /\ Forall (fun q => ok (sq_dist q (q2 0 0))) [q2 2 0; q2 1 0] /\
  (forall pre q post, [q2 2 0; q2 1 0] = pre ++ q :: post -> forall p, In p pre -> ~ closer (q2 0 0) p q /\ ~ coincides (q2 0 0) q p).
Proof.
  split; [lia|]. split.
  { assert (K : forallb (fun q => okb (sq_dist q (q2 0 0))) [q2 2 0; q2 1 0] = true) by (vm_compute; reflexivity). rewrite forallb_forall in K. apply Forall_forall. exact K. }
  intros pre q post H p I. destruct (two_split _ _ _ _ _ _ H I) as [-> ->]. split.
  - unfold closer. assert (K : flt (sq_dist (q2 2 0) (q2 0 0)) (sq_dist (q2 1 0) (q2 0 0)) = false) by (vm_compute; reflexivity). change (flt (sq_dist (q2 2 0) (q2 0 0)) (sq_dist (q2 1 0) (q2 0 0)) <> true). rewrite K. discriminate.
  - intros [[C _] _]. apply C. unfold closer. assert (K : flt (sq_dist (q2 1 0) (q2 0 0)) (sq_dist (q2 2 0) (q2 0 0)) = true) by (vm_compute; reflexivity). exact K.
Qed.
(** ** Circles *)
Local Open Scope R_scope.
Definition ex_circle : list pt2 := [(5, 0); (3, 4); (-5, 0); (0, -5)].
Lemma ex_circle_ok : spread ex_circle /\ 0 <= 5 /\ forall p, In p ex_circle -> dist p (0, 0) = 5.
Proof.
  split; [exists (5, 0), (3, 4), (-5, 0); repeat split; cbn; auto; unfold corner; cbn [fst snd]; lra|]. split; [lra|].
  intros p I. unfold dist. replace (gap2 p (0, 0)) with (5 * 5); [apply sqrt_square; lra|].
  destruct I as [<-|[<-|[<-|[<-|[]]]]]; unfold gap2; cbn [fst snd]; ring.
Qed.
Lemma ex_rigid : rigid (fun p => (snd p, fst p)).
Proof. split; [intros p q; unfold gap2; cbn [fst snd]; ring|]. intros [x y]. exists (y, x). reflexivity. Qed.
(** Vertices on one line: the first fit has no finite radius. *)
Lemma line_rejected : match find_circle (closest (map xy [pt 0 0 0; pt 1 0 0; pt 2 0 0; pt 3 0 0]) 3 (q2 5 0)) with Some (_, r) => is_finite (r : f64) | None => true end = false /\
  match fit_circle [pt 0 0 0; pt 1 0 0; pt 2 0 0; pt 3 0 0] (q2 5 0) with None => true | _ => false end = true /\
  match fit_circle [pt 5 0 0; pt 3 4 0; pt (-5) 0 0; pt 0 (-5) 0] (q2 0 0) with None => false | _ => true end = true.
Proof. vm_compute. auto. Qed.
(** ** Dimensions *)
Definition co (n : string) (x y z : R) : @meta XR := Meta (B n) (MPoint (PVal (emb (P3 x y z)) (Loc [] 0))) (Loc [] 0).
Definition ex_quarter : rmat := RM (P3 0 1 0) (P3 (-1) 0 0) (P3 0 0 1).
Lemma quarter_rotation : rotation ex_quarter.
Proof.
  split; intros [a b c] [d e f]; unfold rmul, ex_quarter, rdot, rcross; cbn [rx ry rz r0 r1 r2]; [ring|]. f_equal; ring.
Qed.
Definition ex_state : @vst XR := Vst [] (embm ex_quarter) (Fin 1 : @num XR) (emb2 0 0) opage_empty [].
Definition ex_dim : @dim XR := Dim KDim (Loc [] 0) [co "at" 1 1 0; co "dir" 3 4 0; co "from" 0 0 0; co "to" 10 0 7].
Lemma co_coordinate n x y z ml : In (co n x y z) ml -> coordinate ml n (P3 x y z).
Proof. intro I. exists (co n x y z), (Loc [] 0). auto. Qed.
Lemma dim_example (E : @Env XR) : exists s' d', visit_base_dim ex_dim ex_state = Ret (s', d', true).
Proof.
  apply (dim_succeeds ex_dim ex_state ex_quarter (P3 1 1 0) (P3 3 4 0) (P3 0 0 0) (P3 10 0 7)); try reflexivity; try (apply co_coordinate; cbn; tauto).
  - exact quarter_rotation.
  - cbn. repeat constructor; cbn; intuition discriminate.
  - intros x I. cbn in I |- *. intuition (subst; cbn; auto).
  - unfold rzero. intro H. apply (f_equal rx) in H. cbn [rx] in H. lra.
Qed.
Lemma ex_dim_args : coordinate (d_meta ex_dim) "at" (P3 1 1 0) /\ coordinate (d_meta ex_dim) "dir" (P3 3 4 0) /\ coordinate (d_meta ex_dim) "from" (P3 0 0 0) /\
  coordinate (d_meta ex_dim) "to" (P3 10 0 7) /\ along (P3 3 4 0) (P3 0 0 0) (P3 10 0 7) = 6.
Proof.
  repeat split; try (apply co_coordinate; cbn; tauto). unfold along, rdot, rsub. cbn [rx ry rz].
  replace (3 * 3 + 4 * 4 + 0 * 0) with (5 * 5) by ring. rewrite sqrt_square by lra. rewrite Rabs_pos_eq by lra. field.
Qed.
Definition ex_angle : @dim XR := Dim KAngle (Loc [] 0) [co "at" 1 1 0; co "apex" 0 0 0; co "from_dir" 1 0 0; co "to_dir" 0 2 2].
Lemma angle_example (E : @Env XR) : exists s' d', visit_base_dim ex_angle ex_state = Ret (s', d', true).
Proof.
  apply (angle_succeeds ex_angle ex_state ex_quarter (P3 1 1 0) (P3 0 0 0) (P3 1 0 0) (P3 0 2 2)); try reflexivity; try (apply co_coordinate; cbn; tauto).
  - exact quarter_rotation.
  - cbn. repeat constructor; cbn; intuition discriminate.
  - intros x I. cbn in I |- *. intuition (subst; cbn; auto).
  - unfold rcross, rmul, ex_quarter. cbn [rx ry rz r0 r1 r2]. lra.
Qed.
Lemma ex_angle_args : coordinate (d_meta ex_angle) "apex" (P3 0 0 0) /\ side_dir (d_meta ex_angle) "from_dir" "from_point" (P3 0 0 0) (P3 1 0 0) /\
  side_dir (d_meta ex_angle) "to_dir" "to_point" (P3 0 0 0) (P3 0 2 2).
Proof. repeat split; try left; apply co_coordinate; cbn; tauto. Qed.
(** ** Centring *)
Definition placed_metas : list (@meta XR) := [Meta (B "scale") (MScale 3 2) (Loc [] 0); Meta (B "@") (MLoc (emb2 1 (-2))) (Loc [] 0)].
Lemma placed_example : exists (E : @Env XR) st s1, visit_draw st (Loc [] 0) (B "m") placed_metas [] vst_init = Ret (s1, [], true) /\ asks_scale placed_metas 3 2 /\
  asks_place placed_metas (72 * 1 + 396) (72 * -2 + 306).
Proof.
  exists RealE, real_models.
  destruct (view_lines (Stl (map embf ex_tris) [] [] 0) ex_tris ex_id eq_refl ex_proper ex_rotation) as (m & ss & R & T & _).
  pose proof (real_points (Stl (map embf ex_tris) [] [] 0) ex_tris _ _ eq_refl ex_proper ex_rotation R) as SO.
  assert (Z : embm ex_id = mZP) by reflexivity. rewrite Z in R.
  eexists. split; [|split; [eapply AS_given; [left; reflexivity|reflexivity..]|left; do 3 eexists; split; [right; left; reflexivity|]; repeat split; reflexivity]].
  set (mo := Stl (map embf ex_tris) [] [] 0) in R. assert (M : real_models = [(B "m", Some mo)]) by reflexivity. rewrite M. clearbody mo. clear M.
  unfold visit_draw. cbn -[rotate to_lines limits cull_back_face nsub nmul nadd ndiv of_Z proj_scale add_lines add_dims mZP]. rewrite R. cbn [obind].
  rewrite (rotated_culled _ _ _ R), T. cbn [obind].
  unfold add_dims. rewrite SO. reflexivity.
Qed.
Lemma ex_bounds : bounds [emb (P3 0 0 1); emb (P3 4 0 2); emb (P3 0 3 0)] 0 4 0 3.
Proof.
  split.
  - intros v [<-|[<-|[<-|[]]]]; eexists; (split; [reflexivity|]); cbn [rx ry]; lra.
  - repeat split; [exists (P3 0 0 1)|exists (P3 4 0 2)|exists (P3 0 0 1)|exists (P3 0 3 0)]; cbn; auto.
Qed.
(** ** dia, rad and center() *)
Definition ex_ring : list rpt := [P3 5 0 1; P3 3 4 2; P3 (-5) 0 3].
Lemma filter_all {X} (f : X -> bool) l : length (filter f l) = length l -> filter f l = l.
Proof.
  induction l as [|x l IH]; [reflexivity|]. cbn. destruct (f x); cbn; intro H; [f_equal; apply IH; lia|].
  assert (L : forall k : list X, (length (filter f k) <= length k)%nat) by (intro k; induction k as [|y k IK]; cbn; [lia|destruct (f y); cbn; lia]). specialize (L l). lia.
Qed.
Lemma ring_picked k : @closest XR (map e2 (map flat2 ex_ring)) 3 (e2 (0, 0)) = map e2 k -> incl (map flat2 ex_ring) k.
Proof.
  intro H. assert (OK : Forall (fun q => @ok XR (sq_dist q (e2 (0, 0)))) (map e2 (map flat2 ex_ring))).
  { apply Forall_forall. intros q I. apply in_map_iff in I. destruct I as (p & <- & _). change (@ok XR (@sqn2 XR (sub2 (e2 p) (e2 (0, 0))))). rewrite sqd_fin. apply fin_ok. }
  assert (D : forall p, In p (map flat2 ex_ring) -> @sq_dist XR (e2 p) (e2 (0, 0)) = Fin 25).
  { intros p I. change (@sqn2 XR (sub2 (e2 p) (e2 (0, 0))) = Fin 25). rewrite sqd_fin. f_equal. destruct I as [<-|[<-|[<-|[]]]]; unfold gap2, flat2; cbn [fst snd rx ry]; lra. }
  assert (L : length (@closest XR (map e2 (map flat2 ex_ring)) 3 (e2 (0, 0))) = 3%nat).
  { rewrite (closest_count XR_ordered (e2 (0, 0)) _ 3 ltac:(lia) OK); [reflexivity|]. intros pre q post Q p I.
    assert (IP : In p (map e2 (map flat2 ex_ring))) by (rewrite Q; apply in_or_app; left; exact I).
    assert (IQ : In q (map e2 (map flat2 ex_ring))) by (rewrite Q; apply in_or_app; right; left; reflexivity).
    split.
    - unfold closer. apply in_map_iff in IP. destruct IP as (p' & <- & IP). apply in_map_iff in IQ. destruct IQ as (q' & <- & IQ). rewrite (D _ IP), (D _ IQ). cbn. intro X. apply rltb_iff in X. lra.
    - intros [_ C]. apply in_map_iff in IP. destruct IP as (p' & <- & IP). apply in_map_iff in IQ. destruct IQ as (q' & EQ & IQ). rewrite <- EQ in C, Q. rewrite (D _ IQ) in C.
      assert (S : @sq_dist XR (e2 q') (e2 p') = Fin (gap2 q' p')) by apply sqd_fin. rewrite S in C. change (@of_dec XR 1 (-2)) with (Fin (1 * / (10 ^ 2))) in C. cbn [nmul nlt XR xmul xlt] in C. apply rltb_iff in C.
      assert (N : q' <> p' -> False).
      { intro NE. cbn in IP, IQ. unfold flat2 in IP, IQ. cbn [rx ry] in IP, IQ. destruct IP as [<-|[<-|[<-|[]]]], IQ as [<-|[<-|[<-|[]]]]; try congruence; unfold gap2 in C; cbn [fst snd] in C; lra. }
      assert (ND : NoDup (map e2 (map flat2 ex_ring))).
      { cbn. unfold flat2, e2, emb2. cbn [fst snd rx ry]. repeat constructor; cbn; intro X; repeat (destruct X as [X|X]; [apply (f_equal (@x2 XR)) in X; cbn [x2] in X; injection X as X; lra|]); exact X. }
      destruct (Req_EM_T (gap2 q' p') 0) as [Z|Z].
      + unfold gap2 in Z. destruct (squares_zero _ _ Z) as [Z1 Z2]. assert (EP : q' = p') by (destruct q', p'; cbn [fst snd] in *; f_equal; lra). subst p'.
        rewrite Q in ND. apply NoDup_remove_2 in ND. apply ND. apply in_or_app. left. exact I.
      + apply N. intros ->. apply Z. unfold gap2. ring. }
  destruct (closest_picks XR_ordered (e2 (0, 0)) _ 3 OK) as (_ & _ & sel & M & P & _). unfold marks in M. unfold selected in P.
  pose proof (Permutation_length P) as PL. rewrite L, map_length in PL. assert (SL : length sel = 3%nat) by (rewrite <- (map_length fst), M; reflexivity).
  rewrite filter_all, M, H in P by congruence. intros p I. assert (J : In (e2 p) (map e2 k)) by (apply (Permutation_in _ (Permutation_sym P)), in_map, I).
  apply in_map_iff in J. destruct J as (p' & Q & J). replace p with p'; [exact J|]. unfold e2, emb2 in Q. injection Q as Q1 Q2. destruct p, p'. cbn [fst snd] in *. congruence.
Qed.
Lemma ring_fits : exists c rho, @fit_circle XR (map emb ex_ring) (e2 (0, 0)) = Some (e2 c, Fin rho : @num XR).
Proof.
  destruct (fit_two ex_ring (0, 0)) as (k & EK & [[NS _]|(_ & c0 & rho0 & c & rho & _ & _ & F & _)]); [|eauto]. exfalso. apply NS.
  assert (I : incl (map flat2 ex_ring) k) by (apply ring_picked; rewrite <- EK; f_equal; rewrite !map_map; apply map_ext; reflexivity).
  exists (5, 0), (3, 4), (-5, 0). repeat split; try (apply I; cbn; unfold flat2; cbn; auto; fail). unfold corner. cbn [fst snd]. lra.
Qed.
Definition ring_state : @vst XR := Vst (map emb ex_ring) (embm ex_id) (Fin 1 : @num XR) (emb2 0 0) opage_empty [].
Definition ex_dia : @dim XR := Dim KDia (Loc [] 0) [co "at" 6 6 0; co "dir" 1 1 0; co "center" 0 0 9].
Definition ex_rad : @dim XR := Dim KRad (Loc [] 0) [co "at" 6 6 0; co "dir" 1 1 0; co "center" 0 0 9].
Lemma circ_example (E : @Env XR) : (exists s' d', visit_base_dim ex_dia ring_state = Ret (s', d', true)) /\ exists s' d', visit_base_dim ex_rad ring_state = Ret (s', d', true).
Proof.
  assert (G : forall d, d_meta d = d_meta ex_dia -> NoDup (map m_name (d_meta d)) /\ P_Dims.only P_Dims.circ_keys (d_meta d) /\ P_Dims.circ_args (v_points ring_state) (v_rot ring_state) (d_meta d) <> None).
  { intros d ->. assert (N : NoDup (map m_name (d_meta ex_dia))) by (cbn; repeat constructor; cbn; intuition discriminate). split; [exact N|]. split.
    - intros n I. cbn in I. destruct I as [<-|[<-|[<-|[]]]]; [exists "at"%string|exists "dir"%string|exists "center"%string]; (split; [cbn; auto|reflexivity]).
    - unfold P_Dims.circ_args. change (v_rot ring_state) with (embm ex_id).
      rewrite (coord_arg _ ex_id _ "at" (P3 6 6 0) N), (coord_arg _ ex_id _ "dir" (P3 1 1 0) N), (coord_arg _ ex_id _ "center" (P3 0 0 9) N) by (apply co_coordinate; cbn; tauto).
      unfold P_Dims.fmt_arg. rewrite (arg_absent "fmt") by (unfold has; cbn; intuition discriminate). change (length (v_points ring_state) <? 3)%nat with false. cbv iota.
      assert (X : xy (emb (rmul (P3 0 0 9) ex_id)) = e2 (0, 0)).
      { unfold xy, emb, rmul, ex_id, e2, emb2. cbn [x3 y3 rx ry rz r0 r1 r2 fst snd]. assert (Z : 0 * 1 + 0 * 0 + 9 * 0 = 0) by ring. assert (Z2 : 0 * 0 + 0 * 1 + 9 * 0 = 0) by ring. rewrite Z, Z2. reflexivity. }
      rewrite X. destruct ring_fits as (c & rho & F). change (v_points ring_state) with (map emb ex_ring). rewrite F. discriminate. }
  assert (Z : eqm (v_rot ring_state) zerom = false) by (apply rotation_nonzero, ex_rotation). split.
  - unfold visit_base_dim. cbn [d_kind ex_dia]. unfold visit_dia. destruct (P_Dims.visit_circ_spec "dia" draw_dia ex_dia ring_state Z) as (s' & ml & ok & H1 & H2 & _). change (Dim KDia (Loc [] 0) _) with ex_dia. rewrite H1. cbn [obind].
    rewrite (proj2 H2 (G ex_dia eq_refl)). eauto.
  - unfold visit_base_dim. cbn [d_kind ex_rad]. unfold visit_rad. destruct (P_Dims.visit_circ_spec "rad" draw_rad ex_rad ring_state Z) as (s' & ml & ok & H1 & H2 & _). change (Dim KRad (Loc [] 0) _) with ex_rad. rewrite H1. cbn [obind].
    rewrite (proj2 H2 (G ex_rad eq_refl)). eauto.
Qed.
(** ** Cases put together *)
Lemma far_not_target : near_of (points far_model) (pt 0 1 0) <> pt 0 1 0.
Proof.
  rewrite (proj1 (proj2 (proj2 (proj2 far_refutes)))). intro Q. assert (K : feq (y3 (pt 0 1 0)) (y3 zero3) = false) by (vm_compute; reflexivity).
  rewrite <- Q in K. vm_compute in K. discriminate K.
Qed.
Lemma few_refutes : exists (A : Arith) ps count to, ordered A /\ Forall (fun q => ok (sq_dist q to)) ps /\ (1 <= count)%Z /\
  length (closest ps count to) <> Nat.min (Z.to_nat count) (length ps).
Proof.
  exists ExA, [q2 1 0; q2 2 0], 2%Z, (q2 0 0). split; [apply F64_ordered|]. split.
  { destruct closest_all as (_ & F & _). apply Forall_forall. rewrite Forall_forall in F. intros q I. apply F. cbn in I |- *. tauto. }
  split; [lia|]. rewrite closest_few. cbn. discriminate.
Qed.
Lemma ring_example : filter (in_ring 4 5 (0, 0)) [(5, 0); (3, 3); (0, 4)] = [(3, 3)] /\ filter (in_ring 4 6 (0, 0)) ex_circle = ex_circle.
Proof.
  assert (D5 : forall p, gap2 p (0, 0) = 5 * 5 -> dist p (0, 0) = 5) by (intros p H; unfold dist; rewrite H; apply sqrt_square; lra).
  assert (N : forall mn mx p, ~ (mn < dist p (0, 0) < mx) -> in_ring mn mx (0, 0) p = false) by (intros mn mx p H; destruct (in_ring mn mx (0, 0) p) eqn:Q; [apply ring_iff in Q; contradiction|reflexivity]).
  split.
  - cbn [filter]. rewrite (N 4 5 (5, 0)), (N 4 5 (0, 4)).
    + rewrite (proj2 (ring_iff 4 5 (0, 0) (3, 3))); [reflexivity|]. unfold dist. replace (gap2 (3, 3) (0, 0)) with 18 by (unfold gap2; cbn [fst snd]; ring).
      split; [rewrite <- (sqrt_square 4) by lra|rewrite <- (sqrt_square 5) by lra]; apply sqrt_lt_1; lra.
    + replace (dist (0, 4) (0, 0)) with 4; [lra|]. unfold dist. replace (gap2 (0, 4) (0, 0)) with (4 * 4) by (unfold gap2; cbn [fst snd]; ring). rewrite sqrt_square; lra.
    + rewrite D5; [lra|]. unfold gap2. cbn [fst snd]. ring.
  - apply filter_all. destruct ex_circle_ok as (_ & _ & H). f_equal. assert (G : forall p, In p ex_circle -> in_ring 4 6 (0, 0) p = true) by (intros p I; apply ring_iff; rewrite (H p I); lra).
    generalize ex_circle G. induction l as [|p l IH]; intro GG; cbn [filter]; [reflexivity|]. rewrite (GG p (or_introl eq_refl)). f_equal. apply IH. intros x I. apply GG. right. exact I.
Qed.
Lemma dim_case : (forall E : @Env XR, exists s' d', visit_base_dim ex_dim ex_state = Ret (s', d', true)) /\
  coordinate (d_meta ex_dim) "at" (P3 1 1 0) /\ coordinate (d_meta ex_dim) "dir" (P3 3 4 0) /\ coordinate (d_meta ex_dim) "from" (P3 0 0 0) /\
  coordinate (d_meta ex_dim) "to" (P3 10 0 7) /\ along (P3 3 4 0) (P3 0 0 0) (P3 10 0 7) = 6 /\ rotation ex_quarter.
Proof. destruct ex_dim_args as (H1 & H2 & H3 & H4 & H5). exact (conj dim_example (conj H1 (conj H2 (conj H3 (conj H4 (conj H5 quarter_rotation)))))). Qed.
