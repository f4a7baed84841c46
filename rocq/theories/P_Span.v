(** P_Span.v - hidden spans and generated lines in exact arithmetic. *)
From Coq Require Import Reals Lra Psatz Nsatz Permutation Sorted.
From Verif Require Import Base Num NumReal NumLaws Geo Stl GeoSpec RealSpec HideSpec P_Base P_Order P_Part P_Index P_Hide P_Lines P_Geo1 P_Real.

Local Unset Implicit Arguments.
Local Open Scope R_scope.

Lemma lt_fin a b : nlt (Fin a : @num XR) (Fin b) = true <-> a < b. Proof. apply rltb_iff. Qed.
Lemma lt_fin_f a b : nlt (Fin a : @num XR) (Fin b) = false <-> b <= a. Proof. apply rltb_false. Qed.
Lemma le_fin a b : nle (Fin a : @num XR) (Fin b) = true <-> a <= b.
Proof. change (xle (Fin a) (Fin b) = true <-> a <= b). rewrite xle_fin. destruct (rleb_spec a b); split; try discriminate; try lra; reflexivity. Qed.
Lemma eq_fin a b : neq (Fin a : @num XR) (Fin b) = true <-> a = b. Proof. apply reqb_iff. Qed.
Lemma eq_fin_f a b : neq (Fin a : @num XR) (Fin b) = false <-> a <> b.
Proof. change (reqb a b = false <-> a <> b). destruct (reqb_spec a b); split; try discriminate; try tauto. Qed.

(** ** Where projections cross *)
Definition det2 (a b c d : rpt) : R := (rx d - rx c) * (ry b - ry a) - (rx b - rx a) * (ry d - ry c).
Lemma between_0 a b : between a b 0 = a. Proof. apply pt_ext; rgeo; ring. Qed.
Lemma between_1 a b : between a b 1 = b. Proof. apply pt_ext; rgeo; ring. Qed.
Lemma between_rev a b k : between b a k = between a b (1 - k). Proof. apply pt_ext; rgeo; ring. Qed.
Lemma between_mid a b s t k : between (between a b s) (between a b t) k = between a b (s + k * (t - s)). Proof. apply pt_ext; rgeo; ring. Qed.

Lemma cross_fin a b c d : det2 a b c d <> 0 ->
  let D := det2 a b c d in
  let j := ((- (ry d - ry c)) * (rx c - rx a) + (rx d - rx c) * (ry c - ry a)) * (1 / D) in
  let i := ((- (ry b - ry a)) * (rx c - rx a) + (rx b - rx a) * (ry c - ry a)) * (1 / D) in
  cross_at (Edge (emb a) (emb b)) (Edge (emb c) (emb d)) =
    if rleb 0 i && rleb i 1 && rleb 0 j && rleb j 1 then Some (emb (between c d i), emb (between a b j)) else None.
Proof.
  intros H D j i. unfold cross_at. cbn [e1 e2]. rewrite !sub_emb. cbn [x3 y3 emb].
  change (n1 : @num XR) with (Fin 1). change (nz : @num XR) with (Fin 0).
  assert (ED : ndiv (Fin 1 : @num XR) (@nsub XR (@nmul XR (Fin (rx (rsub d c))) (Fin (ry (rsub b a)))) (@nmul XR (Fin (rx (rsub b a))) (Fin (ry (rsub d c))))) = Fin (1 / D)).
  { simpl. unfold rsub; cbn [rx ry rz]. replace ((rx d - rx c) * (ry b - ry a) + - ((rx b - rx a) * (ry d - ry c))) with D by (unfold D, det2; ring).
    destruct (reqb_spec D 0) as [E|_]; [contradiction|reflexivity]. }
  cbv zeta. rewrite ED.
  match goal with |- (if ?g1 && _ && ?g2 && _ then Some (add3 _ (mul3 _ ?ii), add3 _ (mul3 _ ?jj)) else None) = _ => assert (EI : ii = Fin i) by reflexivity; assert (EJ : jj = Fin j) by reflexivity end.
  rewrite EI, EJ, !mul_emb, !add_emb. cbn [nle XR]. rewrite !xle_fin. reflexivity.
Qed.
Lemma cross_par a b c d : det2 a b c d = 0 -> cross_at (Edge (emb a) (emb b)) (Edge (emb c) (emb d)) = None.
Proof.
  intro H. unfold cross_at. cbn [e1 e2]. rewrite !sub_emb. cbn [x3 y3 emb].
  change (n1 : @num XR) with (Fin 1). change (nz : @num XR) with (Fin 0).
  assert (ED : ndiv (Fin 1 : @num XR) (@nsub XR (@nmul XR (Fin (rx (rsub d c))) (Fin (ry (rsub b a)))) (@nmul XR (Fin (rx (rsub b a))) (Fin (ry (rsub d c))))) = PInf).
  { simpl. unfold rsub; cbn [rx ry rz]. replace ((rx d - rx c) * (ry b - ry a) + - ((rx b - rx a) * (ry d - ry c))) with (det2 a b c d) by (unfold det2; ring).
    rewrite H. destruct (reqb_spec 0 0) as [_|E]; [|contradiction]. unfold xsgn. rewrite (proj2 (rltb_iff 0 1)) by lra. reflexivity. }
  cbv zeta. rewrite ED.
  assert (Z : forall r, (nle (Fin 0 : @num XR) (@nmul XR (Fin r) PInf) && nle (@nmul XR (Fin r) PInf) (Fin 1)) = false).
  { intro r. simpl. unfold xsgn. destruct (rltb 0 r); [reflexivity|]. destruct (rltb r 0); reflexivity. }
  match goal with |- context [if nle _ ?i && nle ?i _ && _ && _ then _ else _] => assert (EI : exists r, i = @nmul XR (Fin r) PInf) by (eexists; reflexivity) end.
  destruct EI as [r ->]. rewrite Z. reflexivity.
Qed.
Lemma cross_some a b c d r : cross_at (Edge (emb a) (emb b)) (Edge (emb c) (emb d)) = Some r ->
  exists i j, 0 <= i <= 1 /\ 0 <= j <= 1 /\ r = (emb (between c d i), emb (between a b j)) /\
    rx (between c d i) = rx (between a b j) /\ ry (between c d i) = ry (between a b j).
Proof.
  intro H. destruct (Req_dec (det2 a b c d) 0) as [E|E]; [rewrite cross_par in H by exact E; discriminate|]. rewrite cross_fin in H by exact E. cbv zeta in H.
  match type of H with context [rleb 0 ?x && rleb ?x 1 && rleb 0 ?y && rleb ?y 1] => set (i := x) in H; set (j := y) in H end.
  destruct (rleb_spec 0 i) as [I1|]; [|discriminate]. destruct (rleb_spec i 1) as [I2|]; [|discriminate].
  destruct (rleb_spec 0 j) as [J1|]; [|discriminate]. destruct (rleb_spec j 1) as [J2|]; [|discriminate]. injection H as <-.
  exists i, j. split; [lra|]. split; [lra|]. split; [reflexivity|]. unfold i, j. rgeo. unfold det2 in *. split; field; exact E.
Qed.
Lemma cross_here a b c d i j : det2 a b c d <> 0 -> 0 <= i <= 1 -> 0 <= j <= 1 ->
  rx (between c d i) = rx (between a b j) -> ry (between c d i) = ry (between a b j) ->
  cross_at (Edge (emb a) (emb b)) (Edge (emb c) (emb d)) = Some (emb (between c d i), emb (between a b j)).
Proof.
  intros E I J EX EY. rewrite cross_fin by exact E. cbv zeta.
  match goal with |- context [rleb 0 ?x && rleb ?x 1 && rleb 0 ?y && rleb ?y 1] => assert (Ei : x = i); [|assert (Ej : y = j)] end.
  - apply (Rmult_eq_reg_r (det2 a b c d)); [|exact E]. unfold Rdiv. rewrite Rmult_1_l, Rmult_assoc, Rinv_l by exact E. unfold det2. rgeo. clear E. nsatz.
  - apply (Rmult_eq_reg_r (det2 a b c d)); [|exact E]. unfold Rdiv. rewrite Rmult_1_l, Rmult_assoc, Rinv_l by exact E. unfold det2. rgeo. clear E. nsatz.
  - rewrite Ei, Ej. destruct (rleb_spec 0 i), (rleb_spec i 1), (rleb_spec 0 j), (rleb_spec j 1); simpl; try reflexivity; lra.
Qed.

(** ** Inside a projected triangle *)
Definition turn (a b p : rpt) : R := (rx b - rx a) * (ry p - ry a) - (ry b - ry a) * (rx p - rx a).
Definition area (t : tri) : R := turn (t0 t) (t1 t) (t2 t).
Lemma area_pos t : proper t -> facing t -> 0 < area t.
Proof.
  intros (P1 & P2 & P3 & P4 & _) F. unfold facing in F.
  assert (E : area t = rz (tn t) * rdot (tn t) (rcross (rsub (t1 t) (t0 t)) (rsub (t2 t) (t0 t)))).
  { unfold area, turn. clear P4 F. destruct t as [[n1 n2 n3] [a1 a2 a3] [b1 b2 b3] [c1 c2 c3] r]. rgeo. nsatz. }
  rewrite E. apply Rmult_lt_0_compat; assumption.
Qed.
Lemma turn_sum t p : turn (t0 t) (t1 t) p + turn (t1 t) (t2 t) p + turn (t2 t) (t0 t) p = area t.
Proof. unfold area, turn. ring. Qed.
Definition mix (t : tri) (a b c : R) : rpt := radd (rscale a (t0 t)) (radd (rscale b (t1 t)) (rscale c (t2 t))).
(** Barycentric coordinates are the three turns divided by the area. *)
Lemma mix_turn t p : area t <> 0 -> let w := mix t (turn (t1 t) (t2 t) p / area t) (turn (t2 t) (t0 t) p / area t) (turn (t0 t) (t1 t) p / area t) in
  rx w = rx p /\ ry w = ry p.
Proof. intros H w. unfold w, mix. rgeo. unfold area, turn in *. split; field; exact H. Qed.
Lemma turn_mix t a b c p : a + b + c = 1 -> rx (mix t a b c) = rx p -> ry (mix t a b c) = ry p ->
  turn (t0 t) (t1 t) p = c * area t /\ turn (t1 t) (t2 t) p = a * area t /\ turn (t2 t) (t0 t) p = b * area t.
Proof.
  intros E EX EY. unfold turn. rewrite <- EX, <- EY. unfold area, turn, mix. rgeo. replace a with (1 - b - c) by lra. repeat split; ring.
Qed.
Lemma mix_plane t a b c : proper t -> a + b + c = 1 -> rdot (tn t) (mix t a b c) = tr t.
Proof.
  intros (_ & _ & _ & _ & P5 & P6 & P7) E. transitivity (a * rdot (tn t) (t0 t) + b * rdot (tn t) (t1 t) + c * rdot (tn t) (t2 t)); [unfold mix; rgeo; ring|].
  rewrite P5, P6, P7. replace a with (1 - b - c) by lra. ring.
Qed.
Lemma behind_z t p w : facing t -> rdot (tn t) w = tr t -> rx w = rx p -> ry w = ry p -> (rdot p (tn t) < tr t <-> rz p < rz w).
Proof.
  unfold facing. intros F E EX EY. unfold rdot in *. rewrite <- EX, <- EY, <- E. split; intro H.
  - apply (Rmult_lt_reg_l (rz (tn t))); [exact F|]. lra.
  - apply (Rmult_lt_compat_l (rz (tn t))) in H; [lra|exact F].
Qed.
Lemma behind_emb t p : behind_in (embf t) (emb p) = true <->
  rdot p (tn t) < tr t /\ 0 <= turn (t0 t) (t1 t) p /\ 0 <= turn (t1 t) (t2 t) p /\ 0 <= turn (t2 t) (t0 t) p.
Proof.
  unfold behind_in. cbn [fnorm fr fe0 fe1 fe2 embf]. rewrite dot_emb, !sub_emb. cbv zeta. cbn [x3 y3 emb].
  destruct (nlt (Fin (rdot p (tn t)) : @num XR) (Fin (tr t))) eqn:L.
  - apply lt_fin in L. change (nz : @num XR) with (Fin 0). unfold nge. rewrite !andb_true_iff.
    assert (G : forall a b q, nle (Fin 0 : @num XR) (@nsub XR (@nmul XR (Fin (rx (rsub b a))) (Fin (ry (rsub q a)))) (@nmul XR (Fin (ry (rsub b a))) (Fin (rx (rsub q a))))) = true <-> 0 <= turn a b q).
    { intros a b q. apply le_fin. }
    rewrite !G. tauto.
  - apply lt_fin_f in L. split; [discriminate|]. intros [H _]. lra.
Qed.
Lemma div_pos a b : 0 <= a -> 0 < b -> 0 <= a / b.
Proof. intros H1 H2. unfold Rdiv. apply Rmult_le_pos; [exact H1|]. left. apply Rinv_0_lt_compat. exact H2. Qed.
Lemma behind_covered t p : proper t -> facing t -> behind_in (embf t) (emb p) = true -> covered t p.
Proof.
  intros P F H. apply behind_emb in H. destruct H as (B & C0 & C1 & C2). pose proof (area_pos t P F) as S.
  destruct (mix_turn t p ltac:(lra)) as [EX EY]. set (w := mix _ _ _ _) in *. exists w. split.
  - exists (turn (t1 t) (t2 t) p / area t), (turn (t2 t) (t0 t) p / area t), (turn (t0 t) (t1 t) p / area t).
    split; [apply div_pos; assumption|]. split; [apply div_pos; assumption|]. split; [apply div_pos; assumption|].
    split; [|split; [reflexivity|split; assumption]]. rewrite <- (turn_sum t p) at 1 2 3. field. rewrite turn_sum. lra.
  - assert (Q : rdot (tn t) w = tr t). { apply mix_plane; [exact P|]. rewrite <- (turn_sum t p) at 1 2 3. field. rewrite turn_sum. lra. }
    apply Rlt_le. apply (behind_z t p w F Q EX EY). exact B.
Qed.
Lemma over_behind t p w : proper t -> facing t -> over t p w -> rz p < rz w -> behind_in (embf t) (emb p) = true.
Proof.
  intros P F (a & b & c & A0 & B0 & C0 & E & -> & EX & EY) Z. pose proof (area_pos t P F) as S. apply behind_emb.
  split; [apply (behind_z t p _ F (mix_plane t a b c P E) EX EY); exact Z|].
  destruct (turn_mix t a b c p E EX EY) as (-> & -> & ->). repeat split; apply Rmult_le_pos; lra.
Qed.
(** A covered point stays covered along a segment. *)
Lemma covered_convex t p q k : 0 <= k <= 1 -> covered t p -> covered t q -> covered t (between p q k).
Proof.
  intros K (w & (a & b & c & A0 & B0 & C0 & E & W & EX & EY) & Z) (w' & (a' & b' & c' & A0' & B0' & C0' & E' & W' & EX' & EY') & Z').
  exists (between w w' k). split.
  - exists (a + k * (a' - a)), (b + k * (b' - b)), (c + k * (c' - c)).
    split; [nra|]. split; [nra|]. split; [nra|]. split; [rewrite <- (Rplus_0_r 1) at 1; nra|]. split.
    + rewrite W, W'. apply pt_ext; rgeo; ring.
    + rgeo. rewrite EX, EY, EX', EY'. split; reflexivity.
  - rgeo. nra.
Qed.
Lemma side_covered t p q i (ab : rpt * rpt) : In ab [(t0 t, t1 t); (t1 t, t2 t); (t2 t, t0 t)] -> 0 <= i <= 1 -> q = between (fst ab) (snd ab) i ->
  rx q = rx p -> ry q = ry p -> rz p <= rz q -> covered t p.
Proof.
  intros HI I -> EX EY Z. exists (between (fst ab) (snd ab) i). split; [|exact Z].
  destruct HI as [<-|[<-|[<-|[]]]]; cbn [fst snd] in *.
  - exists (1 - i), i, 0. repeat split; try lra; try assumption. apply pt_ext; rgeo; ring.
  - exists 0, (1 - i), i. repeat split; try lra; try assumption. apply pt_ext; rgeo; ring.
  - exists i, 0, (1 - i). repeat split; try lra; try assumption. apply pt_ext; rgeo; ring.
Qed.

(** ** Cutting the spans out of an edge *)
Definition seg (a b : rpt) (st : R * R) : @edge XR := Edge (emb (between a b (fst st))) (emb (between a b (snd st))).
Definition stroke (a b : rpt) (i : R * R) : @line XR := line3 (emb (between a b (fst i))) (emb (between a b (snd i))).
Definition len2 (a b : rpt) : R := rdot (rsub b a) (rsub b a).
Definition unit_span (st : R * R) : Prop := 0 <= fst st /\ fst st <= snd st /\ snd st <= 1.

Fixpoint rgen (u : R) (sp : list (R * R)) : list (R * R) :=
  match sp with
  | [] => if rltb u 1 then [(u, 1)] else []
  | (s, t) :: sp' => (if rltb u s then [(u, s)] else []) ++ rgen (if rltb u t then t else u) sp'
  end.

Lemma dist_at a b u : sqn3 (sub3 (emb a) (emb (between a b u))) = Fin (u * u * len2 a b).
Proof. rewrite sub_emb, sqn_emb. f_equal. unfold len2. rgeo. ring. Qed.
Lemma len2_pos a b : a <> b -> 0 < len2 a b.
Proof. intro H. apply rdot_nz. intro E. apply H. unfold rsub, rzero in E. injection E as E1 E2 E3. apply pt_ext; lra. Qed.
Lemma sq_lt L u v : 0 < L -> 0 <= u -> 0 <= v -> (u * u * L < v * v * L <-> u < v).
Proof. intros HL U V. split; intro H; [|apply Rmult_lt_compat_r; [exact HL|nra]]. apply Rmult_lt_reg_r in H; [nra|exact HL]. Qed.
Lemma sq_ltb L u v : 0 < L -> 0 <= u -> 0 <= v -> nlt (Fin (u * u * L) : @num XR) (Fin (v * v * L)) = rltb u v.
Proof. intros HL U V. cbn [nlt XR xlt]. destruct (rltb_spec u v) as [H|H]; [apply rltb_iff|apply rltb_false]; [apply sq_lt; assumption|]. apply Rnot_lt_le. intro K. apply H. apply (sq_lt L u v); assumption. Qed.

Lemma gen_fold_real a b sp : a <> b -> Forall unit_span sp -> forall u out, 0 <= u -> u <= 1 ->
  (do! '(from, _, o) <- fold_left (gen_step (Edge (emb a) (emb b))) (map (seg a b) sp) (Ret (emb (between a b u), Fin (u * u * len2 a b) : @num XR, out));
   Ret (if ngt (sqn3 (sub3 from (emb b))) (nmul kMinLineLen kMinLineLen) then o ++ [line3 from (emb b)] else o))
  = Ret (out ++ map (stroke a b) (rgen u sp)).
Proof.
  intros NE HF. pose proof (len2_pos a b NE) as HL. induction HF as [|[s t] sp H HF IH]; intros u out U0 U1.
  - cbn [map fold_left obind rgen]. rewrite sub_emb, sqn_emb.
    replace (rdot (rsub (between a b u) b) (rsub (between a b u) b)) with ((1 - u) * (1 - u) * len2 a b) by (unfold len2; rgeo; ring).
    change (nmul kMinLineLen kMinLineLen : @num XR) with (Fin (0 * 0)). unfold ngt. destruct (rltb_spec u 1) as [L|L].
    + rewrite (proj2 (lt_fin _ _)) by (rewrite Rmult_0_l; apply Rmult_lt_0_compat; [nra|exact HL]). cbn [map]. unfold stroke. cbn [fst snd]. rewrite between_1. reflexivity.
    + rewrite (proj2 (lt_fin_f _ _)) by (replace u with 1 by lra; lra). cbn [map]. rewrite app_nil_r. reflexivity.
  - destruct H as (H1 & H2 & H3). cbn [fst snd] in *. cbn [map fold_left]. unfold gen_step at 2. cbn [obind]. change (seg a b (s, t)) with (@Edge XR (emb (between a b s)) (emb (between a b t))). cbn [e1 e2 fst snd].
    rewrite !dist_at. rewrite (proj2 (le_fin (s * s * len2 a b) (t * t * len2 a b))) by (apply Rmult_le_compat_r; [lra|nra]). cbn [check obind].
    rewrite !sq_ltb by lra. cbn [rgen].
    replace (if rltb u t then emb (between a b t) else emb (between a b u)) with (emb (between a b (if rltb u t then t else u))) by (destruct (rltb u t); reflexivity).
    replace (if rltb u t then Fin (t * t * len2 a b) : @num XR else Fin (u * u * len2 a b)) with (Fin ((if rltb u t then t else u) * (if rltb u t then t else u) * len2 a b) : @num XR) by (destruct (rltb u t); reflexivity).
    etransitivity; [apply (IH (if rltb u t then t else u)); destruct (rltb_spec u t); lra|]. f_equal. rewrite map_app, app_assoc. f_equal.
    destruct (rltb u s); cbn [map]; [reflexivity|rewrite app_nil_r; reflexivity].
Qed.
Lemma rgen_chain sp : Forall unit_span sp -> forall u, u <= 1 -> chain u (rgen u sp).
Proof.
  intro HF. induction HF as [|[s t] sp (H1 & H2 & H3) HF IH]; intros u U1; cbn [fst snd rgen] in *.
  - destruct (rltb_spec u 1); simpl; lra.
  - assert (W : forall u v l, u <= v -> chain v l -> chain u l) by (intros x y l XY; destruct l as [|[p q] l]; simpl; [lra|]; intros (C1 & C2 & C3); repeat split; try assumption; lra).
    specialize (IH (if rltb u t then t else u)). assert (IH' : chain (if rltb u t then t else u) (rgen (if rltb u t then t else u) sp)) by (apply IH; destruct (rltb_spec u t); lra).
    destruct (rltb_spec u s) as [L|L]; cbn [app].
    + simpl. split; [lra|]. split; [lra|]. eapply W; [|exact IH']. destruct (rltb_spec u t); lra.
    + eapply W; [|exact IH']. destruct (rltb_spec u t); lra.
Qed.
Lemma spaced_from u v l : u <= v -> spaced v l -> spaced u l.
Proof. intro UV. destruct l as [|[p q] l]; simpl; [lra|]. intros (C1 & C2 & C3). split; [lra|]. auto. Qed.
Lemma rgen_spaced sp : Forall unit_span sp -> Forall (fun st => fst st < snd st) sp -> forall u, u <= 1 -> spaced u (rgen u sp).
Proof.
  intros HF HS. induction HF as [|[s t] sp (H1 & H2 & H3) HF IH]; intros u U1; cbn [fst snd rgen] in *.
  - destruct (rltb_spec u 1); simpl; [split; [lra|]; split; [lra|]; split; [exact I|lra]|lra].
  - inversion HS as [|? ? L HS']; subst. cbn [fst snd] in L. specialize (IH HS').
    destruct (rltb_spec u s) as [K|K]; cbn [app].
    + destruct (rltb_spec u t) as [_|Q]; [|lra]. pose proof (rgen_chain sp HF t H3) as C. specialize (IH t H3).
      cbn [spaced]. split; [lra|]. split; [lra|]. split; [destruct (rgen t sp) as [|[x y] l]; [exact I|simpl in C; lra]|]. apply (spaced_from s t); [lra|exact IH].
    + apply (spaced_from u (if rltb u t then t else u)); [destruct (rltb_spec u t); lra|]. apply IH. destruct (rltb_spec u t); lra.
Qed.
Lemma chain_low u l i : chain u l -> In i l -> u <= fst i /\ fst i < snd i /\ snd i <= 1.
Proof.
  revert u. induction l as [|[x y] l IH]; intros u C HI; [destruct HI|]. simpl in C. destruct C as (C1 & C2 & C3).
  assert (Y : y <= 1) by (clear - C3; revert y C3; induction l as [|[p q] l IH]; intros y C3; simpl in C3; [exact C3|]; destruct C3 as (D1 & D2 & D3); specialize (IH _ D3); lra).
  destruct HI as [<-|HI]; [simpl; lra|]. specialize (IH _ C3 HI). lra.
Qed.
Lemma rgen_full sp : Forall unit_span sp -> forall u x, u <= x <= 1 -> (forall st, In st sp -> ~ fst st <= x <= snd st) -> x < 1 \/ u < 1 ->
  exists i, In i (rgen u sp) /\ fst i <= x <= snd i.
Proof.
  intro HF. induction HF as [|[s t] sp (H1 & H2 & H3) HF IH]; intros u x X N E; cbn [fst snd rgen] in *.
  - destruct (rltb_spec u 1); [|exfalso; lra]. exists (u, 1). split; [left; reflexivity|]. simpl. lra.
  - pose proof (N _ (or_introl eq_refl)) as N1. cbn [fst snd] in N1.
    assert (N2 : forall st, In st sp -> ~ fst st <= x <= snd st) by (intros st I; apply N; right; exact I).
    destruct (Rle_lt_dec x t) as [XT|XT].
    + assert (XS : x < s) by lra. destruct (rltb_spec u s) as [L|L]; [|lra]. exists (u, s). split; [left; reflexivity|]. simpl. lra.
    + edestruct (IH (if rltb u t then t else u) x) as (i & I1 & I2); [destruct (rltb_spec u t); lra|exact N2|destruct (rltb_spec u t); lra|].
      exists i. split; [|exact I2]. apply in_or_app. right. exact I1.
Qed.
Lemma rgen_clear sp : Forall unit_span sp -> StronglySorted (fun p q => fst p <= fst q) sp -> forall u i x, u <= 1 -> In i (rgen u sp) -> fst i < x < snd i ->
  forall st, In st sp -> ~ fst st <= x <= snd st.
Proof.
  intros HF HS. induction HS as [|[s t] sp HS IH F]; intros u i x U HI X st Hst; [destruct Hst|]. inversion HF as [|? ? (H1 & H2 & H3) HF']; subst. cbn [fst snd rgen] in *.
  apply in_app_or in HI. destruct HI as [HI|HI].
  - destruct (rltb_spec u s) as [L|L]; [|destruct HI]. destruct HI as [<-|[]]. cbn [fst snd] in X. destruct Hst as [<-|Hst]; [simpl; lra|].
    rewrite Forall_forall in F. specialize (F _ Hst). cbn [fst] in F. lra.
  - destruct Hst as [<-|Hst].
    + edestruct chain_low as (C & _); [apply rgen_chain; [exact HF'|]|exact HI|]; [destruct (rltb_spec u t); lra|]. cbn [fst snd]. destruct (rltb_spec u t); lra.
    + eapply IH; [exact HF'| |exact HI|exact X|exact Hst]. destruct (rltb_spec u t); lra.
Qed.

Definition cut (st : strip) (sp : list (R * R)) : Prop :=
  chain 0 (shown st) /\
  (forall x, 0 <= x <= 1 -> (forall i, In i sp -> ~ fst i <= x <= snd i) -> drawn st x) /\
  (forall i x, In i (shown st) -> fst i < x < snd i -> forall j, In j sp -> ~ fst j <= x <= snd j).
Lemma map_choice {X Y} (f : X -> Y) (P : X -> Prop) (l : list Y) : Forall (fun y => exists x, y = f x /\ P x) l -> exists l', l = map f l' /\ Forall P l'.
Proof.
  induction 1 as [|y l (x & -> & Hx) HF (l' & -> & H)]; [exists []; split; [reflexivity|constructor]|]. exists (x :: l'). split; [reflexivity|]. constructor; assumption.
Qed.
Lemma sort_real a b sp : exists s, sort_hides (Edge (emb a) (emb b)) (map (seg a b) sp) = Ret s /\ Permutation s (map (seg a b) sp) /\
  wsorted (fun l r => nlt (dist (Edge (emb a) (emb b)) (e1 l)) (dist (Edge (emb a) (emb b)) (e1 r))) s.
Proof.
  apply (std_sort_ok nsorter (P := fun e => ok (dist (Edge (emb a) (emb b)) (e1 e)))).
  - apply (swo_by (Q := ok) (f := fun e => dist (Edge (emb a) (emb b)) (e1 e))); [auto|apply (num_swo XR_ordered)].
  - rewrite Forall_forall. intros e He. apply in_map_iff in He. destruct He as (x & <- & _). unfold dist, seg. cbn [e1]. rewrite dist_at. apply eq_fin. reflexivity.
Qed.
Lemma gen_exact a b sp : a <> b -> Forall unit_span sp -> exists st, sa st = a /\ sb st = b /\
  gen_edge kMinLineLen (Edge (emb a) (emb b)) (sort_spans (Edge (emb a) (emb b)) (map (seg a b) sp)) = Ret (strokes st) /\ cut st sp /\
  (Forall (fun i => fst i < snd i) sp -> spaced 0 (shown st)).
Proof.
  intros NE HF. pose proof (len2_pos a b NE) as HL. unfold sort_spans.
  destruct (sort_real a b sp) as (ss & -> & SP & WS). set (lt := fun l r : edge => _) in WS.
  destruct (map_choice (seg a b) (fun st => In st sp /\ unit_span st) ss) as (sp' & E & HF').
  { rewrite Forall_forall. intros y Hy. apply (Permutation_in _ SP) in Hy. apply in_map_iff in Hy. destruct Hy as (x & <- & Hx). exists x. rewrite Forall_forall in HF. auto. }
  assert (U' : Forall unit_span sp') by (eapply Forall_impl; [|exact HF']; intros x Hx; exact (proj2 Hx)).
  assert (LT : forall x y, unit_span x -> unit_span y -> lt (seg a b x) (seg a b y) = rltb (fst x) (fst y)).
  { intros x y (X1 & X2 & X3) (Y1 & Y2 & Y3). unfold lt, dist, seg. cbn [e1 e2]. rewrite !dist_at. apply sq_ltb; lra. }
  rewrite E in WS. assert (SS : StronglySorted (fun p q => fst p <= fst q) sp').
  { clear - WS U' LT. induction U' as [|x l Hx HF IH]; [constructor|]. cbn [map] in WS. inversion WS as [|? ? W1 W2]; subst. constructor; [apply IH; exact W1|].
    rewrite Forall_forall in *. intros y Hy. specialize (W2 (seg a b y) (in_map _ _ _ Hy)). cbv beta in W2. rewrite LT in W2 by (try assumption; apply HF; exact Hy). apply rltb_false in W2. exact W2. }
  assert (IN : forall x, In x sp -> exists y, In y sp' /\ fst y = fst x /\ snd y = snd x).
  { intros x Hx. apply (in_map (seg a b)) in Hx. apply (Permutation_in _ (Permutation_sym SP)) in Hx. rewrite E in Hx. apply in_map_iff in Hx. destruct Hx as (y & EY & Hy). exists y. split; [exact Hy|].
    unfold seg in EY. injection EY as E1 E2 E3 E4 E5 E6.
    assert (forall u v, rx a + u * (rx b - rx a) = rx a + v * (rx b - rx a) -> ry a + u * (ry b - ry a) = ry a + v * (ry b - ry a) -> rz a + u * (rz b - rz a) = rz a + v * (rz b - rz a) -> u = v).
    { intros u v Q1 Q2 Q3. destruct (Req_dec u v) as [|K]; [assumption|exfalso]. apply NE.
      assert (Z : forall d, (u - v) * d = 0 -> d = 0) by (intros d Hd; destruct (Rmult_integral _ _ Hd); [lra|assumption]).
      apply pt_ext; [pose proof (Z (rx b - rx a))|pose proof (Z (ry b - ry a))|pose proof (Z (rz b - rz a))]; lra. }
    split; auto. }
  exists (Strip a b (rgen 0 sp')). split; [reflexivity|]. split; [reflexivity|]. rewrite E. split.
  - unfold gen_edge. pose proof (gen_fold_real a b sp' NE U' 0 [] ltac:(lra) ltac:(lra)) as G. rewrite between_0 in G.
    replace (0 * 0 * len2 a b) with 0 in G by ring. exact G.
  - split; [|intro PO; apply rgen_spaced; [exact U'| |lra]; rewrite Forall_forall in *; intros i Hi; apply PO; exact (proj1 (HF' _ Hi))].
    split; [apply rgen_chain; [exact U'|lra]|]. split.
    + intros x X N. unfold drawn. cbn [shown]. apply rgen_full; [exact U'|exact X| |lra].
      intros st Hst. apply N. rewrite Forall_forall in HF'. exact (proj1 (HF' _ Hst)).
    + intros i x HI X j Hj. cbn [shown] in HI. destruct (IN j Hj) as (y & Hy & <- & <-). eapply rgen_clear; [exact U'|exact SS| |exact HI|exact X|exact Hy]. lra.
Qed.
Lemma gen_real a b sp : a <> b -> Forall unit_span sp -> exists st, sa st = a /\ sb st = b /\
  (do! hs <- sort_hides (Edge (emb a) (emb b)) (map (seg a b) sp); gen_edge kMinLineLen (Edge (emb a) (emb b)) hs) = Ret (strokes st) /\ cut st sp.
Proof. intros NE HF. destruct (gen_exact a b sp NE HF) as (st & H1 & H2 & H3 & H4 & _). unfold sort_spans in H3. destruct (sort_real a b sp) as (ss & E & _).
  rewrite E in H3. rewrite E. cbn [obind]. eauto. Qed.

