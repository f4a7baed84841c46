(** P_Move.v - edges that do not meet the inside of a facet, and moved models. *)
From Coq Require Import Reals Lra Psatz Nsatz Permutation Sorted.
From Verif Require Import Base Num NumReal NumLaws Geo Stl GeoSpec RealSpec HideSpec PictSpec P_Base P_Order P_Part P_Index P_Hide P_Lines P_Geo1 P_Real P_Span P_Span2 P_Exact P_Pict.

Local Unset Implicit Arguments.
Local Open Scope R_scope.

Lemma inside_mix t w : inside t w <-> exists a b c, 0 < a /\ 0 < b /\ 0 < c /\ a + b + c = 1 /\ w = mix t a b c.
Proof. reflexivity. Qed.
(** Points whose sight line meets the inside, by their turns. *)
Lemma turns_within t p : proper t -> facing t -> (within t p <-> 0 < turn (t0 t) (t1 t) p /\ 0 < turn (t1 t) (t2 t) p /\ 0 < turn (t2 t) (t0 t) p).
Proof.
  intros P F. pose proof (area_pos t P F) as S. split.
  - intros (a & b & c & A0 & B0 & C0 & SUM & w & -> & EX & EY). destruct (turn_mix t a b c p SUM EX EY) as (-> & -> & ->).
    repeat split; apply Rmult_lt_0_compat; assumption.
  - intros (C0 & C1 & C2). destruct (mix_turn t p ltac:(lra)) as [EX EY].
    exists (turn (t1 t) (t2 t) p / area t), (turn (t2 t) (t0 t) p / area t), (turn (t0 t) (t1 t) p / area t).
    split; [apply Rdiv_lt_0_compat; lra|]. split; [apply Rdiv_lt_0_compat; lra|]. split; [apply Rdiv_lt_0_compat; lra|].
    split; [rewrite <- (turn_sum t p) at 1 2 3; field; rewrite turn_sum; lra|]. eexists. split; [reflexivity|]. split; assumption.
Qed.
Lemma over_turns t p w : proper t -> facing t -> over t p w -> 0 <= turn (t0 t) (t1 t) p /\ 0 <= turn (t1 t) (t2 t) p /\ 0 <= turn (t2 t) (t0 t) p /\ rdot (tn t) w = tr t.
Proof.
  intros P F (a & b & c & A0 & B0 & C0 & SUM & -> & EX & EY). pose proof (area_pos t P F) as S. destruct (turn_mix t a b c p SUM EX EY) as (-> & -> & ->).
  split; [apply Rmult_le_pos; lra|]. split; [apply Rmult_le_pos; lra|]. split; [apply Rmult_le_pos; lra|]. exact (mix_plane t a b c P SUM).
Qed.
(** How far behind the plane of the triangle. *)
Definition depth (t : tri) (p : rpt) : R := tr t - rdot (tn t) p.
Lemma depth_z t p w : facing t -> rdot (tn t) w = tr t -> rx w = rx p -> ry w = ry p -> depth t p = rz (tn t) * (rz w - rz p).
Proof. intros F E EX EY. unfold depth. rewrite <- E. unfold rdot. rewrite EX, EY. ring. Qed.
Lemma plane_inside t p : proper t -> facing t -> within t p -> depth t p = 0 -> inside t p.
Proof.
  intros P F (a & b & c & A0 & B0 & C0 & SUM & w & W & EX & EY) D. exists a, b, c. repeat split; try assumption. rewrite <- W.
  assert (PL : rdot (tn t) w = tr t) by (rewrite W; exact (mix_plane t a b c P SUM)). rewrite (depth_z t p w F PL EX EY) in D.
  apply pt_ext; [symmetry; exact EX|symmetry; exact EY|]. apply Rmult_integral in D. unfold facing in F. lra.
Qed.
Lemma untouched_before t a b x : proper t -> facing t -> ~ meets t a b -> 0 <= x <= 1 -> behind t (between a b x) -> lies_before t a b /\ within t (between a b x).
Proof.
  intros P F NM X (w0 & (c0 & c1 & c2 & C0 & C1 & C2 & SUM & W) & EX & EY & Z).
  assert (WI : within t (between a b x)) by (exists c0, c1, c2; repeat split; try assumption; exists w0; auto). split; [|exact WI].
  assert (PL : rdot (tn t) w0 = tr t) by (rewrite W; exact (mix_plane t c0 c1 c2 P SUM)).
  assert (D0 : 0 < depth t (between a b x)) by (rewrite (depth_z t _ w0 F PL EX EY); apply Rmult_lt_0_compat; [exact F|lra]).
  apply (turns_within t _ P F) in WI. destruct WI as (T0 & T1 & T2).
  assert (AFF : forall y k, depth t (between a b (x + k * (y - x))) = depth t (between a b x) + k * (depth t (between a b y) - depth t (between a b x))) by (intros y k; unfold depth; rgeo; ring).
  assert (NOT : forall y k, 0 <= y <= 1 -> 0 <= k <= 1 -> 0 <= turn (t0 t) (t1 t) (between a b y) -> 0 <= turn (t1 t) (t2 t) (between a b y) -> 0 <= turn (t2 t) (t0 t) (between a b y) ->
    k < 1 \/ within t (between a b y) -> depth t (between a b (x + k * (y - x))) <> 0).
  { intros y k Y K U0 U1 U2 KW D. apply NM. exists (x + k * (y - x)). split; [nra|]. apply plane_inside; [exact P|exact F| |exact D].
    destruct KW as [KL|KW].
    - apply (turns_within t _ P F). rewrite !turn_affine. repeat split; nra.
    - destruct (Req_dec k 1) as [->|NK]; [replace (x + 1 * (y - x)) with y by ring; exact KW|]. apply (turns_within t _ P F). rewrite !turn_affine. repeat split; nra. }
  intros y w Y OV. destruct (over_turns t _ w P F OV) as (U0 & U1 & U2 & PW). destruct OV as (_ & _ & _ & _ & _ & _ & _ & _ & EX' & EY').
  pose proof (depth_z t _ w F PW EX' EY') as DW. unfold facing in F. destruct (Rlt_le_dec (depth t (between a b y)) 0) as [NEG|POS].
  - exfalso. set (k := depth t (between a b x) / (depth t (between a b x) - depth t (between a b y))).
    assert (K : 0 < k) by (apply Rdiv_lt_0_compat; lra). assert (KQ : k * (depth t (between a b x) - depth t (between a b y)) = depth t (between a b x)) by (unfold k; field; lra).
    assert (K1 : k < 1) by nra. apply (NOT y k Y ltac:(lra) U0 U1 U2 (or_introl K1)). rewrite AFF. lra.
  - split; [nra|]. intro WY. destruct POS as [POS|ZERO]; [nra|]. exfalso. apply (NOT y 1 Y ltac:(lra) U0 U1 U2 (or_intror WY)). replace (x + 1 * (y - x)) with y by ring. symmetry. exact ZERO.
Qed.
Lemma view_clear s ts r : facets s = map embf ts -> Forall proper ts -> rotation r ->
  exists m ss, rotate s (embm r) = Ret m /\ to_lines m = Ret (flat_map strokes ss) /\ map (fun st => Edge (emb (sa st)) (emb (sb st))) ss = firstn (unseen m) (edges m) /\
    forall st, In st ss -> chain 0 (shown st) /\
      forall t x, In t ts -> facing (turned r t) -> ~ meets (turned r t) (sa st) (sb st) -> 0 <= x <= 1 -> behind (turned r t) (between (sa st) (sb st) x) -> ~ drawn st x.
Proof.
  intros HS HP HR. destruct (view_lines s ts r HS HP HR) as (m & ss & H1 & H2 & H3 & H4). exists m, ss. split; [exact H1|]. split; [exact H2|]. split; [exact H3|].
  intros st Hst. destruct (H4 st Hst) as (C & _ & D). split; [exact C|]. intros t x Ht FT NM X B. rewrite Forall_forall in HP.
  destruct (untouched_before _ _ _ x (rot_proper r t HR (HP _ Ht)) FT NM X B) as [LB WI]. exact (D t x Ht FT LB X WI).
Qed.

(** ** Moved and scaled models *)
Definition moved_strip (k : R) (d : rpt) (s : strip) : strip := Strip (moved k d (sa s)) (moved k d (sb s)) (shown s).
Definition back_d (k : R) (d : rpt) : rpt := rscale (- / k) d.
Lemma moved_back k d p : k <> 0 -> moved (/ k) (back_d k d) (moved k d p) = p.
Proof. intro K. unfold moved, back_d. apply pt_ext; rgeo; field; exact K. Qed.
Lemma tri_ext t u : tn t = tn u -> t0 t = t0 u -> t1 t = t1 u -> t2 t = t2 u -> tr t = tr u -> t = u.
Proof. destruct t, u. simpl. intros -> -> -> -> ->. reflexivity. Qed.
Lemma moved_tri_back k d t : k <> 0 -> moved_tri (/ k) (back_d k d) (moved_tri k d t) = t.
Proof.
  intro K. apply tri_ext; unfold moved_tri; cbn [tn t0 t1 t2 tr]; try apply (moved_back k d); try assumption; [reflexivity|]. unfold back_d. rgeo. field. exact K.
Qed.
Lemma moved_inj k d p q : k <> 0 -> moved k d p = moved k d q -> p = q.
Proof. intros K E. rewrite <- (moved_back k d p K), <- (moved_back k d q K), E. reflexivity. Qed.
Lemma between_moved k d a b x : between (moved k d a) (moved k d b) x = moved k d (between a b x).
Proof. unfold moved. apply pt_ext; rgeo; ring. Qed.
Lemma sides_moved k d t p q : In (p, q) (tri_sides t) -> In (moved k d p, moved k d q) (tri_sides (moved_tri k d t)).
Proof. intros [H|[H|[H|[]]]]; injection H as <- <-; simpl; auto. Qed.
Lemma own_moved_f k d t a b : own t a b -> own (moved_tri k d t) (moved k d a) (moved k d b).
Proof. intros [H|H]; [left|right]; apply sides_moved; exact H. Qed.
Lemma own_moved k d t a b : k <> 0 -> (own (moved_tri k d t) (moved k d a) (moved k d b) <-> own t a b).
Proof.
  intro K. split; [|apply own_moved_f]. intro H. apply (own_moved_f (/ k) (back_d k d)) in H. rewrite moved_tri_back, !moved_back in H by exact K. exact H.
Qed.
Lemma own_moved_ends k d t a b : own (moved_tri k d t) a b -> exists p q, a = moved k d p /\ b = moved k d q /\ own t p q.
Proof.
  unfold own, tri_sides. simpl. intros [[H|[H|[H|[]]]]|[H|[H|[H|[]]]]]; injection H as <- <-; do 2 eexists; (split; [reflexivity|]); (split; [reflexivity|]); auto 8.
Qed.
Lemma over_moved k d t q w : over t q w -> over (moved_tri k d t) (moved k d q) (moved k d w).
Proof.
  intros (a & b & c & A0 & B0 & C0 & E & -> & EX & EY). exists a, b, c. repeat split; try assumption.
  - apply pt_ext; unfold moved_tri, moved; rgeo; replace a with (1 - b - c) by lra; ring.
  - unfold moved in *. rgeo. rewrite EX. reflexivity.
  - unfold moved in *. rgeo. rewrite EY. reflexivity.
Qed.
Lemma stop_moved k d t a b x : 0 < k -> stop t a b x -> stop (moved_tri k d t) (moved k d a) (moved k d b) x.
Proof.
  intros K [(EX & w & OV & Z)|(U & p & q & i & Hpq & AS & I & QX & QY & Z)]; [left|right].
  - split; [exact EX|]. exists (moved k d w). rewrite between_moved. split; [apply over_moved; exact OV|]. unfold moved. rgeo. nra.
  - split; [exact U|]. exists (moved k d p), (moved k d q), i. rewrite !between_moved. split; [apply sides_moved; exact Hpq|]. split.
    + unfold askew, moved in *. intro E. apply AS. rgeo. apply (Rmult_eq_reg_l (k * k)); [|nra]. rewrite Rmult_0_r, <- E. ring.
    + split; [exact I|]. unfold moved. rgeo. rewrite QX, QY. split; [reflexivity|]. split; [reflexivity|]. nra.
Qed.
Lemma hides_moved_f k d t a b x : 0 < k -> hides t a b x -> hides (moved_tri k d t) (moved k d a) (moved k d b) x.
Proof.
  intros K (NO & u & v & UV & X & SU & SV). split; [rewrite own_moved by lra; exact NO|]. exists u, v. split; [exact UV|]. split; [exact X|]. split; apply stop_moved; assumption.
Qed.
Lemma hides_moved k d t a b x : 0 < k -> (hides (moved_tri k d t) (moved k d a) (moved k d b) x <-> hides t a b x).
Proof.
  intro K. split; [|apply hides_moved_f; exact K]. intro H. apply (hides_moved_f (/ k) (back_d k d)) in H; [|apply Rinv_0_lt_compat; exact K].
  rewrite moved_tri_back, !moved_back in H by lra. exact H.
Qed.
Lemma before_moved_f k d a b : 0 < k -> before a b -> before (moved k d a) (moved k d b).
Proof.
  intros K [H|[H1 [H|[H2 H]]]]; unfold before, moved; rgeo; [left; nra|right|right].
  - split; [rewrite H1; reflexivity|]. left. nra.
  - split; [rewrite H1; reflexivity|]. right. split; [rewrite H2; reflexivity|]. nra.
Qed.
Lemma before_moved k d a b : 0 < k -> (before (moved k d a) (moved k d b) <-> before a b).
Proof.
  intro K. split; [|apply before_moved_f; exact K]. intro H. apply (before_moved_f (/ k) (back_d k d)) in H; [|apply Rinv_0_lt_compat; exact K].
  rewrite !moved_back in H by lra. exact H.
Qed.
Lemma smooth_moved k d vs a b : k <> 0 -> (smooth (map (moved_tri k d) vs) (moved k d a) (moved k d b) <-> smooth vs a b).
Proof.
  intro K. split.
  - intros (t & u & rest & PM & O1 & O2 & D). apply Permutation_sym, Permutation_map_inv in PM. destruct PM as (l & E & PM). destruct l as [|t' [|u' rest']]; try discriminate. injection E as -> -> ->.
    exists t', u', rest'. split; [exact PM|]. rewrite own_moved in O1, O2 by exact K. auto.
  - intros (t & u & rest & PM & O1 & O2 & D). exists (moved_tri k d t), (moved_tri k d u), (map (moved_tri k d) rest). split; [exact (Permutation_map (moved_tri k d) PM)|].
    rewrite !own_moved by exact K. auto.
Qed.
Lemma crowded_moved k d vs a b : k <> 0 -> crowded (map (moved_tri k d) vs) a b -> exists p q, crowded vs p q.
Proof.
  intros K (t & u & w & rest & PM & O1 & O2 & O3). apply Permutation_sym, Permutation_map_inv in PM. destruct PM as (l & E & PM). destruct l as [|t' [|u' [|w' rest']]]; try discriminate. injection E as -> -> -> ->.
  destruct (own_moved_ends _ _ _ _ _ O1) as (p & q & -> & -> & _). rewrite own_moved in O1, O2, O3 by exact K. exists p, q, t', u', w', rest'. auto.
Qed.
Lemma picture_moved k d vs ss : 0 < k -> picture vs ss -> picture (map (moved_tri k d) vs) (map (moved_strip k d) ss).
Proof.
  intros K (H1 & H2 & H3). assert (KN : k <> 0) by lra.
  assert (EM : map (fun s => (sa s, sb s)) (map (moved_strip k d) ss) = map (fun ab => (moved k d (fst ab), moved k d (snd ab))) (map (fun s => (sa s, sb s)) ss)) by (rewrite !map_map; reflexivity).
  split; [|split].
  - rewrite EM. apply FinFun.Injective_map_NoDup; [|exact H1]. intros [p q] [p' q'] E. cbn [fst snd] in E. injection E as E1 E2 E3 E4 E5 E6.
    f_equal; apply (moved_inj k d _ _ KN); apply pt_ext; unfold moved; simpl; assumption.
  - intros a b. rewrite EM. split.
    + intro H. apply in_map_iff in H. destruct H as ([p q] & E & H). cbn [fst snd] in E. injection E as <- <-. apply H2 in H. destruct H as (B & (t & Ht & O) & NS).
      split; [apply before_moved; assumption|]. split; [exists (moved_tri k d t); split; [apply in_map; exact Ht|apply own_moved; assumption]|]. rewrite smooth_moved by exact KN. exact NS.
    + intros (B & (t & Ht & O) & NS). apply in_map_iff in Ht. destruct Ht as (t' & <- & Ht'). destruct (own_moved_ends _ _ _ _ _ O) as (p & q & -> & -> & O').
      apply in_map_iff. exists (p, q). split; [reflexivity|]. apply H2. split; [apply (before_moved k d); assumption|]. split; [eauto|]. rewrite <- (smooth_moved k d) by exact KN. exact NS.
  - intros s Hs. apply in_map_iff in Hs. destruct Hs as (s' & <- & Hs'). cbn [moved_strip sa sb]. specialize (H3 s' Hs').
    assert (L : leaves (fun x => exists t, In t (map (moved_tri k d) vs) /\ hides t (moved k d (sa s')) (moved k d (sb s')) x) s').
    { eapply leaves_ext; [|exact H3]. intro x. split.
      - intros (t & Ht & Hh). exists (moved_tri k d t). split; [apply in_map; exact Ht|]. apply hides_moved; assumption.
      - intros (t & Ht & Hh). apply in_map_iff in Ht. destruct Ht as (t' & <- & Ht'). exists t'. split; [exact Ht'|]. apply (hides_moved k d); assumption. }
    exact L.
Qed.
Lemma turned_moved r k d t : rotation r -> turned r (moved_tri k d t) = moved_tri k (rmul d r) (turned r t).
Proof.
  intros [D _]. apply tri_ext; unfold turned, moved_tri, moved; cbn [tn t0 t1 t2 tr]; try reflexivity; try (apply pt_ext; rgeo; ring).
  rewrite D. reflexivity.
Qed.
Lemma seen_moved r k d ts : rotation r -> seen r (map (moved_tri k d) ts) = map (moved_tri k (rmul d r)) (seen r ts).
Proof.
  intro HR. unfold seen. rewrite map_map. induction ts as [|t ts IH]; [reflexivity|]. cbn [map filter]. rewrite (turned_moved r k d t HR).
  change (facingb (moved_tri k (rmul d r) (turned r t))) with (facingb (turned r t)). destruct (facingb (turned r t)); cbn [map]; rewrite IH; reflexivity.
Qed.
Lemma proper_moved k d t : 0 < k -> proper t -> proper (moved_tri k d t).
Proof.
  intros K (P1 & P2 & P3 & P4 & P5 & P6 & P7). unfold proper, moved_tri. cbn [tn t0 t1 t2 tr].
  assert (S : forall p q, rsub (moved k d p) (moved k d q) = rscale k (rsub p q)) by (intros p q; unfold moved; apply pt_ext; rgeo; ring).
  assert (M : forall p, rdot (tn t) (moved k d p) = k * rdot (tn t) p + rdot (tn t) d) by (intro p; unfold moved; rgeo; ring).
  rewrite !S, !M, P5, P6, P7. split; [exact P1|]. split; [transitivity (k * rdot (tn t) (rsub (t1 t) (t0 t))); [rgeo; ring|rewrite P2; ring]|].
  split; [transitivity (k * rdot (tn t) (rsub (t2 t) (t0 t))); [rgeo; ring|rewrite P3; ring]|]. split; [|auto].
  replace (rdot _ _) with (k * k * rdot (tn t) (rcross (rsub (t1 t) (t0 t)) (rsub (t2 t) (t0 t)))) by (rgeo; ring). apply Rmult_lt_0_compat; [nra|exact P4].
Qed.
Lemma strokes_moved k d s : strokes (moved_strip k d s) = map (moved_line k (rx d) (ry d)) (strokes s).
Proof.
  unfold strokes, moved_strip. cbn [sa sb shown]. rewrite map_map. apply map_ext. intro i. rewrite !between_moved. reflexivity.
Qed.
Lemma view_moved s s' ts r k d : facets s = map embf ts -> facets s' = map embf (map (moved_tri k d) ts) -> Forall proper ts -> rotation r -> 0 < k -> (forall a b, ~ crowded (seen r ts) a b) ->
  exists m m' ls ls', rotate s (embm r) = Ret m /\ rotate s' (embm r) = Ret m' /\ to_lines m = Ret ls /\ to_lines m' = Ret ls' /\
    Permutation ls' (map (moved_line k (rx (rmul d r)) (ry (rmul d r))) ls).
Proof.
  intros HS HS' HP HR K NC. destruct (view_picture s ts r HS HP HR NC) as (m & ss & M1 & M2 & M3).
  destruct (view_picture s' (map (moved_tri k d) ts) r HS') as (m' & ss' & N1 & N2 & N3); [|exact HR| |].
  - rewrite Forall_forall in *. intros t Ht. apply in_map_iff in Ht. destruct Ht as (t' & <- & Ht'). apply proper_moved; auto.
  - intros a b C. rewrite (seen_moved r k d ts HR) in C. apply crowded_moved in C; [|lra]. destruct C as (p & q & C). exact (NC p q C).
  - exists m, m', (flat_map strokes ss), (flat_map strokes ss'). split; [exact M1|]. split; [exact N1|]. split; [exact M2|]. split; [exact N2|].
    rewrite (seen_moved r k d ts HR) in N3. pose proof (picture_unique _ _ _ N3 (picture_moved k (rmul d r) _ _ K M3)) as PU.
    rewrite (Permutation_flat_map strokes PU). rewrite flat_map_concat_map, map_map, flat_map_concat_map, concat_map, map_map.
    erewrite map_ext; [reflexivity|]. intro x. apply strokes_moved.
Qed.
(** ** The order of the facets *)
Lemma seen_perm r ts ts' : Permutation ts ts' -> Permutation (seen r ts) (seen r ts').
Proof.
  intro P. unfold seen. apply (Permutation_map (turned r)) in P. revert P. generalize (map (turned r) ts) (map (turned r) ts'). induction 1; cbn [filter].
  - reflexivity.
  - destruct (facingb x); [constructor|]; assumption.
  - destruct (facingb x), (facingb y); try reflexivity. constructor.
  - etransitivity; eassumption.
Qed.
Lemma view_order s s' ts ts' r : facets s = map embf ts -> facets s' = map embf ts' -> Permutation ts ts' -> Forall proper ts -> rotation r -> (forall a b, ~ crowded (seen r ts) a b) ->
  exists m m' ls ls', rotate s (embm r) = Ret m /\ rotate s' (embm r) = Ret m' /\ to_lines m = Ret ls /\ to_lines m' = Ret ls' /\ Permutation ls ls'.
Proof.
  intros HS HS' P HP HR NC. destruct (view_picture s ts r HS HP HR NC) as (m & ss & M1 & M2 & M3).
  destruct (view_picture s' ts' r HS') as (m' & ss' & N1 & N2 & N3); [|exact HR| |].
  - rewrite Forall_forall in *. intros t Ht. apply HP. exact (Permutation_in _ (Permutation_sym P) Ht).
  - intros a b C. exact (NC a b (crowded_perm _ _ _ _ (Permutation_sym (seen_perm r _ _ P)) C)).
  - exists m, m', (flat_map strokes ss), (flat_map strokes ss'). split; [exact M1|]. split; [exact N1|]. split; [exact M2|]. split; [exact N2|].
    apply (Permutation_flat_map strokes). apply (picture_unique (seen r ts)); [exact M3|]. exact (picture_perm _ _ _ (Permutation_sym (seen_perm r _ _ P)) N3).
Qed.
