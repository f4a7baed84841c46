(** ExPict.v - concrete pictures in exact arithmetic. *)
From Coq Require Import Reals Lra Permutation.
From Verif Require Import Base Num NumReal Geo Stl GeoSpec RealSpec HideSpec Env Ast Ps Draw DocSpec NumF64 NumLaws EnvEx ExGeo DimSpec P_Base P_Total P_Real P_Span P_Span2 P_Pict P_Move ExReal ExLang ExDim RealSpec PictSpec.

Local Unset Implicit Arguments.
Local Open Scope R_scope.

Lemma two_not_crowded r u v a b : ~ crowded (seen r [u; v]) a b.
Proof.
  intros (t & t' & w & rest & P & _). apply Permutation_length in P. unfold seen in P. simpl in P. destruct (facingb (turned r u)), (facingb (turned r v)); discriminate P.
Qed.
Lemma facing_b t : facing t -> facingb t = true.
Proof. unfold facing, facingb. intro H. destruct (Rlt_dec 0 (rz (tn t))); [reflexivity|contradiction]. Qed.
Lemma turned_id t : turned ex_id t = t.
Proof. destruct t as [n a b c q]. unfold turned. cbn [tn t0 t1 t2 tr]. f_equal; apply pt_ext; unfold ex_id; rgeo; lra. Qed.
Lemma seen_id u v : facing u -> facing v -> seen ex_id [u; v] = [u; v].
Proof. intros U V. unfold seen. cbn [map filter]. rewrite !turned_id, (facing_b u U), (facing_b v V). reflexivity. Qed.

(** ** The small triangle under the big one *)
Lemma ex_seen : seen ex_id ex_tris = ex_tris.
Proof. apply seen_id; unfold facing; simpl; lra. Qed.
Lemma ex_uncrowded a b : ~ crowded (seen ex_id ex_tris) a b.
Proof. apply two_not_crowded. Qed.
(** A side of the small triangle is outlined, and the big one hides all of it. *)
Lemma ex_under : outlined ex_tris (P3 1 1 0) (P3 2 1 0) /\ forall x, 0 <= x <= 1 -> hides ex_big (P3 1 1 0) (P3 2 1 0) x.
Proof.
  split; [split; [left; simpl; lra|split]|].
  - exists ex_low. split; [right; left; reflexivity|]. left. left. reflexivity.
  - intros (t & u & rest & P & O1 & O2 & _). apply Permutation_sym, (Permutation_trans (Permutation_refl _)) in P.
    assert (NB : ~ own ex_big (P3 1 1 0) (P3 2 1 0)). { intros [O|O]; simpl in O; repeat destruct O as [O|O]; try exact O; injection O; intros; lra. }
    assert (HB : In ex_big [t; u]). { pose proof (Permutation_length P) as L. destruct rest; [|discriminate L]. apply (Permutation_in _ (Permutation_sym P)). left. reflexivity. }
    destruct HB as [->|[->|[]]]; contradiction.
  - intros x X. split.
    + intros [O|O]; simpl in O; repeat destruct O as [O|O]; try exact O; injection O; intros; lra.
    + exists 0, 1. split; [lra|]. split; [exact X|]. split; left; (split; [auto|]).
      * eexists. split; [exists (1/2), (1/4), (1/4); repeat split; try lra; rgeo; lra|]. rgeo. lra.
      * eexists. split; [exists (1/4), (1/2), (1/4); repeat split; try lra; rgeo; lra|]. rgeo. lra.
Qed.
(** A side of the small triangle seen from straight above, strictly behind the inside of the big one and not touching it. *)
Lemma ex_clear : ~ meets (turned ex_id ex_big) (P3 1 1 0) (P3 2 1 0) /\ behind (turned ex_id ex_big) (between (P3 1 1 0) (P3 2 1 0) (1 / 2)).
Proof.
  rewrite turned_id. split.
  - intros (x & X & a & b & c & A & B & C & S & E). apply (f_equal rz) in E. rgeo. lra.
  - eexists. split; [exists (3/8), (3/8), (1/4); repeat split; try lra|]. rgeo. repeat split; lra.
Qed.

(** ** A triangle that pierces a bigger one *)
Definition ex_floor : tri := T3 (P3 0 0 1) (P3 0 0 0) (P3 10 0 0) (P3 0 10 0) 0.
Definition ex_wedge : tri := T3 (P3 (4 / 5) 0 (3 / 5)) (P3 1 1 2) (P3 4 1 (-2)) (P3 1 2 2) 2.
Definition ex_cut : list tri := [ex_floor; ex_wedge].
Lemma cut_proper : Forall proper ex_cut.
Proof. repeat constructor; rgeo; lra. Qed.
Lemma cut_seen : seen ex_id ex_cut = ex_cut.
Proof. apply seen_id; unfold facing; simpl; lra. Qed.
Lemma cut_outlined : outlined ex_cut (P3 1 1 2) (P3 4 1 (-2)).
Proof.
  split; [left; simpl; lra|]. split; [exists ex_wedge; split; [right; left; reflexivity|]; left; left; reflexivity|].
  intros (t & u & rest & P & O1 & O2 & _).
  assert (NB : ~ own ex_floor (P3 1 1 2) (P3 4 1 (-2))) by (intros [O|O]; simpl in O; repeat destruct O as [O|O]; try exact O; injection O; intros; lra).
  assert (HB : In ex_floor [t; u]). { pose proof (Permutation_length P) as L. destruct rest; [|discriminate L]. apply (Permutation_in _ P). left. reflexivity. }
  destruct HB as [->|[->|[]]]; contradiction.
Qed.
Lemma cut_stop x : stop ex_floor (P3 1 1 2) (P3 4 1 (-2)) x -> x = 1.
Proof.
  intros [[[->| ->] (w & (a & b & c & A & B & C & S & -> & EX & EY) & Z)]|(X & p & q & i & I & K & HI & EX & EY & EZ)]; [exfalso; rgeo; lra|reflexivity|exfalso].
  unfold askew in K. destruct I as [I|[I|[I|[]]]]; injection I as <- <-; rgeo; [apply K; lra| |]; lra.
Qed.
Lemma cut_not_hidden t x : In t ex_cut -> ~ hides t (P3 1 1 2) (P3 4 1 (-2)) x.
Proof.
  intros [<-|[<-|[]]] (O & u & v & UV & X & SU & SV).
  - apply cut_stop in SU, SV. lra.
  - apply O. left. left. reflexivity.
Qed.
Lemma pierced : exists (s : @stl XR) (ts : list tri) (r : rmat) m ss, facets s = map embf ts /\ Forall proper ts /\ rotation r /\ (forall a b, ~ crowded (seen r ts) a b) /\
  rotate s (embm r) = Ret m /\ to_lines m = Ret (flat_map strokes ss) /\ picture (seen r ts) ss /\
  exists st t x, In st ss /\ In t (seen r ts) /\ 0 <= x <= 1 /\ behind t (between (sa st) (sb st) x) /\ drawn st x.
Proof.
  destruct (view_picture (Stl (map embf ex_cut) [] [] 0) ex_cut ex_id eq_refl cut_proper ex_rotation (fun a b => two_not_crowded _ _ _ a b)) as (m & ss & H1 & H2 & H3).
  exists (Stl (map embf ex_cut) [] [] 0), ex_cut, ex_id, m, ss. split; [reflexivity|]. split; [exact cut_proper|]. split; [exact ex_rotation|]. split; [intros a b; apply two_not_crowded|].
  split; [exact H1|]. split; [exact H2|]. split; [exact H3|]. destruct H3 as (_ & O & L). rewrite cut_seen in *.
  pose proof (proj2 (O _ _) cut_outlined) as I. apply in_map_iff in I. destruct I as (st & E & Hst). injection E as EA EB.
  exists st, ex_floor, (3 / 4). split; [exact Hst|]. split; [left; reflexivity|]. split; [lra|]. destruct (L st Hst) as (_ & D & _). rewrite EA, EB in *. split.
  - eexists. split; [exists (575/1000), (325/1000), (1/10); repeat split; try lra|]. rgeo. repeat split; lra.
  - apply D; [lra|]. intros (t & Ht & HT). exact (cut_not_hidden t _ Ht HT).
Qed.

(** ** The same model twice as big and elsewhere, drawn at half the scale *)
Definition ex_moved : list tri := map (moved_tri 2 (P3 5 (-1) 3)) ex_tris.
Definition at_scale (a b : Z) : list (@meta XR) := [Meta (B "scale") (MScale a b) (Loc [] 0); Meta (B "@") (MLoc (emb2 1 (-2))) (Loc [] 0)].
Lemma ex_draw (E : @Env XR) ts a b : Forall proper ts -> exists s1, visit_draw [(B "m", Some (Stl (map embf ts) [] [] 0))] (Loc [] 0) (B "m") (at_scale a b) [] vst_init = Ret (s1, [], true).
Proof.
  intro HP. destruct (view_lines (Stl (map embf ts) [] [] 0) ts ex_id eq_refl HP ex_rotation) as (m & ss & R & T & _).
  pose proof (real_points (Stl (map embf ts) [] [] 0) ts _ _ eq_refl HP ex_rotation R) as SO.
  assert (Z : embm ex_id = mZP) by reflexivity. rewrite Z in R. eexists.
  set (mo := Stl (map embf ts) [] [] 0) in *. clearbody mo.
  unfold visit_draw. cbn -[rotate to_lines limits cull_back_face nsub nmul nadd ndiv of_Z proj_scale add_lines add_dims mZP]. rewrite R. cbn [obind].
  rewrite (rotated_culled _ _ _ R), T. cbn [obind]. unfold add_dims. rewrite SO. reflexivity.
Qed.
Lemma ex_two_sizes (E : @Env XR) : let st ts := [(B "m", Some (Stl (map embf ts) [] [] 0))] in
  (exists s1, visit_draw (st ex_tris) (Loc [] 0) (B "m") (at_scale 1 1) [] vst_init = Ret (s1, [], true)) /\
  (exists s1, visit_draw (st ex_moved) (Loc [] 0) (B "m") (at_scale 1 2) [] vst_init = Ret (s1, [], true)) /\
  asks_view (at_scale 1 1) (embm ex_id) /\ asks_view (at_scale 1 2) (embm ex_id) /\ asks_scale (at_scale 1 1) 1 1 /\ asks_scale (at_scale 1 2) 1 2 /\ 2 * (IZR 1 / IZR 2) = IZR 1 / IZR 1 /\
  asks_place (at_scale 1 1) (72 * 1 + 396) (72 * -2 + 306) /\ asks_place (at_scale 1 2) (72 * 1 + 396) (72 * -2 + 306).
Proof.
  intro st. split; [apply ex_draw; exact ex_proper|]. split; [apply ex_draw; unfold ex_moved; apply Forall_forall; intros t Ht; apply in_map_iff in Ht; destruct Ht as (t' & <- & Ht');
    apply proper_moved; [lra|exact (proj1 (Forall_forall _ _) ex_proper _ Ht')]|].
  assert (N : forall a b, ~ has (at_scale a b) "view") by (intros a b; unfold has; simpl; intros [K|[K|[]]]; discriminate K).
  assert (Z : embm ex_id = mZP) by reflexivity. rewrite Z. split; [apply AV_default, N|]. split; [apply AV_default, N|]. split; [eapply AS_given; [left; reflexivity|reflexivity..]|]. split; [eapply AS_given; [left; reflexivity|reflexivity..]|]. split; [lra|].
  split; left; do 3 eexists; (split; [right; left; reflexivity|]); repeat split; reflexivity.
Qed.

(** ** Three facets at one side *)
Definition fin_right : @facet ExA := mk_facet (pt 0 0 1) (pt 0 0 0) (pt 1 0 0) (pt 0 1 0).
Definition fin_left : @facet ExA := mk_facet (pt 0 0 1) (pt 0 0 0) (pt 0 1 0) (pt (-1) 0 0).
Definition fin_up : @facet ExA := mk_facet (pt 0 0 1) (pt 0 0 0) (pt 0 1 0) (pt (-1) 0 1).
Definition line_count (fs : list (@facet ExA)) : option nat :=
  match rotate (Stl fs [] [] 0) mZP with Ret m => match to_lines m with Ret l => Some (length l) | Abort _ => None end | Abort _ => None end.
Lemma counted fs n : line_count fs = Some n -> exists m ls, rotate (Stl fs [] [] 0) (@mZP ExA) = Ret m /\ to_lines m = Ret ls /\ length ls = n.
Proof.
  unfold line_count. destruct (rotate _ _) as [m|]; [|discriminate]. destruct (to_lines m) as [ls|] eqn:T; [|discriminate]. intro H. injection H as <-. eauto.
Qed.
Lemma fin_order : exists (A : Arith) (fs fs' : list (@facet A)) m m' ls ls', ordered A /\ Permutation fs fs' /\
  rotate (Stl fs [] [] 0) mZP = Ret m /\ rotate (Stl fs' [] [] 0) mZP = Ret m' /\ to_lines m = Ret ls /\ to_lines m' = Ret ls' /\ length ls <> length ls'.
Proof.
  destruct (counted [fin_right; fin_left; fin_up] 5 ltac:(vm_compute; reflexivity)) as (m & ls & R & T & L).
  destruct (counted [fin_right; fin_up; fin_left] 4 ltac:(vm_compute; reflexivity)) as (m' & ls' & R' & T' & L').
  exists ExA, [fin_right; fin_left; fin_up], [fin_right; fin_up; fin_left], m, m', ls, ls'. split; [apply F64_ordered|]. split; [apply perm_skip, perm_swap|].
  split; [exact R|]. split; [exact R'|]. split; [exact T|]. split; [exact T'|]. rewrite L, L'. discriminate.
Qed.
