(** ExReal.v - concrete triangles in exact arithmetic. *)
From Coq Require Import Reals Lra.
From Verif Require Import Base Num NumReal Geo Stl RealSpec P_Real P_Span P_Span2.

Local Unset Implicit Arguments.
Local Open Scope R_scope.

(** A big triangle at height 1 and a small one under it at height 0. *)
Definition ex_big : tri := T3 (P3 0 0 1) (P3 0 0 1) (P3 4 0 1) (P3 0 4 1) 1.
Definition ex_low : tri := T3 (P3 0 0 1) (P3 1 1 0) (P3 2 1 0) (P3 1 2 0) 0.
Definition ex_tris : list tri := [ex_big; ex_low].
Definition ex_id : rmat := RM (P3 1 0 0) (P3 0 1 0) (P3 0 0 1).
Lemma ex_proper : Forall proper ex_tris.
Proof. repeat constructor; rgeo; lra. Qed.
Lemma ex_facing : Forall facing (map (turned ex_id) ex_tris).
Proof. repeat constructor; unfold facing; simpl; lra. Qed.
Lemma ex_rotation : rotation ex_id.
Proof. apply rotation_mat; rgeo; try lra; apply pt_ext; simpl; lra. Qed.
Lemma ex_quarter : rotation (RM (P3 0 1 0) (P3 (-1) 0 0) (P3 0 0 1)).
Proof. apply rotation_mat; rgeo; try lra; apply pt_ext; simpl; lra. Qed.
(** The first side of the small triangle is strictly behind the big one and inside its outline. *)
Lemma ex_behind : lies_before (turned ex_id ex_big) (P3 1 1 0) (P3 2 1 0) /\ within (turned ex_id ex_big) (between (P3 1 1 0) (P3 2 1 0) (1 / 2)) /\
  covered (turned ex_id ex_big) (between (P3 1 1 0) (P3 2 1 0) (1 / 2)).
Proof.
  split; [|split].
  - intros x w X (a & b & c & A0 & B0 & C0 & S & -> & EX & EY). rgeo. split; [lra|intros _; lra].
  - exists (3/8), (3/8), (1/4). repeat split; try lra. eexists. split; [reflexivity|]. rgeo. lra.
  - eexists. split; [exists (3/8), (3/8), (1/4); repeat split; try lra; rgeo; lra|]. rgeo. lra.
Qed.
Lemma ex_noncollinear : rcross (rsub (P3 4 0 1) (P3 0 0 1)) (rsub (P3 0 4 1) (P3 0 0 1)) <> rzero.
Proof. intro H. apply (f_equal rz) in H. rgeo. lra. Qed.
Lemma ex_spans : P3 0 0 0 <> P3 4 0 0 /\ Forall (fun i => 0 <= fst i /\ fst i <= snd i /\ snd i <= 1) [(1/2, 3/4); (0, 1/4); (1/2, 5/8)].
Proof. split; [intro H; injection H as H; lra|]. repeat constructor; simpl; lra. Qed.
