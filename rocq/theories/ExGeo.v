(** ExGeo.v - a small model in binary64: a unit square of two triangles and a
    triangle seen from behind. *)
From Coq Require Import Reals Lra Permutation.
From Flocq Require Import Core IEEE754.BinarySingleNaN.
From Verif Require Import Base Num NumReal NumF64 NumLaws Geo Stl Ast GeoSpec P_Base P_Order P_Part P_Index F64Spec P_Bound EnvEx P_Geo1.

Definition pt (x y z : Z) : v3 := V3 (fz_ x : num) (fz_ y : num) (fz_ z : num).
Definition ex_sq : list facet :=
  [mk_facet (pt 0 0 1) (pt 0 0 0) (pt 1 0 0) (pt 1 1 0); mk_facet (pt 0 0 1) (pt 0 0 0) (pt 1 1 0) (pt 0 1 0)].
Definition ex_back : facet := mk_facet (pt 0 0 (-1)) (pt 0 0 5) (pt 1 0 5) (pt 1 1 5).
Definition ex_stl : stl := Stl (ex_back :: ex_sq) [] [] 0.

Definition unit_num (x : f64) : bool := fle (fz_ 0) x && fle x (fz_ 1).
Definition unit_pt (p : v3) : bool := unit_num (x3 p) && unit_num (y3 p) && unit_num (z3 p).
Lemma unit_pt_bnd p : unit_pt p = true -> bnd3 ex_libm true 500 p.
Proof.
  unfold unit_pt, unit_num. rewrite !andb_true_iff. intros [[[H1 H2] [H3 H4]] [H5 H6]].
  split; [|split]; (eapply bnd_mono; [|apply bnd_unit; eassumption]; lia).
Qed.
Lemma ex_sq_bnd : Forall (bndF ex_libm true 500) ex_sq.
Proof.
  assert (C : forallb (fun f => unit_pt (fe0 f) && unit_pt (fe1 f) && unit_pt (fe2 f)) ex_sq = true) by (vm_compute; reflexivity).
  rewrite Forall_forall. rewrite forallb_forall in C. intros f Hf. specialize (C f Hf). rewrite !andb_true_iff in C. destruct C as [[C1 C2] C3].
  split; [|split]; apply unit_pt_bnd; assumption.
Qed.
Lemma ex_sq_ok : Forall (fun f => Forall comparable (corners f)) ex_sq.
Proof.
  pose proof ex_sq_bnd as H. rewrite Forall_forall in *. intros f Hf. destruct (H f Hf) as (H0 & H1 & H2).
  repeat constructor; apply (bnd_ok 500); first [apply H0|apply H1|apply H2].
Qed.
Lemma ex_sq_lines : match rotate (Stl ex_sq [] [] 0) mZP with
  | Ret r => match to_lines r with Ret ls => (length ls =? 4)%nat | Abort _ => false end
  | Abort _ => false end = true.
Proof. vm_compute. reflexivity. Qed.
Lemma ex_sq_limits : facets (Stl ex_sq [] [] 0) <> [] /\ Forall comparable (vertices (Stl ex_sq [] [] 0)) /\ length (points (Stl ex_sq [] [] 0)) = 4%nat.
Proof.
  split; [discriminate|]. split; [|vm_compute; reflexivity]. unfold vertices. cbn [facets]. pose proof ex_sq_ok as H. rewrite Forall_forall in *.
  intros p Hp. apply in_flat_map in Hp. destruct Hp as (f & Hf & Hp). specialize (H f Hf). rewrite Forall_forall in H. exact (H p Hp).
Qed.

(** The square has five edges; the diagonal is smooth. *)
Lemma ex_sq_index : match index ex_sq with Ret m => (length (edges m) =? 5)%nat && (unseen m =? 4)%nat | Abort _ => false end = true.
Proof. vm_compute. reflexivity. Qed.
Lemma ex_cull : cull_facets (ex_back :: ex_sq) <> ex_back :: ex_sq /\ length (cull_facets (ex_back :: ex_sq)) = 2%nat.
Proof.
  assert (L : length (cull_facets (ex_back :: ex_sq)) = 2%nat) by (vm_compute; reflexivity). split; [|exact L].
  intro E. rewrite E in L. discriminate L.
Qed.

Lemma ex_cross : match edge_crosses [Edge (pt 0 0 0) (pt 2 2 0); Edge (pt 0 2 1) (pt 2 0 1)] 2 with
  | Ret [[(1%nat, p)]; []] => feq (x3 p) (fz_ 1) && feq (y3 p) (fz_ 1) && feq (z3 p) (fz_ 0) | _ => false end = true.
Proof. vm_compute. reflexivity. Qed.
Lemma ex_five : match hidden_points (hd ex_back ex_sq) (0, 1, 2)%nat (Edge (pt 0 0 (-1)) (pt 1 1 (-1))) [(0%nat, pt 0 0 (-1)); (1%nat, pt 1 1 (-1)); (2%nat, pt 1 1 (-1))] with
  | Ret l => (length l =? 5)%nat | Abort _ => false end = true.
Proof. vm_compute. reflexivity. Qed.
Lemma ex_ZP_unit : unitm ex_libm true (@mZP ExA).
Proof. apply (named_unit ex_libm true (B "Z+")). reflexivity. Qed.
Lemma ex_view : fin3 ex_libm true (pt 3 4 5) /\ @matrix_by_name ExA (B "X+") = Some mXP /\ unitm ex_libm true (@mXP ExA).
Proof.
  split; [split; [|split]; vm_compute; reflexivity|]. split; [reflexivity|]. apply (named_unit ex_libm true (B "X+")). reflexivity.
Qed.
