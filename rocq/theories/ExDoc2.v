(** ExDoc2.v - more concrete cases for the document theorems. *)
From Verif Require Import Base Num NumF64 Geo Stl StlRead Env Ast Lexer Parser Ps Draw Main
  P_Base P_Meta DocSpec EnvEx ExDoc.

Local Unset Implicit Arguments.
(** ** Dimensions *)
Definition pt3 (x y z : Z) : v3 := V3 (of_Z x) (of_Z y) (of_Z z).
Definition arg3 (n : string) (x y z : Z) : meta := Meta (B n) (MPoint (PVal (pt3 x y z) (Loc [] 0))) (Loc [] 0).
Definition dim_state : vst := Vst [pt3 0 0 0; pt3 0 4 0; pt3 4 0 0; pt3 0 0 4] mZP (of_Z 1) (V2 nz nz) opage_empty [].
Definition dim_ok : dim := Dim KDim (Loc [] 0) [arg3 "at" 2 5 0; arg3 "dir" 1 0 0; arg3 "from" 0 4 0; arg3 "to" 4 1 0].
Definition angle_ok : dim := Dim KAngle (Loc [] 0) [arg3 "at" 1 1 0; arg3 "apex" 0 0 0; arg3 "from_dir" 1 0 0; arg3 "to_point" 0 4 0].
Definition dia_ok : dim := Dim KDia (Loc [] 0) [arg3 "at" 6 6 0; arg3 "dir" 1 0 0; arg3 "center" 5 3 0].
Definition rad_ok : dim := Dim KRad (Loc [] 0) [arg3 "at" 6 6 0; arg3 "dir" 1 0 0; arg3 "center" 5 3 0].
Definition dim_bad : dim := Dim KDim (Loc [] 0) [arg3 "at" 2 5 0; arg3 "dir" 0 0 0; arg3 "from" 0 4 0; arg3 "to" 4 1 0].
Definition visit_gives (d : dim) (want : bool) : bool :=
  match visit_base_dim d dim_state with Ret (_, _, ok) => Bool.eqb ok want | _ => false end.
Lemma visit_gives_spec d w : visit_gives d w = true -> exists s' d', visit_base_dim d dim_state = Ret (s', d', w).
Proof.
  unfold visit_gives. destruct (visit_base_dim d dim_state) as [[[s' d'] ok]|]; [|discriminate]. intro H. apply Bool.eqb_prop in H. subst ok. eauto.
Qed.
Lemma dims_go : (forall d, In d [dim_ok; angle_ok; dia_ok; rad_ok] -> exists s' d', visit_base_dim d dim_state = Ret (s', d', true)) /\
  exists s' d', visit_base_dim dim_bad dim_state = Ret (s', d', false).
Proof.
  split; [|apply visit_gives_spec; vm_compute; reflexivity].
  intros d [ <- |[ <- |[ <- |[ <- |[]]]]]; apply visit_gives_spec; vm_compute; reflexivity.
Qed.

(** ** Draws *)
Definition draw_gives (ml : list meta) (ds : list dim) : bool :=
  match visit_draw ex_st (Loc [] 0) (B "t") ml ds vst_init with Ret (_, _, ok) => ok | _ => false end.
Lemma draw_gives_spec ml ds : draw_gives ml ds = true -> exists s1 ds1, visit_draw ex_st (Loc [] 0) (B "t") ml ds vst_init = Ret (s1, ds1, true).
Proof. unfold draw_gives. destruct (visit_draw _ _ _ _ _ _) as [[[s' d'] ok]|]; [|discriminate]. intros ->. eauto. Qed.
Definition half : meta := Meta (B "scale") (MScale 1 2) (Loc [] 0).
Definition up_left : meta := Meta (B "@") (MLoc (V2 (of_Z (-1)) (of_Z 2))) (Loc [] 0).
Lemma draws_go : (exists s1 ds1, visit_draw ex_st (Loc [] 0) (B "t") [half; up_left] [dim_ok; angle_ok] vst_init = Ret (s1, ds1, true)) /\
  same_but_at [half; up_left] [half] /\ exists s1 ds1, visit_draw ex_st (Loc [] 0) (B "t") [half] [dim_ok; angle_ok] vst_init = Ret (s1, ds1, true).
Proof.
  split; [apply draw_gives_spec; vm_compute; reflexivity|]. split; [reflexivity|apply draw_gives_spec; vm_compute; reflexivity].
Qed.

(** ** Errors on two pages *)
Definition ex_two_errors : bytes := B "load t = ""t.stl"";
page { draw u { } draw t { dim(at=[0,0,0]); } text[""a""] { x = 1:2; } }
page { name = 1:2; draw t { view = ""Q""; } }
".
Lemma two_errors : exists os d' lg, generate_pages ex_st (doc_of ex_two_errors) = Ret (os, d', lg, false) /\ length lg = 8.
Proof.
  assert (H : match generate_pages ex_st (doc_of ex_two_errors) with Ret (_, _, lg, ok) => negb ok && (length lg =? 8) | _ => false end = true) by (vm_compute; reflexivity).
  destruct (generate_pages ex_st (doc_of ex_two_errors)) as [[[[os d'] lg] ok]|]; [|discriminate H]. exists os, d', lg.
  apply andb_true_iff in H. destruct H as [H1 H2]. apply negb_true_iff in H1. subst ok. apply Nat.eqb_eq in H2. auto.
Qed.

(** ** Processes *)
Definition all_files : files := fun p => if bytes_eqb p (B "s") then Some ex_script else ex_files p.
Lemma process_ends : exists fs', main (B "s") (B "o") (fun _ => true) all_files = (Exit 0 [], fs').
Proof.
  assert (H : match main (B "s") (B "o") (fun _ => true) all_files with (Exit 0 [], _) => true | _ => false end = true) by (vm_compute; reflexivity).
  destruct (main (B "s") (B "o") (fun _ => true) all_files) as [[[|n] [|x l]|e] fs']; try discriminate H. eauto.
Qed.
