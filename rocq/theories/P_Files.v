(** P_Files.v - what a run does to the files. *)
From Verif Require Import Base Num NumF64 Geo Stl StlRead Env EnvEx Ast Lexer Parser Ps Draw Main DocSpec P_Base P_Script P_Script3 ExDoc ExDoc2.

Local Unset Implicit Arguments.
Section Files.
  Context {A : Arith} {E : Env}.
  Lemma others_kept script output cw fs p : p <> output -> snd (main script output cw fs) p = fs p.
  Proof.
    intro N. assert (K : forall c f, fs_set output c f p = f p) by (intros c f; unfold fs_set; destruct (bytes_eqb p output) eqn:Q; [apply bytes_eqb_eq in Q; congruence|reflexivity]).
    unfold main. destruct script as [|s0 s]; [reflexivity|]. destruct output as [|o0 o]; [reflexivity|].
    destruct (negb (cw (o0 :: o))); [reflexivity|]. destruct (fs_set (o0 :: o) [] fs (s0 :: s)) as [c|]; [|apply K].
    destruct (script_to_ps _ _ _); cbn [snd]; rewrite ?K; reflexivity.
  Qed.
  Lemma unwritable_kept script output cw fs : cw output = false -> snd (main script output cw fs) = fs.
  Proof. intro C. unfold main. destruct script; [reflexivity|]. destruct output; [reflexivity|]. rewrite C. reflexivity. Qed.
  Lemma unreadable_lost script output cw fs : script <> [] -> output <> [] -> cw output = true -> script <> output -> fs script = None ->
    exists e, fst (main script output cw fs) = Died e /\ snd (main script output cw fs) output = Some [].
  Proof.
    intros S O C N F. unfold main. destruct script as [|s0 s]; [congruence|]. destruct output as [|o0 o]; [congruence|]. rewrite C. cbn [negb].
    assert (Q : fs_set (o0 :: o) [] fs (s0 :: s) = None) by (unfold fs_set; destruct (bytes_eqb (s0 :: s) (o0 :: o)) eqn:Q; [apply bytes_eqb_eq in Q; congruence|exact F]).
    rewrite Q. eexists. split; [reflexivity|]. cbn [snd]. unfold fs_set. replace (bytes_eqb (o0 :: o) (o0 :: o)) with true; [reflexivity|]. symmetry. apply bytes_eqb_eq. reflexivity.
  Qed.
End Files.

(** The script is also the output. *)
Lemma script_lost : exists (A : Arith) (E : Env) script output cw fs lg c, fs script = Some c /\ fst (main script output cw fs) = Exit 0 lg /\ snd (main script output cw fs) script <> Some c.
Proof.
  exists ExA, ExE, (B "s"), (B "s"), (fun _ => true), all_files, [], ex_script. split; [reflexivity|].
  assert (H : match main (B "s") (B "s") (fun _ => true) all_files with (Exit 0 [], f) => match f (B "s") with Some c => negb (bytes_eqb c ex_script) | None => false end | _ => false end = true) by (vm_compute; reflexivity).
  destruct (main (B "s") (B "s") (fun _ => true) all_files) as [[[|n] [|x l]|e] f]; try discriminate H. split; [reflexivity|]. cbn [snd]. destruct (f (B "s")) as [c|]; [|discriminate].
  intro Q. injection Q as ->. apply negb_true_iff in H. assert (T : bytes_eqb ex_script ex_script = true) by (apply bytes_eqb_eq; reflexivity). congruence.
Qed.
Lemma output_lost : exists (A : Arith) (E : Env) script output cw fs e c, script <> output /\ fs script = None /\ fs output = Some c /\ c <> [] /\ main script output cw fs = (Died e, fs_set output [] fs).
Proof.
  exists ExA, ExE, (B "no"), (B "s"), (fun _ => true), all_files, (ACheck "in.rdstate()"), ex_script.
  split; [discriminate|]. split; [reflexivity|]. split; [reflexivity|]. split; [discriminate|]. reflexivity.
Qed.
Lemma input_kept : (B "s") <> (B "o") /\ all_files (B "s") = Some ex_script /\ all_files (B "lib/t.stl") <> None.
Proof. split; [discriminate|]. split; [reflexivity|]. vm_compute. discriminate. Qed.
