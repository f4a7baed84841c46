(** ExFin2.v - a valid and an invalid script in doubles. *)
From Verif Require Import Base Num Geo Stl StlRead Env Ast Lexer Parser Ps Draw Main DocSpec ValidSpec P_Base P_Script P_Valid EnvEx ExDoc.

Lemma valid_case : exists d, parses (B "s") ex_script d /\ doc_good ex_files d.
Proof. apply convertible. destruct ex_converts as (r & H & K & _). exists r. auto. Qed.
Lemma invalid_case : exists d, parses (B "s") ex_dup d /\ ~ doc_good ex_files d.
Proof.
  exists (doc_of ex_dup). assert (P : parses (B "s") ex_dup (doc_of ex_dup)) by (apply parses_ex; vm_compute; reflexivity). split; [exact P|]. intro G.
  assert (C : converts ex_files (B "s") ex_dup) by (apply convertible; exists (doc_of ex_dup); split; assumption).
  destruct C as (r & H & K). assert (N : match script_to_ps ex_files (B "s") ex_dup with Ret r => r_ok r | _ => false end = false) by (vm_compute; reflexivity). rewrite H in N. congruence.
Qed.
