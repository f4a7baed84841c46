(** Prop_More.v - the files a run touches, and changes of a script that do not
    change its output. *)
From Coq Require Import Reals.
From Verif Require Import Base Num NumReal Geo Stl StlRead Env Ast Lexer Parser Ps Draw Main Grammar DocSpec LangSpec PrintSpec ShuffleSpec
  P_Files P_Shuffle EnvEx ExDoc ExDoc2 ExFin ExMore.

(** ** C54, continued *)
Theorem C54_layout_does_not_change_the_output : forall (A : Arith) (E : Env) fs src ws s s', arranged ws s -> arranged ws s' ->
  (converts fs src s <-> converts fs src s') /\
  forall r r', script_to_ps fs src s = Ret r -> script_to_ps fs src s' = Ret r' -> r_ok r = r_ok r' /\ r_out r = r_out r'.
Proof. exact @layout_output. Qed.
Print Assumptions C54_layout_does_not_change_the_output.

(** ** C70 *)
Theorem C70_inputs_are_never_changed_refuted : exists (A : Arith) (E : Env) script output cw fs lg c,
  fs script = Some c /\ fst (main script output cw fs) = Exit 0 lg /\ snd (main script output cw fs) script <> Some c.
Proof. exact script_lost. Qed.
Print Assumptions C70_inputs_are_never_changed_refuted.
(** The missing case is an input that is also the output. *)
Theorem C70_inputs_are_never_changed_partial : forall (A : Arith) (E : Env) script output cw fs p,
  p <> output -> snd (main script output cw fs) p = fs p.
Proof. exact @others_kept. Qed.
Print Assumptions C70_inputs_are_never_changed_partial.
Example C70_example : B "s" <> B "o" /\ all_files (B "s") = Some ex_script /\ all_files (B "lib/t.stl") <> None.
Proof. exact input_kept. Qed.

(** ** C71 *)
Theorem C71_a_missing_script_keeps_the_output_refuted : exists (A : Arith) (E : Env) script output cw fs e c,
  script <> output /\ fs script = None /\ fs output = Some c /\ c <> [] /\ main script output cw fs = (Died e, fs_set output [] fs).
Proof. exact output_lost. Qed.
Print Assumptions C71_a_missing_script_keeps_the_output_refuted.
(** The output is kept only when it cannot be opened; a missing script always loses it. *)
Theorem C71_a_missing_script_keeps_the_output_partial : forall (A : Arith) (E : Env) script output cw fs,
  (cw output = false -> snd (main script output cw fs) = fs) /\
  (script <> [] -> output <> [] -> cw output = true -> script <> output -> fs script = None ->
   exists e, fst (main script output cw fs) = Died e /\ snd (main script output cw fs) output = Some []).
Proof. exact (fun A E script output cw fs => conj (unwritable_kept script output cw fs) (unreadable_lost script output cw fs)). Qed.
Print Assumptions C71_a_missing_script_keeps_the_output_partial.
Example C71_example : B "no" <> B "s" /\ all_files (B "no") = None /\ all_files (B "s") <> None.
Proof. repeat split; discriminate. Qed.

(** ** C72 *)
Theorem C72_order_of_loads_and_properties : forall (A : Arith) (E : Env) fs src c c' d d',
  parses src c d -> parses src c' d' -> shuffled d d' ->
  (converts fs src c <-> converts fs src c') /\
  forall r r', script_to_ps fs src c = Ret r -> script_to_ps fs src c' = Ret r' -> r_ok r = r_ok r' /\ r_out r = r_out r'.
Proof. exact @order_irrelevant. Qed.
Print Assumptions C72_order_of_loads_and_properties.
(** Two loads swapped. *)
Example C72_loads : forall (A : Arith) (E : Env), ex_one_order <> ex_other_order /\
  exists d d', parses (B "s") ex_one_order d /\ parses (B "s") ex_other_order d' /\ shuffled d d'.
Proof. exact @two_orders. Qed.
(** The properties of a page and of a dimension swapped; the script converts. *)
Example C72_properties : fin_script <> fin_other /\ (exists d d', @parses XR DgE (B "s") fin_script d /\ @parses XR DgE (B "s") fin_other d' /\ shuffled d d') /\
  @converts XR DgE fin_files (B "s") fin_script.
Proof. exact (conj (proj1 (other_order digit_of)) (conj (proj2 (other_order digit_of)) fin_converts)). Qed.
