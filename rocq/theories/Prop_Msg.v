(** Prop_Msg.v - the messages about a script. *)
From Verif Require Import Base Num NumF64 Geo Stl StlRead Env Ast Lexer Parser Grammar Ps Draw Main DocSpec ValidSpec MsgSpec
  EnvEx ExDoc ExMsg P_Msg4.

(** ** C83: every message is true of the script.  Two of them need not be: a
    repeated property of a text block is called one of a draw block, and a
    direction that has no value is called the zero vector as well. *)
Theorem C83_text_duplicates_are_miscalled_refuted : exists (A : Arith) (E : Env) fs src c r d l m,
  script_to_ps fs src c = Ret r /\ parses src c d /\ In (DSym l m) (r_log r) /\ ~ true_message fs d l m.
Proof. exact (ex_intro _ ExA (ex_intro _ ExE (ex_intro _ ex_files (ex_intro _ (B "s") (ex_intro _ ex_text2 text2_untrue))))). Qed.
Print Assumptions C83_text_duplicates_are_miscalled_refuted.
Theorem C83_missing_directions_are_called_zero_refuted : exists (A : Arith) (E : Env) fs src c r d l m,
  script_to_ps fs src c = Ret r /\ parses src c d /\ In (DSym l m) (r_log r) /\ m = B "Dimention's 'dir' must not be the zero vector" /\ ~ true_message fs d l m.
Proof. exact (ex_intro _ ExA (ex_intro _ ExE (ex_intro _ ex_files (ex_intro _ (B "s") (ex_intro _ ex_dir dir_untrue))))). Qed.
Print Assumptions C83_missing_directions_are_called_zero_refuted.
(** Missing: only what the two theorems above show to be false. *)
Theorem C83_messages_are_true_partial : forall (A : Arith) (E : Env) fs src c r d l m,
  script_to_ps fs src c = Ret r -> parses src c d -> In (DSym l m) (r_log r) ->
  r_ok r = false /\ (true_message fs d l m \/ miscalled d l m \/ not_zero fs d l m).
Proof. exact @messages_true. Qed.
Print Assumptions C83_messages_are_true_partial.
Theorem C83_messages_only_about_parsed_scripts : forall (A : Arith) (E : Env) fs src c r l m,
  script_to_ps fs src c = Ret r -> In (DSym l m) (r_log r) -> exists d, parses src c d.
Proof. exact @messages_need_parse. Qed.
Print Assumptions C83_messages_only_about_parsed_scripts.
Theorem C83_messages_name_the_line : forall (A : Arith) (E : Env) fs src c r d ts l m,
  script_to_ps fs src c = Ret r -> parses src c d -> tokens c = Ret ts ->
  doc_starts src ts d /\ (In (DSym l m) (r_log r) -> exists t, In t ts /\ l = Loc src (t_line t)).
Proof. exact @messages_placed. Qed.
Print Assumptions C83_messages_name_the_line.
Example C83_example : log_of ex_wrong = Some (false,
  [DSym (Loc (B "s") 3) (B "Duplicate page property 'name'"); DSym (Loc (B "s") 4) (B "Unknown model 'u'");
   DSym (Loc (B "s") 7) (B "Unknown function 'far'"); DSym (Loc (B "s") 7) (B "Dimention's 'dir' must not be the zero vector");
   DSym (Loc (B "s") 2) (B "Unexepcted properties for page 1"); DSym (Loc (B "s") 8) (B "colour")]).
Proof. vm_compute. reflexivity. Qed.
