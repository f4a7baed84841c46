(** Prop_Say.v - the messages a wrong script gets. *)
From Verif Require Import Base Num NumF64 Geo Stl StlRead Env Ast Lexer Parser Ps Draw Main DocSpec ValidSpec MsgSpec SaySpec
  EnvEx ExDoc ExMsg ExSay P_Say3.

(** ** C84: the defects of every page, item and dimension are reported, each at
    its place, in one run. *)
Theorem C84_defects_are_reported : forall (A : Arith) (E : Env) fs src c r d l m,
  script_to_ps fs src c = Ret r -> parses src c d -> must_say fs d l m -> In (DSym l m) (r_log r).
Proof. exact @defects_told. Qed.
Print Assumptions C84_defects_are_reported.
Theorem C84_files_with_defects_are_not_converted : forall (A : Arith) (E : Env) fs src c r d l m,
  script_to_ps fs src c = Ret r -> parses src c d -> must_say fs d l m -> r_ok r = false /\ r_out r = [].
Proof. exact @defects_fail. Qed.
Print Assumptions C84_files_with_defects_are_not_converted.
Example C84_example : parses (A := ExA) (E := ExE) (B "s") ex_many d_many /\
  must_say ex_files d_many (Loc (B "s") 2) (B "title") /\ must_say ex_files d_many (Loc (B "s") 3) (B "Unknown model 'u'") /\
  must_say ex_files d_many (Loc (B "s") 5) (B "Missing 'dir'") /\ must_say ex_files d_many (Loc (B "s") 6) (B "colour") /\
  must_say ex_files d_many (Loc (B "s") 7) (B "Duplicate page property 'name'").
Proof. split; [exact many_parses|]. destruct many_sees as (f & ps & r & RA & SE). exact (many_must _ _ _ _ RA SE). Qed.
Example C84_example_log : log_of ex_many = Some (false,
  [DSym (Loc (B "s") 3) (B "Unknown model 'u'"); DSym (Loc (B "s") 5) (B "Missing 'dir'"); DSym (Loc (B "s") 5) (B "Missing 'from'");
   DSym (Loc (B "s") 5) (B "Missing 'to'"); DSym (Loc (B "s") 6) (B "Unexepcted properties for text"); DSym (Loc (B "s") 6) (B "colour");
   DSym (Loc (B "s") 2) (B "Unexepcted properties for page 1"); DSym (Loc (B "s") 2) (B "title"); DSym (Loc (B "s") 7) (B "Duplicate page property 'name'")]).
Proof. vm_compute. reflexivity. Qed.
