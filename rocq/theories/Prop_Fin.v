(** Prop_Fin.v - the scripts that convert, and the numbers of their output. *)
From Coq Require Import Reals.
From Verif Require Import Base Num NumReal Geo Stl StlRead RealSpec Env EnvEx Ast Lexer Parser Ps Draw Main DocSpec PsSpec FiniteSpec ValidSpec P_Finite2 P_Valid ExDoc ExFin ExFin2.

(** ** C69 *)
Theorem C69_exactly_the_valid_scripts_convert : forall (A : Arith) (E : Env) fs src c,
  converts fs src c <-> exists d, parses src c d /\ doc_good fs d.
Proof. exact @convertible. Qed.
Print Assumptions C69_exactly_the_valid_scripts_convert.
Example C69_example : (exists d, parses (B "s") ex_script d /\ doc_good ex_files d) /\
  exists d, parses (B "s") ex_dup d /\ ~ doc_good ex_files d.
Proof. exact (conj valid_case invalid_case). Qed.
(** A whole script in exact arithmetic. *)
Example C69_exact : @converts XR DgE fin_files (B "s") fin_script.
Proof. exact fin_converts. Qed.

(** ** C48: missing are negative scales and the overflow of doubles *)
Theorem C48_only_finite_numbers_partial : forall (E : @Env XR) fs src c r, (forall x, word_like (@fmt_num XR E x)) -> one_line (@flag_name XR E) -> one_line src -> one_line (@now XR E) ->
  (forall w x, @re2_double XR E w = Some x -> real x) -> (forall w x, @stof XR E w = Some x -> real x) ->
  @scales_positive XR E src c -> (forall v, @circle_dir XR E fs src c v -> ~ (x3 v = Fin 0 /\ y3 v = Fin 0)) ->
  @script_to_ps XR E fs src c = Ret r -> r_ok r = true ->
  exists d st lg ps, @parses XR E src c d /\ @load_files XR E fs (doc_models d) [] = Ret (st, lg, true) /\ Forall2 (@page_shows XR E st) (doc_pages d) ps /\
    Forall (@page_nums XR real) ps /\ (@raw_ok XR ps -> exists toks, ps_read (r_out r) = Some toks /\ @words_with XR E real toks).
Proof. exact only_finite. Qed.
Print Assumptions C48_only_finite_numbers_partial.
Example C48_exact_case : (forall x, word_like (@fmt_num XR DgE x)) /\ one_line (@flag_name XR DgE) /\ one_line (B "s") /\ one_line (@now XR DgE) /\
  (forall w x, @re2_double XR DgE w = Some x -> real x) /\ (forall w x, @stof XR DgE w = Some x -> real x) /\
  @scales_positive XR DgE (B "s") fin_script /\ (forall v, @circle_dir XR DgE fin_files (B "s") fin_script v -> ~ (x3 v = Fin 0 /\ y3 v = Fin 0)) /\
  exists r, @script_to_ps XR DgE fin_files (B "s") fin_script = Ret r /\ r_ok r = true.
Proof. exact fin_case. Qed.
