(** Prop_Bazel.v - the Bazel rule. *)
From Verif Require Import Base Num NumF64 Geo Stl StlRead Env EnvEx Ast Lexer Parser Ps Draw Main DocSpec Bazel BazelSpec P_Bazel ExDoc ExDoc2 ExBazel.

(** ** C99: the process is started with flags for which a model named by its path below its root is
    that input; where Bazel puts the generated files does not show in the drawing. *)
Theorem C99_inputs_are_found : forall (A : Arith) (E : Env) t fs f c, sandbox t fs -> tidy t -> In f (tg_inputs t) -> apart t f -> fs (b_path f) = Some c ->
  @resolves A (with_flags E (flag_value "name" (tg_args t)) (flag_value "load_path" (tg_args t))) (fs_set (b_path (tg_ps t)) [] fs) (b_below f) c.
Proof. exact (fun A E t fs f c S T => @dep_found A E t fs S T (tg_name t) f c). Qed.
Print Assumptions C99_inputs_are_found.
Theorem C99_roots_do_not_matter : forall (A : Arith) (E : Env) t1 t2 fs1 fs2 w1 w2 c,
  sandbox t1 fs1 -> sandbox t2 fs2 -> tidy t1 -> tidy t2 -> tg_name t1 = tg_name t2 -> b_path (tg_script t1) = b_path (tg_script t2) ->
  w1 (b_path (tg_ps t1)) = true -> w2 (b_path (tg_ps t2)) = true ->
  apart t1 (tg_script t1) -> apart t2 (tg_script t2) -> fs1 (b_path (tg_script t1)) = Some c -> fs2 (b_path (tg_script t2)) = Some c ->
  (forall d m, @parses A E (b_path (tg_script t1)) c d -> In m (doc_models d) ->
     exists f1 f2 x, In f1 (tg_inputs t1) /\ In f2 (tg_inputs t2) /\ apart t1 f1 /\ apart t2 f2 /\ b_below f1 = mo_source m /\ b_below f2 = mo_source m /\
       fs1 (b_path f1) = Some x /\ fs2 (b_path f2) = Some x) ->
  fst (run_action E t1 w1 fs1) = fst (run_action E t2 w2 fs2) /\
  snd (run_action E t1 w1 fs1) (b_path (tg_ps t1)) = snd (run_action E t2 w2 fs2) (b_path (tg_ps t2)).
Proof. exact @roots_do_not_matter. Qed.
Print Assumptions C99_roots_do_not_matter.
Theorem C99_only_the_output_is_written : forall (A : Arith) (E : Env) t w fs p, p <> b_path (tg_ps t) -> snd (@run_action A E t w fs) p = fs p.
Proof. exact @only_output_written. Qed.
Print Assumptions C99_only_the_output_is_written.
Example C99_example : sandbox (bz_target bin1) (bz_files bin1) /\ sandbox (bz_target bin2) (bz_files bin2) /\ tidy (bz_target bin1) /\ tidy (bz_target bin2) /\
  (forall d m, @parses ExA ExE (b_path (tg_script (bz_target bin1))) bz_script d -> In m (doc_models d) ->
    exists f1 f2 x, In f1 (tg_inputs (bz_target bin1)) /\ In f2 (tg_inputs (bz_target bin2)) /\ apart (bz_target bin1) f1 /\ apart (bz_target bin2) f2 /\ b_below f1 = mo_source m /\ b_below f2 = mo_source m /\
      bz_files bin1 (b_path f1) = Some x /\ bz_files bin2 (b_path f2) = Some x) /\
  apart (bz_target bin1) (tg_script (bz_target bin1)) /\ apart (bz_target bin2) (tg_script (bz_target bin2)) /\
  fst (@run_action ExA ExE (bz_target bin1) (fun _ => true) (bz_files bin1)) = Exit 0 [].
Proof.
  refine (conj (bz_sandbox bin1 _) (conj (bz_sandbox bin2 _) (conj (bz_tidy bin1 (or_introl eq_refl)) (conj (bz_tidy bin2 (or_intror eq_refl)) (conj bz_all
    (conj (bz_apart bin1 _ (or_introl eq_refl) _) (conj (bz_apart bin2 _ (or_intror eq_refl) _) bz_runs))))))); first [discriminate|right; right; left; reflexivity].
Qed.
