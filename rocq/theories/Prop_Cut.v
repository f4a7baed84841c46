(** Prop_Cut.v - incomplete input and output. *)
From Verif Require Import Base Num NumF64 NumLaws Geo Stl Env EnvEx StlRead StlSpec Ps Draw Main MainIo P_Order P_MainIo P_Cut ExStl ExDoc ExDoc2.

(** ** C96: false: the state of the output stream is never looked at.  What holds: a device that
    fails changes neither the status nor the messages, and the output is the beginning of the
    drawing.  Missing: the report of the failure. *)
Theorem C96_success_means_complete_output_refuted : exists (A : Arith) (E : Env) room script output cw fs lg full,
  main script output cw fs = (Exit 0 lg, snd (main script output cw fs)) /\ snd (main script output cw fs) output = Some full /\
  fst (main_on room script output cw fs) = Exit 0 lg /\ snd (main_on room script output cw fs) output <> Some full.
Proof. exact success_but_cut. Qed.
Print Assumptions C96_success_means_complete_output_refuted.
Theorem C96_output_is_a_beginning_partial : forall (A : Arith) (E : Env) room script output cw fs,
  fst (main_on room script output cw fs) = fst (main script output cw fs) /\
  (forall p, p <> output -> snd (main_on room script output cw fs) p = fs p) /\
  (forall lg, fst (main script output cw fs) = Exit 0 lg -> exists full,
    snd (main script output cw fs) output = Some full /\ snd (main_on room script output cw fs) output = Some (firstn room full) /\
    (snd (main_on room script output cw fs) output = Some full <-> length full <= room)).
Proof. exact @device_only_cuts. Qed.
Print Assumptions C96_output_is_a_beginning_partial.
Example C96_example : exists fs', main (B "s") (B "o") (fun _ => true) all_files = (Exit 0 [], fs').
Proof. exact process_ends. Qed.

(** ** C97: false: a text cut at the end of a line is read as a smaller model.  What holds: never
    more than a beginning of the facets is read, and reading stays in bounds.  Missing: the
    rejection of a text without its last lines. *)
Theorem C97_cut_models_are_rejected_refuted : exists (A : Arith) (E : Env) a b m lg m',
  b <> [] /\ stl_make (a ++ b) = Ret (Some m, lg) /\ stl_make a = Ret (Some m', []) /\ facets m' <> facets m.
Proof. exact cut_unnoticed. Qed.
Print Assumptions C97_cut_models_are_rejected_refuted.
Theorem C97_cut_models_are_beginnings_partial : forall (A : Arith) (E : Env),
  ordered A -> (forall w x, numeral w -> re2_double w = Some x -> ok x) -> forall a b m lg, stl_make (a ++ b) = Ret (Some m, lg) ->
  (exists lg', stl_make a = Ret (None, lg')) \/
  exists m' lg' more later, stl_make a = Ret (Some m', lg') /\ facets m = facets m' ++ more /\ lg = lg' ++ later.
Proof. exact @cut_models. Qed.
Print Assumptions C97_cut_models_are_beginnings_partial.
Example C97_example : ordered ExA /\ (forall w x, numeral w -> re2_double w = Some x -> ok x) /\
  match @stl_make ExA ExE (firstn cut_at two_text ++ skipn cut_at two_text) with Ret (Some m, _) => Nat.eqb (length (facets m)) 1 | _ => false end = true.
Proof. refine (conj (F64_ordered _ _) (conj ex_numbers _)). rewrite firstn_skipn. exact whole_accepted. Qed.
