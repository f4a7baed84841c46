(** Prop_Doc.v - the properties of conversions, documents and the process.
    Each theorem quantifies over every arithmetic [A] and every environment [E]
    unless it says otherwise; Print Assumptions is beneath each. *)
From Coq Require Import Reals.
From Verif Require Import Base Num NumReal NumF64 Geo Stl StlRead Env Ast Lexer Parser Ps Draw Main
  DocSpec EnvEx ExDoc ExDoc2 P_Script P_Script2 P_Script3 P_Script4 P_Why.

(** ** C01 *)
Theorem C01_failed_conversion_writes_nothing : forall (A : Arith) (E : Env) fs src c r,
  script_to_ps fs src c = Ret r -> r_ok r = false -> r_out r = [].
Proof. exact @script_fail_silent. Qed.
Print Assumptions C01_failed_conversion_writes_nothing.
Example C01_example : exists r, script_to_ps ex_files (B "s") ex_late = Ret r /\ r_ok r = false.
Proof. exact ex_late_ok. Qed.

(** ** C02 *)
Theorem C02_output_is_header_and_numbered_pages : forall (A : Arith) (E : Env) fs src c r,
  script_to_ps fs src c = Ret r -> r_ok r = true ->
  exists d st lg bs, parses src c d /\ load_files fs (doc_models d) [] = Ret (st, lg, true) /\
    r_out r = document_header src ++ concat bs /\ length bs = length (doc_pages d) /\
    forall i pg b, nth_error (doc_pages d) i = Some pg -> nth_error bs i = Some b ->
      page_block st (S i) (length (doc_pages d)) pg b.
Proof. exact @output_blocks. Qed.
Print Assumptions C02_output_is_header_and_numbered_pages.
Example C02_example : converts ex_files (B "s") ex_script.
Proof. destruct ex_converts as (r & H & K & _). exists r. split; assumption. Qed.

(** ** C03: one contribution per item, the same in every state of the visitor *)
Theorem C03_items_do_not_influence_each_other : forall (A : Arith) (E : Env) st item,
  exists o, forall s, contributes st item o s.
Proof. exact @drawable_any. Qed.
Print Assumptions C03_items_do_not_influence_each_other.
Example C03_example : exists s1 ds1 s2 ds2,
  visit_draw ex_st (Loc [] 0) (B "t") [] [] vst_init = Ret (s1, ds1, true) /\
  visit_draw ex_st (Loc [] 0) (B "t") [zero_at] [] vst_init = Ret (s2, ds2, true) /\ v_page s1 <> v_page s2.
Proof. exact at_zero_differs. Qed.

(** ** C04: does not hold; it holds when the views leave the triples alone *)
Theorem C04_generating_twice_refuted : exists (A : Arith) (E : Env) st d os d' lg os2 d2 lg2,
  generate_pages st d = Ret (os, d', lg, true) /\ generate_pages st d' = Ret (os2, d2, lg2, true) /\ os2 <> os.
Proof. exact (ex_intro _ ExA (ex_intro _ ExE twice_differs)). Qed.
Print Assumptions C04_generating_twice_refuted.
Theorem C04_generating_twice_partial : forall (A : Arith) (E : Env) st d os d' lg ok,
  view_fixes d -> generate_pages st d = Ret (os, d', lg, ok) -> generate_pages st d' = Ret (os, d', lg, ok).
Proof. exact @twice_same. Qed.
Print Assumptions C04_generating_twice_partial.
(** The hypothesis holds, in exact arithmetic, of finite triples under the default view. *)
Example C04_example : forall x y z : R,
  @mulm XR (V3 (Fin x : @num XR) (Fin y : @num XR) (Fin z : @num XR)) mZP = V3 (Fin x : @num XR) (Fin y : @num XR) (Fin z : @num XR).
Proof. exact ZP_fixes. Qed.

(** ** C05 *)
Theorem C05_triples_rotated_at_most_once : forall (A : Arith) (E : Env) st d os d' lg ok,
  generate_pages st d = Ret (os, d', lg, ok) ->
  doc_models d' = doc_models d /\ Forall2 (page_rel at_most_once) (doc_pages d) (doc_pages d') /\
  (ok = true -> Forall2 (page_rel_all multiplied_by) (doc_pages d) (doc_pages d')).
Proof. exact @generate_once. Qed.
Print Assumptions C05_triples_rotated_at_most_once.
Theorem C05_used_values_rotated_once : forall (A : Arith) (E : Env) d s s' d',
  visit_base_dim d s = Ret (s', d', true) -> uses_once s d s'.
Proof. exact @used_once. Qed.
Print Assumptions C05_used_values_rotated_once.
Example C05_example : exists st d os d' lg os2 d2 lg2,
  generate_pages st d = Ret (os, d', lg, true) /\ generate_pages st d' = Ret (os2, d2, lg2, true) /\ os2 <> os.
Proof. exact twice_differs. Qed.

(** ** C06 *)
Theorem C06_duplicate_properties_rejected : forall (A : Arith) (E : Env) fs src c d k ml,
  parses src c d -> block d k ml -> ~ NoDup (map m_name ml) -> ~ converts fs src c.
Proof. exact @dup_rejected. Qed.
Print Assumptions C06_duplicate_properties_rejected.
Example C06_example : exists d, parses (B "s") ex_dup d /\ exists k ml, block d k ml /\ ~ NoDup (map m_name ml).
Proof. exact ex_dup_ok. Qed.

(** ** C07 *)
Theorem C07_unknown_properties_rejected : forall (A : Arith) (E : Env) fs src c d k ml n,
  parses src c d -> block d k ml -> In n (map m_name ml) -> ~ In n (map B (documented k)) -> ~ converts fs src c.
Proof. exact @unknown_rejected. Qed.
Print Assumptions C07_unknown_properties_rejected.
Example C07_example : exists d, parses (B "s") ex_unknown d /\ exists k ml, block d k ml /\
  exists n, In n (map m_name ml) /\ ~ In n (map B (documented k)).
Proof. exact ex_unknown_ok. Qed.

(** ** C08 *)
Theorem C08_incomplete_dimensions_rejected : forall (A : Arith) (E : Env) fs src c d k ml,
  parses src c d -> block d k ml -> ~ complete k ml -> ~ converts fs src c.
Proof. exact @incomplete_rejected. Qed.
Print Assumptions C08_incomplete_dimensions_rejected.
Example C08_example : exists d, parses (B "s") ex_missing d /\ exists k ml, block d k ml /\ ~ complete k ml.
Proof. exact ex_missing_ok. Qed.

(** ** C09 *)
Theorem C09_duplicate_model_rejected : forall (A : Arith) (E : Env) fs src c d,
  parses src c d -> ~ NoDup (map mo_name (doc_models d)) -> ~ converts fs src c.
Proof. exact @dup_model_rejected. Qed.
Print Assumptions C09_duplicate_model_rejected.
Theorem C09_unreadable_model_rejected : forall (A : Arith) (E : Env) fs src c d m,
  parses src c d -> In m (doc_models d) ->
  (forall t, ~ resolves fs (mo_source m) t) \/ (exists t lg, resolves fs (mo_source m) t /\ stl_make t = Ret (None, lg)) ->
  ~ converts fs src c.
Proof. exact @bad_model_rejected. Qed.
Print Assumptions C09_unreadable_model_rejected.
Theorem C09_unknown_model_rejected : forall (A : Arith) (E : Env) fs src c d pg l n ml ds,
  parses src c d -> In pg (doc_pages d) -> In (DDraw l n ml ds) (pg_draws pg) ->
  ~ In n (map mo_name (doc_models d)) -> ~ converts fs src c.
Proof. exact @unknown_model_rejected. Qed.
Print Assumptions C09_unknown_model_rejected.
Theorem C09_unknown_view_rejected : forall (A : Arith) (E : Env) fs src c d pg l n ml ds x v,
  parses src c d -> In pg (doc_pages d) -> In (DDraw l n ml ds) (pg_draws pg) ->
  In x ml -> m_name x = B "view" -> m_val x = MStr v -> ~ In v view_names -> ~ converts fs src c.
Proof. exact @bad_view_rejected. Qed.
Print Assumptions C09_unknown_view_rejected.
Example C09_example : exists d, parses (B "s") ex_refs d /\ ~ NoDup (map mo_name (doc_models d)) /\
  (exists m, In m (doc_models d) /\ forall t, ~ resolves ex_files (mo_source m) t) /\
  exists pg l n ml ds, In pg (doc_pages d) /\ In (DDraw l n ml ds) (pg_draws pg) /\ ~ In n (map mo_name (doc_models d)) /\
    exists x v, In x ml /\ m_name x = B "view" /\ m_val x = MStr v /\ ~ In v view_names.
Proof. exact ex_refs_ok. Qed.

(** ** C11 *)
Theorem C11_models_are_what_their_sources_resolve_to : forall (A : Arith) (E : Env) fs ms st lg,
  load_files fs ms [] = Ret (st, lg, true) ->
  Forall (model_good fs) ms /\ NoDup (map mo_name ms) /\
  (forall n f, P_Doc.model_of st n = Some f ->
     exists m c lgm, In m ms /\ mo_name m = n /\ resolves fs (mo_source m) c /\ stl_make c = Ret (Some f, lgm)) /\
  (forall m, In m ms -> exists c f lgm, resolves fs (mo_source m) c /\ stl_make c = Ret (Some f, lgm) /\
     P_Doc.model_of st (mo_name m) = Some f).
Proof. exact @load_files_nil_ok. Qed.
Print Assumptions C11_models_are_what_their_sources_resolve_to.
Theorem C11_only_the_resolved_files_matter : forall (A : Arith) (E : Env) fs1 fs2 src c d,
  parses src c d ->
  (forall m t, In m (doc_models d) -> (resolves fs1 (mo_source m) t <-> resolves fs2 (mo_source m) t)) ->
  script_to_ps fs1 src c = script_to_ps fs2 src c.
Proof. exact @script_resolve. Qed.
Print Assumptions C11_only_the_resolved_files_matter.
Theorem C11_resolution_is_unique : forall (E : forall A : Arith, Env) (A : Arith) fs f c c',
  resolves (E := E A) fs f c -> resolves (E := E A) fs f c' -> c = c'.
Proof. exact (fun E A => @resolves_fun A (E A)). Qed.
Print Assumptions C11_resolution_is_unique.
(** A file in the second directory is found there. *)
Example C11_example : resolves ex_files (B "t.stl") ex_stl.
Proof. apply resolves_iff. vm_compute. reflexivity. Qed.

(** ** C12 *)
Theorem C12_relative_names_stay_inside_refuted : exists (A : Arith) (E : Env) fs1 fs2 src c d,
  parses src c d /\
  (forall m, In m (doc_models d) -> ~ abs_path (mo_source m) /\ no_dotdot (mo_source m)) /\
  (forall p, below p -> fs1 p = fs2 p) /\ script_to_ps fs1 src c <> script_to_ps fs2 src c.
Proof.
  exact (let '(ex_intro _ d H) := root_opened in ex_intro _ ExA (ex_intro _ E0 (ex_intro _ root_files (ex_intro _ no_files
    (ex_intro _ (B "s") (ex_intro _ ex_one (ex_intro _ d H))))))).
Qed.
Print Assumptions C12_relative_names_stay_inside_refuted.
Theorem C12_relative_names_stay_inside_partial : forall (A : Arith) (E : Env) fs1 fs2 src c d,
  parses src c d ->
  (forall es, is_entry_list flag_load_path es -> ~ In [] es) ->
  (forall m, In m (doc_models d) -> ~ abs_path (mo_source m) /\ no_dotdot (mo_source m)) ->
  (forall p, below p -> fs1 p = fs2 p) -> script_to_ps fs1 src c = script_to_ps fs2 src c.
Proof. exact @stays_below. Qed.
Print Assumptions C12_relative_names_stay_inside_partial.
(** .. escapes the directories. *)
Example C12_dotdot : exists r, script_to_ps up_files (B "s") ex_up = Ret r /\ r_ok r = true.
Proof. exact up_opened. Qed.
Example C12_example : forall es, is_entry_list (@flag_load_path _ ExE) es -> ~ In [] es.
Proof.
  intros es H. apply entry_list_iff in H. subst es. vm_compute. intros [H|[]]. discriminate H.
Qed.

(** ** C41 *)
Theorem C41_dimension_adds_all_parts_or_nothing : forall (A : Arith) (E : Env) d s s' d' ok,
  visit_base_dim d s = Ret (s', d', ok) ->
  (ok = true -> exists p, v_page s' = plus_page (v_page s) p /\ counts p = parts (d_kind d)) /\
  (ok = false -> v_page s' = v_page s).
Proof. exact @dim_parts. Qed.
Print Assumptions C41_dimension_adds_all_parts_or_nothing.
Example C41_example : (forall d, In d [dim_ok; angle_ok; dia_ok; rad_ok] -> exists s' d', visit_base_dim d dim_state = Ret (s', d', true)) /\
  exists s' d', visit_base_dim dim_bad dim_state = Ret (s', d', false).
Proof. exact dims_go. Qed.

(** ** C42 *)
Theorem C42_drawing_is_scaled_and_shifted : forall (A : Arith) (E : Env) st l n ml ds s s1 ds1,
  visit_draw st l n ml ds s = Ret (s1, ds1, true) ->
  exists a b proj ls q off, asks_scale ml a b /\ shows st n ml proj ls /\
    let sc := to_f32 (ndiv (nmul (of_Z 72) (of_Z a)) (of_Z b)) in
    v_page s1 = plus_page (v_page s) (put_page sc off (plus_page (OPage ls [] []) q)) /\
    forall l' ml' s' s1' ds1', same_but_at ml ml' -> visit_draw st l' n ml' ds s' = Ret (s1', ds1', true) ->
      exists off', v_page s1' = plus_page (v_page s') (put_page sc off' (plus_page (OPage ls [] []) q)).
Proof. exact @placed_draw. Qed.
Print Assumptions C42_drawing_is_scaled_and_shifted.
Example C42_example : (exists s1 ds1, visit_draw ex_st (Loc [] 0) (B "t") [half; up_left] [dim_ok; angle_ok] vst_init = Ret (s1, ds1, true)) /\
  same_but_at [half; up_left] [half] /\ exists s1 ds1, visit_draw ex_st (Loc [] 0) (B "t") [half] [dim_ok; angle_ok] vst_init = Ret (s1, ds1, true).
Proof. exact draws_go. Qed.

(** ** C58 *)
Theorem C58_failures_are_explained_refuted : exists (A : Arith) (E : Env) fs src c d, parses src c d /\
  exists r, script_to_ps fs src c = Ret r /\ r_ok r = false /\ r_log r = [].
Proof.
  exact (let '(ex_intro _ d H) := mute_fails in ex_intro _ ExA (ex_intro _ ExE (ex_intro _ empty_stl
    (ex_intro _ (B "s") (ex_intro _ ex_mute (ex_intro _ d H)))))).
Qed.
Print Assumptions C58_failures_are_explained_refuted.
Theorem C58_failures_are_explained_partial : forall (A : Arith) (E : Env) fs src c d r,
  parses src c d -> script_to_ps fs src c = Ret r -> r_ok r = false ->
  (exists l m, In (DSym l m) (r_log r)) \/ mute d.
Proof. exact @fails_why. Qed.
Print Assumptions C58_failures_are_explained_partial.
(** Only near() and center() can be mute. *)
Theorem C58_only_functions_are_mute_partial : forall (A : Arith) ps p,
  invoke ps p = ([], None) -> In (B "near") (map fst (funcs p)) \/ In (B "center") (map fst (funcs p)).
Proof. exact @mute_funcs. Qed.
Print Assumptions C58_only_functions_are_mute_partial.

(** ** C59 *)
Theorem C59_diagnostics_of_all_pages_in_order : forall (A : Arith) (E : Env) st d os d' lg ok,
  generate_pages st d = Ret (os, d', lg, ok) ->
  exists ls, lg = concat ls /\ Forall2 (page_says st) (doc_pages d) ls.
Proof. exact @pages_say. Qed.
Print Assumptions C59_diagnostics_of_all_pages_in_order.
Theorem C59_success_means_every_item_succeeded : forall (A : Arith) (E : Env) st d os d' lg ok,
  generate_pages st d = Ret (os, d', lg, ok) -> ok = true ->
  forall pg, In pg (doc_pages d) -> exists cs, Forall2 (always_adds st) (pg_draws pg) cs /\ Forall (fun c => c_ok c = true) cs.
Proof. exact @verdict_all. Qed.
Print Assumptions C59_success_means_every_item_succeeded.
Example C59_example : exists os d' lg, generate_pages ex_st (doc_of ex_two_errors) = Ret (os, d', lg, false) /\ length lg = 8.
Proof. exact two_errors. Qed.

(** ** C60 *)
Theorem C60_exit_status_and_output_file : forall (A : Arith) (E : Env) script output cw fs,
  let fs1 := fs_set output [] fs in
  ((script = [] \/ output = []) -> main script output cw fs = (Exit 1 [], fs)) /\
  (script <> [] -> output <> [] ->
    (forall p, p <> output -> snd (main script output cw fs) p = fs p) /\
    (cw output = true -> forall c, fs1 script = Some c ->
      (forall lg, fst (main script output cw fs) = Exit 0 lg -> converts fs1 script c) /\
      (converts fs1 script c -> exists lg, fst (main script output cw fs) = Exit 0 lg) /\
      (forall r, script_to_ps fs1 script c = Ret r ->
         main script output cw fs = (Exit (if r_ok r then 0 else 1) (r_log r), snd (main script output cw fs)) /\
         snd (main script output cw fs) output = Some (r_out r)) /\
      (~ converts fs1 script c -> snd (main script output cw fs) output = Some []))).
Proof. exact @main_spec. Qed.
Print Assumptions C60_exit_status_and_output_file.
Example C60_example : exists fs', main (B "s") (B "o") (fun _ => true) all_files = (Exit 0 [], fs').
Proof. exact process_ends. Qed.

(** ** C62: holds for texts, not for drawings *)
Theorem C62_omitted_place_refuted : exists (A : Arith) (E : Env) st l n, exists s1 ds1 s2 ds2,
  visit_draw st l n [] [] vst_init = Ret (s1, ds1, true) /\
  visit_draw st l n [Meta (B "@") (MLoc (V2 nz nz)) l] [] vst_init = Ret (s2, ds2, true) /\ v_page s1 <> v_page s2.
Proof. exact (ex_intro _ ExA (ex_intro _ ExE (ex_intro _ ex_st (ex_intro _ (Loc [] 0) (ex_intro _ (B "t") at_zero_differs))))). Qed.
Print Assumptions C62_omitted_place_refuted.
Theorem C62_omitted_place_of_text_partial : forall (A : Arith) l l' t pre post s s1 ok1 s2 ok2,
  add2 (V2 nz nz) (mul2 (V2 nz nz) (of_Z 72)) = V2 nz nz ->
  ~ has (pre ++ post) "@" ->
  visit_text l t (pre ++ post) s = Ret (s1, ok1) ->
  visit_text l t (pre ++ Meta (B "@") (MLoc (V2 nz nz)) l' :: post) s = Ret (s2, ok2) ->
  ok2 = ok1 /\ (ok1 = true -> v_page s2 = v_page s1).
Proof. exact @text_zero. Qed.
Print Assumptions C62_omitted_place_of_text_partial.
(** The hypothesis on the arithmetic holds for doubles and for exact numbers. *)
Example C62_example_double : forall lm assoc, @add2 (F64 lm assoc) (V2 nz nz) (mul2 (V2 nz nz) (of_Z 72)) = V2 nz nz.
Proof. exact zero_place_F64. Qed.
Example C62_example_exact : @add2 XR (V2 nz nz) (mul2 (V2 nz nz) (of_Z 72)) = V2 nz nz.
Proof. exact zero_place_XR. Qed.
