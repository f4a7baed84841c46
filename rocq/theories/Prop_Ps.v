(** Prop_Ps.v - the properties of the PostScript output. *)
From Coq Require Import Reals.
From Flocq Require Import IEEE754.BinarySingleNaN.
From Verif Require Import Base Num NumReal NumF64 Geo Stl StlRead RealSpec Env Ast Lexer Parser Ps Draw Main DocSpec F64Spec EnvEx ExDoc ExLang
  PsSpec P_Ps P_Ps2 P_Ps3 P_Ps4 ExPs.

(** ** C43: a CR in a text comes back as LF; every other byte comes back *)
Theorem C43_text_survives_quoting_refuted : exists (A : Arith) (E : Env) fs src c d pg l t ml r toks,
  parses src c d /\ In pg (doc_pages d) /\ In (DText l t ml) (pg_draws pg) /\ ~ In LF t /\
  script_to_ps fs src c = Ret r /\ r_ok r = true /\ ps_read (r_out r) = Some toks /\ ~ In (PStr t) toks.
Proof. exact (ex_intro _ ExA (ex_intro _ ExE (ex_intro _ ex_files (ex_intro _ (B "s") (ex_intro _ ex_cr cr_lost_text))))). Qed.
Print Assumptions C43_text_survives_quoting_refuted.
Theorem C43_quoted_strings_read_back_partial : forall s, ~ In CR s -> string_body (ps_escape s) s.
Proof. exact quoted_back. Qed.
Print Assumptions C43_quoted_strings_read_back_partial.
Theorem C43_text_survives_quoting_partial : forall (A : Arith) (E : Env), (forall x : num, word_like (fmt_num x)) ->
  forall t, t_raw t = false -> ~ In CR (t_str t) -> forall before after toks, run Gap before = (Gap, toks) ->
  run Gap (before ++ text_to_ps1 t ++ after) =
    (fst (run Gap after), toks ++ show_prog (t_at t) (t_str t) (t_center t) ++ snd (run Gap after)).
Proof. exact @text_amid. Qed.
Print Assumptions C43_text_survives_quoting_partial.
Theorem C43_whole_output_reads_back_partial : forall (A : Arith) (E : Env), (forall x : num, word_like (fmt_num x)) ->
  forall fs src c r, one_line flag_name -> one_line src -> one_line now -> script_to_ps fs src c = Ret r -> r_ok r = true ->
  exists d st lg ps nn, parses src c d /\ load_files fs (doc_models d) [] = Ret (st, lg, true) /\
    Forall2 (page_shows st) (doc_pages d) ps /\ spells nn (length (doc_pages d)) /\
    (raw_ok ps -> exists progs, page_progs nn 0 ps progs /\ ps_read (r_out r) = Some (prolog ++ concat progs)).
Proof. exact @whole_program. Qed.
Print Assumptions C43_whole_output_reads_back_partial.
Example C43_example : (forall x : @num ExA, word_like (@fmt_num ExA ExE x)) /\ ~ In CR (t_str odd_text) /\ In BSLASH (t_str odd_text) /\ length (t_str odd_text) = 9.
Proof. exact (conj ex_words odd_text_ok). Qed.
Example C43_example_whole : one_line (@flag_name ExA ExE) /\ one_line (B "s") /\ one_line (@now ExA ExE) /\
  exists r, script_to_ps ex_files (B "s") ex_script = Ret r /\ r_ok r = true.
Proof. exact ex_whole. Qed.

(** ** C44: false for formats with an unbalanced parenthesis; well formed whenever the formatted number is *)
Theorem C44_diameter_labels_are_well_formed_refuted : exists (A : Arith) (E : Env) fs src c r,
  script_to_ps fs src c = Ret r /\ r_ok r = true /\ r_log r = [] /\ ps_read (r_out r) = None.
Proof. exact (ex_intro _ ExA (ex_intro _ ExE (ex_intro _ ex_files (ex_intro _ (B "s") (ex_intro _ ex_dia dia_breaks))))). Qed.
Print Assumptions C44_diameter_labels_are_well_formed_refuted.
Theorem C44_diameter_labels_are_well_formed_partial : forall (A : Arith) (E : Env) d s s' d',
  d_kind d = KDia -> visit_base_dim d s = Ret (s', d', true) ->
  exists fm x pos str, format_used (d_meta d) "%.3f" fm /\ o_text (v_page s') = o_text (v_page s) ++ [Text pos str true true] /\
    (forall w, string_body str w <-> exists v, w = oslash :: v /\ string_body (pf_format fm x) v) /\
    (harmless (pf_format fm x) -> string_body str (oslash :: line_ends (pf_format fm x))).
Proof. exact @dia_label_ok. Qed.
Print Assumptions C44_diameter_labels_are_well_formed_partial.
Example C44_example : exists r toks, script_to_ps ex_files (B "s") ex_dia_ok = Ret r /\ r_ok r = true /\ ps_read (r_out r) = Some toks /\
  In (PStr (oslash :: B "about 5 mm")) toks.
Proof. exact dia_good. Qed.

(** ** C45: false for names with line ends; true for all others *)
Theorem C45_names_stay_in_comments_refuted : exists (A : Arith) (E : Env) src toks,
  ps_read (document_header src) = Some toks /\ In (PWord (B "erasepage")) toks /\ ~ In (PWord (B "erasepage")) prolog.
Proof. exact (ex_intro _ ExA (ex_intro _ ExE (ex_intro _ bad_name name_leaks))). Qed.
Print Assumptions C45_names_stay_in_comments_refuted.
Theorem C45_names_stay_in_comments_partial : forall (A : Arith) (E : Env) src, one_line flag_name -> one_line src -> one_line now ->
  run Gap (document_header src) = (Gap, prolog).
Proof. exact @reads_header. Qed.
Print Assumptions C45_names_stay_in_comments_partial.
Example C45_example : one_line (@flag_name ExA ExE) /\ one_line (B "a %!PS (b.script") /\ one_line (@now ExA ExE).
Proof. exact ex_one_line. Qed.

(** ** C46 *)
Theorem C46_lines_of_a_text : forall l t ml s s' tx ty, @visit_text XR l t ml s = Ret (s', true) -> text_place ml tx ty ->
  exists ls, join [LF] ls = t /\ Forall (fun w => ~ In LF w) ls /\ v_page s' = plus_page (v_page s) (OPage [] [] (laid_out tx ty ls)).
Proof. exact @text_layout. Qed.
Print Assumptions C46_lines_of_a_text.
Example C46_example : exists s', @visit_text XR (Loc [] 0) ex_lines ex_place vst_init = Ret (s', true) /\ text_place ex_place (72 * 1 + 396)%R (72 * -2 + 306)%R.
Proof. exact text_example. Qed.

(** ** C47 *)
Theorem C47_title_and_its_box_come_last : forall lm asc (E : @Env (F64 lm asc)) st (d : @document (F64 lm asc)) (os : list (@opage (F64 lm asc))) d' lg,
  @generate_pages (F64 lm asc) E st d = Ret (os, d', lg, true) ->
  Forall2 (fun (pg : @page (F64 lm asc)) (p : @opage (F64 lm asc)) => exists (q : @opage (F64 lm asc)) t (x l : @num (F64 lm asc)),
    @titled (F64 lm asc) pg t /\ p = @plus_page (F64 lm asc) q (@title_box (F64 lm asc) t x l) /\ (length t <= 161 -> inside_border (length t) x l)) (doc_pages d) os.
Proof. exact titles. Qed.
Print Assumptions C47_title_and_its_box_come_last.
Example C47_example : exists st os d' lg, generate_pages st (doc_of ex_script) = Ret (os, d', lg, true) /\ length os = 2.
Proof. exact title_example. Qed.
(** With 162 bytes the box starts outside the border. *)
Example C47_limit_is_sharp : ~ inside_border 162 (ta 162) (la 162).
Proof. exact title_outside. Qed.

(** ** C48: false for scale 1:0 and for circles with a direction seen end on *)
Theorem C48_only_finite_numbers_refuted : exists lm asc (E : @Env (F64 lm asc)) fs src c w r toks,
  @script_to_ps (F64 lm asc) E fs src c = Ret r /\ r_ok r = true /\ r_log r = [] /\ ps_read (r_out r) = Some toks /\ In (PWord w) toks /\
  forall x, is_finite x = true -> @fmt_num (F64 lm asc) E x <> w.
Proof.
  exact (ex_intro _ ex_libm (ex_intro _ true (ex_intro _ ExE (ex_intro _ ex_files (ex_intro _ (B "s") (ex_intro _ ex_zero_scale (ex_intro _ (B "nan")
    (infinite_output ex_zero_scale (B "nan") eq_refl (or_introl eq_refl))))))))).
Qed.
Print Assumptions C48_only_finite_numbers_refuted.
(** The same with scale 1:1 and a dia whose direction is the viewing direction. *)
Example C48_end_on : exists r toks, script_to_ps ex_files (B "s") ex_flat_dir = Ret r /\ r_ok r = true /\ r_log r = [] /\ ps_read (r_out r) = Some toks /\
  In (PWord (B "nan")) toks /\ forall x, is_finite x = true -> @fmt_num ExA ExE x <> B "nan".
Proof. exact (infinite_output ex_flat_dir (B "nan") eq_refl (or_intror eq_refl)). Qed.
