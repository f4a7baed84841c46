(** Prop_Lang.v - the properties of the script language. *)
From Coq Require Import Reals.
From Flocq Require Import IEEE754.BinarySingleNaN.
From Verif Require Import Base Num NumReal NumF64 NumLaws Geo Stl StlRead Env Ast Lexer Parser Ps Draw Main DocSpec StlSpec GeoSpec F64Spec LangSpec Grammar EndSpec PrintSpec
  P_Lex2 P_Lex3 P_Parser2 P_Parser3 P_Layout P_Print P_Lang P_Lang2 P_Lang3 P_Total EnvEx ExDoc ExStl ExLang.

(** ** C10 *)
Theorem C10_place_is_always_a_location : forall (A : Arith) (E : Env) f c d k ml x,
  parses f c d -> k = BDraw \/ k = BText -> block d k ml -> In x ml -> m_name x = B "@" -> exists v, m_val x = MLoc v.
Proof. exact @place_location. Qed.
Print Assumptions C10_place_is_always_a_location.
Theorem C10_no_script_trips_the_assertion : forall (A : Arith) (E : Env) fs src c,
  script_to_ps fs src c <> Abort (ACheck "@ is not a location").
Proof. exact @place_type. Qed.
Print Assumptions C10_no_script_trips_the_assertion.
Example C10_example : exists d, parses (B "s") ex_script d /\ exists k ml, block d k ml /\ (k = BDraw \/ k = BText) /\ exists x, In x ml /\ m_name x = B "@".
Proof. exact ex_at. Qed.

(** ** C49 *)
Theorem C49_spelled_strings_are_read_back : forall (A : Arith) (E : Env) s, ~ In NUL s -> tokens (spell s) = Ret [LTok 1 (TStr s)].
Proof. exact @spelled_back. Qed.
Print Assumptions C49_spelled_strings_are_read_back.
Theorem C49_decoding_stays_inside : forall w v, literal w v -> exists u, new_quote (cstr w) = Ret u.
Proof. exact @quote_safe. Qed.
Print Assumptions C49_decoding_stays_inside.
Theorem C49_scanning_never_fails : forall (A : Arith) (E : Env) c, exists ts, tokens c = Ret ts.
Proof. exact @tokens_total. Qed.
Print Assumptions C49_scanning_never_fails.
Example C49_example : ~ In NUL odd_string /\ literal (spell odd_string) odd_string /\ spell odd_string = B """say \""hi\\\"" \n?""".
Proof. exact odd_ok. Qed.

(** ** C50: false for literals with NUL bytes; holds for all others *)
Theorem C50_no_part_is_lost_refuted : exists (A : Arith) (E : Env) w v u, literal w v /\ tokens w = Ret [LTok 1 (TStr u)] /\ u <> v.
Proof. exact part_lost. Qed.
Print Assumptions C50_no_part_is_lost_refuted.
Theorem C50_no_part_is_lost_partial : forall (A : Arith) (E : Env) w v, literal w v -> ~ In NUL w -> tokens w = Ret [LTok 1 (TStr v)].
Proof. exact @literal_token. Qed.
Print Assumptions C50_no_part_is_lost_partial.
Example C50_example : literal (spell odd_string) odd_string /\ ~ In NUL (spell odd_string).
Proof. exact (conj (spell_literal _) (spell_nul _ (proj1 odd_ok))). Qed.

(** ** C51 *)
Theorem C51_every_byte_once : forall s, exists l, scan_all s = Some l /\ flat_map lx_text l = s /\
  Forall (fun x => lx_text x <> [] /\ piece (lx_act x) (lx_text x)) l /\
  forall pre x post, l = pre ++ x :: post -> lx_act x <> ASkip -> lx_line x = 1 + newlines (flat_map lx_text pre).
Proof. exact @every_byte_once. Qed.
Print Assumptions C51_every_byte_once.
Theorem C51_tokens_are_the_pieces_that_are_not_skipped : forall (A : Arith) (E : Env) s l, scan_all s = Some l ->
  exists ts, tokens s = Ret ts /\ map t_line ts = map lx_line (filter not_skipped l).
Proof. exact @token_lines. Qed.
Print Assumptions C51_tokens_are_the_pieces_that_are_not_skipped.
Example C51_example : exists l, scan_all (B "a // b" ++ [LF; "#"%char]) = Some l /\
  map (fun x => (lx_line x, lx_text x, lx_act x)) l = [(1, B "a", AId); (1, B " ", ASkip); (1, B "// b", ASkip); (2, [LF], ASkip); (2, B "#", AError)].
Proof. eexists. split; reflexivity. Qed.

(** ** C52 *)
Theorem C52_keywords_are_whole_words : forall s l pre x post, scan_all s = Some l -> l = pre ++ x :: post ->
  (lx_act x = AId \/ (exists n, lx_act x = AKw n) <-> exists c r, lx_text x = c :: r /\ letter c) /\
  ((exists c r, lx_text x = c :: r /\ letter c) -> word (lx_text x) /\ match flat_map lx_text post with [] => True | d :: _ => ~ wordy d end /\
    ((exists n, lx_act x = AKw n /\ nth_error keywords n = Some (lx_text x)) \/ (lx_act x = AId /\ ~ In (lx_text x) keywords))).
Proof. exact @whole_words. Qed.
Print Assumptions C52_keywords_are_whole_words.
Theorem C52_identifiers_are_not_keywords : forall (A : Arith) (E : Env) c ts l n, tokens c = Ret ts -> In (LTok l (TId n)) ts -> word n /\ ~ In n keywords.
Proof. exact @id_word. Qed.
Print Assumptions C52_identifiers_are_not_keywords.
Example C52_example : tokens (B "draws draw 4draw") = Ret [LTok 1 (TId (B "draws")); LTok 1 (TKw 3); LTok 1 (TNum (match stof (B "4") with Some x => x | None => nz end)); LTok 1 (TKw 3)].
Proof. reflexivity. Qed.

(** ** C53 *)
Theorem C53_accepted_iff_derivable : forall (A : Arith) (E : Env) f c d lg,
  parse f c = Ret (0, d, lg) <-> lg = [] /\ exists ts, tokens c = Ret ts /\ g_input f ts d.
Proof. exact @parse_iff. Qed.
Print Assumptions C53_accepted_iff_derivable.
Theorem C53_token_sequences : forall (A : Arith) f el ts d, parse_input f el (S (length ts)) (Doc [] []) ts = (d, None) <-> g_input f ts d.
Proof. exact @input_iff. Qed.
Print Assumptions C53_token_sequences.
Theorem C53_unambiguous : forall (A : Arith) f ts d d', g_input f ts d -> g_input f ts d' -> d = d'.
Proof. exact (fun A f => @input_unique A f 0). Qed.
Print Assumptions C53_unambiguous.
Example C53_example : exists ts d, tokens ex_script = Ret ts /\ g_input (B "s") ts d /\ length (doc_pages d) = 2.
Proof. exact ex_derives. Qed.

(** ** C54 *)
Theorem C54_layout_does_not_matter : forall (A : Arith) (E : Env) f f' ws s s',
  arranged ws s -> arranged ws s' -> erase_answer (parse f s) = erase_answer (parse f' s').
Proof. exact @same_layout. Qed.
Print Assumptions C54_layout_does_not_matter.
Theorem C54_accepted_scripts_are_arranged_tokens : forall (A : Arith) (E : Env) f c d, parses f c d -> exists ws, arranged ws c.
Proof. exact @parsed_arranged. Qed.
Print Assumptions C54_accepted_scripts_are_arranged_tokens.
Example C54_example : exists ws s s', arranged ws s /\ arranged ws s' /\ s <> s' /\ exists d, parses (B "s") s d /\ doc_pages d <> [].
Proof. exact ex_layouts. Qed.

(** ** C55 *)
Theorem C55_printed_documents_parse_back : forall (A : Arith) (E : Env) spell_num spell_int f d s,
  printable spell_num spell_int d -> arranged (words_doc spell_num spell_int d) s ->
  exists d', parse f s = Ret (0, d', []) /\ erase d' = erase d.
Proof. exact @print_parse. Qed.
Print Assumptions C55_printed_documents_parse_back.
Theorem C55_separated_by_spaces : forall (A : Arith) (E : Env) spell_num spell_int f d,
  printable spell_num spell_int d -> exists d', parse f (spaced (words_doc spell_num spell_int d)) = Ret (0, d', []) /\ erase d' = erase d.
Proof. exact @print_spaced. Qed.
Print Assumptions C55_separated_by_spaces.
Theorem C55_parsed_documents_can_be_printed : forall (A : Arith) (E : Env) spell_num spell_int f c d,
  spells_read spell_num spell_int -> parses f c d -> printable spell_num spell_int d.
Proof. exact @parsed_printable. Qed.
Print Assumptions C55_parsed_documents_can_be_printed.
(** Such spellings exist, and documents with pages, too. *)
Example C55_example : @spells_read IntA IntE int_spell int_spell /\ exists d, @printable IntA IntE int_spell int_spell d /\ doc_pages d <> [].
Proof. exact (conj int_spells_read (let '(ex_intro _ d (conj P N)) := int_parses in ex_intro _ d (conj (parsed_printable _ _ _ _ _ int_spells_read P) N))). Qed.

(** ** C56: false when a number is too large for a float or a scale for an int;
    holds for all other scripts *)
Theorem C56_parsing_returns_refuted : exists (A : Arith) (E : Env) f c1 c2,
  match parse f c1 with Abort (AThrow _) => true | _ => false end = true /\ match parse f c2 with Abort (AUB _) => true | _ => false end = true.
Proof. exact (ex_intro _ ExA (ex_intro _ ExE (ex_intro _ (B "s") (ex_intro _ big_number (ex_intro _ big_scale (conj big_throws big_scale_ub)))))). Qed.
Print Assumptions C56_parsing_returns_refuted.
Theorem C56_parsing_returns_partial : forall (A : Arith) (E : Env) f c,
  (forall w, numeral_in c w -> exists x, stof w = Some x /\ to_int x <> None) -> exists rc d lg, parse f c = Ret (rc, d, lg) /\ (rc = 0 \/ rc = 1).
Proof. exact @parse_returns. Qed.
Print Assumptions C56_parsing_returns_partial.
Example C56_example : forall w, numeral_in ex_script w -> exists x, stof w = Some x /\ to_int x <> None.
Proof. exact ex_readable. Qed.

(** ** C57: false of scales that are not whole numbers; the scale is what
    remains of the numbers as int *)
Theorem C57_scale_magnifies_refuted : exists (A : Arith) (E : Env) fs, exists x y r r', stof (B "1.5") = Some x /\ stof (B "1") = Some y /\ (y <? x)%num = true /\
  script_to_ps fs (B "s") (scaled (B "1.5")) = Ret r /\ script_to_ps fs (B "s") (scaled (B "1")) = Ret r' /\ r_ok r = true /\ r_ok r' = true /\ r_out r = r_out r'.
Proof. exact (ex_intro _ ExA (ex_intro _ ExE (ex_intro _ ex_files scale_lost))). Qed.
Print Assumptions C57_scale_magnifies_refuted.
Theorem C57_scale_as_written_partial : forall (A : Arith) (E : Env) f c d pg l n ml ds m a b,
  parses f c d -> In pg (doc_pages d) -> In (DDraw l n ml ds) (pg_draws pg) -> In m ml -> m_val m = MScale a b ->
  exists us w1 w2 vs x y, arranged (us ++ m_name m :: B "=" :: w1 :: B ":" :: w2 :: vs) c /\ stof w1 = Some x /\ to_int x = Some a /\ stof w2 = Some y /\ to_int y = Some b.
Proof. exact @scale_words. Qed.
Print Assumptions C57_scale_as_written_partial.
Theorem C57_scale_magnifies_partial : forall (E : @Env XR) st l n ml ds s s1 ds1 a b,
  visit_draw st l n ml ds s = Ret (s1, ds1, true) -> asks_scale ml a b -> b <> 0%Z ->
  exists proj ls q off, shows st n ml proj ls /\
    v_page s1 = plus_page (v_page s) (put_page (Fin (72 * (IZR a / IZR b)) : @num XR) off (plus_page (OPage ls [] []) q)).
Proof. exact @real_scale. Qed.
Print Assumptions C57_scale_magnifies_partial.
Example C57_example : exists d, parses (B "s") ex_script d /\ exists pg l n ml ds m, In pg (doc_pages d) /\ In (DDraw l n ml ds) (pg_draws pg) /\ In m ml /\ m_val m = MScale 1 2.
Proof. exact ex_scale. Qed.
(** A draw of two triangles succeeds in exact arithmetic. *)
Example C57_example_real : exists (E : @Env XR) st ml s1, visit_draw st (Loc [] 0) (B "m") ml [] vst_init = Ret (s1, [], true) /\ asks_scale ml 3 2.
Proof. exact real_draw. Qed.

(** ** C63 *)
Theorem C63_reasons_to_end : forall (A : Arith) (E : Env), ordered A -> ok (nz : num) -> (forall w x, numeral w -> re2_double w = Some x -> ok x) ->
  forall fs src c e, script_to_ps fs src c = Abort e -> reason fs src c e.
Proof. exact @reasons. Qed.
Print Assumptions C63_reasons_to_end.
Theorem C63_complete_list : forall (A : Arith) (E : Env) fs src c e, script_to_ps fs src c = Abort e ->
  In e [AThrow "std::stof"; AUB "Scale: float to int out of range"; AUB "e[0..2] of a vector with fewer than three points";
        AUB "std::map without a strict weak ordering"; AUB "std::set without a strict weak ordering"; AUB "std::sort without a strict weak ordering";
        ACheck "Points out of order"; ACheck "Hidden section reversed"; ACheck "Null rotation"]%string.
Proof. exact @abort_list. Qed.
Print Assumptions C63_complete_list.
Example C63_example : ordered ExA /\ ok (nz : @num ExA) /\ (forall w x, numeral w -> re2_double w = Some x -> ok x) /\
  exists e, script_to_ps ex_files (B "s") big_number = Abort e.
Proof. exact (conj (F64_ordered _ _) (conj ex_zero (conj ex_numbers big_ends))). Qed.
Example C63_example_vast : script_to_ps vast_files (B "s") vast_script = Abort (ACheck "Points out of order").
Proof. exact vast_ends. Qed.

(** ** C64 *)
Theorem C64_conversions_end : forall (lm : libm) (asc : bool) (E : @Env (F64 lm asc)) fs src c,
  trig_sane lm -> (forall w x, numeral w -> re2_double (Env := E) w = Some x -> is_nan x = false) ->
  (forall w, numeral_in c w -> exists x, stof (Env := E) w = Some x /\ to_int x <> None) ->
  (forall d m t, parses (E := E) src c d -> In m (doc_models d) -> resolves (E := E) fs (mo_source m) t -> plain_model lm asc t) ->
  (forall d pg l n ml ds x a, parses (E := E) src c d -> In pg (doc_pages d) -> In (DDraw l n ml ds) (pg_draws pg) -> In x ml -> m_name x = B "view" -> m_val x = MLoc a ->
     bnd 1000 (x2 a) /\ bnd 1000 (y2 a)) ->
  exists r, script_to_ps (E := E) fs src c = Ret r.
Proof. exact conversions_end. Qed.
Print Assumptions C64_conversions_end.
Example C64_example : trig_sane flat_libm /\ (forall w x, numeral w -> re2_double (Env := FlatE) w = Some x -> is_nan x = false) /\
  (forall w, numeral_in flat_script w -> exists x, stof (Env := FlatE) w = Some x /\ to_int x <> None) /\
  (forall d m t, parses (E := FlatE) (B "s") flat_script d -> In m (doc_models d) -> resolves (E := FlatE) flat_files (mo_source m) t -> plain_model flat_libm true (E := FlatE) t) /\
  (exists d, parses (E := FlatE) (B "s") flat_script d /\ doc_models d <> [] /\ doc_pages d <> []).
Proof. exact (conj flat_sane (conj flat_numbers (conj flat_readable (conj flat_models flat_parses)))). Qed.
