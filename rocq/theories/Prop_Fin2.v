(** Prop_Fin2.v - finite numbers in the arithmetic the program uses. *)
From Coq Require Import ZArith.
From Flocq Require Import BinarySingleNaN.
From Verif Require Import Base Num NumF64 Geo Stl StlRead Env Ast Lexer Parser Ps Draw Main GeoSpec DocSpec PsSpec FiniteSpec StlSpec EndSpec F64Spec LookSpec FinDimSpec P_Bound P_Float P_Finite64 P_FinDim64 P_FinDim3 LangSpec EnvEx ExLang ExFin64 ExFinDim ExFinDim2 ExGeo ExPs ExNeg.

(** ** C48: missing are drawings with dimensions *)
Theorem C48_finite_doubles_partial : forall (lm : libm) (asc : bool) (E : @Env (F64 lm asc)) fs src c r,
  (forall x, word_like (@fmt_num (F64 lm asc) E x)) -> one_line (@flag_name (F64 lm asc) E) -> one_line src -> one_line (@now (F64 lm asc) E) ->
  trig_sane lm -> (forall w x, @stof (F64 lm asc) E w = Some x -> bnd 128 (x : f64)) ->
  (forall d m t ls l p, @parses (F64 lm asc) E src c d -> In m (doc_models d) -> @resolves (F64 lm asc) E fs (mo_source m) t -> lines_in t ls -> In l ls -> @says (F64 lm asc) E l (EVertex p) -> bnd3 lm asc 500 p) ->
  (forall d pg l n ml ds, @parses (F64 lm asc) E src c d -> In pg (doc_pages d) -> In (DDraw l n ml ds) (pg_draws pg) -> ds = [] /\ forall a, ~ asks_scale ml a 0) ->
  (forall d pg t, @parses (F64 lm asc) E src c d -> In pg (doc_pages d) -> titled pg t -> (Z.of_nat (length t) < 2 ^ 60)%Z) ->
  @script_to_ps (F64 lm asc) E fs src c = Ret r -> r_ok r = true ->
  let finite := fun x : @num (F64 lm asc) => is_finite (x : f64) = true in
  exists d st lg ps, @parses (F64 lm asc) E src c d /\ @load_files (F64 lm asc) E fs (doc_models d) [] = Ret (st, lg, true) /\ Forall2 (@page_shows (F64 lm asc) E st) (doc_pages d) ps /\
    Forall (page_nums finite) ps /\ (raw_ok ps -> exists toks, ps_read (r_out r) = Some toks /\ @words_with (F64 lm asc) E finite toks).
Proof. exact finite_doubles. Qed.
Print Assumptions C48_finite_doubles_partial.
(** A page with a title, a text and a drawing at scale -1:2 meets every hypothesis. *)
Example C48_doubles_case : let HA := F64 flat_libm true in
  (forall x, word_like (@fmt_num HA HalfE x)) /\ one_line (@flag_name HA HalfE) /\ one_line (B "s") /\ one_line (@now HA HalfE) /\
  trig_sane flat_libm /\ (forall w x, @stof HA HalfE w = Some x -> bnd 128 (x : f64)) /\
  (forall d m t ls l p, @parses HA HalfE (B "s") half_script d -> In m (doc_models d) -> @resolves HA HalfE flat_files (mo_source m) t -> lines_in t ls -> In l ls -> @says HA HalfE l (EVertex p) -> bnd3 flat_libm true 500 p) /\
  (forall d pg l n ml ds, @parses HA HalfE (B "s") half_script d -> In pg (doc_pages d) -> In (DDraw l n ml ds) (pg_draws pg) -> ds = [] /\ forall a, ~ asks_scale ml a 0) /\
  (forall d pg t, @parses HA HalfE (B "s") half_script d -> In pg (doc_pages d) -> titled pg t -> (Z.of_nat (length t) < 2 ^ 60)%Z) /\
  exists r, @script_to_ps HA HalfE flat_files (B "s") half_script = Ret r /\ r_ok r = true /\ r_log r = [].
Proof.
  exact (conj half_words (conj half_one1 (conj half_one2 (conj half_one3 (conj flat_sane (conj half_stof_bnd (conj half_model (conj half_draws (conj half_titles half_runs))))))))).
Qed.

(** ** C48: missing are the other dimensions and points given by center *)
Theorem C48_lengths_in_doubles_partial : forall (lm : libm) (asc : bool) (E : @Env (F64 lm asc)) fs src c r,
  (forall x, word_like (@fmt_num (F64 lm asc) E x)) -> one_line (@flag_name (F64 lm asc) E) -> one_line src -> one_line (@now (F64 lm asc) E) ->
  trig_sane lm -> (forall w x, @stof (F64 lm asc) E w = Some x -> bnd 128 (x : f64)) ->
  (forall d m t ls l p, @parses (F64 lm asc) E src c d -> In m (doc_models d) -> @resolves (F64 lm asc) E fs (mo_source m) t -> lines_in t ls -> In l ls -> @says (F64 lm asc) E l (EVertex p) -> bnd3 lm asc 400 p) ->
  @scales_positive (F64 lm asc) E src c ->
  (forall d pg l n ml ds dm, @parses (F64 lm asc) E src c d -> In pg (doc_pages d) -> In (DDraw l n ml ds) (pg_draws pg) -> In dm ds -> d_kind dm = KDim) ->
  (forall d p, @parses (F64 lm asc) E src c d -> says_point d p -> ~ has_centre p) ->
  (forall d pg t, @parses (F64 lm asc) E src c d -> In pg (doc_pages d) -> titled pg t -> (Z.of_nat (length t) < 2 ^ 60)%Z) ->
  @script_to_ps (F64 lm asc) E fs src c = Ret r -> r_ok r = true ->
  let finite := fun x : @num (F64 lm asc) => is_finite (x : f64) = true in
  exists d st lg ps, @parses (F64 lm asc) E src c d /\ @load_files (F64 lm asc) E fs (doc_models d) [] = Ret (st, lg, true) /\ Forall2 (@page_shows (F64 lm asc) E st) (doc_pages d) ps /\
    Forall (page_nums finite) ps /\ (raw_ok ps -> exists toks, ps_read (r_out r) = Some toks /\ @words_with (F64 lm asc) E finite toks).
Proof. exact finite_dims. Qed.
Print Assumptions C48_lengths_in_doubles_partial.
(** A drawing with two dimensions, one of them from a point near a given one, meets every hypothesis. *)
Example C48_lengths_case : let HA := F64 flat_libm true in
  (forall x, word_like (@fmt_num HA HalfE x)) /\ one_line (@flag_name HA HalfE) /\ one_line (B "s") /\ one_line (@now HA HalfE) /\
  trig_sane flat_libm /\ (forall w x, @stof HA HalfE w = Some x -> bnd 128 (x : f64)) /\
  (forall d m t ls l p, @parses HA HalfE (B "s") rule_script d -> In m (doc_models d) -> @resolves HA HalfE flat_files (mo_source m) t -> lines_in t ls -> In l ls -> @says HA HalfE l (EVertex p) -> bnd3 flat_libm true 400 p) /\
  @scales_positive HA HalfE (B "s") rule_script /\
  (forall d pg l n ml ds dm, @parses HA HalfE (B "s") rule_script d -> In pg (doc_pages d) -> In (DDraw l n ml ds) (pg_draws pg) -> In dm ds -> d_kind dm = KDim) /\
  (forall d p, @parses HA HalfE (B "s") rule_script d -> says_point d p -> ~ has_centre p) /\
  (forall d pg t, @parses HA HalfE (B "s") rule_script d -> In pg (doc_pages d) -> titled pg t -> (Z.of_nat (length t) < 2 ^ 60)%Z) /\
  exists r, @script_to_ps HA HalfE flat_files (B "s") rule_script = Ret r /\ r_ok r = true /\ r_log r = [].
Proof.
  exact (conj half_words (conj half_one1 (conj half_one2 (conj half_one3 (conj flat_sane (conj half_stof_bnd (conj rule_model (conj rule_scales (conj rule_kinds (conj rule_points (conj rule_titles rule_runs))))))))))).
Qed.

(** ** C48: the numbers of every kind of dimension.  Missing are dimensions at
    negative scales, and circles and directions beyond the stated bounds. *)
Theorem C48_dims_in_doubles_partial : forall (lm : libm) (asc : bool) (E : @Env (F64 lm asc)) fs src c r,
  (forall x, word_like (@fmt_num (F64 lm asc) E x)) -> one_line (@flag_name (F64 lm asc) E) -> one_line src -> one_line (@now (F64 lm asc) E) ->
  trig_sane lm -> (forall y x : f64, bnd 2 y -> bnd 2 x -> bnd 600 (l_atan2 lm y x)) -> (forall fm x, (Z.of_nat (length (@pf_format (F64 lm asc) E fm x)) < 2 ^ 60)%Z) ->
  (forall w x, @stof (F64 lm asc) E w = Some x -> bnd 128 (x : f64)) ->
  (forall d m t ls l p, @parses (F64 lm asc) E src c d -> In m (doc_models d) -> @resolves (F64 lm asc) E fs (mo_source m) t -> lines_in t ls -> In l ls -> @says (F64 lm asc) E l (EVertex p) -> bnd3 lm asc 388 p) ->
  @scales_positive (F64 lm asc) E src c ->
  (forall ps r dm ce rad, @shown_dim (F64 lm asc) E fs src c ps r dm -> @circle_used (F64 lm asc) ps r dm (ce, rad) -> bnd 390 (x2 ce : f64) /\ bnd 390 (y2 ce : f64) /\ bnd 390 (rad : f64)) ->
  (forall ps r dm v, @shown_dim (F64 lm asc) E fs src c ps r dm -> d_kind dm = KAngle -> @side_dir (F64 lm asc) ps r (d_meta dm) v -> big (x3 v) \/ big (y3 v) \/ big (z3 v)) ->
  (forall v, @circle_dir (F64 lm asc) E fs src c v -> big (x3 v) \/ big (y3 v)) ->
  (forall d pg t, @parses (F64 lm asc) E src c d -> In pg (doc_pages d) -> titled pg t -> (Z.of_nat (length t) < 2 ^ 60)%Z) ->
  @script_to_ps (F64 lm asc) E fs src c = Ret r -> r_ok r = true ->
  let finite := fun x : @num (F64 lm asc) => is_finite (x : f64) = true in
  exists d st lg ps, @parses (F64 lm asc) E src c d /\ @load_files (F64 lm asc) E fs (doc_models d) [] = Ret (st, lg, true) /\ Forall2 (@page_shows (F64 lm asc) E st) (doc_pages d) ps /\
    Forall (page_nums finite) ps /\ (raw_ok ps -> exists toks, ps_read (r_out r) = Some toks /\ @words_with (F64 lm asc) E finite toks).
Proof. exact finite_all. Qed.
Print Assumptions C48_dims_in_doubles_partial.
(** A drawing with one dimension of each kind, two of them at points given by near or center, meets every hypothesis. *)
Example C48_dims_case : let HA := F64 flat_libm true in
  (forall x, word_like (@fmt_num HA KindE x)) /\ one_line (@flag_name HA KindE) /\ one_line (B "s") /\ one_line (@now HA KindE) /\
  trig_sane flat_libm /\ (forall y x : f64, bnd 2 y -> bnd 2 x -> bnd 600 (l_atan2 flat_libm y x)) /\ (forall fm x, (Z.of_nat (length (@pf_format HA KindE fm x)) < 2 ^ 60)%Z) /\
  (forall w x, @stof HA KindE w = Some x -> bnd 128 (x : f64)) /\
  (forall d m t ls l p, @parses HA KindE (B "s") kinds_script d -> In m (doc_models d) -> @resolves HA KindE flat_files (mo_source m) t -> lines_in t ls -> In l ls -> @says HA KindE l (EVertex p) -> bnd3 flat_libm true 388 p) /\
  @scales_positive HA KindE (B "s") kinds_script /\
  (forall ps r dm ce rad, @shown_dim HA KindE flat_files (B "s") kinds_script ps r dm -> @circle_used HA ps r dm (ce, rad) -> bnd 390 (x2 ce : f64) /\ bnd 390 (y2 ce : f64) /\ bnd 390 (rad : f64)) /\
  (forall ps r dm v, @shown_dim HA KindE flat_files (B "s") kinds_script ps r dm -> d_kind dm = KAngle -> @side_dir HA ps r (d_meta dm) v -> big (x3 v) \/ big (y3 v) \/ big (z3 v)) /\
  (forall v, @circle_dir HA KindE flat_files (B "s") kinds_script v -> big (x3 v) \/ big (y3 v)) /\
  (forall d pg t, @parses HA KindE (B "s") kinds_script d -> In pg (doc_pages d) -> titled pg t -> (Z.of_nat (length t) < 2 ^ 60)%Z) /\
  exists r, @script_to_ps HA KindE flat_files (B "s") kinds_script = Ret r /\ r_ok r = true /\ r_log r = [].
Proof.
  exact (conj kinds_words (conj half_one1 (conj half_one2 (conj half_one3 (conj flat_sane (conj kinds_atan2 (conj kinds_labels (conj half_stof_bnd (conj kinds_model (conj kinds_scales (conj kinds_circles (conj kinds_sides (conj kinds_dirs (conj kinds_titles kinds_run)))))))))))))).
Qed.

(** ** C48: false for linear dimensions at negative scales, even if no scale has a zero *)
Theorem C48_negative_scale_refuted : exists lm asc (E : @Env (F64 lm asc)) fs src c w r toks,
  (exists d : @document (F64 lm asc), @parses (F64 lm asc) E src c d) /\
  (forall d pg l n ml ds, @parses (F64 lm asc) E src c d -> In pg (doc_pages d) -> In (DDraw l n ml ds) (pg_draws pg) ->
    (forall m a b, In m ml -> m_val m = MScale a b -> a <> 0%Z /\ b <> 0%Z) /\ forall dm, In dm ds -> d_kind dm = KDim) /\
  @script_to_ps (F64 lm asc) E fs src c = Ret r /\ r_ok r = true /\ r_log r = [] /\ ps_read (r_out r) = Some toks /\ In (PWord w) toks /\
  forall x, is_finite x = true -> @fmt_num (F64 lm asc) E x <> w.
Proof. exact negative_case. Qed.
Print Assumptions C48_negative_scale_refuted.
(** At scale 1:1 the same script prints no such word. *)
Example C48_same_at_positive_scale : prints (ex_negative "-1:1") (B "nan") = true /\ prints (ex_negative "1:1") (B "nan") = false.
Proof. exact (conj negative_prints positive_output). Qed.
