(** Prop_Text.v - the properties of numbers as text. *)
From Coq Require Import Reals ZArith.
From Flocq Require Import Core IEEE754.BinarySingleNaN.
From Verif Require Import Base Num NumF64 NumReal Geo Stl StlRead Env Ast Lexer Parser Ps Draw Main DocSpec LangSpec StlSpec PsSpec FiniteSpec RealSpec CircleSpec DimSpec
  P_Text2 P_Text3 ExDim ExText ExText2 TextSpec.

Local Open Scope R_scope.

(** ** C85: numbers of scripts are single precision, those of models double *)
Theorem C85_script_numbers_are_singles : forall (lm : libm) (asc : bool) (E : @Env (F64 lm asc)), std64 lm asc E ->
  forall src c d, parses (A := F64 lm asc) src c d ->
  doc_nums (A := F64 lm asc) (fun x : f64 => exists w r, numeral_in c w /\ reads w r /\ is_finite x = true /\ B2R x = rnd32 r) d.
Proof. exact script_singles. Qed.
Print Assumptions C85_script_numbers_are_singles.
Theorem C85_scales_are_truncated : forall (lm : libm) (asc : bool) (E : @Env (F64 lm asc)), std64 lm asc E ->
  forall src c d pg l n ml ds m a b, parses (A := F64 lm asc) src c d -> In pg (doc_pages d) -> In (DDraw l n ml ds) (pg_draws pg) -> In m ml -> m_val m = MScale a b ->
  exists us w1 w2 vs r1 r2, arranged (us ++ m_name m :: B "=" :: w1 :: B ":" :: w2 :: vs) c /\ reads w1 r1 /\ reads w2 r2 /\ a = Ztrunc (rnd32 r1) /\ b = Ztrunc (rnd32 r2).
Proof. exact scales_read. Qed.
Print Assumptions C85_scales_are_truncated.
Theorem C85_single_precision : forall r, Rabs (rnd32 r - r) <= / 2 ^ 24 * Rabs r + / 2 ^ 150.
Proof. exact rnd32_error. Qed.
Print Assumptions C85_single_precision.
Theorem C85_whole_numbers_are_kept : forall z, (Z.abs z <= 2 ^ 24)%Z -> rnd32 (IZR z) = IZR z.
Proof. exact rnd32_int. Qed.
Print Assumptions C85_whole_numbers_are_kept.
Theorem C85_ordinary_numbers_are_read : forall (lm : libm) (asc : bool) (E : @Env (F64 lm asc)), std64 lm asc E ->
  forall fs src c s, (forall w r, numeral_in c w -> reads w r -> r = 0 \/ 1 / 2 ^ 126 <= Rabs r <= 2 ^ 127) ->
  script_to_ps (A := F64 lm asc) fs src c <> Abort (AThrow s).
Proof. exact script_no_throw. Qed.
Print Assumptions C85_ordinary_numbers_are_read.
Theorem C85_model_numbers_are_doubles : forall (lm : libm) (asc : bool) (E : @Env (F64 lm asc)), std64 lm asc E ->
  forall t f lg, stl_make (A := F64 lm asc) t = Ret (Some f, lg) -> forall g v, In g (facets f) -> In v [fe0 g; fe1 g; fe2 g] ->
  nums3 (A := F64 lm asc) (fun x : f64 => exists w r u z, numeral w /\ t = u ++ w ++ z /\ reads w r /\ is_finite x = true /\ B2R x = rnd64 r) v.
Proof. exact model_doubles. Qed.
Print Assumptions C85_model_numbers_are_doubles.
Theorem C85_double_precision : forall r, Rabs (rnd64 r - r) <= / 2 ^ 53 * Rabs r + / 2 ^ 1075.
Proof. exact rnd64_error. Qed.
Print Assumptions C85_double_precision.
Example C85_example : forall lm asc, std64 lm asc (Text64 lm asc) /\
  exists x y, parses (A := F64 lm asc) (E := Text64 lm asc) (B "s") ex_numbers (d_numbers lm asc x y) /\ is_finite x = true /\ is_finite y = true /\
    Rabs (B2R y - 1 / 10) <= / 2 ^ 27 /\ B2R x <> 16777217.
Proof. intros lm asc. exact (conj (text64_std lm asc) (numbers_case lm asc _ (text64_std lm asc))). Qed.

(** ** C86: the output has the numbers of the page to six figures *)
Theorem C86_output_has_six_figures : forall (lm : libm) (asc : bool) (E : @Env (F64 lm asc)), std64 lm asc E -> (forall x, word_like (@fmt_num (F64 lm asc) E x)) ->
  forall fs src c r, one_line (@flag_name (F64 lm asc) E) -> one_line src -> one_line (@now (F64 lm asc) E) -> script_to_ps (A := F64 lm asc) fs src c = Ret r -> r_ok r = true ->
  exists d st lg ps, parses (A := F64 lm asc) src c d /\ load_files fs (doc_models d) [] = Ret (st, lg, true) /\ Forall2 (page_shows st) (doc_pages d) ps /\
    (raw_ok ps -> exists progs, ps_read (r_out r) = Some (prolog ++ concat progs) /\ Forall2 (page_tokens (A := F64 lm asc) val64) ps progs).
Proof. intros lm asc E STD. exact (output_numbers _ _ _ STD). Qed.
Print Assumptions C86_output_has_six_figures.
Theorem C86_exact_output_has_six_figures : forall (E : @Env XR), stdR E -> (forall x, word_like (@fmt_num XR E x)) ->
  forall fs src c r, one_line (@flag_name XR E) -> one_line src -> one_line (@now XR E) -> script_to_ps (A := XR) fs src c = Ret r -> r_ok r = true ->
  exists d st lg ps, parses (A := XR) src c d /\ load_files fs (doc_models d) [] = Ret (st, lg, true) /\ Forall2 (page_shows st) (doc_pages d) ps /\
    (raw_ok ps -> exists progs, ps_read (r_out r) = Some (prolog ++ concat progs) /\ Forall2 (page_tokens (A := XR) valR) ps progs).
Proof. intros E STD. exact (output_numbers _ _ _ STD). Qed.
Print Assumptions C86_exact_output_has_six_figures.
Example C86_example : forall lm asc, std64 lm asc (Text64 lm asc) /\ (forall x, word_like (@fmt_num (F64 lm asc) (Text64 lm asc) x)) /\
  one_line (@flag_name (F64 lm asc) (Text64 lm asc)) /\ one_line (B "s") /\ one_line (@now (F64 lm asc) (Text64 lm asc)) /\
  forall fs, exists r, @script_to_ps (F64 lm asc) (Text64 lm asc) fs (B "s") ex_words = Ret r /\ r_ok r = true.
Proof. exact text64_case. Qed.

(** ** C87: labels show the measured value to the decimals of their format *)
Theorem C87_dim_labels : forall (E : @Env XR), stdR E -> forall d s s' d' r a u f t p n q,
  d_kind d = KDim -> v_rot s = embm r -> rotation r ->
  coordinate (d_meta d) "at" a -> coordinate (d_meta d) "dir" u -> coordinate (d_meta d) "from" f -> coordinate (d_meta d) "to" t ->
  visit_base_dim d s = Ret (s', d', true) -> format_digits (d_meta d) 3 p n q ->
  exists w pos, o_text (v_page s') = o_text (v_page s) ++ [Text pos (p ++ w ++ q) true false] /\ decimal_for n (along u f t) w.
Proof. exact dim_label. Qed.
Print Assumptions C87_dim_labels.
Theorem C87_angle_labels : forall (E : @Env XR), stdR E -> forall d s s' d' r ap u v p n q,
  d_kind d = KAngle -> v_rot s = embm r -> rotation r -> coordinate (d_meta d) "apex" ap ->
  side_dir (d_meta d) "from_dir" "from_point" ap u -> side_dir (d_meta d) "to_dir" "to_point" ap v ->
  visit_base_dim d s = Ret (s', d', true) -> format_digits (d_meta d) 1 p n q ->
  exists w pos, o_text (v_page s') = o_text (v_page s) ++ [Text pos ((p ++ w ++ q) ++ B " deg") true false] /\ decimal_for n (degrees u v) w.
Proof. exact angle_label. Qed.
Print Assumptions C87_angle_labels.
Theorem C87_dia_labels : forall (E : @Env XR), stdR E -> forall d s s' d' r ps c p n q,
  d_kind d = KDia -> v_rot s = embm r -> rotation r -> v_points s = map emb ps -> coordinate (d_meta d) "center" c ->
  visit_base_dim d s = Ret (s', d', true) -> format_digits (d_meta d) 3 p n q ->
  exists ce rho w pos, measured ps (flat2 (rmul c r)) ce rho /\ o_text (v_page s') = o_text (v_page s) ++ [Text pos (B "\351" ++ p ++ w ++ q) true true] /\ decimal_for n (2 * rho) w.
Proof. exact dia_label. Qed.
Print Assumptions C87_dia_labels.
Theorem C87_rad_labels : forall (E : @Env XR), stdR E -> forall d s s' d' r ps c p n q,
  d_kind d = KRad -> v_rot s = embm r -> rotation r -> v_points s = map emb ps -> coordinate (d_meta d) "center" c ->
  visit_base_dim d s = Ret (s', d', true) -> format_digits (d_meta d) 3 p n q ->
  exists ce rho w pos, measured ps (flat2 (rmul c r)) ce rho /\ o_text (v_page s') = o_text (v_page s) ++ [Text pos (B "R" ++ p ++ w ++ q) true false] /\ decimal_for n rho w.
Proof. exact rad_label. Qed.
Print Assumptions C87_rad_labels.
Example C87_example : stdR TextR /\ format_digits (d_meta ex_dim) 3 [] 3 [] /\ format_digits (d_meta ex_angle) 1 [] 1 [] /\ format_digits (d_meta ex_dia) 3 [] 3 [] /\
  (exists s' d', visit_base_dim (E := TextR) ex_dim ex_state = Ret (s', d', true)) /\ (exists s' d', visit_base_dim (E := TextR) ex_angle ex_state = Ret (s', d', true)) /\
  (exists s' d', visit_base_dim (E := TextR) ex_dia ring_state = Ret (s', d', true)).
Proof.
  split; [exact textR_std|]. split; [apply plain_format; auto|]. split; [apply plain_format; auto|]. split; [apply plain_format; auto|].
  split; [exact (dim_example TextR)|]. split; [exact (angle_example TextR)|exact (proj1 (circ_example TextR))].
Qed.
