(** Prop_Paper.v - drawings on paper, in doubles. *)
From Coq Require Import Reals ZArith List.
From Flocq Require Import Core IEEE754.BinarySingleNaN.
From Verif Require Import Base Num NumF64 Geo Stl Env Ast Ps Draw Main LangSpec DocSpec StlSpec PsSpec TextSpec F64Spec P_Paper P_Paper2 ExText ExText2 ExErr ExFollow ExPaper ErrSpec ViewSpec FollowSpec PaperSpec RealSpec.
Import ListNotations.

Local Open Scope R_scope.

(** ** C95: the lines of a drawing are where they belong on the paper *)
Theorem C95_lines_on_the_page : forall (lm : libm) (asc : bool) (E : @Env (F64 lm asc)) st l n ml ds s s1 ds1 f v see k j m tx ty e, trig_close lm ->
  visit_draw st l n ml ds s = Ret (s1, ds1, true) -> plan lm asc st n ml f v see k j m tx ty -> accuracy k j m e ->
  exists p ls0 ls q, rotate f v = Ret p /\ to_lines p = Ret ls0 /\ length ls = length ls0 /\ v_page s1 = plus_page (v_page s) (plus_page (OPage ls [] []) q) /\
    (ls = [] \/ exists x0 x1 y0 y1, frames (seen_corner lm asc see v f p) x0 x1 y0 y1 /\
      forall l, In l ls -> exists g, drawn_facet lm asc v f p g /\ follows lm asc e (fun p => laid tx ty m x0 x1 y0 y1 (see p)) g l).
Proof. exact lines_placed. Qed.
Print Assumptions C95_lines_on_the_page.
Theorem C95_lines_in_the_output : forall (lm : libm) (asc : bool) (E : @Env (F64 lm asc)), std64 lm asc E -> trig_close lm -> (forall x, word_like (@fmt_num (F64 lm asc) E x)) ->
  forall fs src c r, one_line (@flag_name (F64 lm asc) E) -> one_line src -> one_line (@now (F64 lm asc) E) -> script_to_ps (A := F64 lm asc) fs src c = Ret r -> r_ok r = true ->
  exists d st lg ps, parses (A := F64 lm asc) src c d /\ load_files fs (doc_models d) [] = Ret (st, lg, true) /\ Forall2 (page_shows st) (doc_pages d) ps /\
    (raw_ok ps -> exists progs, ps_read (r_out r) = Some (prolog ++ concat progs) /\ length progs = length (doc_pages d) /\
      forall i pg prog l n ml ds f v see k j m tx ty e, nth_error (doc_pages d) i = Some pg -> nth_error progs i = Some prog -> In (DDraw l n ml ds) (pg_draws pg) ->
      plan lm asc st n ml f v see k j m tx ty -> accuracy k j m e ->
      exists p ls strokes before after, rotate f v = Ret p /\ to_lines p = Ret ls /\ length strokes = length ls /\ prog = before ++ concat strokes ++ after /\
        (strokes = [] \/ exists x0 x1 y0 y1, frames (seen_corner lm asc see v f p) x0 x1 y0 y1 /\
          forall w, In w strokes -> exists g, drawn_facet lm asc v f p g /\ stroke_follows lm asc e (fun p => laid tx ty m x0 x1 y0 y1 (see p)) g w)).
Proof. exact output_strokes. Qed.
Print Assumptions C95_lines_in_the_output.
Example C95_example : trig_close good_libm /\ accuracy 3 6 36 (bp (-31) + bp (-33)) /\ forall asc (E : @Env (F64 good_libm asc)),
  plan good_libm asc (paper_models asc) (B "m") (paper_metas asc) (follow_model good_libm asc) mZP (fun p => p) 3 6 36 468 162 /\
  exists s ds, visit_draw (paper_models asc) (Loc [] 0) (B "m") (paper_metas asc) [] vst_init = Ret (s, ds, true) /\ length (o_lines (v_page s)) = 7%nat.
Proof. exact (conj good_trig (conj paper_accuracy (fun asc E => conj (paper_plan asc) (paper_runs asc E)))). Qed.
Example C95_output_example : forall lm asc, std64 lm asc (Text64 lm asc) /\ (forall x, word_like (@fmt_num (F64 lm asc) (Text64 lm asc) x)) /\
  one_line (@flag_name (F64 lm asc) (Text64 lm asc)) /\ one_line (B "s") /\ one_line (@now (F64 lm asc) (Text64 lm asc)) /\
  forall fs, exists r, @script_to_ps (F64 lm asc) (Text64 lm asc) fs (B "s") ex_words = Ret r /\ r_ok r = true.
Proof. exact text64_case. Qed.
