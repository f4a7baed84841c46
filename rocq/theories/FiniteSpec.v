(** FiniteSpec.v - specification: the numbers of documents, models and pages. *)
From Coq Require Import Reals.
From Verif Require Import Base Num NumReal Geo Stl StlRead Env Ast Lexer Parser Ps Draw Main GeoSpec DocSpec PsSpec.

Local Unset Implicit Arguments.
Section Nums.
  Context {A : Arith}.
  Variable P : num -> Prop.
  Definition nums2 (v : v2) : Prop := P (x2 v) /\ P (y2 v).
  Definition nums3 (v : v3) : Prop := P (x3 v) /\ P (y3 v) /\ P (z3 v).
  (** P holds of every number written in a property, in a document. *)
  Definition value_nums (v : mval) : Prop :=
    match v with MPoint p => nums3 (triple p) | MNum x => P x | MLoc a => nums2 a | MStr _ | MScale _ _ => True end.
  Definition metas_nums (ml : list meta) : Prop := forall x, In x ml -> value_nums (m_val x).
  Definition item_nums (i : drawable) : Prop :=
    match i with
    | DDraw _ _ ml ds => metas_nums ml /\ forall dm, In dm ds -> metas_nums (d_meta dm)
    | DText _ _ ml => metas_nums ml
    end.
  Definition doc_nums (d : document) : Prop :=
    forall pg, In pg (doc_pages d) -> metas_nums (pg_meta pg) /\ forall i, In i (pg_draws pg) -> item_nums i.
  (** P holds of every coordinate of a model. *)
  Definition model_nums (m : stl) : Prop := forall v, In v (vertices m) -> nums3 v.
  (** P holds of every number on a page. *)
  Definition page_nums (p : opage) : Prop :=
    (forall l, In l (o_lines p) -> nums2 (lo l) /\ nums2 (lt_ l)) /\
    (forall a, In a (o_arcs p) -> nums2 (ac a) /\ P (ar a) /\ P (astart a) /\ P (aend a)) /\
    (forall t, In t (o_text p) -> nums2 (t_at t)).
End Nums.

(** The words that every output has. *)
Definition fixed_words : list bytes := split_on SP (B
  "8 def dup stringwidth pop -2 div currentfont begin FontBBox end 4 1 roll 2 -1600 FontSize mul rmoveto findfont scalefont setfont newpath moveto CenterText show lineto stroke arc 792 612 setpagedevice .1 setlinewidth 5 607 787 showpage").
(** A word of the output is one of those or a printed number with P. *)
Definition words_with {A : Arith} {E : Env} (P : num -> Prop) (toks : list ptok) : Prop :=
  forall w, In (PWord w) toks -> In w fixed_words \/ exists x, P x /\ w = fmt_num x.

(** A real number. *)
Definition real (x : @num XR) : Prop := exists r : R, x = Fin r.
Section Causes.
  Context {A : Arith} {E : Env}.
  (** Every draw of the document asks for a scale of two positive numbers. *)
  Definition scales_positive (src c : bytes) : Prop := forall d pg l n ml ds a b, parses src c d -> In pg (doc_pages d) ->
    In (DDraw l n ml ds) (pg_draws pg) -> asks_scale ml a b -> (0 < a /\ 0 < b)%Z.
  (** The direction v of a dia or rad, as its view shows it. *)
  Definition circle_dir (fs : files) (src c : bytes) (v : v3) : Prop := exists f r ds dm p, draws_model fs src c f r ds /\ In dm ds /\
    (d_kind dm = KDia \/ d_kind dm = KRad) /\ rotate f r = Ret p /\ evaluates (points (cull_back_face p)) r (d_meta dm) "dir" v.
End Causes.
