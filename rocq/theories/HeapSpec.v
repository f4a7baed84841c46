(** HeapSpec.v - specification: the objects a document holds through std::unique_ptr (ast.h:140, 237, 274, 322, 334, 362, 371-372). *)
From Verif Require Import Base Num Env Ast.

Section Objects.
  Context {A : Arith}.
  Fixpoint point_objects (p : point) : nat := match p with PVal _ _ => 1 | PFunc _ q _ => S (point_objects q) end.
  Definition meta_objects (m : meta) : nat := match m_val m with MPoint p => S (point_objects p) | _ => 1 end.
  Definition metas_objects (l : list meta) : nat := list_sum (map meta_objects l).
  Definition dim_objects (d : dim) : nat := S (metas_objects (d_meta d)).
  Definition drawable_objects (x : drawable) : nat :=
    match x with DDraw _ _ ml ds => S (metas_objects ml + list_sum (map dim_objects ds)) | DText _ _ ml => S (metas_objects ml) end.
  Definition page_objects (p : page) : nat := metas_objects (pg_meta p) + list_sum (map drawable_objects (pg_draws p)).
  (** Models and pages themselves are elements of vectors. *)
  Definition document_objects (d : document) : nat := list_sum (map page_objects (doc_pages d)).
End Objects.
