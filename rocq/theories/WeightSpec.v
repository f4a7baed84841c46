(** WeightSpec.v - how many parts a document has. *)
From Verif Require Import Base Num Env Ast StackSpec.

Section Weight.
  Context {A : Arith}.
  (** All drawings and texts, all dimensions, and all functions applied in points. *)
  Definition doc_items (d : document) : list drawable := flat_map pg_draws (doc_pages d).
  Definition doc_dims (d : document) : list dim := flat_map (fun i => match i with DDraw _ _ _ ds => ds | DText _ _ _ => [] end) (doc_items d).
  Definition doc_functions (d : document) : nat := list_sum (map (fun m => match m_val m with MPoint p => functions p | _ => 0 end) (doc_metas d)).
  (** The tokens that have to be there for these parts. *)
  Definition needed (d : document) : nat :=
    5 * length (doc_models d) + 3 * length (doc_pages d) + 4 * length (doc_items d) + 4 * length (doc_dims d) + 3 * length (doc_metas d) + 3 * doc_functions d.
End Weight.
