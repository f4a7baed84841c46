(** ShuffleSpec.v - specification: documents that differ in the order of the
    loads, in the order of the properties of blocks and in source locations. *)
From Coq Require Import Permutation.
From Verif Require Import Base Num Geo Env Ast Lexer Parser Draw Grammar.

Local Unset Implicit Arguments.
Section Shuffle.
  Context {A : Arith}.
  Definition shuffled_metas (ml ml' : list meta) : Prop := Permutation (map erase_meta ml) (map erase_meta ml').
  Definition shuffled_dim (d d' : dim) : Prop := d_kind d = d_kind d' /\ shuffled_metas (d_meta d) (d_meta d').
  Inductive shuffled_item : drawable -> drawable -> Prop :=
  | SI_draw l l' n ml ml' ds ds' : shuffled_metas ml ml' -> Forall2 shuffled_dim ds ds' -> shuffled_item (DDraw l n ml ds) (DDraw l' n ml' ds')
  | SI_text l l' t ml ml' : shuffled_metas ml ml' -> shuffled_item (DText l t ml) (DText l' t ml').
  Definition shuffled_page (p p' : page) : Prop := shuffled_metas (pg_meta p) (pg_meta p') /\ Forall2 shuffled_item (pg_draws p) (pg_draws p').
  Definition shuffled (d d' : document) : Prop :=
    Permutation (map erase_model (doc_models d)) (map erase_model (doc_models d')) /\ Forall2 shuffled_page (doc_pages d) (doc_pages d').
End Shuffle.
