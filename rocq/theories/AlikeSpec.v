(** AlikeSpec.v - specification: pages of two scripts that say the same about
    the same models, whatever the models are called and wherever they lie. *)
From Verif Require Import Base Num Geo Stl StlRead Env Ast Lexer Parser Ps Draw Main DocSpec ValidSpec ShuffleSpec.

Local Unset Implicit Arguments.
Section Alike.
  Context {A : Arith} {E : Env}.
  (** The name n in the script d and the name n' in d' stand for files with the
      same contents. *)
  Definition same_model (fs : files) (d : document) (n : bytes) (fs' : files) (d' : document) (n' : bytes) : Prop :=
    exists m m' t, In m (doc_models d) /\ mo_name m = n /\ resolves fs (mo_source m) t /\
      In m' (doc_models d') /\ mo_name m' = n' /\ resolves fs' (mo_source m') t.
  Inductive alike_item (fs : files) (d : document) (fs' : files) (d' : document) : drawable -> drawable -> Prop :=
  | AI_draw l l' n n' ml ml' ds ds' : same_model fs d n fs' d' n' -> shuffled_metas ml ml' -> Forall2 shuffled_dim ds ds' ->
      alike_item fs d fs' d' (DDraw l n ml ds) (DDraw l' n' ml' ds')
  | AI_text l l' t ml ml' : shuffled_metas ml ml' -> alike_item fs d fs' d' (DText l t ml) (DText l' t ml').
  Definition alike_page (fs : files) (d : document) (fs' : files) (d' : document) (p p' : page) : Prop :=
    shuffled_metas (pg_meta p) (pg_meta p') /\ Forall2 (alike_item fs d fs' d') (pg_draws p) (pg_draws p').
  (** Every load has its own name and a readable model. *)
  Definition loads_fine (fs : files) (d : document) : Prop :=
    NoDup (map mo_name (doc_models d)) /\ forall m, In m (doc_models d) -> exists f, reads_as fs d (mo_name m) f.
  (** The line every page starts with. *)
  Definition announces (b : bytes) (k n : nat) : Prop :=
    exists kk nn rest, spells kk k /\ spells nn n /\ b = [LF] ++ B "%%%%%%%%% Start of page " ++ kk ++ B " of " ++ nn ++ [LF] ++ rest.
End Alike.
