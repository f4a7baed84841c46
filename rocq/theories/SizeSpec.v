(** SizeSpec.v - how much an item can add to a page. *)
From Verif Require Import Base Num Geo Stl StlRead Env Ast Lexer Parser Ps Draw DocSpec LangSpec P_Doc.
From Coq Require Import List Arith.

Section Size.
  Context {A : Arith} {E : Env}.
  (** A drawing of a model of f facets: three sides each, every one cut by no more than f facets. *)
  Definition most_lines (f : nat) : nat := 3 * f * (f + 1).
  (** Lines, arcs and texts. *)
  Definition item_most (st : stl_map) (d : drawable) : nat * nat * nat :=
    match d with
    | DDraw _ n _ ds => (match model_of st n with Some s => most_lines (length (facets s)) | None => 0 end + 8 * length ds, length ds, length ds)
    | DText _ t _ => (0, 0, newlines t + 1)
    end.
  Definition at_most (p : opage) (n : nat * nat * nat) : Prop :=
    length (o_lines p) <= fst (fst n) /\ length (o_arcs p) <= snd (fst n) /\ length (o_text p) <= snd n.
  Definition add_most (a b : nat * nat * nat) : nat * nat * nat := (fst (fst a) + fst (fst b), snd (fst a) + snd (fst b), snd a + snd b).
  (** With the title. *)
  Definition page_most (st : stl_map) (pg : page) : nat * nat * nat := fold_right add_most (2, 0, 1) (map (item_most st) (pg_draws pg)).
End Size.
