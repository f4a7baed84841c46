(** Prop_Size.v - how large a drawing can be.  Statements only; proofs are in P_Size.v. *)
From Verif Require Import Base Num Geo Stl StlRead Env Ast Lexer Parser Ps Draw Main DocSpec SizeSpec P_Size EnvEx ExDoc ExDoc2 ExPs ExSize.
From Coq Require Import List.
Import ListNotations.

(** ** C100 *)
(** A drawing of a model of n facets has at most 3 n (n + 1) lines, in any arithmetic. *)
Theorem C100_lines_of_a_view : forall (A : Arith) s r p ls, rotate s r = Ret p -> to_lines (cull_back_face p) = Ret ls ->
  length ls <= 3 * length (facets s) * (length (facets s) + 1).
Proof. exact @view_most. Qed.
Print Assumptions C100_lines_of_a_view.
(** A page that was generated has no more than its items can give it, and its title. *)
Theorem C100_pages_are_bounded : forall (A : Arith) (E : Env) st d os d' lg ok, generate_pages st d = Ret (os, d', lg, ok) ->
  Forall2 (fun pg o => at_most o (page_most st pg)) (doc_pages d) os.
Proof. exact @pages_within. Qed.
Print Assumptions C100_pages_are_bounded.
Theorem C100_output_is_bounded : forall (A : Arith) (E : Env) fs src c r, script_to_ps fs src c = Ret r -> r_ok r = true ->
  exists d st lg os, parses src c d /\ load_files fs (doc_models d) [] = Ret (st, lg, true) /\ r_out r = render_pages src os /\
    Forall2 (fun pg o => at_most o (page_most st pg)) (doc_pages d) os.
Proof. exact @script_within. Qed.
Print Assumptions C100_output_is_bounded.
Example C100_example : exists st d os d' lg, generate_pages st d = Ret (os, d', lg, true) /\
  map (page_most st) (doc_pages d) = [(78, 2, 5); (62, 0, 1)] /\ map counts os = [(19, 1, 5); (5, 0, 1)].
Proof. exact size_runs. Qed.
