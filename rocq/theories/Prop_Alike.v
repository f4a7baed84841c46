(** Prop_Alike.v - what a page's output depends on. *)
From Verif Require Import Base Num Geo Stl StlRead Env Ast Lexer Parser Ps Draw Main DocSpec ValidSpec ShuffleSpec AlikeSpec P_Alike EnvEx ExAlike.

(** ** C80 *)
Theorem C80_names_and_paths_do_not_matter : forall (A : Arith) (E : Env) fs fs' src c c' d d',
  parses src c d -> parses src c' d' -> Forall2 (alike_page fs d fs' d') (doc_pages d) (doc_pages d') ->
  (converts fs src c -> loads_fine fs' d' -> converts fs' src c') /\
  forall r r', script_to_ps fs src c = Ret r -> r_ok r = true -> script_to_ps fs' src c' = Ret r' -> r_ok r' = true -> r_out r = r_out r'.
Proof. exact @alike_scripts. Qed.
Print Assumptions C80_names_and_paths_do_not_matter.
Example C80_example : converts al_files (B "s") al_one /\ parses (B "s") al_one d_one /\ parses (B "s") al_same d_same /\
  Forall2 (alike_page al_files d_one al_files d_same) (doc_pages d_one) (doc_pages d_same) /\ loads_fine al_files d_same.
Proof. exact al_scripts. Qed.

(** ** C81 *)
Theorem C81_pages_stand_alone : forall (A : Arith) (E : Env), exists hd : nat -> nat -> bytes,
  (forall k n, announces (hd k n) k n) /\
  forall fs fs' src src' c c' d d' r r',
  parses src c d -> parses src' c' d' -> script_to_ps fs src c = Ret r -> r_ok r = true -> script_to_ps fs' src' c' = Ret r' -> r_ok r' = true ->
  exists bs bs', r_out r = document_header src ++ concat bs /\ r_out r' = document_header src' ++ concat bs' /\
    length bs = length (doc_pages d) /\ length bs' = length (doc_pages d') /\
    forall i j pg pg', nth_error (doc_pages d) i = Some pg -> nth_error (doc_pages d') j = Some pg' -> alike_page fs d fs' d' pg pg' ->
      exists b, nth_error bs i = Some (hd (S i) (length bs) ++ b) /\ nth_error bs' j = Some (hd (S j) (length bs') ++ b).
Proof. exact @pages_alone. Qed.
Print Assumptions C81_pages_stand_alone.
Example C81_example : converts al_files (B "s") al_one /\ converts al_files (B "s") al_other /\ parses (B "s") al_one d_one /\ parses (B "s") al_other d_other /\
  nth_error (doc_pages d_one) 1 = Some (pg_of "t" "b" 3) /\ nth_error (doc_pages d_other) 1 = Some (pg_of "cube" "b" 4) /\ length (doc_pages d_one) <> length (doc_pages d_other) /\
  alike_page al_files d_one al_files d_other (pg_of "t" "b" 3) (pg_of "cube" "b" 4).
Proof. exact al_pages. Qed.
