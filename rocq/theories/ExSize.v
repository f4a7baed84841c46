(** ExSize.v - the sizes of the pages of an example. *)
From Verif Require Import Base Num Geo Stl StlRead Env Ast Lexer Parser Ps Draw Main DocSpec SizeSpec EnvEx ExDoc ExDoc2 ExPs.
From Coq Require Import List Bool Arith.
Import ListNotations.
Definition sizes_of (fs : files) (d : document) : option (list (nat * nat * nat) * list (nat * nat * nat)) :=
  match load_files fs (doc_models d) [] with
  | Ret (st, _, true) => match generate_pages st d with
                         | Ret (os, _, _, true) => Some (map (page_most st) (doc_pages d), map counts os)
                         | _ => None end
  | _ => None end.
Lemma sizes_found fs d x y : sizes_of fs d = Some (x, y) -> exists st d os d' lg, generate_pages st d = Ret (os, d', lg, true) /\ map (page_most st) (doc_pages d) = x /\ map counts os = y.
Proof.
  unfold sizes_of. intro H. destruct (load_files fs (doc_models d) []) as [[[st lg] [|]]|]; [|discriminate H|discriminate H].
  destruct (generate_pages st d) as [[[[os d'] lg'] [|]]|] eqn:G; [|discriminate H|discriminate H]. injection H as H1 H2. exists st, d, os, d', lg'. auto.
Qed.
Lemma sizes_are : sizes_of ex_files (doc_of ex_script) = Some ([(78, 2, 5); (62, 0, 1)], [(19, 1, 5); (5, 0, 1)]).
Proof. vm_compute. reflexivity. Qed.
Lemma size_runs : exists st d os d' lg, generate_pages st d = Ret (os, d', lg, true) /\
  map (page_most st) (doc_pages d) = [(78, 2, 5); (62, 0, 1)] /\ map counts os = [(19, 1, 5); (5, 0, 1)].
Proof. exact (sizes_found _ _ sizes_are). Qed.
