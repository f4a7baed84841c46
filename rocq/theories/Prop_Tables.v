(** Prop_Tables.v - the parser that bison generates. *)
From Coq Require Import Permutation.
From Verif Require Import Base Num NumReal NumF64 Env Ast Lexer Parser Grammar LangSpec SyntaxSpec Lalr LrParser LrHeap HeapSpec LalrSpec P_Lr P_LrHeap P_Lalr EnvEx ExDoc ExStl ExLang.

(** ** C93 *)
Theorem C93_no_conflicts : make the_grammar 12 = (the_tables, true) /\ conflicts the_tables = [].
Proof. exact (conj tables_made no_conflicts). Qed.
Print Assumptions C93_no_conflicts.
Theorem C93_tables_accept_the_grammar : forall (A : Arith) f el ts d, runs f el ts d None <-> g_input f ts d.
Proof. exact @runs_accept. Qed.
Print Assumptions C93_tables_accept_the_grammar.
Theorem C93_tables_always_end : forall (A : Arith) f el ts, exists d e, runs f el ts d e /\ forall d' e', runs f el ts d' e' -> d' = d /\ e' = e.
Proof. exact @runs_end. Qed.
Print Assumptions C93_tables_always_end.
Theorem C93_tables_stop_at_the_first_wrong_token : forall (A : Arith) f el ts d l m, runs f el ts d (Some (PSyntax l m)) -> exists pre, viable (kinds pre) /\
  ((ts = pre /\ l = el /\ m = B "syntax error") \/ exists t post, ts = pre ++ t :: post /\ ~ viable (kinds (pre ++ [t])) /\ l = t_line t /\ m = complaint t).
Proof. exact @runs_wrong. Qed.
Print Assumptions C93_tables_stop_at_the_first_wrong_token.
Theorem C93_reasons_to_die : forall (A : Arith) f el ts d a, runs f el ts d (Some (PDead a)) ->
  (a = AThrow "std::stof" /\ exists l, In (LTok l TThrow) ts) \/ (a = AUB "Scale: float to int out of range" /\ exists l x, In (LTok l (TNum x)) ts /\ to_int x = None).
Proof. exact @runs_dead. Qed.
Print Assumptions C93_reasons_to_die.
Theorem C93_same_as_the_model : forall (A : Arith) f el ts d e, runs f el ts d e <-> parse_input f el (S (length ts)) (Doc [] []) ts = (d, e).
Proof. exact @runs_iff. Qed.
Print Assumptions C93_same_as_the_model.
Theorem C93_symbols_read : forall d, (exists q, leads the_tables d q) <-> exists i la, valid the_grammar d i la.
Proof. exact prefixes_right. Qed.
Print Assumptions C93_symbols_read.
Theorem C93_states : (forall q, q < length the_tables <-> exists d, leads the_tables d q) /\
  forall d d' q q', leads the_tables d q -> leads the_tables d' q' -> (q = q' <-> forall i, (exists la, valid the_grammar d i la) <-> exists la, valid the_grammar d' i la).
Proof. exact (conj states_reached states_right). Qed.
Print Assumptions C93_states.
Theorem C93_lookaheads : forall q p n, may_reduce the_tables q p n <-> exists d, leads the_tables d q /\ valid the_grammar d (complete the_grammar p) (Some n).
Proof. exact lookaheads_right. Qed.
Print Assumptions C93_lookaheads.
(** A script with two pages, and the tables at work on [load a = "m"; load] and on [load a = ;]. *)
Example C93_example : exists ts d, tokens ex_script = Ret ts /\ runs (B "s") 1 ts d None /\ length (doc_pages d) = 2.
Proof. destruct ex_derives as (ts & d & T & G & L). exists ts, d. split; [exact T|]. split; [apply runs_accept; exact G|exact L]. Qed.
Example C93_example_errors : forall (A : Arith),
  runs (B "s") 7 [LTok 1 (TKw 4); LTok 2 (TId (B "a")); LTok 2 (TP "="); LTok 3 (TStr (B "m")); LTok 3 (TP ";"); LTok 4 (TKw 4)] (Doc [Model (B "a") (B "m") (Loc (B "s") 1)] []) (Some (PSyntax 7 (B "syntax error"))) /\
  runs (B "s") 7 [LTok 1 (TKw 4); LTok 2 (TId (B "a")); LTok 2 (TP "="); LTok 3 (TP ";")] (Doc [] []) (Some (PSyntax 3 (B "syntax error"))).
Proof. intros A. split; exists 30; vm_compute; reflexivity. Qed.
(** [load a = "m";] has been read: a token that starts a model or a page, or the end, lets the parser
    reduce it to a model (production 7); any other token is none of its lookaheads. *)
Example C93_example_lookaheads : let d := [N nInput; T (tKw 4); T tID; T tEq; T tSTR; T tSemi] in
  (exists q, leads the_tables d q) /\ valid the_grammar d (complete the_grammar 7) (Some 0) /\ valid the_grammar d (complete the_grammar 7) (Some (tKw 5)) /\
  exists q, may_reduce the_tables q 7 (tKw 5) /\ ~ may_reduce the_tables q 7 tSemi.
Proof.
  intro d.
  assert (V0 : valid the_grammar [] (4, 0) (Some 0)) by (eapply (valid_inner _ [] 0 0 None); [constructor|reflexivity|reflexivity|reflexivity|exists []; apply derives_refl]).
  assert (V1 : valid the_grammar [] (4, 0) (Some (tKw 5))).
  { eapply (valid_inner _ [] 5 0 (Some 0) nInput [N nInput; N nPage] nInput 4); [|reflexivity|reflexivity|reflexivity|].
    - eapply (valid_inner _ [] 0 0 None); [constructor|reflexivity|reflexivity|reflexivity|exists []; apply derives_refl].
    - exists [T tLC; N nPageParts; T tRC; T 0]. exact (derives_step the_grammar [] nPage 8 _ [T 0] _ eq_refl (derives_refl _ _)). }
  assert (K : forall n, valid the_grammar [] (4, 0) (Some n) -> valid the_grammar d (complete the_grammar 7) (Some n)).
  { intros n V. pose proof (valid_shift the_grammar [] 4 0 (Some n) _ _ _ V eq_refl eq_refl) as W. cbn [app] in W.
    pose proof (valid_inner the_grammar _ 4 1 (Some n) _ _ _ 7 _ n W eq_refl eq_refl eq_refl (ex_intro _ [] (derives_refl _ _))) as X.
    pose proof (valid_shift the_grammar _ 7 0 _ _ _ _ X eq_refl eq_refl) as X1. pose proof (valid_shift the_grammar _ 7 1 _ _ _ _ X1 eq_refl eq_refl) as X2. pose proof (valid_shift the_grammar _ 7 2 _ _ _ _ X2 eq_refl eq_refl) as X3. pose proof (valid_shift the_grammar _ 7 3 _ _ _ _ X3 eq_refl eq_refl) as X4. exact (valid_shift the_grammar _ 7 4 _ _ _ _ X4 eq_refl eq_refl). }
  assert (L : exists q, leads the_tables d q) by (apply C93_symbols_read; do 2 eexists; exact (K _ V0)).
  split; [exact L|]. split; [exact (K _ V0)|]. split; [exact (K _ V1)|]. destruct L as (q & L). exists q.
  assert (M : may_reduce the_tables q 7 (tKw 5)) by (apply C93_lookaheads; exists d; split; [exact L|exact (K _ V1)]). split; [exact M|].
  intro N. apply listed_may in M. apply listed_may in N.
  assert (F : forallb (fun q => negb (listed q 7 (tKw 5) && listed q 7 tSemi)) (seq 0 (length the_tables)) = true) by (vm_compute; reflexivity). rewrite forallb_forall in F. specialize (F q). rewrite M, N in F. cbn [andb negb] in F.
  enough (false = true) by discriminate. apply F. apply in_seq. split; [apply Nat.le_0_l|]. apply (proj1 C93_states). exists d. exact L.
Qed.
(** The construction finds the conflict of an ambiguous grammar (E : E + E | n), and none in one
    that needs lookaheads beyond those of follow sets (S : L = R | R; L : * R | n; R : L). *)
Example C93_example_conflicts :
  (let g := [(0, [N 1; T 0]); (1, [N 1; T 1; N 1]); (1, [T 2])] in let '(t, ok) := make g 2 in ok = true /\ conflicts t <> []) /\
  (let g := [(0, [N 1; T 0]); (1, [N 2; T 1; N 3]); (1, [N 3]); (2, [T 2; N 3]); (2, [T 3]); (3, [N 2])] in let '(t, ok) := make g 4 in ok = true /\ conflicts t = []).
Proof. vm_compute. repeat split; discriminate. Qed.

(** ** C94 *)
Theorem C94_objects_do_not_matter : forall (A : Arith) f el ts d e, runs f el ts d e <-> exists h, hruns f el ts d e h.
Proof. exact @objects_runs. Qed.
Print Assumptions C94_objects_do_not_matter.
Theorem C94_deleted_once_or_kept : forall (A : Arith) f el ts d e h, hruns f el ts d e h -> (forall s, e <> Some (PDead (AUB s))) -> Permutation (seq 0 (made h)) (gone h ++ kept h).
Proof. exact @objects_once. Qed.
Print Assumptions C94_deleted_once_or_kept.
Theorem C94_one_owner_at_every_moment : forall (A : Arith) f el ts n stk la r d h, iter n (hstep f el) (hstart ts) = HConf stk la r d h ->
  Permutation (seq 0 (made h)) (gone h ++ kept h ++ match la with Some o => o | None => [] end ++ concat (map snd stk)).
Proof. exact @objects_always. Qed.
Print Assumptions C94_one_owner_at_every_moment.
Theorem C94_the_document_has_its_objects : forall (A : Arith) f el ts d e h, hruns f el ts d e h -> length (kept h) = document_objects d.
Proof. exact @objects_document. Qed.
Print Assumptions C94_the_document_has_its_objects.
(** [page { p = near([1,2,3]); } load b ;] and [page { s = "x" "y" load]: the names, the strings and the lists are deleted. *)
Definition ex_page_tokens {A : Arith} (x : num) : list ltok := map (LTok 1)
  [TKw 5; TP "{"; TId (B "p"); TP "="; TId (B "near"); TP "("; TP "["; TNum x; TP ","; TNum x; TP ","; TNum x; TP "]"; TP ")"; TP ";"; TP "}"; TKw 4; TId (B "b"); TP ";"].
Example C94_example : forall (A : Arith) x,
  (exists d h, hruns (B "s") 1 (ex_page_tokens x) d (Some (PSyntax 1 (B "syntax error"))) h /\ made h = 8 /\ length (gone h) = 5 /\ length (kept h) = 3 /\ document_objects d = 3) /\
  (exists d h, hruns (B "s") 1 (map (LTok 1) [TKw 5; TP "{"; TId (B "s"); TP "="; TStr (B "x"); TStr (B "y"); TKw 4]) d (Some (PSyntax 1 (B "syntax error"))) h /\ made h = 5 /\ length (gone h) = 5 /\ kept h = []).
Proof.
  intros A x. split; (do 2 eexists; split; [exists 60; vm_compute; reflexivity|]); vm_compute; repeat split.
Qed.
