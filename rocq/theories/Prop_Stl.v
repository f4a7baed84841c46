(** Prop_Stl.v - the properties of reading STL texts.  [A] is any arithmetic
    whose comparisons are those of numbers (both XR and IEEE binary64 are), [E]
    any environment whose number reader never answers NaN for a numeral. *)
From Verif Require Import Base Num NumReal NumF64 NumLaws Geo Stl Env StlRead StlSpec EnvEx P_Stl ExStl.

(** ** C13 *)
Theorem C13_exactly_the_supported_lines_are_read : forall (A : Arith) (E : Env),
  ordered A -> ok (nz : num) -> (forall w x, numeral w -> re2_double w = Some x -> ok x) -> forall c ls, lines_in c ls ->
  (forall m lg, stl_make c = Ret (Some m, lg) -> Forall supported ls) /\
  (forall evs, Forall2 says ls evs -> ~ short_facet evs -> exists m lg, stl_make c = Ret (Some m, lg)) /\
  (forall pre l post evs, ls = pre ++ l :: post -> ~ supported l -> Forall2 says pre evs -> ~ short_facet evs ->
     exists lg, stl_make c = Ret (None, lg)).
Proof. exact @reads_exactly. Qed.
Print Assumptions C13_exactly_the_supported_lines_are_read.
(** A text of two facets is made of supported lines; a tab where a space is
    expected makes a line that is not supported. *)
Example C13_example : ordered ExA /\ ok (nz : @num ExA) /\ (forall w x, numeral w -> re2_double w = Some x -> ok x) /\
  lines_in two_text two_blocks /\ (exists evs, Forall2 says two_blocks evs /\ ~ short_facet evs) /\
  ~ supported (B "vertex" ++ [ascii_of_nat 9] ++ B "0 0 0").
Proof.
  refine (conj (F64_ordered _ _) (conj ex_zero (conj ex_numbers (conj two_lines (conj _ odd_not))))).
  destruct two_says as (evs & n1 & n2 & p1 & p2 & H & K & _). exists evs. split; [exact H|exact (blocks_not_short _ _ K)].
Qed.

(** ** C14 *)
Theorem C14_one_facet_per_block_in_order : forall (A : Arith) (E : Env),
  ordered A -> ok (nz : num) -> (forall w x, numeral w -> re2_double w = Some x -> ok x) -> forall c ls evs bs,
  lines_in c ls -> Forall2 says ls evs -> blocks evs bs ->
  exists m lg, stl_make c = Ret (Some m, lg) /\
    Forall2 (fun b f => exists p0 p1 p2 r, snd b = p0 :: p1 :: p2 :: r /\ f = mk_facet (fst b) p0 p1 p2)
      (filter (fun b => negb (zero_vec (fst b))) bs) (facets m).
Proof. exact @make_facets. Qed.
Print Assumptions C14_one_facet_per_block_in_order.
(** Two blocks, the second one with a zero normal. *)
Example C14_example : lines_in two_text two_blocks /\
  exists evs n1 n2 ps1 ps2, Forall2 says two_blocks evs /\ blocks evs [(n1, ps1); (n2, ps2)] /\ zero_vec n1 = false /\ zero_vec n2 = true.
Proof. exact (conj two_lines two_says). Qed.

(** ** C15: false of the code; what holds is that reading is out of bounds in
    exactly one situation.  Missing: the claim for texts that close a facet
    (with a normal) before its third vertex. *)
Theorem C15_reads_in_bounds_refuted : exists (A : Arith) (E : Env) c, match stl_make c with Abort (AUB _) => true | _ => false end = true.
Proof. exact (ex_intro _ ExA (ex_intro _ ExE (ex_intro _ short_text short_ub))). Qed.
Print Assumptions C15_reads_in_bounds_refuted.
Theorem C15_out_of_bounds_only_for_short_facets_partial : forall (A : Arith) (E : Env),
  ordered A -> ok (nz : num) -> (forall w x, numeral w -> re2_double w = Some x -> ok x) -> forall c ls, lines_in c ls ->
  ((exists e, stl_make c = Abort e) <-> exists pre post evs, ls = pre ++ post /\ Forall2 says pre evs /\ short_facet evs).
Proof. exact @out_of_bounds. Qed.
Print Assumptions C15_out_of_bounds_only_for_short_facets_partial.
Example C15_example : lines_in short_text short_lines /\ exists evs, Forall2 says short_lines evs /\ short_facet evs.
Proof. exact (conj short_in short_says). Qed.
