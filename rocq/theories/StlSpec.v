(** StlSpec.v - what an STL text says, line by line; written without the regular
    expressions and the reader of the model. *)
From Verif Require Import Base Num Geo Env.

Local Unset Implicit Arguments.

Definition blanks (s : bytes) : Prop := Forall (eq SP) s.
(** Printable-or-not text without line feeds that is valid UTF-8 in the sense of RE2's '.'. *)
Definition code (c : ascii) : N := N_of_ascii c.
Definition trail (c : ascii) : Prop := (128 <= code c <= 191)%N.
Inductive text : bytes -> Prop :=
| text_nil : text []
| text_1 c s : (code c < 128)%N -> c <> LF -> text s -> text (c :: s)
| text_2 a b s : (194 <= code a <= 223)%N -> trail b -> text s -> text (a :: b :: s)
| text_3 a b c s : (224 <= code a <= 239)%N -> trail b -> trail c -> text s -> text (a :: b :: c :: s)
| text_4 a b c d s : (240 <= code a <= 244)%N -> trail b -> trail c -> trail d -> text s -> text (a :: b :: c :: d :: s).

(** A number as written: one or more of the characters - . e 0-9. *)
Definition numeral (w : bytes) : Prop := w <> [] /\ Forall (fun c => In c (B "-.e0123456789")) w.

Section Spec.
  Context {A : Arith} {E : Env}.

  Definition solid_line (l : bytes) : Prop :=
    exists b kw r, blanks b /\ (kw = B "solid" \/ kw = B "endsolid") /\ (r = [] \/ exists t, text t /\ r = SP :: t) /\ l = b ++ kw ++ r.
  Definition loop_line (l : bytes) : Prop :=
    exists b kw r, blanks b /\ (kw = B "outer loop" \/ kw = B "endloop") /\ blanks r /\ l = b ++ kw ++ r.
  Definition endfacet_line (l : bytes) : Prop :=
    exists b r, blanks b /\ blanks r /\ l = b ++ B "endfacet" ++ r.
  (** keyword and three numbers, separated by spaces *)
  Definition triple_line (kw : bytes) (l : bytes) (v : v3) : Prop :=
    exists b s1 n1 s2 n2 s3 n3 s4, blanks b /\ blanks s1 /\ s1 <> [] /\ numeral n1 /\ blanks s2 /\ s2 <> [] /\ numeral n2 /\ blanks s3 /\ s3 <> [] /\ numeral n3 /\ blanks s4 /\
      l = b ++ kw ++ s1 ++ n1 ++ s2 ++ n2 ++ s3 ++ n3 ++ s4 /\
      re2_double n1 = Some (x3 v) /\ re2_double n2 = Some (y3 v) /\ re2_double n3 = Some (z3 v).

  (** What a supported line says. *)
  Inductive event := EFacet (n : v3) | EVertex (p : v3) | EEnd | EOther.
  Inductive says (l : bytes) : event -> Prop :=
  | says_solid : solid_line l -> says l EOther
  | says_loop : loop_line l -> says l EOther
  | says_facet n : triple_line (B "facet normal") l n -> says l (EFacet n)
  | says_vertex p : triple_line (B "vertex") l p -> says l (EVertex p)
  | says_end : endfacet_line l -> says l EEnd.
  Definition supported (l : bytes) : Prop := exists e, says l e.

  (** The text consists of these lines; the last one may lack its line feed. *)
  Definition lines_in (c : bytes) (ls : list bytes) : Prop :=
    Forall (fun l => ~ In LF l) ls /\
    (c = flat_map (fun l => l ++ [LF]) ls \/ exists i l, ls = i ++ [l] /\ l <> [] /\ c = flat_map (fun l => l ++ [LF]) i ++ l).

  Definition zero_vec (v : v3) : bool := (x3 v =? nz)%num && (y3 v =? nz)%num && (z3 v =? nz)%num.
  Definition quiet (e : event) : Prop := match e with EFacet _ | EEnd => False | _ => True end.
  Definition vertices_of (evs : list event) : list v3 := flat_map (fun e => match e with EVertex p => [p] | _ => [] end) evs.
  (** Some facet with a non-zero normal is closed after fewer than three vertices. *)
  Definition short_facet (evs : list event) : Prop :=
    exists pre n mid post, evs = pre ++ EFacet n :: mid ++ EEnd :: post /\ zero_vec n = false /\ Forall quiet mid /\ length (vertices_of mid) < 3.

  (** The text is a sequence of facet blocks (given normal and vertices), with other lines around them. *)
  Inductive blocks : list event -> list (v3 * list v3) -> Prop :=
  | blocks_nil : blocks [] []
  | blocks_other evs bs : blocks evs bs -> blocks (EOther :: evs) bs
  | blocks_facet n mid evs bs : Forall quiet mid -> 3 <= length (vertices_of mid) -> blocks evs bs ->
      blocks (EFacet n :: mid ++ EEnd :: evs) ((n, vertices_of mid) :: bs).
  (** The text closes a facet too early. *)
  Definition closes_short (t : bytes) : Prop :=
    exists ls pre post evs, lines_in t ls /\ ls = pre ++ post /\ Forall2 says pre evs /\ short_facet evs.
End Spec.
