(** LookSpec.v - points that are looked up: what a script may say without risk. *)
From Coq Require Import List.
From Verif Require Import Base Num Geo Stl StlRead Env Ast Lexer Parser Ps Draw Main GeoSpec DocSpec.

Section Spec.
  Context {A : Arith} {E : Env}.
  (** [center] is somewhere in the expression. *)
  Fixpoint has_centre (p : point) : Prop := match p with PVal _ _ => False | PFunc n q _ => n = B "center" \/ has_centre q end.
  (** [near] is given the outcome of a [center]. *)
  Fixpoint near_centre (p : point) : Prop := match p with PVal _ _ => False | PFunc n q _ => (n = B "near" /\ has_centre q) \/ near_centre q end.
  (** The points given as values of properties of dimensions. *)
  Definition says_point (d : document) (p : point) : Prop :=
    exists pg l n ml ds dm x, In pg (doc_pages d) /\ In (DDraw l n ml ds) (pg_draws pg) /\ In dm ds /\ In x (d_meta dm) /\ m_val x = MPoint p.
  (** Each insertion into the multimap of ast.cc:82-108 either is skipped, since
      the distance is beyond the greatest key, or compares keys that [<] orders. *)
  Definition ordered_inserts (to : v2) (ps : list v2) : Prop :=
    forall before p after, ps = before ++ p :: after ->
      let c := fold_left (closest_step 3 to) before [] in let d := sqn2 (sub2 p to) in
      (exists k, last_key c = Some k /\ ngt d k = true) \/ strict_weak_order (fun x => x = d \/ In x (map fst c)) nlt.
  (** Each lookup while a point is evaluated compares what the order can compare. *)
  Fixpoint ordered_lookups (ps : point_set) (p : point) : Prop :=
    match p with
    | PVal _ _ => True
    | PFunc n q _ => (n = B "near" /\ ps <> [] \/ n = B "center" /\ 3 <= length ps) -> ordered_lookups ps q /\
        forall t, snd (invoke ps q) = Some t ->
          (n = B "near" -> strict_weak_order (fun v => v = t \/ In v ps) order) /\ (n = B "center" -> ordered_inserts (xy t) (map xy ps))
    end.
End Spec.
