(** ValidSpec.v - specification: the documents that can be converted. *)
From Verif Require Import Base Num Geo Stl StlRead Env Ast Ps Draw DocSpec GeoSpec.

Local Unset Implicit Arguments.
Section Valid.
  Context {A : Arith} {E : Env}.
  (** No property twice, none that is not documented for this kind of block. *)
  Definition tidy (k : bkind) (ml : list meta) : Prop :=
    NoDup (map m_name ml) /\ forall n, In n (map m_name ml) -> In n (map B (documented k)).
  (** One side of an angle, given in exactly one of the two ways. *)
  Definition one_side (ps : point_set) (r : m3) (ml : list meta) (kd kp : string) (apex : v3) (f : v3 * v3) : Prop :=
    side_used ps r ml kd kp apex f /\ ~ (has ml kd /\ has ml kp).
  (** A dimension of a model seen in the view r with the points ps. *)
  Definition dim_good (ps : point_set) (r : m3) (dm : dim) : Prop :=
    let ml := d_meta dm in let ev := evaluates ps r ml in
    tidy (BDim (d_kind dm)) ml /\
    match d_kind dm with
    | KDim => exists fm a dd f t, format_used ml "%.3f" fm /\ ev "at" a /\ ev "dir" dd /\ ev "from" f /\ ev "to" t /\ eq3 dd zero3 = false
    | KDia | KRad => exists fm a dd c ce rr, format_used ml "%.3f" fm /\ ev "at" a /\ ev "dir" dd /\ ev "center" c /\
        3 <= length ps /\ fit_circle ps (xy c) = Some (ce, rr)
    | KAngle => exists fm a p f t, format_used ml "%.1f" fm /\ ev "at" a /\ ev "apex" p /\
        one_side ps r ml "from_dir" "from_point" p f /\ one_side ps r ml "to_dir" "to_point" p t /\ neq (z3 (cross3 (fst t) (fst f))) nz = false
    end%string.
  (** The model called n is read from its file as f. *)
  Definition reads_as (fs : files) (d : document) (n : bytes) (f : stl) : Prop :=
    exists m t lg, In m (doc_models d) /\ mo_name m = n /\ resolves fs (mo_source m) t /\ stl_make t = Ret (Some f, lg).
  Definition item_good (fs : files) (d : document) (i : drawable) : Prop :=
    match i with
    | DText _ _ ml => tidy BText ml
    | DDraw _ n ml ds => tidy BDraw ml /\ (exists a b, asks_scale ml a b) /\
        exists f r p ls, reads_as fs d n f /\ asks_view ml r /\ rotate f r = Ret p /\ to_lines (cull_back_face p) = Ret ls /\
          strict_weak_order (fun v => In v (vertices (cull_back_face p))) order /\ (ds = [] \/ eqm r zerom = false) /\ Forall (dim_good (points (cull_back_face p)) r) ds
    end.
  Definition page_good (fs : files) (d : document) (pg : page) : Prop :=
    tidy BPage (pg_meta pg) /\ (exists t, titled pg t) /\ Forall (item_good fs d) (pg_draws pg).
  Definition doc_good (fs : files) (d : document) : Prop :=
    NoDup (map mo_name (doc_models d)) /\ (forall m, In m (doc_models d) -> exists f, reads_as fs d (mo_name m) f) /\
    Forall (page_good fs d) (doc_pages d).
End Valid.
