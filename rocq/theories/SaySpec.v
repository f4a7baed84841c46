(** SaySpec.v - specification: the messages a wrong script must get.
    [must_say fs d l m]: the document d with the files fs has a defect that
    must be reported with the message m for the place l. *)
From Verif Require Import Base Num Geo Stl StlRead Env Ast Lexer Parser Grammar Ps Draw Main DocSpec ValidSpec MsgSpec.

Local Unset Implicit Arguments.
Section Say.
  Context {A : Arith} {E : Env}.
  (** x is the first property of its name. *)
  Definition first_named (ml : list meta) (x : meta) : Prop := exists a b, ml = a ++ x :: b /\ ~ In (m_name x) (map m_name a).
  (** All properties have documented names. *)
  Definition known (k : bkind) (ml : list meta) : Prop := forall x, ~ unknown_in k ml x.
  (** Each side of an angle is given in one of the two ways. *)
  Definition sided (ml : list meta) (nd np : string) : Prop := (has ml nd \/ has ml np) /\ ~ (has ml nd /\ has ml np).
  (** The properties needed are there, so that their values are looked at.  Those of a circle are
      looked at before unknown properties are, and only if there are points to put a circle through. *)
  Definition looked_at (ps : point_set) (dm : dim) : Prop :=
    NoDup (map m_name (d_meta dm)) /\ (forall n, In n (mandatory (d_kind dm)) -> has (d_meta dm) n) /\
    match d_kind dm with
    | KDim => known (BDim KDim) (d_meta dm)
    | KAngle => known (BDim KAngle) (d_meta dm) /\ sided (d_meta dm) "from_dir" "from_point" /\ sided (d_meta dm) "to_dir" "to_point"
    | _ => 3 <= length ps
    end.
  Inductive must_dim (ps : point_set) (dm : dim) : loc -> bytes -> Prop :=
  | MD_duplicate y : repeats (d_meta dm) y -> must_dim ps dm (m_loc y) (says_duplicate (word (BDim (d_kind dm))) y)
  | MD_unknown x : ~ round (d_kind dm) -> unknown_in (BDim (d_kind dm)) (d_meta dm) x -> first_named (d_meta dm) x -> must_dim ps dm (m_loc x) (m_name x)
  | MD_missing n : In n (mandatory (d_kind dm)) -> ~ has (d_meta dm) n ->
      (round (d_kind dm) -> NoDup (map m_name (d_meta dm))) -> (~ round (d_kind dm) -> known (BDim (d_kind dm)) (d_meta dm)) ->
      must_dim ps dm (d_loc dm) (B "Missing '" ++ B n ++ B "'")
  | MD_no_side n nd np : d_kind dm = KAngle -> In (n, nd, np) [("from", "from_dir", "from_point"); ("to", "to_dir", "to_point")]%string ->
      ~ has (d_meta dm) nd -> ~ has (d_meta dm) np -> known (BDim KAngle) (d_meta dm) -> must_dim ps dm (d_loc dm) (B "Missing '" ++ B n ++ B "_{dir,point}'")
  | MD_point x : looked_at ps dm -> In x (d_meta dm) -> In (m_name x) (map B (point_names (d_kind dm))) -> (forall p, m_val x <> MPoint p) ->
      must_dim ps dm (m_loc x) (B "Expected point for '" ++ m_name x ++ B "' got " ++ type_name (mkind (m_val x))).

  Definition scale_fine (ml : list meta) : Prop := forall x, In x ml -> m_name x = B "scale" -> exists a b, m_val x = MScale a b.
  Inductive must_draw (fs : files) (d : document) (l0 : loc) (n : bytes) (ml : list meta) (ds : list dim) : loc -> bytes -> Prop :=
  | MR_duplicate y : repeats ml y -> must_draw fs d l0 n ml ds (m_loc y) (says_duplicate "draw" y)
  | MR_scale x : NoDup (map m_name ml) -> In x ml -> m_name x = B "scale" -> (forall a b, m_val x <> MScale a b) ->
      must_draw fs d l0 n ml ds (m_loc x) (B "Wrong type for scale")
  | MR_model : NoDup (map m_name ml) -> scale_fine ml -> ~ In n (map mo_name (doc_models d)) -> must_draw fs d l0 n ml ds l0 (B "Unknown model '" ++ n ++ B "'")
  | MR_view x v : NoDup (map m_name ml) -> scale_fine ml -> In n (map mo_name (doc_models d)) -> In x ml -> m_name x = B "view" -> m_val x = MStr v -> ~ In v view_names ->
      must_draw fs d l0 n ml ds (m_loc x) (B "Unknown view name: '" ++ v ++ B "'")
  | MR_view_type x : NoDup (map m_name ml) -> scale_fine ml -> In n (map mo_name (doc_models d)) -> In x ml -> m_name x = B "view" ->
      (forall a, m_val x <> MLoc a) -> (forall v, m_val x <> MStr v) ->
      must_draw fs d l0 n ml ds (m_loc x) (B "Unexpect view type: " ++ type_name (mkind (m_val x)))
  | MR_dim dm ps r l m : NoDup (map m_name ml) -> scale_fine ml -> sees fs d n ml ps r -> In dm ds -> must_dim ps dm l m -> must_draw fs d l0 n ml ds l m
  | MR_unknown x ps r : NoDup (map m_name ml) -> scale_fine ml -> sees fs d n ml ps r -> (ds = [] \/ eqm r zerom = false) -> Forall (dim_good ps r) ds -> unknown_in BDraw ml x ->
      must_draw fs d l0 n ml ds (m_loc x) (m_name x).
  Inductive must_item (fs : files) (d : document) : drawable -> loc -> bytes -> Prop :=
  | MI_draw l0 n ml ds l m : must_draw fs d l0 n ml ds l m -> must_item fs d (DDraw l0 n ml ds) l m
  (** The word of this message is wrong, see C83. *)
  | MI_text_duplicate l0 t ml y : repeats ml y -> must_item fs d (DText l0 t ml) (m_loc y) (says_duplicate "draw" y)
  | MI_text_unknown l0 t ml x : NoDup (map m_name ml) -> unknown_in BText ml x -> must_item fs d (DText l0 t ml) (m_loc x) (m_name x).
  Inductive must_page (fs : files) (d : document) (pg : page) : loc -> bytes -> Prop :=
  | MP_duplicate y : repeats (pg_meta pg) y -> must_page fs d pg (m_loc y) (says_duplicate "page" y)
  | MP_unknown x : unknown_in BPage (pg_meta pg) x -> first_named (pg_meta pg) x -> must_page fs d pg (m_loc x) (m_name x)
  | MP_title x : first_named (pg_meta pg) x -> m_name x = B "name" -> (forall t, m_val x <> MStr t) ->
      must_page fs d pg (m_loc x) (B "Expected document name to be a string, got '" ++ type_name (mkind (m_val x)) ++ B "'")
  | MP_item i l m : In i (pg_draws pg) -> must_item fs d i l m -> must_page fs d pg l m.
  (** The i-th load statement, where the list of statements is a ++ mo :: b. *)
  Inductive must_model (fs : files) (a : list model) (mo : model) : loc -> bytes -> Prop :=
  | MM_again : In (mo_name mo) (map mo_name a) -> must_model fs a mo (mo_loc mo) (B "Modele '" ++ mo_name mo ++ B "' was already loaded")
  | MM_no_file : ~ In (mo_name mo) (map mo_name a) -> (forall t, ~ resolves fs (mo_source mo) t) ->
      must_model fs a mo (mo_loc mo) (B "Failed to read model " ++ mo_name mo ++ B " from '" ++ mo_source mo ++ B "'")
  | MM_no_model t lg : ~ In (mo_name mo) (map mo_name a) -> resolves fs (mo_source mo) t -> stl_make t = Ret (None, lg) ->
      must_model fs a mo (mo_loc mo) (B "Failed to parse " ++ mo_name mo ++ B " '" ++ mo_source mo ++ B "'").
  (** Pages are looked at if all models are loaded. *)
  Inductive must_say (fs : files) (d : document) : loc -> bytes -> Prop :=
  | MS_model a mo b l m : doc_models d = a ++ mo :: b -> must_model fs a mo l m -> must_say fs d l m
  | MS_page pg l m : NoDup (map mo_name (doc_models d)) -> (forall mo, In mo (doc_models d) -> exists f, reads_as fs d (mo_name mo) f) ->
      In pg (doc_pages d) -> must_page fs d pg l m -> must_say fs d l m.
End Say.
