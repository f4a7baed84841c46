(** MsgSpec.v - specification: what the error messages claim about a script.
    [true_message fs d l m]: the message m, given for the place l, is true of
    the document d and the files fs. *)
From Verif Require Import Base Num Geo Stl StlRead Env Ast Lexer Parser Grammar Ps Draw Main DocSpec ValidSpec.

Local Unset Implicit Arguments.
Section Msg.
  Context {A : Arith} {E : Env}.

  (** What a block is called in messages: the word that starts it. *)
  Definition word (k : bkind) : string :=
    match k with
    | BPage => "page" | BDraw => "draw" | BText => "text"
    | BDim KAngle => "angle" | BDim KDia => "dia" | BDim KDim => "dim" | BDim KRad => "rad"
    end%string.
  Definition unknown_in (k : bkind) (ml : list meta) (x : meta) : Prop := In x ml /\ ~ In (m_name x) (map B (documented k)).
  (** y repeats the name of an earlier property of the block. *)
  Definition repeats (ml : list meta) (y : meta) : Prop :=
    exists a x b c, ml = a ++ x :: b ++ y :: c /\ m_name x = m_name y.
  Definition says_duplicate (w : string) (y : meta) : bytes := B "Duplicate " ++ B w ++ B " property '" ++ m_name y ++ B "'".

  (** Messages about the names of the properties ml of a block at l. *)
  Inductive true_of_names (k : bkind) (l : loc) (ml : list meta) : loc -> bytes -> Prop :=
  | TN_duplicate y : repeats ml y -> true_of_names k l ml (m_loc y) (says_duplicate (word k) y)
  | TN_some_unknown x : unknown_in k ml x -> k <> BPage -> true_of_names k l ml l (B "Unexepcted properties for " ++ B (word k))
  | TN_unknown x : unknown_in k ml x -> true_of_names k l ml (m_loc x) (m_name x).

  Definition mandatory (k : dkind) : list string :=
    match k with KDim => ["at"; "dir"; "from"; "to"] | KDia | KRad => ["at"; "dir"; "center"] | KAngle => ["at"; "apex"] end%string.
  Definition round (k : dkind) : Prop := k = KDia \/ k = KRad.
  (** The properties of a dimension that give points. *)
  Definition point_names (k : dkind) : list string :=
    match k with
    | KDim => ["at"; "dir"; "from"; "to"] | KDia | KRad => ["at"; "dir"; "center"]
    | KAngle => ["at"; "apex"; "from_dir"; "from_point"; "to_dir"; "to_point"]
    end%string.
  (** Messages about a dimension of a model with the visible points ps, seen in
      the view r. *)
  Inductive true_of_dim (ps : point_set) (r : m3) (dm : dim) : loc -> bytes -> Prop :=
  | TD_names l m : true_of_names (BDim (d_kind dm)) (d_loc dm) (d_meta dm) l m -> true_of_dim ps r dm l m
  | TD_missing n : In n (mandatory (d_kind dm)) -> ~ has (d_meta dm) n ->
      true_of_dim ps r dm (d_loc dm) (B "Missing '" ++ B n ++ B "'")
  | TD_no_side n nd np : d_kind dm = KAngle -> In (n, nd, np) [("from", "from_dir", "from_point"); ("to", "to_dir", "to_point")]%string ->
      ~ has (d_meta dm) nd -> ~ has (d_meta dm) np ->
      true_of_dim ps r dm (d_loc dm) (B "Missing '" ++ B n ++ B "_{dir,point}'")
  | TD_two_sides n nd np x : d_kind dm = KAngle -> In (n, nd, np) [("from", "from_dir", "from_point"); ("to", "to_dir", "to_point")]%string ->
      In x (d_meta dm) -> m_name x = B nd -> has (d_meta dm) np ->
      true_of_dim ps r dm (m_loc x) (B "Both '" ++ B n ++ B "_{dir,point}' provided")
  | TD_no_point x : In x (d_meta dm) -> In (m_name x) (map B (point_names (d_kind dm))) -> (forall p, m_val x <> MPoint p) ->
      true_of_dim ps r dm (m_loc x) (B "Expected point for '" ++ m_name x ++ B "' got " ++ type_name (mkind (m_val x)))
  | TD_function x p n l : In x (d_meta dm) -> m_val x = MPoint p -> In (n, l) (funcs p) -> n <> B "near" -> n <> B "center" ->
      true_of_dim ps r dm l (B "Unknown function '" ++ n ++ B "'")
  | TD_format_type x : In x (d_meta dm) -> m_name x = B "fmt" -> (forall f, m_val x <> MStr f) ->
      true_of_dim ps r dm (m_loc x) (B "fmt argument for " ++ B (word (BDim (d_kind dm))) ++ B " is the wrong type")
  | TD_format x f : In x (d_meta dm) -> m_name x = B "fmt" -> m_val x = MStr f -> pf_ok f = false ->
      true_of_dim ps r dm (m_loc x) (B "Invalid fmt argument for " ++ B (word (BDim (d_kind dm))) ++ B ": must be a '%f' type")
  | TD_zero x v : d_kind dm = KDim -> In x (d_meta dm) -> m_name x = B "dir" -> evaluates ps r (d_meta dm) "dir" v -> eq3 v zero3 = true ->
      true_of_dim ps r dm (m_loc x) (B "Dimention's 'dir' must not be the zero vector")
  | TD_flat p f t : d_kind dm = KAngle -> evaluates ps r (d_meta dm) "apex" p ->
      one_side ps r (d_meta dm) "from_dir" "from_point" p f -> one_side ps r (d_meta dm) "to_dir" "to_point" p t ->
      neq (z3 (cross3 (fst t) (fst f))) nz = true -> true_of_dim ps r dm (d_loc dm) (B "Degenerate angle provided.")
  | TD_few : round (d_kind dm) -> length ps < 3 -> true_of_dim ps r dm (d_loc dm) (B "Not enought points")
  | TD_no_circle c : round (d_kind dm) -> evaluates ps r (d_meta dm) "center" c -> fit_circle ps (xy c) = None ->
      true_of_dim ps r dm (d_loc dm) (B "Failed to find center").

  (** A draw block shows a model with the visible points ps in the view r. *)
  Definition sees (fs : files) (d : document) (n : bytes) (ml : list meta) (ps : point_set) (r : m3) : Prop :=
    exists f p, reads_as fs d n f /\ asks_view ml r /\ rotate f r = Ret p /\ ps = points (cull_back_face p).
  (** Messages about the properties of a draw block itself. *)
  Inductive true_of_draw (d : document) (l0 : loc) (n : bytes) (ml : list meta) : loc -> bytes -> Prop :=
  | TR_names l m : true_of_names BDraw l0 ml l m -> true_of_draw d l0 n ml l m
  | TR_scale x : In x ml -> m_name x = B "scale" -> (forall a b, m_val x <> MScale a b) -> true_of_draw d l0 n ml (m_loc x) (B "Wrong type for scale")
  | TR_model : (forall m, In m (doc_models d) -> mo_name m <> n) -> true_of_draw d l0 n ml l0 (B "Unknown model '" ++ n ++ B "'")
  | TR_view x v : In x ml -> m_name x = B "view" -> m_val x = MStr v -> ~ In v view_names ->
      true_of_draw d l0 n ml (m_loc x) (B "Unknown view name: '" ++ v ++ B "'")
  | TR_view_type x : In x ml -> m_name x = B "view" -> (forall a, m_val x <> MLoc a) -> (forall v, m_val x <> MStr v) ->
      true_of_draw d l0 n ml (m_loc x) (B "Unexpect view type: " ++ type_name (mkind (m_val x))).
  (** The draw block itself, or one of its dimensions. *)
  Inductive true_of_item (fs : files) (d : document) : drawable -> loc -> bytes -> Prop :=
  | TI_text l0 t ml l m : true_of_names BText l0 ml l m -> true_of_item fs d (DText l0 t ml) l m
  | TI_draw l0 n ml ds l m : true_of_draw d l0 n ml l m -> true_of_item fs d (DDraw l0 n ml ds) l m
  | TI_dim l0 n ml ds dm ps r l m : In dm ds -> sees fs d n ml ps r -> true_of_dim ps r dm l m -> true_of_item fs d (DDraw l0 n ml ds) l m.
  (** Page number k. *)
  Inductive true_of_page (fs : files) (d : document) (k : nat) (pg : page) : loc -> bytes -> Prop :=
  | TP_names l m : true_of_names BPage (pg_loc pg) (pg_meta pg) l m -> true_of_page fs d k pg l m
  | TP_some_unknown x kk : unknown_in BPage (pg_meta pg) x -> spells kk k ->
      true_of_page fs d k pg (pg_loc pg) (B "Unexepcted properties for page " ++ kk)
  | TP_title x : In x (pg_meta pg) -> m_name x = B "name" -> (forall t, m_val x <> MStr t) ->
      true_of_page fs d k pg (m_loc x) (B "Expected document name to be a string, got '" ++ type_name (mkind (m_val x)) ++ B "'")
  | TP_item i l m : In i (pg_draws pg) -> true_of_item fs d i l m -> true_of_page fs d k pg l m.
  (** A load statement. *)
  Inductive true_of_model (fs : files) (d : document) (mo : model) : loc -> bytes -> Prop :=
  | TM_again a b c mo' : doc_models d = a ++ mo' :: b ++ mo :: c -> mo_name mo' = mo_name mo ->
      true_of_model fs d mo (mo_loc mo) (B "Modele '" ++ mo_name mo ++ B "' was already loaded")
  | TM_no_file : (forall t, ~ resolves fs (mo_source mo) t) ->
      true_of_model fs d mo (mo_loc mo) (B "Failed to read model " ++ mo_name mo ++ B " from '" ++ mo_source mo ++ B "'")
  | TM_no_model t lg : resolves fs (mo_source mo) t -> stl_make t = Ret (None, lg) ->
      true_of_model fs d mo (mo_loc mo) (B "Failed to parse " ++ mo_name mo ++ B " '" ++ mo_source mo ++ B "'").
  Inductive true_message (fs : files) (d : document) : loc -> bytes -> Prop :=
  | TM_model mo l m : In mo (doc_models d) -> true_of_model fs d mo l m -> true_message fs d l m
  | TM_page k pg l m : nth_error (doc_pages d) k = Some pg -> true_of_page fs d (S k) pg l m -> true_message fs d l m.

  (** Two messages that can be false: a repeated property of a text block is
      called one of a draw block ... *)
  Definition miscalled (d : document) (l : loc) (m : bytes) : Prop :=
    exists pg l0 t ml y, In pg (doc_pages d) /\ In (DText l0 t ml) (pg_draws pg) /\ repeats ml y /\ l = m_loc y /\ m = says_duplicate "draw" y.
  (** ... and a dir that has no value is called zero as well. *)
  Definition not_zero (fs : files) (d : document) (l : loc) (m : bytes) : Prop :=
    exists pg l0 n ml ds dm x ps r, In pg (doc_pages d) /\ In (DDraw l0 n ml ds) (pg_draws pg) /\ In dm ds /\ d_kind dm = KDim /\
      sees fs d n ml ps r /\ In x (d_meta dm) /\ m_name x = B "dir" /\ (forall v, ~ evaluates ps r (d_meta dm) "dir" v) /\
      l = m_loc x /\ m = B "Dimention's 'dir' must not be the zero vector".
End Msg.

(** ** The line of a thing is the line of the token that starts it.
    4, 5 and 7 are the keywords load, page and text. *)
Section Lines.
  Context {A : Arith}.
  Variables (file : bytes) (ts : list ltok).
  Definition starts (k : tok) (l : loc) : Prop := exists n, In (LTok n k) ts /\ l = Loc file n.
  Definition prop_starts (x : meta) : Prop :=
    (starts (TId (m_name x)) (m_loc x) \/ m_name x = B "@" /\ starts (TP "@"%char) (m_loc x)) /\
    forall p n l, m_val x = MPoint p -> In (n, l) (funcs p) -> starts (TId n) l.
  Definition dim_starts (dm : dim) : Prop := (exists k, g_dim_kw k (d_kind dm) /\ starts (TKw k) (d_loc dm)) /\ Forall prop_starts (d_meta dm).
  Definition item_starts (i : drawable) : Prop :=
    match i with
    | DText l _ ml => starts (TKw 7) l /\ Forall prop_starts ml
    | DDraw l n ml ds => starts (TId n) l /\ Forall prop_starts ml /\ Forall dim_starts ds
    end.
  Definition page_starts (pg : page) : Prop := starts (TKw 5) (pg_loc pg) /\ Forall prop_starts (pg_meta pg) /\ Forall item_starts (pg_draws pg).
  Definition doc_starts (d : document) : Prop := Forall (fun mo => starts (TKw 4) (mo_loc mo)) (doc_models d) /\ Forall page_starts (doc_pages d).
End Lines.
