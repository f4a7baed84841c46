(** DocSpec.v - the vocabulary in which the document level properties are
    stated.  Nothing here is used by the model. *)
From Verif Require Import Base Num Geo Stl StlRead Env Ast Lexer Parser Ps Draw Main.

(** ** Decimal numbers *)
Fixpoint dec_val (s : bytes) (acc : N) : option N :=
  match s with
  | [] => Some acc
  | c :: t =>
      let k := N_of_ascii c in
      if ((48 <=? k) && (k <=? 57))%N then dec_val t (acc * 10 + (k - 48))%N else None
  end.
(** s is the decimal spelling of n *)
Definition spells (s : bytes) (n : nat) : Prop := s <> [] /\ dec_val s 0 = Some (N.of_nat n).

Section Spec.
  Context {A : Arith} {E : Env}.

  (** ** Conversions *)
  Definition parses (src c : bytes) (d : document) : Prop := exists lg, parse src c = Ret (0, d, lg).
  Definition converts (fs : files) (src c : bytes) : Prop :=
    exists r, script_to_ps fs src c = Ret r /\ r_ok r = true.

  (** ** The blocks of a document and their properties *)
  Inductive bkind := BPage | BDraw | BText | BDim (k : dkind).
  Inductive block (d : document) : bkind -> list meta -> Prop :=
  | B_page pg : In pg (doc_pages d) -> block d BPage (pg_meta pg)
  | B_draw pg l n ml ds : In pg (doc_pages d) -> In (DDraw l n ml ds) (pg_draws pg) -> block d BDraw ml
  | B_text pg l t ml : In pg (doc_pages d) -> In (DText l t ml) (pg_draws pg) -> block d BText ml
  | B_dim pg l n ml ds dm : In pg (doc_pages d) -> In (DDraw l n ml ds) (pg_draws pg) -> In dm ds ->
      block d (BDim (d_kind dm)) (d_meta dm).
  (** The properties that mean something in each kind of block (as used by the
      scripts in /repo/testcases). *)
  Definition documented (k : bkind) : list string :=
    match k with
    | BPage => ["name"]
    | BDraw => ["@"; "scale"; "view"]
    | BText => ["@"]
    | BDim KDim => ["at"; "dir"; "from"; "to"; "fmt"]
    | BDim KDia | BDim KRad => ["at"; "dir"; "center"; "fmt"]
    | BDim KAngle => ["at"; "apex"; "from_dir"; "from_point"; "to_dir"; "to_point"; "fmt"]
    end%string.
  Definition has (ml : list meta) (n : string) : Prop := In (B n) (map m_name ml).
  (** The block has its mandatory properties. *)
  Definition complete (k : bkind) (ml : list meta) : Prop :=
    match k with
    | BDim KDim => has ml "at" /\ has ml "dir" /\ has ml "from" /\ has ml "to"
    | BDim KDia | BDim KRad => has ml "at" /\ has ml "dir" /\ has ml "center"
    | BDim KAngle =>
        has ml "at" /\ has ml "apex" /\
        (has ml "from_dir" /\ ~ has ml "from_point" \/ ~ has ml "from_dir" /\ has ml "from_point") /\
        (has ml "to_dir" /\ ~ has ml "to_point" \/ ~ has ml "to_dir" /\ has ml "to_point")
    | _ => True
    end.
  Definition view_names : list bytes := map B ["X+"; "X-"; "Y+"; "Y-"; "Z+"; "Z-"]%string.

  (** ** Searching a model file.  [tried fs ps c]: c is the contents of the first
      of the paths ps that can be opened. *)
  Inductive first_of (fs : files) : list bytes -> bytes -> Prop :=
  | FO_here p ps c : fs p = Some c -> first_of fs (p :: ps) c
  | FO_next p ps c : fs p = None -> first_of fs ps c -> first_of fs (p :: ps) c.
  (** The directories, in order: the current one and the entries of the flag,
      which are separated by commas. *)
  Definition is_entry_list (flag : bytes) (l : list bytes) : Prop :=
    join (B ",") l = flag /\ Forall (fun e => ~ In ","%char e) l /\ l <> [].
  Definition abs_path (f : bytes) : Prop := exists t, f = "/"%char :: t.
  (** The file a model source names. *)
  Definition resolves (fs : files) (f : bytes) (c : bytes) : Prop :=
    (abs_path f /\ fs f = Some c) \/
    (~ abs_path f /\ exists es, is_entry_list flag_load_path es /\
       first_of fs (map (fun d => d ++ B "/" ++ f) (B "." :: es)) c).

  (** p is a file in or below the current directory or one of the directories
      of the flag. *)
  Definition no_dotdot (f : bytes) : Prop := ~ In (B "..") (split_on "/" f).
  Definition below (p : bytes) : Prop :=
    exists d es rest, is_entry_list flag_load_path es /\ (d = B "." \/ In d es) /\ d <> [] /\
      p = d ++ B "/" ++ rest /\ no_dotdot rest.

  (** ** Rotating coordinates.  The triple at the innermost place of a point
      expression, and the functions around it. *)
  Fixpoint triple (p : point) : v3 := match p with PVal v _ => v | PFunc _ q _ => triple q end.
  Fixpoint funcs (p : point) : list (bytes * loc) :=
    match p with PVal _ _ => [] | PFunc n q l => (n, l) :: funcs q end.
  Fixpoint val_loc (p : point) : loc := match p with PVal _ l => l | PFunc _ q _ => val_loc q end.
  Definition multiplied_by (r : m3) (p p' : point) : Prop :=
    triple p' = mulm (triple p) r /\ funcs p' = funcs p /\ val_loc p' = val_loc p.
  (** ml' is ml with each point p replaced by some p' with R p p'. *)
  Definition meta_rel (R : point -> point -> Prop) (x x' : meta) : Prop :=
    m_name x' = m_name x /\ m_loc x' = m_loc x /\
    match m_val x with
    | MPoint p => exists p', m_val x' = MPoint p' /\ R p p'
    | v => m_val x' = v
    end.
  Definition dim_rel (R : point -> point -> Prop) (d d' : dim) : Prop :=
    d_kind d' = d_kind d /\ d_loc d' = d_loc d /\ Forall2 (meta_rel R) (d_meta d) (d_meta d').
  Definition same (p p' : point) : Prop := p' = p.
  Definition at_most_once (r : m3) (p p' : point) : Prop := p' = p \/ multiplied_by r p p'.
  (** The property n of ml is a point expression that has the value v after its
      triple was multiplied by r once. *)
  Definition evaluates (ps : point_set) (r : m3) (ml : list meta) (n : string) (v : v3) : Prop :=
    exists x p p', In x ml /\ m_name x = B n /\ m_val x = MPoint p /\ multiplied_by r p p' /\ snd (invoke ps p') = Some v.
  (** The view matrix a draw asks for: of a name or of two angles, Z+ if it says
      nothing. *)
  Inductive asks_view (ml : list meta) : m3 -> Prop :=
  | AV_default : ~ has ml "view" -> asks_view ml mZP
  | AV_angles x a : In x ml -> m_name x = B "view" -> m_val x = MLoc a -> asks_view ml (matrix_by_ang a)
  | AV_name x n r : In x ml -> m_name x = B "view" -> m_val x = MStr n ->
      In (n, r) (combine view_names [mXP; mXN; mYP; mYN; mZP; mZN]) -> asks_view ml r.
  (** R r holds of each dimension before and after, r being the view of its draw. *)
  Inductive item_rel (R : m3 -> point -> point -> Prop) : drawable -> drawable -> Prop :=
  | IR_text l t ml : item_rel R (DText l t ml) (DText l t ml)
  | IR_draw l n ml ds ds' r : asks_view ml r -> Forall2 (dim_rel (R r)) ds ds' ->
      item_rel R (DDraw l n ml ds) (DDraw l n ml ds').
  Definition page_rel (R : m3 -> point -> point -> Prop) (p p' : page) : Prop :=
    pg_loc p' = pg_loc p /\ pg_meta p' = pg_meta p /\ Forall2 (fun i i' => i' = i \/ item_rel R i i') (pg_draws p) (pg_draws p').
  Definition page_rel_all (R : m3 -> point -> point -> Prop) (p p' : page) : Prop :=
    pg_loc p' = pg_loc p /\ pg_meta p' = pg_meta p /\ Forall2 (item_rel R) (pg_draws p) (pg_draws p').

  (** ** What an item or page contributes *)
  Definition plus_page (a b : opage) : opage :=
    OPage (o_lines a ++ o_lines b) (o_arcs a ++ o_arcs b) (o_text a ++ o_text b).
  (** Appending to a page and to the diagnostics. *)
  Record contribution := Contrib { c_page : opage; c_log : list diag; c_item : drawable; c_ok : bool }.
  (** Visiting the item in state s ends as o says. *)
  Definition contributes (files : stl_map) (d : drawable) (o : outcome contribution) (s : vst) : Prop :=
    match o with
    | Abort e => visit_drawable files d s = Abort e
    | Ret c => exists s', visit_drawable files d s = Ret (s', c_item c, c_ok c) /\
                 v_page s' = plus_page (v_page s) (c_page c) /\ v_log s' = v_log s ++ c_log c
    end.

  (** The numbers of lines, arcs and texts of a dimension. *)
  Definition parts (k : dkind) : nat * nat * nat :=
    match k with KDim => (8, 0, 1) | KAngle => (6, 1, 1) | KDia => (6, 0, 1) | KRad => (4, 0, 1) end.

  (** The drawing of item d, with the models st, is always c. *)
  Definition always_adds (st : stl_map) (d : drawable) (c : contribution) : Prop := forall s, contributes st d (Ret c) s.
  Definition sum_pages (l : list opage) : opage := fold_right plus_page opage_empty l.
  (** The title of a page: its name property, or nothing. *)
  Inductive titled (pg : page) : bytes -> Prop :=
  | T_none : ~ has (pg_meta pg) "name" -> titled pg []
  | T_some x t : In x (pg_meta pg) -> m_name x = B "name" -> m_val x = MStr t -> titled pg t.
  (** The title box: a text in the given place and two lines around it. *)
  Definition is_title_box (t : bytes) (p : opage) : Prop :=
    exists at_ l1 l2, p = OPage [l1; l2] [] [Text at_ t false false].
  (** b is the output for the page pg, which is number k of n: it starts by
      saying so, shows what the items add and the title box, and ends the page. *)
  Definition page_block (st : stl_map) (k n : nat) (pg : page) (b : bytes) : Prop :=
    exists kk nn mid cs box t, spells kk k /\ spells nn n /\
      Forall2 (always_adds st) (pg_draws pg) cs /\ Forall (fun c => c_ok c = true) cs /\
      titled pg t /\ is_title_box t box /\
      let p := plus_page (sum_pages (map c_page cs)) box in
      b = [LF] ++ B "%%%%%%%%% Start of page " ++ kk ++ B " of " ++ nn ++ [LF] ++ mid ++
          text_to_ps (o_text p) ++ arcs_to_ps (o_arcs p) ++ lines_to_ps (o_lines p) ++
          [LF] ++ B "showpage %%%%%%%%%" ++ [LF].

  (** A page and what is said about it: messages about its own properties
      around those of its items, in order. *)
  Definition page_says (st : stl_map) (pg : page) (lg : list diag) : Prop :=
    exists cs before after, Forall2 (always_adds st) (pg_draws pg) cs /\
      lg = before ++ concat (map c_log cs) ++ after.

  (** ** Placing on the page: times the scale sc, plus the offset off. *)
  Definition put (sc : num) (off p : v2) : v2 := add2 (mul2 p sc) off.
  Definition put_page (sc : num) (off : v2) (q : opage) : opage :=
    OPage (map (fun l => Line (put sc off (lo l)) (put sc off (lt_ l))) (o_lines q))
          (map (fun a => Arc (put sc off (ac a)) (nmul (ar a) sc) (astart a) (aend a)) (o_arcs q))
          (map (fun t => Text (put sc off (t_at t)) (t_str t) (t_center t) (t_raw t)) (o_text q)).
  (** ml and ml' agree on all properties but @. *)
  Definition same_but_at (ml ml' : list meta) : Prop :=
    filter (fun x => negb (bytes_eqb (m_name x) (B "@"))) ml = filter (fun x => negb (bytes_eqb (m_name x) (B "@"))) ml'.
  (** The scale a draw asks for, 1:1 if it says nothing. *)
  Inductive asks_scale (ml : list meta) : Z -> Z -> Prop :=
  | AS_default : ~ has ml "scale" -> asks_scale ml 1 1
  | AS_given x a b : In x ml -> m_name x = B "scale" -> m_val x = MScale a b -> asks_scale ml a b.
  (** The model a draw shows, turned to the viewer, and its visible lines. *)
  Definition shows (st : stl_map) (n : bytes) (ml : list meta) (proj : stl) (ls : list line) : Prop :=
    exists f rot pr, smap_find bytes_ltb n st = Some (Some f) /\ asks_view ml rot /\ rotate f rot = Ret pr /\
      proj = cull_back_face pr /\ to_lines proj = Ret ls.

  (** ** Why a conversion ends the process.  The document draws the model n,
      read from a file as f, in the view r, with the dimensions ds. *)
  Definition draws_model (fs : files) (src c : bytes) (f : stl) (r : m3) (ds : list dim) : Prop :=
    exists d pg l n ml m t lg, parses src c d /\ In pg (doc_pages d) /\ In (DDraw l n ml ds) (pg_draws pg) /\ asks_view ml r /\
      In m (doc_models d) /\ mo_name m = n /\ resolves fs (mo_source m) t /\ stl_make t = Ret (Some f, lg).
  Inductive ends_because (fs : files) (src c : bytes) : abort -> Prop :=
  | EB_script e : parse src c = Abort e -> ends_because fs src c e
  | EB_model d m t e : parses src c d -> In m (doc_models d) -> resolves fs (mo_source m) t -> stl_make t = Abort e -> ends_because fs src c e
  | EB_turn f r ds e : draws_model fs src c f r ds -> rotate f r = Abort e -> ends_because fs src c e
  | EB_lines f r ds p e : draws_model fs src c f r ds -> rotate f r = Ret p -> to_lines (cull_back_face p) = Abort e -> ends_because fs src c e
  | EB_set f r ds p : draws_model fs src c f r ds -> rotate f r = Ret p -> strict_weak order (flat_map fverts (facets (cull_back_face p))) = false ->
      ends_because fs src c (AUB "std::set without a strict weak ordering")
  | EB_dims f r ds : draws_model fs src c f r ds -> ds <> [] -> eqm r zerom = true -> ends_because fs src c (ACheck "Null rotation").

  (** Every triple of the dimensions is left alone by the view of its draw. *)
  Definition view_fixes (d : document) : Prop :=
    forall pg l n ml ds dm x p r, In pg (doc_pages d) -> In (DDraw l n ml ds) (pg_draws pg) -> In dm ds -> In x (d_meta dm) ->
      m_val x = MPoint p -> asks_view ml r -> mulm (triple p) r = triple p.
  Definition counts (p : opage) : nat * nat * nat := (length (o_lines p), length (o_arcs p), length (o_text p)).
  (** One side of an angle: its direction and a point on it. *)
  Definition side_used (ps : point_set) (r : m3) (ml : list meta) (kd kp : string) (apex : v3) (f : v3 * v3) : Prop :=
    (exists v, evaluates ps r ml kd v /\ f = (normalized3 v, apex)) \/
    (exists v, evaluates ps r ml kp v /\ f = (normalized3 (sub3 v apex), v)).
  (** The format: an accepted property fmt, or else the default. *)
  Definition format_used (ml : list meta) (dflt : string) (fm : bytes) : Prop :=
    (exists x, In x ml /\ m_name x = B "fmt" /\ m_val x = MStr fm /\ pf_ok fm = true) \/ (~ has ml "fmt" /\ fm = B dflt).
  (** A successful dimension draws with the values of its arguments, each
      rotated once, and prints with its format. *)
  Definition uses_once (s : vst) (d : dim) (s' : vst) : Prop :=
    let ev := evaluates (v_points s) (v_rot s) (d_meta d) in
    let fmt := format_used (d_meta d) in
    match d_kind d with
    | KDim => exists fm a dd f t, fmt "%.3f" fm /\ ev "at" a /\ ev "dir" dd /\ ev "from" f /\ ev "to" t /\
                s' = draw_dim fm a (normalized3 dd) f t s
    | KDia => exists fm a dd c ce r, fmt "%.3f" fm /\ ev "at" a /\ ev "dir" dd /\ ev "center" c /\
                fit_circle (v_points s) (xy c) = Some (ce, r) /\ s' = draw_dia fm ce (xy a) (xy dd) r s
    | KRad => exists fm a dd c ce r, fmt "%.3f" fm /\ ev "at" a /\ ev "dir" dd /\ ev "center" c /\
                fit_circle (v_points s) (xy c) = Some (ce, r) /\ s' = draw_rad fm ce (xy a) (xy dd) r s
    | KAngle => exists fm a p f t, fmt "%.1f" fm /\ ev "at" a /\ ev "apex" p /\
                side_used (v_points s) (v_rot s) (d_meta d) "from_dir" "from_point" p f /\
                side_used (v_points s) (v_rot s) (d_meta d) "to_dir" "to_point" p t /\
                (s', true) = draw_angle (d_loc d) fm a p (fst f) (snd f) (fst t) (snd t) s
    end%string.
End Spec.
