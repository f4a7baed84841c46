(** Grammar.v - specification: the grammar of parser.y:102-215, production by
    production, with the document each production builds.  Written over token
    sequences; independent of the parser of Parser.v. *)
From Verif Require Import Base Num Env Ast Lexer.

Section Grammar.
  Context {A : Arith}.
  Variable file : bytes.
  Notation "k @ l" := (LTok l k) (at level 60, only parsing).
  Local Notation P c := (TP c%char) (only parsing).

  (** parser.y:106 location : '[' NUM ',' NUM ']' *)
  Inductive g_location : list ltok -> v2 -> Prop :=
  | gl_intro a b c d e x y : g_location [P "[" @ a; TNum x @ b; P "," @ c; TNum y @ d; P "]" @ e] (V2 x y).

  (** parser.y:109-111 point : '[' NUM ',' NUM ',' NUM ']' | ID '(' point ')' *)
  Inductive g_point : list ltok -> point -> Prop :=
  | gp_val a b c d e f g x y z :
      g_point [P "[" @ a; TNum x @ b; P "," @ c; TNum y @ d; P "," @ e; TNum z @ f; P "]" @ g] (PVal (V3 x y z) (Loc file a))
  | gp_func a b c n ts p : g_point ts p -> g_point (TId n @ a :: P "(" @ b :: ts ++ [P ")" @ c]) (PFunc n p (Loc file a)).

  (** parser.y:125-126 string_lit : string_lit STRING_LIT | STRING_LIT *)
  Inductive g_string : list ltok -> bytes -> Prop :=
  | gs_one a s : g_string [TStr s @ a] s
  | gs_more a ts u s : g_string ts u -> g_string (ts ++ [TStr s @ a]) (u ++ s).

  (** parser.y:128-137, the right hand sides after ID '='; a scale has both
      numbers converted to int. *)
  Inductive g_value : list ltok -> mval -> Prop :=
  | gv_str ts s : g_string ts s -> g_value ts (MStr s)
  | gv_point ts p : g_point ts p -> g_value ts (MPoint p)
  | gv_num a x : g_value [TNum x @ a] (MNum x)
  | gv_loc ts v : g_location ts v -> g_value ts (MLoc v)
  | gv_scale a b c x y m n : to_int x = Some m -> to_int y = Some n -> g_value [TNum x @ a; P ":" @ b; TNum y @ c] (MScale m n).

  (** parser.y:128-140 arg *)
  Inductive g_arg : list ltok -> meta -> Prop :=
  | ga_named a b n ts v : g_value ts v -> g_arg (TId n @ a :: P "=" @ b :: ts) (Meta n v (Loc file a))
  | ga_at a ts v : g_location ts v -> g_arg (P "@" @ a :: ts) (Meta (B "@") (MLoc v) (Loc file a)).

  (** parser.y:204-206 dim_parts : dim_parts ',' arg | arg *)
  Inductive g_dim_parts : list ltok -> list meta -> Prop :=
  | gd_one ts m : g_arg ts m -> g_dim_parts ts [m]
  | gd_more a ts ml us m : g_dim_parts ts ml -> g_arg us m -> g_dim_parts (ts ++ P "," @ a :: us) (ml ++ [m]).

  (** parser.y:152-196 draw_parts; 0, 1, 2, 6 are ANGLE, DIA, DIM, RAD *)
  Inductive g_dim_kw : nat -> dkind -> Prop :=
  | gk_angle : g_dim_kw 0 KAngle | gk_dia : g_dim_kw 1 KDia | gk_dim : g_dim_kw 2 KDim | gk_rad : g_dim_kw 6 KRad.
  Inductive g_draw_parts : list ltok -> list meta * list dim -> Prop :=
  | gr_none : g_draw_parts [] ([], [])
  | gr_arg a ts ml ds us m : g_draw_parts ts (ml, ds) -> g_arg us m -> g_draw_parts (ts ++ us ++ [P ";" @ a]) (ml ++ [m], ds)
  | gr_empty a b c d ts ml ds k kd : g_draw_parts ts (ml, ds) -> g_dim_kw k kd ->
      g_draw_parts (ts ++ [TKw k @ a; P "(" @ b; P ")" @ c; P ";" @ d]) (ml, ds ++ [Dim kd (Loc file a) []])
  | gr_dim a b c d ts ml ds k kd us m : g_draw_parts ts (ml, ds) -> g_dim_kw k kd -> g_dim_parts us m ->
      g_draw_parts (ts ++ TKw k @ a :: P "(" @ b :: us ++ [P ")" @ c; P ";" @ d]) (ml, ds ++ [Dim kd (Loc file a) m]).

  (** parser.y:198-202 text_parts *)
  Inductive g_text_parts : list ltok -> list meta -> Prop :=
  | gt_none : g_text_parts [] []
  | gt_arg a ts ml us m : g_text_parts ts ml -> g_arg us m -> g_text_parts (ts ++ us ++ [P ";" @ a]) (ml ++ [m]).

  (** parser.y:142-150 page_parts; 3 is DRAW and 7 is TEXT *)
  Inductive g_page_parts : list ltok -> list meta * list drawable -> Prop :=
  | gq_none : g_page_parts [] ([], [])
  | gq_arg a ts ml ds us m : g_page_parts ts (ml, ds) -> g_arg us m -> g_page_parts (ts ++ us ++ [P ";" @ a]) (ml ++ [m], ds)
  | gq_draw a b c d ts ml ds n us m dm : g_page_parts ts (ml, ds) -> g_draw_parts us (m, dm) ->
      g_page_parts (ts ++ TKw 3 @ a :: TId n @ b :: P "{" @ c :: us ++ [P "}" @ d]) (ml, ds ++ [DDraw (Loc file b) n m dm])
  | gq_text a b c d e ts ml ds us s ws m : g_page_parts ts (ml, ds) -> g_string us s -> g_text_parts ws m ->
      g_page_parts (ts ++ TKw 7 @ a :: P "[" @ b :: us ++ P "]" @ c :: P "{" @ d :: ws ++ [P "}" @ e]) (ml, ds ++ [DText (Loc file a) s m]).

  (** parser.y:113-123 input, model and page; 4 is LOAD and 5 is PAGE *)
  Inductive g_input : list ltok -> document -> Prop :=
  | gi_none : g_input [] (Doc [] [])
  | gi_model a b c d e ts ms ps n s : g_input ts (Doc ms ps) ->
      g_input (ts ++ [TKw 4 @ a; TId n @ b; P "=" @ c; TStr s @ d; P ";" @ e]) (Doc (ms ++ [Model n s (Loc file a)]) ps)
  | gi_page a b c ts ms ps us ml ds : g_input ts (Doc ms ps) -> g_page_parts us (ml, ds) ->
      g_input (ts ++ TKw 5 @ a :: P "{" @ b :: us ++ [P "}" @ c]) (Doc ms (ps ++ [Page (Loc file a) ml ds])).
End Grammar.

(** ** Documents without locations: every location replaced by the same one. *)
Section Erased.
  Context {A : Arith}.
  Definition nowhere : loc := Loc [] 0.
  Fixpoint erase_point (p : point) : point :=
    match p with PVal v _ => PVal v nowhere | PFunc n q _ => PFunc n (erase_point q) nowhere end.
  Definition erase_mval (v : mval) : mval := match v with MPoint p => MPoint (erase_point p) | _ => v end.
  Definition erase_meta (m : meta) : meta := Meta (m_name m) (erase_mval (m_val m)) nowhere.
  Definition erase_dim (d : dim) : dim := Dim (d_kind d) nowhere (map erase_meta (d_meta d)).
  Definition erase_drawable (x : drawable) : drawable :=
    match x with
    | DDraw _ n ml ds => DDraw nowhere n (map erase_meta ml) (map erase_dim ds)
    | DText _ t ml => DText nowhere t (map erase_meta ml)
    end.
  Definition erase_model (m : model) : model := Model (mo_name m) (mo_source m) nowhere.
  Definition erase_page (p : page) : page := Page nowhere (map erase_meta (pg_meta p)) (map erase_drawable (pg_draws p)).
  Definition erase (d : document) : document := Doc (map erase_model (doc_models d)) (map erase_page (doc_pages d)).
  Definition erase_diag (d : diag) : diag :=
    match d with DParse _ m => DParse nowhere m | DSym _ m => DSym nowhere m | DLog m => DLog m end.
  (** The answer of Parse without locations. *)
  Definition erase_answer (r : outcome (nat * document * list diag)) : outcome (nat * document * list diag) :=
    match r with Ret (rc, d, lg) => Ret (rc, erase d, map erase_diag lg) | Abort e => Abort e end.
End Erased.
