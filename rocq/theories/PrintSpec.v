(** PrintSpec.v - specification: how a document is written as a script.  Not used
    by the model. *)
From Verif Require Import Base Num Env Ast Lexer LangSpec.

Local Unset Implicit Arguments.
Section Print.
  Context {A : Arith} {E : Env}.
  (** Some way to write numbers. *)
  Variable spell_num : num -> bytes.
  Variable spell_int : Z -> bytes.

  Fixpoint words_point (p : point) : list bytes :=
    match p with
    | PVal v _ => [B "["; spell_num (x3 v); B ","; spell_num (y3 v); B ","; spell_num (z3 v); B "]"]
    | PFunc n q _ => n :: B "(" :: words_point q ++ [B ")"]
    end.
  Definition words_loc (v : v2) : list bytes := [B "["; spell_num (x2 v); B ","; spell_num (y2 v); B "]"].
  Definition words_value (v : mval) : list bytes :=
    match v with
    | MStr s => [spell s]
    | MPoint p => words_point p
    | MNum x => [spell_num x]
    | MLoc v => words_loc v
    | MScale a b => [spell_int a; B ":"; spell_int b]
    end.
  Definition words_meta (m : meta) : list bytes :=
    match m_val m with
    | MLoc v => if bytes_eqb (m_name m) (B "@") then B "@" :: words_loc v else m_name m :: B "=" :: words_loc v
    | v => m_name m :: B "=" :: words_value v
    end.
  (** each followed by a semicolon *)
  Definition words_metas (ml : list meta) : list bytes := flat_map (fun m => words_meta m ++ [B ";"]) ml.
  (** separated by commas *)
  Fixpoint words_args (ml : list meta) : list bytes :=
    match ml with [] => [] | [m] => words_meta m | m :: r => words_meta m ++ B "," :: words_args r end.
  Definition kind_word (k : dkind) : bytes :=
    match k with KAngle => B "angle" | KDia => B "dia" | KDim => B "dim" | KRad => B "rad" end.
  Definition words_dim (d : dim) : list bytes := kind_word (d_kind d) :: B "(" :: words_args (d_meta d) ++ [B ")"; B ";"].
  Definition words_item (x : drawable) : list bytes :=
    match x with
    | DDraw _ n ml ds => B "draw" :: n :: B "{" :: words_metas ml ++ flat_map words_dim ds ++ [B "}"]
    | DText _ t ml => [B "text"; B "["; spell t; B "]"; B "{"] ++ words_metas ml ++ [B "}"]
    end.
  Definition words_page (p : page) : list bytes := B "page" :: B "{" :: words_metas (pg_meta p) ++ flat_map words_item (pg_draws p) ++ [B "}"].
  Definition words_model (m : model) : list bytes := [B "load"; mo_name m; B "="; spell (mo_source m); B ";"].
  Definition words_doc (d : document) : list bytes := flat_map words_model (doc_models d) ++ flat_map words_page (doc_pages d).

  (** ** Documents that can be written: names are words, strings have no NUL,
      and the numbers are spelled so that they are read back. *)
  Definition name_ok (n : bytes) : Prop := word n /\ ~ In n keywords.
  Definition str_ok (s : bytes) : Prop := ~ In NUL s.
  Definition num_ok (x : num) : Prop := number (spell_num x) /\ stof (spell_num x) = Some x.
  Definition int_ok (z : Z) : Prop := number (spell_int z) /\ exists x, stof (spell_int z) = Some x /\ to_int x = Some z.
  Fixpoint point_ok (p : point) : Prop :=
    match p with
    | PVal v _ => num_ok (x3 v) /\ num_ok (y3 v) /\ num_ok (z3 v)
    | PFunc n q _ => name_ok n /\ point_ok q
    end.
  Definition value_ok (v : mval) : Prop :=
    match v with
    | MStr s => str_ok s
    | MPoint p => point_ok p
    | MNum x => num_ok x
    | MLoc v => num_ok (x2 v) /\ num_ok (y2 v)
    | MScale a b => int_ok a /\ int_ok b
    end.
  Definition meta_ok (m : meta) : Prop := value_ok (m_val m) /\ (name_ok (m_name m) \/ m_name m = B "@" /\ exists v, m_val m = MLoc v).
  Definition dim_ok (d : dim) : Prop := Forall meta_ok (d_meta d).
  Definition item_ok (x : drawable) : Prop :=
    match x with
    | DDraw _ n ml ds => name_ok n /\ Forall meta_ok ml /\ Forall dim_ok ds
    | DText _ t ml => str_ok t /\ Forall meta_ok ml
    end.
  Definition page_ok (p : page) : Prop := Forall meta_ok (pg_meta p) /\ Forall item_ok (pg_draws p).
  Definition model_ok (m : model) : Prop := name_ok (mo_name m) /\ str_ok (mo_source m).
  Definition printable (d : document) : Prop := Forall model_ok (doc_models d) /\ Forall page_ok (doc_pages d).
  (** Numbers that are read from a script can be spelled. *)
  Definition spells_read : Prop :=
    (forall w x, number w -> stof w = Some x -> num_ok x) /\
    (forall w x z, number w -> stof w = Some x -> to_int x = Some z -> int_ok z).
End Print.
(** One way to arrange words: a space after each. *)
Definition spaced (ws : list bytes) : bytes := flat_map (fun w => w ++ [SP]) ws.
