(** StackSpec.v - how deep the parentheses of a script are nested. *)
From Coq Require Import ZArith.
From Verif Require Import Base Num Env Ast Lexer.

(** The parentheses opened less those closed. *)
Fixpoint open_parens {A : Arith} (ts : list ltok) : Z :=
  match ts with
  | [] => 0
  | LTok _ (TP c) :: r => ((if ascii_dec c "(" then 1 else if ascii_dec c ")" then -1 else 0) + open_parens r)%Z
  | _ :: r => open_parens r
  end.
(** No more than [m] parentheses are open at any place. *)
Definition nests {A : Arith} (m : Z) (ts : list ltok) : Prop := forall pre post, ts = pre ++ post -> (open_parens pre <= m)%Z.
(** How many functions are applied to a point; the properties of a script; scripts whose points
    have at most [m] functions. *)
Fixpoint functions {A : Arith} (p : point) : nat := match p with PVal _ _ => 0 | PFunc _ q _ => S (functions q) end.
Definition item_metas {A : Arith} (i : drawable) : list meta := match i with DDraw _ _ ml ds => ml ++ flat_map d_meta ds | DText _ _ ml => ml end.
Definition page_metas {A : Arith} (pg : page) : list meta := pg_meta pg ++ flat_map item_metas (pg_draws pg).
Definition doc_metas {A : Arith} (d : document) : list meta := flat_map page_metas (doc_pages d).
Definition shallow {A : Arith} (m : nat) (d : document) : Prop := forall x p, In x (doc_metas d) -> m_val x = MPoint p -> functions p <= m.
