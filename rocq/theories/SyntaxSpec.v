(** SyntaxSpec.v - specification: the sentences of the script language as
    sequences of kinds of tokens (parser.y:102-215 without the values). *)
From Verif Require Import Base Num Env Ast Lexer.

Local Unset Implicit Arguments.
Inductive kind := KP (c : ascii) | KWord (n : nat) | KIdent | KNumber | KString | KBad.
Definition kind_of {A : Arith} (t : ltok) : kind :=
  match t_tok t with
  | TP c => KP c
  | TKw n => KWord n
  | TId _ => KIdent
  | TNum _ | TThrow => KNumber
  | TStr _ => KString
  | TErr _ => KBad
  end.
Definition kinds {A : Arith} (ts : list ltok) : list kind := map kind_of ts.

Definition lang := list kind -> Prop.
Definition then_ (L M : lang) : lang := fun w => exists a b, w = a ++ b /\ L a /\ M b.
Definition or_ (L M : lang) : lang := fun w => L w \/ M w.
Definition just (w : list kind) : lang := fun v => v = w.
Inductive many (L : lang) : lang :=
| many_nil : many L []
| many_more a b : L a -> many L b -> many L (a ++ b).
Declare Scope lang_scope.
Delimit Scope lang_scope with lang.
Infix "<+>" := then_ (at level 55, right associativity) : lang_scope.
Infix "<|>" := or_ (at level 60, right associativity) : lang_scope.
Local Open Scope lang_scope.
Definition ch (c : ascii) : lang := just [KP c].
Definition kw (n : nat) : lang := just [KWord n].
Definition num_ : lang := just [KNumber].
Definition id_ : lang := just [KIdent].
Definition str_ : lang := just [KString].

(** parser.y:106 *)
Definition a_location : lang := ch "[" <+> num_ <+> ch "," <+> num_ <+> ch "]".
(** parser.y:109-111 *)
Definition a_triple : lang := ch "[" <+> num_ <+> ch "," <+> num_ <+> ch "," <+> num_ <+> ch "]".
Inductive a_point : lang :=
| ap_val w : a_triple w -> a_point w
| ap_func w : a_point w -> a_point (KIdent :: KP "(" :: w ++ [KP ")"]).
(** parser.y:125-126 *)
Definition a_string : lang := str_ <+> many str_.
(** parser.y:128-140 *)
Definition a_value : lang := a_string <|> a_point <|> num_ <|> a_location <|> num_ <+> ch ":" <+> num_.
Definition an_arg : lang := id_ <+> ch "=" <+> a_value <|> ch "@" <+> a_location.
(** parser.y:152-206 *)
Definition the_args : lang := just [] <|> an_arg <+> many (ch "," <+> an_arg).
Definition a_dim : lang := (kw 0 <|> kw 1 <|> kw 2 <|> kw 6) <+> (ch "(" <+> the_args <+> ch ")" <+> ch ";").
Definition a_draw_part : lang := an_arg <+> ch ";" <|> a_dim.
(** parser.y:142-150 *)
Definition a_page_part : lang :=
  an_arg <+> ch ";"
  <|> kw 3 <+> id_ <+> ch "{" <+> many a_draw_part <+> ch "}"
  <|> kw 7 <+> ch "[" <+> a_string <+> ch "]" <+> ch "{" <+> many (an_arg <+> ch ";") <+> ch "}".
(** parser.y:113-123 *)
Definition an_item : lang :=
  kw 4 <+> id_ <+> ch "=" <+> str_ <+> ch ";"
  <|> kw 5 <+> ch "{" <+> many a_page_part <+> ch "}".
Definition sentence : lang := many an_item.

(** The sequence can be continued to a sentence. *)
Definition viable (w : list kind) : Prop := exists v, sentence (w ++ v).
(** What is said about a token that does not fit. *)
Definition complaint {A : Arith} (t : ltok) : bytes := match t_tok t with TErr s => s | _ => B "syntax error" end.
