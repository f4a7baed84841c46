(** LangSpec.v - the lexical rules of scripts, written without the regular
    expressions of the model. *)
From Verif Require Import Base Lexer.

Local Unset Implicit Arguments.

Definition ord (c : ascii) : N := N_of_ascii c.
Definition digit (c : ascii) : Prop := (48 <= ord c <= 57)%N.
Definition letter (c : ascii) : Prop := (65 <= ord c <= 90)%N \/ (97 <= ord c <= 122)%N \/ c = "_"%char.
Definition wordy (c : ascii) : Prop := letter c \/ digit c.
Definition word (w : bytes) : Prop := exists c r, w = c :: r /\ letter c /\ Forall wordy r.
Definition keywords : list bytes := [B "angle"; B "dia"; B "dim"; B "draw"; B "load"; B "page"; B "rad"; B "text"].
Definition signed (sg : bytes) : Prop := sg = [] \/ sg = B "-" \/ sg = B "+".
(** 12  -1.  +2.5  .5 *)
Definition number (w : bytes) : Prop :=
  exists sg a r, signed sg /\ w = sg ++ a ++ r /\ Forall digit a /\
    (a <> [] /\ (r = [] \/ exists f, Forall digit f /\ r = "."%char :: f) \/
     a = [] /\ exists f, f <> [] /\ Forall digit f /\ r = "."%char :: f).
(** What is between the quotes, and the string it stands for. *)
Inductive quoted : bytes -> bytes -> Prop :=
| quoted_nil : quoted [] []
| quoted_plain c b v : c <> DQUOTE -> c <> BSLASH -> c <> LF -> quoted b v -> quoted (c :: b) (c :: v)
| quoted_esc e b v : In e [DQUOTE; BSLASH; "'"%char; "?"%char] -> quoted b v -> quoted (BSLASH :: e :: b) (e :: v)
| quoted_lf b v : quoted b v -> quoted (BSLASH :: "n"%char :: b) (LF :: v).
Definition literal (w v : bytes) : Prop := exists b, w = DQUOTE :: b ++ [DQUOTE] /\ quoted b v.
Definition punctuation (c : ascii) : Prop := In c (B "{}[]()=;:,@").
Definition blank (c : ascii) : Prop := In c [SP; TAB; LF; CR].
Definition comment (w : bytes) : Prop := exists t, w = B "//" ++ t /\ ~ In LF t.
Definition newlines (s : bytes) : nat := count_occ ascii_dec s LF.

(** A piece of the input together with the kind the scanner gave it. *)
Definition piece (a : action) (w : bytes) : Prop :=
  match a with
  | APunct c => w = [c] /\ punctuation c
  | AKw n => nth_error keywords n = Some w
  | AId => word w /\ ~ In w keywords
  | ANum => number w
  | AStr => exists v, literal w v
  | ASkip => (exists c, w = [c] /\ blank c) \/ comment w
  | AError => exists c, w = [c] /\ ~ punctuation c /\ ~ letter c /\ ~ digit c /\ ~ blank c
  end.

(** The canonical spelling of a string. *)
Definition spell_char (c : ascii) : bytes :=
  if byte_eqb c DQUOTE then [BSLASH; DQUOTE]
  else if byte_eqb c BSLASH then [BSLASH; BSLASH]
  else if byte_eqb c LF then [BSLASH; "n"%char] else [c].
Definition spell (s : bytes) : bytes := DQUOTE :: flat_map spell_char s ++ [DQUOTE].

(** ** Layout *)
Inductive layout : bytes -> Prop :=
| layout_nil : layout []
| layout_blank c g : blank c -> layout g -> layout (c :: g)
| layout_comment t g : ~ In LF t -> layout g -> layout (B "//" ++ t ++ LF :: g).
(** At the very end a comment needs no line break. *)
Definition last_layout (g : bytes) : Prop := exists g1 g2, g = g1 ++ g2 /\ layout g1 /\ (g2 = [] \/ comment g2).
Definition token (w : bytes) : Prop := (exists c, w = [c] /\ punctuation c) \/ word w \/ number w \/ exists v, literal w v.
(** Written without a gap, [w] and a following [c] would be one token. *)
Definition joins_on (w : bytes) (c : ascii) : Prop := (word w /\ wordy c) \/ (number w /\ number (w ++ [c])).
(** [s] is the given tokens with layout before each of them and at the end;
    tokens that could be read as one are separated. *)
Inductive arranged : list bytes -> bytes -> Prop :=
| arranged_end g : last_layout g -> arranged [] g
| arranged_token g w ws s : layout g -> token w -> arranged ws s -> match s with [] => True | c :: _ => ~ joins_on w c end ->
    arranged (w :: ws) (g ++ w ++ s).

(** w is one of the numbers of the script c (the pieces of a script are
    described by C51). *)
Definition numeral_in (c w : bytes) : Prop := exists l x, scan_all c = Some l /\ In x l /\ lx_act x = ANum /\ lx_text x = w.
Definition not_skipped (x : lexeme) : bool := match lx_act x with ASkip => false | _ => true end.
