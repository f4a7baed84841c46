(** TextSpec.v - specification: numbers as text.  What a decimal numeral means,
    and what the C and absl documentation says of the conversions that
    lexer.l, stl.cc, ps.cc and stl-to-ps.cc call. *)
From Coq Require Import Reals ZArith.
From Flocq Require Import Core IEEE754.BinarySingleNaN.
From Verif Require Import Base Num NumF64 NumReal Geo Stl StlRead Env Ast Lexer Parser Ps Draw Main LangSpec DocSpec StlSpec PsSpec DimSpec.

Local Unset Implicit Arguments.
Local Open Scope R_scope.

(** 10^e *)
Definition ten (e : Z) : R := powerRZ 10 e.
Definition sign_of (sg : bytes) : R := if list_eq_dec ascii_dec sg (B "-") then -1 else 1.
(** Digits with at most one point: the digits spell m, k of them are after the point. *)
Definition digits (w : bytes) (m : N) (k : nat) : Prop :=
  exists a f, (w = a ++ "."%char :: f \/ w = a /\ f = []) /\ a ++ f <> [] /\ dec_val (a ++ f) 0 = Some m /\ k = length f.
(** The number a numeral stands for: 12  -1.  +2.5  .5  1e-07 *)
Inductive reads : bytes -> R -> Prop :=
| reads_plain sg w m k : signed sg -> digits w m k -> reads (sg ++ w) (sign_of sg * IZR (Z.of_N m) * ten (- Z.of_nat k))
| reads_exp sg w m k sx x n : signed sg -> digits w m k -> signed sx -> spells x n ->
    reads (sg ++ w ++ "e"%char :: sx ++ x) (sign_of sg * IZR (Z.of_N m) * ten ((if list_eq_dec ascii_dec sx (B "-") then - Z.of_nat n else Z.of_nat n) - Z.of_nat k)).

(** w is q written with n decimals: 12  -0.125 *)
Definition fixed (n : nat) (w : bytes) (q : R) : Prop := exists sg a f m, (sg = [] \/ sg = B "-") /\ a <> [] /\ length f = n /\
  w = sg ++ a ++ (if n =? 0 then [] else "."%char :: f)%nat /\ dec_val (a ++ f) 0 = Some m /\ q = sign_of sg * IZR (Z.of_N m) * ten (- Z.of_nat n).
(** q has at most n decimal places; q has at most n significant digits. *)
Definition places (n : nat) (q : R) : Prop := exists z : Z, q = IZR z * ten (- Z.of_nat n).
Definition figures (n : nat) (q : R) : Prop := exists z e : Z, (Z.abs z < 10 ^ Z.of_nat n)%Z /\ q = IZR z * ten e.
(** q is a number of the kind K that no other one is closer to r than. *)
Definition nearest (K : R -> Prop) (r q : R) : Prop := K q /\ forall q', K q' -> Rabs (q - r) <= Rabs (q' - r).

(** The arithmetic and environment convert between numbers and text as C, RE2
    and absl do.  [val x] is the number x stands for, if it is one; [rs] and
    [rd] round to float and double. *)
Section Std.
  Context {A : Arith} {E : Env}.
  Variables (val : num -> option R) (rs rd : R -> R).
  Record text_std : Prop := TextStd {
    (** std::stof: the nearest float, for numerals that are not too big or too small *)
    std_stof : forall w x, number w -> stof w = Some x -> exists r, reads w r /\ val x = Some (rs r);
    std_stof_ok : forall w r, number w -> reads w r -> r = 0 \/ 1 / 2 ^ 126 <= Rabs r <= 2 ^ 127 -> stof w <> None;
    (** RE2's double: the nearest double *)
    std_re2 : forall w x, numeral w -> re2_double w = Some x -> exists r, reads w r /\ val x = Some (rd r);
    (** absl::Substitute of a double: six figures *)
    std_num : forall x r, val x = Some r -> exists q, reads (fmt_num x) q /\ nearest (figures 6) r q;
    (** absl::StrFormat with "%.nf", which may have other text around it *)
    std_fmt : forall p n x r, spells p n -> (n <= 100)%nat -> val x = Some r ->
      pf_ok (B "%." ++ p ++ B "f") = true /\ exists q, fixed n (pf_format (B "%." ++ p ++ B "f") x) q /\ nearest (places n) r q;
    std_text : forall a b p n x r, ~ In "%"%char a -> ~ In "%"%char b -> spells p n -> (n <= 100)%nat -> val x = Some r ->
      pf_ok (a ++ (B "%." ++ p ++ B "f") ++ b) = true /\ pf_format (a ++ (B "%." ++ p ++ B "f") ++ b) x = a ++ pf_format (B "%." ++ p ++ B "f") x ++ b
  }.
End Std.

(** Doubles. *)
Definition val64 (x : f64) : option R := if is_finite x then Some (B2R x) else None.
Definition rnd32 (r : R) : R := round radix2 (FLT_exp (-149) 24) ZnearestE r.
Definition rnd64 (r : R) : R := round radix2 (FLT_exp (-1074) 53) ZnearestE r.
Definition std64 (lm : libm) (asc : bool) (E : @Env (F64 lm asc)) : Prop := @text_std (F64 lm asc) E val64 rnd32 rnd64.
(** Exact arithmetic. *)
Definition valR (x : xr) : option R := match x with Fin r => Some r | _ => None end.
Definition stdR (E : @Env XR) : Prop := @text_std XR E valR (fun r => r) (fun r => r).

(** ** What is written *)
(** The word w reads as r to six figures. *)
Definition word_for (r : R) (w : bytes) : Prop := exists q, reads w q /\ Rabs (q - r) <= 5 / 1000000 * Rabs r.
(** The value of a length or angle with n decimal places. *)
Definition decimal_for (n : nat) (r : R) (w : bytes) : Prop := exists q, fixed n w q /\ Rabs (q - r) <= / 2 * ten (- Z.of_nat n).
Section Written.
  Context {A : Arith}.
  Variable val : num -> option R.
  Definition stands (x : num) (t : ptok) : Prop := forall r, val x = Some r -> exists w, t = PWord w /\ word_for r w.
  (** The programs for a line from (x,y) to (u,v), for an arc, for a string. *)
  Definition line_tokens (l : line) (p : list ptok) : Prop := exists x y u v,
    p = [PWord (B "newpath"); x; y; PWord (B "moveto"); u; v; PWord (B "lineto"); PWord (B "stroke")] /\
    stands (x2 (lo l)) x /\ stands (y2 (lo l)) y /\ stands (x2 (lt_ l)) u /\ stands (y2 (lt_ l)) v.
  Definition arc_tokens (a : arc) (p : list ptok) : Prop := exists x y r s e,
    p = [PWord (B "newpath"); x; y; r; s; e; PWord (B "arc"); PWord (B "stroke")] /\
    stands (x2 (ac a)) x /\ stands (y2 (ac a)) y /\ stands (ar a) r /\
    stands (ndiv (nmul (astart a) (of_Z 180)) PI) s /\ stands (ndiv (nmul (aend a) (of_Z 180)) PI) e.
  Definition text_tokens (t : Ps.text) (p : list ptok) : Prop := exists x y v,
    p = [PWord (B "newpath"); x; y; PWord (B "moveto"); PStr v] ++ (if t_center t then [PWord (B "CenterText")] else []) ++ [PWord (B "show")] /\
    stands (x2 (t_at t)) x /\ stands (y2 (t_at t)) y /\ (t_raw t = false -> v = line_ends (t_str t)).
  (** Everything on the page, between something before it and showpage. *)
  Definition page_tokens (pg : opage) (p : list ptok) : Prop := exists pre ts arcs lines,
    p = pre ++ concat ts ++ concat arcs ++ concat lines ++ [PWord (B "showpage")] /\
    Forall2 text_tokens (o_text pg) ts /\ Forall2 arc_tokens (o_arcs pg) arcs /\ Forall2 line_tokens (o_lines pg) lines.
End Written.
(** The format writes a, the value with n decimals, b. *)
Definition format_digits (ml : list (@meta XR)) (n0 : nat) (a : bytes) (n : nat) (b : bytes) : Prop :=
  (absent ml "fmt" /\ a = [] /\ n = n0 /\ b = []) \/
  (exists x p, In x ml /\ m_name x = B "fmt" /\ m_val x = MStr (a ++ (B "%." ++ p ++ B "f") ++ b) /\ spells p n /\ (n <= 100)%nat /\ ~ In "%"%char a /\ ~ In "%"%char b).
