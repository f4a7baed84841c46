(** PaperSpec.v - specification: where the lines of a drawing belong on the paper. *)
From Coq Require Import Reals ZArith List.
From Flocq Require Import Core IEEE754.BinarySingleNaN.
From Verif Require Import Base Num NumF64 Geo Stl Env Ast Draw DocSpec PsSpec TextSpec F64Spec ErrSpec ViewSpec FollowSpec RealSpec.
Import ListNotations.

Local Unset Implicit Arguments.
Local Open Scope R_scope.

(** [x0,x1] x [y0,y1] is the smallest rectangle around these points, in the plane of the page. *)
Definition frames (seen : rpt -> Prop) (x0 x1 y0 y1 : R) : Prop :=
  (forall q, seen q -> x0 <= rx q <= x1 /\ y0 <= ry q <= y1) /\
  (exists q, seen q /\ rx q = x0) /\ (exists q, seen q /\ rx q = x1) /\ (exists q, seen q /\ ry q = y0) /\ (exists q, seen q /\ ry q = y1).
(** The place of q on the paper, in points, if the middle of the rectangle goes to (tx, ty) and
    lengths are multiplied by m. *)
Definition laid (tx ty m x0 x1 y0 y1 : R) (q : rpt) : rpt := P3 (tx + m * (rx q - (x0 + x1) / 2)) (ty + m * (ry q - (y0 + y1) / 2)) 0.
(** m has at most 24 binary digits, as 72 = 9 * 2^3 and 7.2 has not. *)
Definition binary24 (m : R) : Prop := exists z h, (Z.abs z < 2 ^ 24)%Z /\ (-100 <= h)%Z /\ m = IZR z * bp h.
Section Paper.
  Context (lm : libm) (asc : bool).
  Notation AN := (F64 lm asc).
  (** The middle of the drawing goes to the place of @, in inches from the middle of the page (at
      most 1024), or to the origin of the page. *)
  Definition placed (ml : list (@meta AN)) (tx ty : R) : Prop :=
    (exists x a, In x ml /\ m_name x = B "@" /\ m_val x = MLoc a /\ bnd 10 (x2 a : f64) /\ bnd 10 (y2 a : f64) /\
      tx = 72 * B2R (x2 a : f64) + 396 /\ ty = 72 * B2R (y2 a : f64) + 306) \/
    (~ has ml "@" /\ tx = 0 /\ ty = 0).
  (** The facet f of the model s is drawn: it is facing the viewer in p. *)
  Definition drawn_facet (m : @m3 AN) (s p : @stl AN) (f : @facet AN) : Prop := In f (facets s) /\ In (rotate_facet m f) (facets p).
  (** The corners of the facets that are drawn, as they are seen. *)
  Definition seen_corner (see : rpt -> rpt) (m : @m3 AN) (s p : @stl AN) (q : rpt) : Prop :=
    exists f v, drawn_facet m s p f /\ In v [fe0 f; fe1 f; fe2 f] /\ q = see (val3 lm asc v).
  (** A draw of model n with the properties ml shows f as [see] says, m points to the inch or
      whatever unit the model has, with its middle at (tx, ty).  The coordinates of the model
      are at most 2^k, m is at most 2^j; such a drawing is not much wider than 2^(k+j+2) points. *)
  Record plan (st : @stl_map AN) (n : bytes) (ml : list (@meta AN)) (f : @stl AN) (v : @m3 AN) (see : rpt -> rpt) (k j : Z) (m tx ty : R) : Prop := Plan {
    plan_model : smap_find bytes_ltb n st = Some (Some f);
    plan_view : asks_view ml v;
    plan_sees : sees lm asc v see;
    plan_size : Forall (bndF lm asc k) (facets f);
    plan_scale : exists a b, asks_scale ml a b /\ (0 < a <= 2 ^ 31)%Z /\ (0 < b <= 2 ^ 31)%Z /\ m = 72 * (IZR a / IZR b);
    plan_j : m <= bp j;
    plan_range : (-700 <= k)%Z /\ (j <= 60)%Z /\ (k + j <= 14)%Z;
    plan_place : placed ml tx ty }.
End Paper.
(** How far lines may be off, in points: the scale is rounded to 24 binary digits. *)
Definition accuracy (k j : Z) (m e : R) : Prop := e = bp (k + j - 21) + bp (-33) \/ binary24 m /\ e = bp (k + j - 40) + bp (-33).
(** The PostScript for a line, with the words x, y, u and v as coordinates. *)
Definition stroke (x y u v : bytes) : list ptok :=
  [PWord (B "newpath"); PWord x; PWord y; PWord (B "moveto"); PWord u; PWord v; PWord (B "lineto"); PWord (B "stroke")].
(** The word reads as a number within e of r, and six figures. *)
Definition word_near (e r : R) (w : bytes) : Prop := exists q, reads w q /\ Rabs (q - r) <= e + 5 / 1000000 * (Rabs r + e).
Definition stroke_follows (lm : libm) (asc : bool) (e : R) (see : rpt -> rpt) (f : @facet (F64 lm asc)) (p : list ptok) : Prop :=
  exists c d t u w1 w2 w3 w4, side_of lm asc f c d /\ 0 <= t <= 1 /\ 0 <= u <= 1 /\ p = stroke w1 w2 w3 w4 /\
    (let q := see (on_the_way t (val3 lm asc c) (val3 lm asc d)) in word_near e (rx q) w1 /\ word_near e (ry q) w2) /\
    (let q := see (on_the_way u (val3 lm asc c) (val3 lm asc d)) in word_near e (rx q) w3 /\ word_near e (ry q) w4).
