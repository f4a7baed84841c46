(** EndSpec.v - specification: the reasons for which a conversion may end the
    process, and models that give no reason. *)
From Flocq Require Import IEEE754.BinarySingleNaN.
From Verif Require Import Base Num NumF64 Geo Stl StlRead Env Ast Lexer Parser Ps Draw Main DocSpec GeoSpec F64Spec StlSpec LangSpec.

Local Unset Implicit Arguments.
Section Reason.
  Context {A : Arith} {E : Env}.
  (** On some edge that may be drawn the distance from its start is not zero at
      its start, or is not a number at its end or where another edge crosses. *)
  Definition unmeasured (m : stl) : Prop :=
    exists v e, v < unseen m /\ nth_error (edges m) v = Some e /\
      let d p := sqn3 (sub3 (e1 e) p) in
      ((nz =? d (e1 e)) = false \/ (d (e2 e) =? d (e2 e)) = false \/
       exists u p, crossed_by (edges m) (unseen m) v u p /\ (d p =? d p) = false)%num.
  Inductive reason (fs : files) (src c : bytes) : abort -> Prop :=
  | R_number w : numeral_in c w -> stof w = None -> reason fs src c (AThrow "std::stof")
  | R_scale w x : numeral_in c w -> stof w = Some x -> to_int x = None -> reason fs src c (AUB "Scale: float to int out of range")
  | R_short d m t : parses src c d -> In m (doc_models d) -> resolves fs (mo_source m) t -> closes_short t ->
      reason fs src c (AUB "e[0..2] of a vector with fewer than three points")
  | R_map f r ds g p : draws_model fs src c f r ds -> In g (facets f) -> In p (corners g) -> ~ comparable (mulm p r) ->
      reason fs src c (AUB "std::map without a strict weak ordering")
  | R_set f r ds g p : draws_model fs src c f r ds -> In g (facets f) -> In p (corners g) -> ~ comparable (mulm p r) ->
      reason fs src c (AUB "std::set without a strict weak ordering")
  | R_sort f r ds m : draws_model fs src c f r ds -> rotate f r = Ret m -> unmeasured m -> reason fs src c (AUB "std::sort without a strict weak ordering")
  | R_order f r ds m : draws_model fs src c f r ds -> rotate f r = Ret m -> unmeasured m -> reason fs src c (ACheck "Points out of order")
  | R_hidden f r ds m : draws_model fs src c f r ds -> rotate f r = Ret m -> unmeasured m -> reason fs src c (ACheck "Hidden section reversed")
  | R_null f r ds : draws_model fs src c f r ds -> ds <> [] -> eqm r zerom = true -> reason fs src c (ACheck "Null rotation").
End Reason.

Section Doubles.
  Context (lm : libm) (asc : bool).
  #[local] Instance AF : Arith := F64 lm asc.
  Context {E : Env}.
  (** No facet is closed early and no vertex is further than 2^500 away. *)
  Definition plain_model (t : bytes) : Prop :=
    ~ closes_short t /\ forall ls l p, lines_in t ls -> In l ls -> says l (EVertex p) -> bnd3 lm asc 500 p.
  (** Sine and cosine are at most one and not both zero. *)
  Definition trig_sane : Prop :=
    trig_bounded lm /\ forall x, fin x -> ~ (feq (l_sin lm x) (fz_ 0) = true /\ feq (l_cos lm x) (fz_ 0) = true).
End Doubles.
