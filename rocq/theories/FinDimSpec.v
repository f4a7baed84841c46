(** FinDimSpec.v - specification: the circles and directions that dimensions use. *)
From Coq Require Import Reals List.
From Flocq Require Import Core IEEE754.BinarySingleNaN.
From Verif Require Import Base Num NumF64 Geo Stl StlRead Env Ast Lexer Parser Ps Draw Main DocSpec.

Local Unset Implicit Arguments.
Section Spec.
  Context {A : Arith} {E : Env}.
  (** A circle that some center of the expression takes its value from. *)
  Inductive centre_fit (ps : point_set) : point -> v2 * num -> Prop :=
  | CF_here q l t c : snd (invoke ps q) = Some t -> fit_circle ps (xy t) = Some c -> centre_fit ps (PFunc (B "center") q l) c
  | CF_in n q l c : centre_fit ps q c -> centre_fit ps (PFunc n q l) c.
  (** The dimension dm is drawn with the points ps and the view r. *)
  Definition shown_dim (fs : files) (src c : bytes) (ps : point_set) (r : m3) (dm : dim) : Prop :=
    exists f ds p, draws_model fs src c f r ds /\ In dm ds /\ rotate f r = Ret p /\ ps = points (cull_back_face p).
  (** A circle the dimension uses, for the value of a point or to be measured. *)
  Inductive circle_used (ps : point_set) (r : m3) (dm : dim) : v2 * num -> Prop :=
  | CU_point x p p' c : In x (d_meta dm) -> m_val x = MPoint p -> multiplied_by r p p' -> centre_fit ps p' c -> circle_used ps r dm c
  | CU_dim t c : d_kind dm = KDia \/ d_kind dm = KRad -> evaluates ps r (d_meta dm) "center" t -> fit_circle ps (xy t) = Some c -> circle_used ps r dm c.
  (** A direction of a side of an angle: given, or from the apex to a given point. *)
  Inductive side_dir (ps : point_set) (r : m3) (ml : list meta) : v3 -> Prop :=
  | SD_dir k v : k = "from_dir"%string \/ k = "to_dir"%string -> evaluates ps r ml k v -> side_dir ps r ml v
  | SD_point k v apex : k = "from_point"%string \/ k = "to_point"%string -> evaluates ps r ml k v -> evaluates ps r ml "apex" apex -> side_dir ps r ml (sub3 v apex).
End Spec.
(** Not tiny. *)
Definition big (x : f64) : Prop := (bpow radix2 (-390) <= Rabs (B2R x))%R.
