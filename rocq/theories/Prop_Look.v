(** Prop_Look.v - what is looked up in ordered containers. *)
From Coq Require Import Reals.
From Verif Require Import Base Num NumF64 NumReal Geo Stl StlRead Env Ast Lexer Parser Ps Draw Main DrawLk DocSpec LookSpec F64Spec P_Bound EndSpec P_Total FiniteSpec StlSpec LangSpec P_Lookup P_Lookup2 P_Lookup3 P_Lookup4 FinDimSpec EnvEx ExFin64 ExFinDim2 RealSpec TextSpec ExDoc ExDoc2 ExLang ExText ExGeo ExLook ExLook2.

(** ** C98: false: far from the origin the fitted circle of center() is not a number, and near()
    then looks for a point that the order of the set cannot compare.  What holds: the checks end
    the program or change nothing; in exact arithmetic they never end it; nor do they in doubles
    when models and points are of moderate size and near() is not asked for a center(), or when it is and
    no circle fitted to a drawn model has a center that is not a number.  Missing: which models
    give fitted circles whose centers are numbers in doubles. *)
Theorem C98_every_lookup_is_ordered_refuted : exists (A : Arith) (E : Env) fs src c r,
  script_to_ps fs src c = Ret r /\ r_ok r = true /\ script_to_ps_ck fs src c = Abort bad_lookup.
Proof. exact undefined_lookup. Qed.
Print Assumptions C98_every_lookup_is_ordered_refuted.
Theorem C98_checks_only_end_partial : forall (A : Arith) (E : Env) fs src c,
  script_to_ps_ck fs src c = script_to_ps fs src c \/ script_to_ps_ck fs src c = Abort bad_lookup.
Proof. exact @checks_only_end. Qed.
Print Assumptions C98_checks_only_end_partial.
Theorem C98_exact_lookups_are_ordered_partial : forall (E : @Env XR) fs src c,
  (forall w x, @re2_double XR E w = Some x -> real x) -> (forall w x, @stof XR E w = Some x -> real x) ->
  @script_to_ps_ck XR E fs src c = @script_to_ps XR E fs src c.
Proof. exact @exact_checks. Qed.
Print Assumptions C98_exact_lookups_are_ordered_partial.
Theorem C98_moderate_lookups_are_ordered_partial : forall (lm : libm) (asc : bool) (E : @Env (F64 lm asc)) fs src c, trig_bounded lm ->
  (forall d m t, @parses (F64 lm asc) E src c d -> In m (doc_models d) -> @resolves (F64 lm asc) E fs (mo_source m) t -> @plain_model lm asc E t) ->
  (forall d pg l n ml ds x a, @parses (F64 lm asc) E src c d -> In pg (doc_pages d) -> In (DDraw l n ml ds) (pg_draws pg) -> In x ml -> m_name x = B "view" -> m_val x = MLoc a ->
    bnd 1000 (x2 a) /\ bnd 1000 (y2 a)) ->
  (forall d p, @parses (F64 lm asc) E src c d -> says_point d p -> bnd3 lm asc 500 (triple p) /\ ~ near_centre p) ->
  @script_to_ps_ck (F64 lm asc) E fs src c = @script_to_ps (F64 lm asc) E fs src c.
Proof. exact @moderate_checks. Qed.
Print Assumptions C98_moderate_lookups_are_ordered_partial.
Theorem C98_known_circles_are_ordered_partial : forall (lm : libm) (asc : bool) (E : @Env (F64 lm asc)) fs src c, trig_bounded lm ->
  (forall d m t ls l p, @parses (F64 lm asc) E src c d -> In m (doc_models d) -> @resolves (F64 lm asc) E fs (mo_source m) t -> lines_in t ls -> In l ls -> @says (F64 lm asc) E l (EVertex p) -> bnd3 lm asc 500 p) ->
  (forall d pg l n ml ds x a, @parses (F64 lm asc) E src c d -> In pg (doc_pages d) -> In (DDraw l n ml ds) (pg_draws pg) -> In x ml -> m_name x = B "view" -> m_val x = MLoc a ->
    bnd 1000 (x2 a) /\ bnd 1000 (y2 a)) ->
  (forall d p, @parses (F64 lm asc) E src c d -> says_point d p -> bnd3 lm asc 500 (triple p)) ->
  (forall f r ds p t ce rad, @draws_model (F64 lm asc) E fs src c f r ds -> rotate f r = Ret p -> fit_circle (points (cull_back_face p)) t = Some (ce, rad) ->
    BinarySingleNaN.is_nan (x2 ce : f64) = false /\ BinarySingleNaN.is_nan (y2 ce : f64) = false) ->
  @script_to_ps_ck (F64 lm asc) E fs src c = @script_to_ps (F64 lm asc) E fs src c.
Proof. exact @circle_checks. Qed.
Print Assumptions C98_known_circles_are_ordered_partial.
Example C98_exact_example : (forall w x, @re2_double XR TextR w = Some x -> real x) /\ (forall w x, @stof XR TextR w = Some x -> real x).
Proof. split; intros w x; cbn; unfold read_as; destruct (plain w) as [[[sg m] k]|]; try discriminate; destruct (in_range _ _ _); try discriminate; injection 1 as <-; eexists; reflexivity. Qed.
Example C98_moderate_example : let HA := F64 flat_libm true in trig_bounded flat_libm /\
  (forall d m t, @parses HA FlatE (B "s") near_ok_script d -> In m (doc_models d) -> @resolves HA FlatE flat_files (mo_source m) t -> @plain_model flat_libm true FlatE t) /\
  (forall d pg l n ml ds x a, @parses HA FlatE (B "s") near_ok_script d -> In pg (doc_pages d) -> In (DDraw l n ml ds) (pg_draws pg) -> In x ml -> m_name x = B "view" -> m_val x = MLoc a ->
    bnd 1000 (x2 a) /\ bnd 1000 (y2 a)) /\
  (forall d p, @parses HA FlatE (B "s") near_ok_script d -> says_point d p -> bnd3 flat_libm true 500 (triple p) /\ ~ near_centre p) /\
  (exists d p, @parses HA FlatE (B "s") near_ok_script d /\ says_point d p /\ has_centre p).
Proof. split; [exact (proj1 flat_sane)|]. split; [exact near_models|]. split; [exact near_views|]. split; [exact near_points|exact near_says]. Qed.
(** A script that measures up to near(center([1,0,0])) on a square. *)
Example C98_known_circles_example : let HA := F64 flat_libm true in trig_bounded flat_libm /\
  (forall d m t ls l p, @parses HA KindE (B "s") kinds_script d -> In m (doc_models d) -> @resolves HA KindE flat_files (mo_source m) t -> lines_in t ls -> In l ls -> @says HA KindE l (EVertex p) -> bnd3 flat_libm true 500 p) /\
  (forall d pg l n ml ds x a, @parses HA KindE (B "s") kinds_script d -> In pg (doc_pages d) -> In (DDraw l n ml ds) (pg_draws pg) -> In x ml -> m_name x = B "view" -> m_val x = MLoc a ->
    bnd 1000 (x2 a) /\ bnd 1000 (y2 a)) /\
  (forall d p, @parses HA KindE (B "s") kinds_script d -> says_point d p -> bnd3 flat_libm true 500 (triple p)) /\
  (forall f r ds p t ce rad, @draws_model HA KindE flat_files (B "s") kinds_script f r ds -> rotate f r = Ret p -> fit_circle (points (cull_back_face p)) t = Some (ce, rad) ->
    BinarySingleNaN.is_nan (x2 ce : f64) = false /\ BinarySingleNaN.is_nan (y2 ce : f64) = false) /\
  (exists d p, @parses HA KindE (B "s") kinds_script d /\ says_point d p /\ near_centre p).
Proof. split; [exact (proj1 flat_sane)|]. split; [exact kinds_model500|]. split; [exact kinds_views|]. split; [exact kinds_says|]. split; [exact kinds_known|exact kinds_near]. Qed.
(** What the checks check: that every lookup and insertion compares what its order can compare. *)
Theorem C98_what_is_checked : forall (A : Arith) ps p, lookups_ok ps p = true <-> ordered_lookups ps p.
Proof. exact @lookups_checked. Qed.
Print Assumptions C98_what_is_checked.
Theorem C98_fits_are_checked : forall (A : Arith) ps t,
  fit_ck ps t = Ret (fit_circle ps t) /\ ordered_inserts t (map xy ps) \/ fit_ck ps t = Abort bad_lookup /\ ~ ordered_inserts t (map xy ps).
Proof. exact @fits_checked. Qed.
Print Assumptions C98_fits_are_checked.
(** Points of which one is not a number, or none. *)
Example C98_checked_example : let HA := F64 flat_libm true in let z := fz_ 0 : @num HA in let v := fun x y : @num HA => @V3 HA x y z in
  let p := @PFunc HA (B "center") (@PVal HA (v z z) (Loc (B "s") 1)) (Loc (B "s") 1) in
  @ordered_lookups HA [v z z; v (fz_ 1) z; v z (fz_ 2)] p /\ ~ @ordered_lookups HA [v z z; v BinarySingleNaN.B754_nan z; v z (fz_ 2)] p.
Proof.
  split; [apply C98_what_is_checked; vm_compute; reflexivity|]. intro H. apply C98_what_is_checked in H. vm_compute in H. discriminate H.
Qed.
