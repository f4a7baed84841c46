(** ExFin64.v - a conversion in doubles that meets the hypotheses of finite_doubles. *)
From Coq Require Import Reals Lra ZArith Lia.
From Flocq Require Import Core IEEE754.BinarySingleNaN.
From Verif Require Import Base Num NumF64 Geo Stl StlRead Env Ast Lexer Parser Ps Draw Main GeoSpec DocSpec PsSpec FiniteSpec StlSpec EndSpec F64Spec P_Stl P_Total P_Bound P_Float P_Finite64 LangSpec EnvEx ExLang ExPs.

Local Unset Implicit Arguments.
Local Open Scope R_scope.
#[local] Existing Instance v32. #[local] Existing Instance v64.

(** As ex_stof, for smaller numbers only. *)
Definition half_stof (s : bytes) : option f64 :=
  match ex_double s with
  | Some v => if flt (fabs v) (norm64 1 127) then Some (f_to_f32 v) else None
  | None => None
  end.
Definition HalfE : @Env (F64 flat_libm true) := {|
  re2_double := ex_double : bytes -> option (@num (F64 flat_libm true)); stof := half_stof : bytes -> option (@num (F64 flat_libm true)); fmt_num := ex_print : @num (F64 flat_libm true) -> bytes;
  pf_ok := ex_pf_ok; pf_format := ex_format : bytes -> @num (F64 flat_libm true) -> bytes; now := B "now"; type_name := fun _ => B "T"; flag_name := B "name"; flag_timestamp := true;
  flag_number_pages := true; flag_load_path := B "lib" |}.
Definition half_script : bytes := B "load f = ""f.stl""; page { name = ""plate""; draw f { view = [1, 0.5]; scale = -1:2; @[1, -2]; } text[""a (b)""] { @[0,1]; } }".

Lemma half_stof_bnd w x : half_stof w = Some x -> bnd 128 x.
Proof.
  unfold half_stof. destruct (ex_double w) as [v|]; [|discriminate]. destruct (flt (fabs v) (norm64 1 127)) eqn:L; [|discriminate]. intros [= <-].
  assert (F1 : is_finite (norm64 1 127) = true) by (vm_compute; reflexivity).
  assert (V1 : B2R (norm64 1 127) = bp 127).
  { unfold norm64. pose proof (binary_normalize_correct 53 1024 prec64 emax64 mode_NE 1 127 false) as C. cbv zeta in C.
    assert (R1 : F2R (Float radix2 1 127) = bp 127) by (unfold F2R, bp; cbn [Fnum Fexp]; ring). rewrite R1 in C.
    assert (RB : rnd (bp 127) = bp 127) by (apply round_generic; [apply valid_rnd_N|]; apply generic_format_bpow; unfold SpecFloat.fexp, SpecFloat.emin; lia).
    rewrite (bp_emax 127) in C by (lia || (rewrite RB; rewrite Rabs_pos_eq; [lra|apply bpow_ge_0])). destruct C as (C1 & _). rewrite C1. exact RB. }
  assert (F : is_finite v = true).
  { destruct v as [| [] | |]; try reflexivity; exfalso; vm_compute in L; discriminate L. }
  eapply bnd_mono; [|apply (bnd_f32 127)]; [lia|lia|]. split; [exact F|]. unfold flt in L. rewrite Bltb_correct in L by (try assumption; unfold fabs; rewrite is_finite_Babs; exact F).
  unfold fabs in L. rewrite B2R_Babs in L. rewrite V1 in L. destruct (Rlt_bool_spec (Rabs (B2R v)) (bp 127)); [lra|discriminate L].
Qed.
Section Half.
  Notation HA := (F64 flat_libm true).
  Lemma half_one1 : one_line (@flag_name HA HalfE).
  Proof. unfold one_line; cbn; intuition discriminate. Qed.
  Lemma half_one2 : one_line (B "s").
  Proof. unfold one_line; cbn; intuition discriminate. Qed.
  Lemma half_one3 : one_line (@now HA HalfE).
  Proof. unfold one_line; cbn; intuition discriminate. Qed.
  Lemma half_words (x : @num HA) : word_like (@fmt_num HA HalfE x).
  Proof. exact (ex_words x). Qed.
  Lemma half_model d m t ls l p : @parses HA HalfE (B "s") half_script d -> In m (doc_models d) -> @resolves HA HalfE flat_files (mo_source m) t -> lines_in t ls -> In l ls -> @says HA HalfE l (EVertex p) -> bnd3 flat_libm true 500 p.
  Proof.
    intros _ _ HR HL HI HS. assert (K : exists p, flat_files p = Some t).
    { destruct HR as [[_ H]|(_ & es & _ & H)]; [eauto|]. revert H. generalize (map (fun d => d ++ B "/" ++ mo_source m) (B "." :: es)). induction 1; eauto. }
    destruct K as [q K]. unfold flat_files in K. destruct (bytes_eqb q (B "lib/f.stl")); [injection K as <-|discriminate K].
    apply getlines_of in HL. subst ls. apply unit3_bnd. inversion HS as [| | |? HT|]; subst. apply vertex_iff in HT.
    assert (K : forallb (fun l => match @match_three HA HalfE re_vertex 1 l with Some p => unit3 p | None => true end) (getlines flat_text) = true) by (vm_compute; reflexivity).
    rewrite forallb_forall in K. specialize (K _ HI). assert (HT2 : @match_three HA HalfE re_vertex 1 l = Some p) by exact HT. rewrite HT2 in K. exact K.
  Qed.
  Definition no_zero (ml : list (@meta HA)) : bool := forallb (fun x => match m_val x with MScale _ b => negb (b =? 0)%Z | _ => true end) ml.
  Lemma no_zero_asks ml a : no_zero ml = true -> ~ asks_scale ml a 0.
  Proof.
    intros H K. inversion K as [|x ? ? I N V]; subst. unfold no_zero in H. rewrite forallb_forall in H. specialize (H x I). rewrite V in H. discriminate H.
  Qed.
  Lemma half_draws d pg l n ml ds : @parses HA HalfE (B "s") half_script d -> In pg (doc_pages d) -> In (DDraw l n ml ds) (pg_draws pg) -> ds = [] /\ forall a, ~ asks_scale ml a 0.
  Proof.
    intros [lg P] HP HD.
    assert (K : match @parse HA HalfE (B "s") half_script with
      | Ret (0%nat, d, _) => forallb (fun pg => forallb (fun i => match i with DDraw _ _ ml [] => no_zero ml | DDraw _ _ _ _ => false | _ => true end) (pg_draws pg)) (doc_pages d)
      | _ => false end = true) by (vm_compute; reflexivity).
    rewrite P in K. rewrite forallb_forall in K. specialize (K _ HP). rewrite forallb_forall in K. specialize (K _ HD). cbv beta iota in K. destruct ds; [|discriminate K].
    split; [reflexivity|]. intro a. apply no_zero_asks. exact K.
  Qed.
  Lemma half_titles d pg t : @parses HA HalfE (B "s") half_script d -> In pg (doc_pages d) -> titled pg t -> (Z.of_nat (length t) < 2 ^ 60)%Z.
  Proof.
    intros [lg P] HP HT.
    assert (K : match @parse HA HalfE (B "s") half_script with
      | Ret (0%nat, d, _) => forallb (fun pg => forallb (fun x => match m_val x with MStr t => Nat.ltb (length t) 10 | _ => true end) (pg_meta pg)) (doc_pages d)
      | _ => false end = true) by (vm_compute; reflexivity).
    rewrite P in K. rewrite forallb_forall in K. specialize (K _ HP). destruct HT as [_|x t I N V]; [cbn; lia|]. rewrite forallb_forall in K. specialize (K _ I). rewrite V in K. apply Nat.ltb_lt in K. lia.
  Qed.
  Lemma half_runs : exists r, @script_to_ps HA HalfE flat_files (B "s") half_script = Ret r /\ r_ok r = true /\ r_log r = [].
  Proof.
    assert (K : match @script_to_ps HA HalfE flat_files (B "s") half_script with Ret r => match r_log r with [] => r_ok r | _ => false end | _ => false end = true) by (vm_compute; reflexivity).
    destruct (@script_to_ps HA HalfE flat_files (B "s") half_script) as [r|]; [|discriminate K]. exists r. split; [reflexivity|]. destruct (r_log r); [split; [exact K|reflexivity]|discriminate K].
  Qed.
End Half.
