(** ExFinDim.v - a conversion in doubles with linear dimensions that meets the hypotheses of finite_dims. *)
From Coq Require Import Reals Lra ZArith Lia.
From Flocq Require Import Core IEEE754.BinarySingleNaN.
From Verif Require Import Base Num NumF64 Geo Stl StlRead Env Ast Lexer Parser Ps Draw Main GeoSpec DocSpec PsSpec FiniteSpec StlSpec EndSpec F64Spec LookSpec P_Stl P_Total P_Bound P_Float P_Finite64 LangSpec EnvEx ExGeo ExLang ExPs ExFin64.

Local Unset Implicit Arguments.
Local Open Scope R_scope.

Definition rule_script : bytes := B "load f = ""f.stl""; page { name = ""plate""; draw f { scale = 1:2; @[1, -2];
  dim(at=[0,2,5], dir=[1,0,0], from=near([0.1,0,0]), to=[1,0,0]); dim(at=[-1,0,0], dir=[0,2,0], from=[0,0,0], to=near(near([0,1,0]))); } }".
Section Rule.
  Notation HA := (F64 flat_libm true).
  Lemma unit3_bnd400 (p : @v3 HA) : unit3 p = true -> bnd3 flat_libm true 400 p.
  Proof.
    unfold unit3, ExGeo.unit_num. rewrite !andb_true_iff. intros [[[A1 A2] [B1 B2]] [C1 C2]].
    split; [|split]; (apply (bnd_mono 0 400); [lia|]; apply bnd_unit; assumption).
  Qed.
  Lemma rule_model d m t ls l p : @parses HA HalfE (B "s") rule_script d -> In m (doc_models d) -> @resolves HA HalfE flat_files (mo_source m) t -> lines_in t ls -> In l ls -> @says HA HalfE l (EVertex p) -> bnd3 flat_libm true 400 p.
  Proof.
    intros _ _ HR HL HI HS. assert (K : exists p, flat_files p = Some t).
    { destruct HR as [[_ H]|(_ & es & _ & H)]; [eauto|]. revert H. generalize (map (fun d => d ++ B "/" ++ mo_source m) (B "." :: es)). induction 1; eauto. }
    destruct K as [q K]. unfold flat_files in K. destruct (bytes_eqb q (B "lib/f.stl")); [injection K as <-|discriminate K].
    apply getlines_of in HL. subst ls. apply unit3_bnd400. inversion HS as [| | |? HT|]; subst. apply vertex_iff in HT.
    assert (K : forallb (fun l => match @match_three HA HalfE re_vertex 1 l with Some p => unit3 p | None => true end) (getlines flat_text) = true) by (vm_compute; reflexivity).
    rewrite forallb_forall in K. specialize (K _ HI). assert (HT2 : @match_three HA HalfE re_vertex 1 l = Some p) by exact HT. rewrite HT2 in K. exact K.
  Qed.
  Definition scales_ok (ml : list (@meta HA)) : bool := forallb (fun x => match m_val x with MScale a b => (0 <? a)%Z && (0 <? b)%Z | _ => true end) ml.
  Fixpoint centre_free (p : @point HA) : bool := match p with PVal _ _ => true | PFunc n q _ => negb (bytes_eqb n (B "center")) && centre_free q end.
  Lemma centre_free_spec p : centre_free p = true -> ~ has_centre p.
  Proof.
    induction p as [v l|n q IH l]; cbn; [auto|]. intros H [C|C]; apply andb_true_iff in H; destruct H as [H1 H2]; [|exact (IH H2 C)]. subst n. discriminate H1.
  Qed.
  Definition plain_item (i : @drawable HA) : bool := match i with
    | DDraw _ _ ml ds => scales_ok ml && forallb (fun dm => match d_kind dm with KDim => true | _ => false end && forallb (fun x => match m_val x with MPoint p => centre_free p | _ => true end) (d_meta dm)) ds
    | DText _ _ _ => true end.
  Lemma rule_plain d pg i : @parses HA HalfE (B "s") rule_script d -> In pg (doc_pages d) -> In i (pg_draws pg) -> plain_item i = true.
  Proof.
    intros [lg P] HP HI. assert (K : match @parse HA HalfE (B "s") rule_script with Ret (0%nat, d, _) => forallb (fun pg => forallb plain_item (pg_draws pg)) (doc_pages d) | _ => false end = true) by (vm_compute; reflexivity).
    rewrite P in K. rewrite forallb_forall in K. specialize (K _ HP). rewrite forallb_forall in K. exact (K _ HI).
  Qed.
  Lemma rule_scales : @scales_positive HA HalfE (B "s") rule_script.
  Proof.
    intros d pg l n ml ds a b HP Ipg I AS. pose proof (rule_plain _ _ _ HP Ipg I) as K. cbn [plain_item] in K. apply andb_true_iff in K. destruct K as [K _].
    destruct AS as [_|x a b Ix _ V]; [split; reflexivity|]. unfold scales_ok in K. rewrite forallb_forall in K. specialize (K x Ix). rewrite V in K. apply andb_true_iff in K. destruct K as [K1 K2].
    apply Z.ltb_lt in K1. apply Z.ltb_lt in K2. auto.
  Qed.
  Lemma rule_kinds d pg l n ml ds dm : @parses HA HalfE (B "s") rule_script d -> In pg (doc_pages d) -> In (DDraw l n ml ds) (pg_draws pg) -> In dm ds -> d_kind dm = KDim.
  Proof.
    intros HP Ipg I Id. pose proof (rule_plain _ _ _ HP Ipg I) as K. cbn [plain_item] in K. apply andb_true_iff in K. destruct K as [_ K]. rewrite forallb_forall in K. specialize (K _ Id).
    destruct (d_kind dm); first [reflexivity|discriminate K].
  Qed.
  Lemma rule_points d p : @parses HA HalfE (B "s") rule_script d -> says_point d p -> ~ has_centre p.
  Proof.
    intros HP (pg & l & n & ml & ds & dm & x & Ipg & I & Id & Ix & V). pose proof (rule_plain _ _ _ HP Ipg I) as K. cbn [plain_item] in K. apply andb_true_iff in K. destruct K as [_ K].
    rewrite forallb_forall in K. specialize (K _ Id). apply andb_true_iff in K. destruct K as [_ K]. rewrite forallb_forall in K. specialize (K _ Ix). rewrite V in K. apply centre_free_spec. exact K.
  Qed.
  Lemma rule_titles d pg t : @parses HA HalfE (B "s") rule_script d -> In pg (doc_pages d) -> titled pg t -> (Z.of_nat (length t) < 2 ^ 60)%Z.
  Proof.
    intros [lg P] HP HT.
    assert (K : match @parse HA HalfE (B "s") rule_script with
      | Ret (0%nat, d, _) => forallb (fun pg => forallb (fun x => match m_val x with MStr t => Nat.ltb (length t) 10 | _ => true end) (pg_meta pg)) (doc_pages d)
      | _ => false end = true) by (vm_compute; reflexivity).
    rewrite P in K. rewrite forallb_forall in K. specialize (K _ HP). destruct HT as [_|x t I N V]; [cbn; lia|]. rewrite forallb_forall in K. specialize (K _ I). rewrite V in K. apply Nat.ltb_lt in K. lia.
  Qed.
  Lemma rule_runs : exists r, @script_to_ps HA HalfE flat_files (B "s") rule_script = Ret r /\ r_ok r = true /\ r_log r = [].
  Proof.
    assert (K : match @script_to_ps HA HalfE flat_files (B "s") rule_script with Ret r => match r_log r with [] => r_ok r | _ => false end | _ => false end = true) by (vm_compute; reflexivity).
    destruct (@script_to_ps HA HalfE flat_files (B "s") rule_script) as [r|]; [|discriminate K]. exists r. split; [reflexivity|]. destruct (r_log r); [split; [exact K|reflexivity]|discriminate K].
  Qed.
End Rule.
