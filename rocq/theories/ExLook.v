(** ExLook.v - concrete cases for the checked lookups. *)
From Coq Require Import Reals.
From Flocq Require Import IEEE754.BinarySingleNaN.
From Verif Require Import Base Num NumF64 NumReal NumLaws Geo Stl StlRead Env Ast Lexer Parser Ps Draw Main DrawLk DocSpec LookSpec P_Base F64Spec P_Bound EndSpec P_Total P_Lookup P_Lookup2 RealSpec TextSpec EnvEx ExDoc ExDoc2 ExLang ExText ExGeo.

Local Unset Implicit Arguments.
(** Two triangles, far from the origin. *)
Definition far_stl : bytes := B "solid t
 facet normal 0 0 1
  outer loop
   vertex 48000000 48000001 0
   vertex 48000001 48000001 0
   vertex 48000002 48000002 0
  endloop
 endfacet
 facet normal 0 0 1
  outer loop
   vertex 48000002 48000003 0
   vertex 48000003 48000001 0
   vertex 48000003 48000003 0
  endloop
 endfacet
endsolid t
".
Definition far_files : files := fun p => if bytes_eqb p (B "lib/t.stl") then Some far_stl else None.
Definition far_script (at_ : string) : bytes := B "load t = ""t.stl""; page { draw t { dim(at=" ++ B at_ ++ B ", dir=[1,0,0], from=[48000000,48000000,0], to=[48000008,48000000,0]); } }".
Definition near_centre_script : bytes := far_script "near(center([48000008,48000008,0]))".
Definition near_script : bytes := far_script "near([48000008,48000008,0])".
Definition ends_in_lookup (c : bytes) : bool := match script_to_ps_ck far_files (B "s") c with Abort (AUB m) => String.eqb m "a lookup without a strict weak ordering" | _ => false end.
Definition goes_well (c : bytes) : bool := match script_to_ps far_files (B "s") c with Ret r => r_ok r | _ => false end.
Lemma lookup_witness : ends_in_lookup near_centre_script = true /\ goes_well near_centre_script = true.
Proof. split; vm_compute; reflexivity. Qed.
(** The process may do anything although the model of the program without the check succeeds. *)
Lemma undefined_lookup : exists (A : Arith) (E : Env) fs src c r, script_to_ps fs src c = Ret r /\ r_ok r = true /\ script_to_ps_ck fs src c = Abort bad_lookup.
Proof.
  exists ExA, ExE, far_files, (B "s"), near_centre_script. destruct lookup_witness as [H1 H2]. unfold goes_well in H2. destruct (script_to_ps far_files (B "s") near_centre_script) as [r|] eqn:S; [|discriminate H2].
  exists r. split; [reflexivity|]. split; [exact H2|]. destruct (checks_only_end ExA ExE far_files (B "s") near_centre_script) as [H|H]; [|exact H].
  exfalso. unfold ends_in_lookup in H1. rewrite H, S in H1. discriminate H1.
Qed.

(** ** A script that passes *)
Definition near_ok_script : bytes := B "load f = ""f.stl""; page { draw f { view = [1, 0.5];
  dim(at=near([0,1,0]), dir=[1,0,0], from=center(near([1,0,0])), to=[1,0,0]); } }".
Section Flat.
  #[local] Instance FA : Arith := F64 flat_libm true.
  #[local] Instance FE : Env := FlatE.

  Fixpoint has_centre_b (p : point) : bool := match p with PVal _ _ => false | PFunc n q _ => bytes_eqb n (B "center") || has_centre_b q end.
  Fixpoint near_centre_b (p : point) : bool := match p with PVal _ _ => false | PFunc n q _ => (bytes_eqb n (B "near") && has_centre_b q) || near_centre_b q end.
  Lemma has_centre_iff p : has_centre p -> has_centre_b p = true.
  Proof. induction p as [v l|n q IH l]; cbn; [tauto|]. intros [->|H]; [reflexivity|rewrite (IH H); apply orb_true_r]. Qed.
  Lemma near_centre_iff p : near_centre p -> near_centre_b p = true.
  Proof. induction p as [v l|n q IH l]; cbn; [tauto|]. intros [[-> H]|H]; [rewrite (has_centre_iff _ H); reflexivity|rewrite (IH H); apply orb_true_r]. Qed.
  Lemma near_models d m t : parses (B "s") near_ok_script d -> In m (doc_models d) -> resolves flat_files (mo_source m) t -> plain_model flat_libm true t.
  Proof.
    intros _ _ HR. assert (K : exists p, flat_files p = Some t).
    { destruct HR as [[_ H]|(_ & es & _ & H)]; [eauto|]. revert H. generalize (map (fun d => d ++ B "/" ++ mo_source m) (B "." :: es)). induction 1; eauto. }
    destruct K as [p K]. unfold flat_files in K. destruct (bytes_eqb p (B "lib/f.stl")); [injection K as <-; exact flat_plain|discriminate K].
  Qed.
  Lemma near_views d pg l n ml ds x a : parses (B "s") near_ok_script d -> In pg (doc_pages d) -> In (DDraw l n ml ds) (pg_draws pg) -> In x ml -> m_name x = B "view" -> m_val x = MLoc a ->
    bnd 1000 (x2 a) /\ bnd 1000 (y2 a).
  Proof.
    intros [lg P] HP HD HX _ HV.
    assert (K : match @parse FA FE (B "s") near_ok_script with
      | Ret (0, d, _) => forallb (fun pg => forallb (fun i => match i with DDraw _ _ ml _ => forallb (fun x => match m_val x with MLoc a => unit_num (x2 a) && unit_num (y2 a) | _ => true end) ml | _ => true end) (pg_draws pg)) (doc_pages d)
      | _ => false end = true) by (vm_compute; reflexivity).
    rewrite P in K. rewrite forallb_forall in K. specialize (K _ HP). rewrite forallb_forall in K. specialize (K _ HD). cbv beta iota in K. rewrite forallb_forall in K. specialize (K _ HX). rewrite HV in K.
    unfold unit_num in K. rewrite !andb_true_iff in K. destruct K as [[K1 K2] [K3 K4]]. split; (eapply bnd_mono; [|apply bnd_unit; eassumption]; lia).
  Qed.
  Definition says_ok (o : outcome (nat * @document (F64 flat_libm true) * list diag)) : bool :=
    match o with
    | Ret (0, d, _) => forallb (fun pg => forallb (fun i => match i with DDraw _ _ _ ds => forallb (fun dm => forallb (fun x => match m_val x with MPoint p => ExLang.unit3 (triple p) && negb (near_centre_b p) | _ => true end) (d_meta dm)) ds | _ => true end) (pg_draws pg)) (doc_pages d)
    | _ => false end.
  Lemma says_ok_spec d lg p : says_ok (Ret (0, d, lg)) = true -> @says_point (F64 flat_libm true) d p -> ExLang.unit3 (triple p) = true /\ near_centre_b p = false.
  Proof.
    intros K (pg & l & n & ml & ds & dm & x & Ipg & I & Id & Ix & V). unfold says_ok in K.
    rewrite forallb_forall in K. specialize (K _ Ipg). rewrite forallb_forall in K. specialize (K _ I). cbv beta iota in K. rewrite forallb_forall in K. specialize (K _ Id). rewrite forallb_forall in K. specialize (K _ Ix).
    revert K. set (f := fun v : @mval (F64 flat_libm true) => match v with MPoint p => ExLang.unit3 (triple p) && negb (near_centre_b p) | _ => true end). intro K.
    assert (K' : f (@m_val (F64 flat_libm true) x) = true) by exact K. rewrite V in K'. cbn [f] in K'. apply andb_prop in K'. destruct K' as [K1 K2]. apply negb_true_iff in K2. auto.
  Qed.
  Lemma says_ok_near : says_ok (@parse FA FE (B "s") near_ok_script) = true. Proof. vm_compute. reflexivity. Qed.
  Lemma near_points d p : parses (B "s") near_ok_script d -> says_point d p -> bnd3 flat_libm true 500 (triple p) /\ ~ near_centre p.
  Proof.
    intros [lg P] S. pose proof says_ok_near as K. assert (P' : @parse FA FE (B "s") near_ok_script = Ret (0, d, lg)) by exact P. rewrite P' in K.
    destruct (says_ok_spec _ _ _ K S) as [K1 K2]. split; [apply ExLang.unit3_bnd; exact K1|]. intro N. pose proof (near_centre_iff _ N) as Q. exact (Bool.diff_true_false (eq_trans (eq_sym Q) K2)).
  Qed.
  Lemma near_says : exists d p, parses (B "s") near_ok_script d /\ says_point d p /\ has_centre p.
  Proof.
    assert (H : match @parse FA FE (B "s") near_ok_script with
      | Ret (0, d, _) => match doc_pages d with pg :: _ => match pg_draws pg with DDraw _ _ _ (dm :: _) :: _ => match d_meta dm with _ :: _ :: x :: _ => match m_val x with MPoint (PFunc n _ _) => bytes_eqb n (B "center") | _ => false end | _ => false end | _ => false end | _ => false end
      | _ => false end = true) by (vm_compute; reflexivity).
    unfold parses. destruct (parse (B "s") near_ok_script) as [[[[|n] d] lg]|]; try discriminate H. destruct (doc_pages d) as [|pg pgs] eqn:P1; [discriminate H|].
    destruct (pg_draws pg) as [|[l nm ml ds|] its] eqn:P2; try discriminate H. destruct ds as [|dm ds]; [discriminate H|]. destruct (d_meta dm) as [|x1 [|x2 [|x t]]] eqn:P3; try discriminate H.
    destruct (m_val x) as [|p| | |] eqn:P4; try discriminate H. destruct p as [|n q lq]; [discriminate H|]. exists d, (PFunc n q lq). split; [eauto|]. split.
    - exists pg, l, nm, ml, (dm :: ds), dm, x. rewrite P1, P2, P3. cbn. auto 10.
    - left. apply bytes_eqb_eq. exact H.
  Qed.
End Flat.
