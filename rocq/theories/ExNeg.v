(** ExNeg.v - a dim seen end on at a negative scale prints numbers that are not finite. *)
From Coq Require Import ZArith.
From Flocq Require Import IEEE754.BinarySingleNaN.
From Verif Require Import Base Num NumF64 Geo Stl StlRead Env Ast Lexer Parser Ps Draw Main DocSpec PsSpec EndSpec EnvEx ExGeo ExPs.

Definition ex_negative (scale : string) : bytes := B "load t = ""t.stl""; page { draw t { scale = " ++ B scale ++ B "; dim(at=[0,0,0], dir=[0,0,1], from=[0,0,0], to=[0,0,1]); } }".
Lemma negative_prints : prints (ex_negative "-1:1") (B "nan") = true.
Proof. vm_compute. reflexivity. Qed.
Lemma negative_output : exists r toks, script_to_ps ex_files (B "s") (ex_negative "-1:1") = Ret r /\ r_ok r = true /\ r_log r = [] /\ ps_read (r_out r) = Some toks /\ In (PWord (B "nan")) toks /\
  forall x, is_finite x = true -> @fmt_num ExA ExE x <> B "nan".
Proof.
  pose proof negative_prints as K. destruct (prints_spec _ _ K) as (r & toks & H1 & H2 & H3 & H4 & H5). exists r, toks. repeat split; try assumption.
  apply not_finite_word. vm_compute. reflexivity.
Qed.
(** At scale 1:1 the same dim is fine. *)
Lemma positive_output : prints (ex_negative "1:1") (B "nan") = false.
Proof. vm_compute. reflexivity. Qed.
Definition plain_item (i : @drawable ExA) : bool :=
  match i with
  | DDraw _ _ ml ds => forallb (fun m => match m_val m with MScale a b => negb (a =? 0)%Z && negb (b =? 0)%Z | _ => true end) ml && forallb (fun dm => match d_kind dm with KDim => true | _ => false end) ds
  | DText _ _ _ => true
  end.
Lemma negative_plain d pg l n ml ds : @parses ExA ExE (B "s") (ex_negative "-1:1") d -> In pg (doc_pages d) -> In (DDraw l n ml ds) (pg_draws pg) ->
  (forall m a b, In m ml -> m_val m = MScale a b -> a <> 0%Z /\ b <> 0%Z) /\ forall dm, In dm ds -> d_kind dm = KDim.
Proof.
  intros [lg HP] Ipg I. assert (K : match @parse ExA ExE (B "s") (ex_negative "-1:1") with Ret (_, d, _) => forallb (fun pg => forallb plain_item (pg_draws pg)) (doc_pages d) | _ => false end = true) by (vm_compute; reflexivity).
  rewrite HP in K. rewrite forallb_forall in K. specialize (K _ Ipg). rewrite forallb_forall in K. specialize (K _ I). cbn [plain_item] in K. apply andb_true_iff in K. destruct K as [K1 K2]. rewrite forallb_forall in K1, K2. split.
  - intros m a b Im V. specialize (K1 _ Im). rewrite V in K1. apply andb_true_iff in K1. destruct K1 as [K3 K4]. apply negb_true_iff in K3. apply negb_true_iff in K4. apply Z.eqb_neq in K3. apply Z.eqb_neq in K4. split; assumption.
  - intros dm Id. specialize (K2 _ Id). destruct (d_kind dm); try discriminate K2. reflexivity.
Qed.
Lemma negative_parses : exists d, @parses ExA ExE (B "s") (ex_negative "-1:1") d.
Proof.
  assert (K : match @parse ExA ExE (B "s") (ex_negative "-1:1") with Ret (0, _, _) => true | _ => false end = true) by (vm_compute; reflexivity).
  destruct (@parse ExA ExE (B "s") (ex_negative "-1:1")) as [[[[|k] d] lg]|] eqn:HP; try discriminate K. exists d, lg. exact HP.
Qed.
Lemma negative_case : exists lm asc (E : @Env (F64 lm asc)) fs src c w r toks,
  (exists d : @document (F64 lm asc), @parses (F64 lm asc) E src c d) /\
  (forall d pg l n ml ds, @parses (F64 lm asc) E src c d -> In pg (doc_pages d) -> In (DDraw l n ml ds) (pg_draws pg) ->
    (forall m a b, In m ml -> m_val m = MScale a b -> a <> 0%Z /\ b <> 0%Z) /\ forall dm, In dm ds -> d_kind dm = KDim) /\
  @script_to_ps (F64 lm asc) E fs src c = Ret r /\ r_ok r = true /\ r_log r = [] /\ ps_read (r_out r) = Some toks /\ In (PWord w) toks /\
  forall x, is_finite x = true -> @fmt_num (F64 lm asc) E x <> w.
Proof.
  destruct negative_output as (r & toks & H). exists ex_libm, true, ExE, ex_files, (B "s"), (ex_negative "-1:1"), (B "nan"), r, toks.
  split; [exact negative_parses|]. split; [exact negative_plain|exact H].
Qed.
