(** ExDoc.v - concrete scripts for the Examples beside the document theorems. *)
From Verif Require Import Base Num NumF64 Geo Stl StlRead Env Ast Lexer Parser Ps Draw Main
  P_Base P_Meta DocSpec EnvEx.

(** The document a script parses to. *)
Definition doc_of (c : bytes) : document :=
  match parse (B "s") c with Ret (0, d, _) => d | _ => Doc [] [] end.
Definition parses_b (c : bytes) : bool := match parse (B "s") c with Ret (0, _, _) => true | _ => false end.
Lemma parses_ex c : parses_b c = true -> parses (B "s") c (doc_of c).
Proof.
  unfold parses_b, doc_of, parses. destruct (parse (B "s") c) as [[[[|n] d] lg]|]; try discriminate. eauto.
Qed.
Fixpoint blocks_draws (l : list drawable) : list (bkind * list meta) :=
  match l with
  | [] => []
  | DDraw _ _ ml ds :: t => (BDraw, ml) :: map (fun d => (BDim (d_kind d), d_meta d)) ds ++ blocks_draws t
  | DText _ _ ml :: t => (BText, ml) :: blocks_draws t
  end.
Definition blocks (d : document) : list (bkind * list meta) :=
  flat_map (fun pg => (BPage, pg_meta pg) :: blocks_draws (pg_draws pg)) (doc_pages d).
Lemma blocks_draws_in d pg : In pg (doc_pages d) -> forall l, (forall i, In i l -> In i (pg_draws pg)) ->
  forall k ml, In (k, ml) (blocks_draws l) -> block d k ml.
Proof.
  intros HP l. induction l as [|i l IH]; intros HI k ml; cbn [blocks_draws]; [intros []|].
  assert (HI' : forall j, In j l -> In j (pg_draws pg)) by (intros j Hj; apply HI; right; exact Hj).
  destruct i as [lc n m ds|lc t m]; cbn [In].
  - intros [H|H].
    + injection H as <- <-. eapply B_draw; [exact HP|]. apply HI. left; reflexivity.
    + apply in_app_or in H. destruct H as [H|H]; [|exact (IH HI' _ _ H)].
      apply in_map_iff in H. destruct H as (dm & H & Hd). injection H as <- <-.
      eapply B_dim; [exact HP| |exact Hd]. apply HI. left; reflexivity.
  - intros [H|H]; [|exact (IH HI' _ _ H)]. injection H as <- <-. eapply B_text; [exact HP|]. apply HI. left; reflexivity.
Qed.
Lemma blocks_in d k ml : In (k, ml) (blocks d) -> block d k ml.
Proof.
  unfold blocks. rewrite in_flat_map. intros (pg & HP & [H|H]).
  - injection H as <- <-. apply B_page, HP.
  - exact (blocks_draws_in _ _ HP _ (fun i H => H) _ _ H).
Qed.
Lemma block_ex d (P : bkind -> list meta -> Prop) (pb : bkind * list meta -> bool) :
  (forall k ml, pb (k, ml) = true -> P k ml) -> existsb pb (blocks d) = true -> exists k ml, block d k ml /\ P k ml.
Proof.
  intros H K. apply existsb_exists in K. destruct K as ([k ml] & HI & HB). exists k, ml. split; [exact (blocks_in _ _ _ HI)|exact (H _ _ HB)].
Qed.
Fixpoint nodup_b (l : list bytes) : bool :=
  match l with [] => true | x :: t => negb (existsb (bytes_eqb x) t) && nodup_b t end.
Lemma nodup_b_spec l : NoDup l -> nodup_b l = true.
Proof.
  induction 1; [reflexivity|]. cbn [nodup_b]. rewrite IHNoDup, andb_true_r. apply negb_true_iff.
  destruct (existsb (bytes_eqb x) l) eqn:HE; [|reflexivity]. apply existsb_in in HE. contradiction.
Qed.
Definition has_b (ml : list meta) (n : string) : bool := existsb (bytes_eqb (B n)) (map m_name ml).
Lemma has_b_spec ml n : has ml n <-> has_b ml n = true.
Proof. symmetry. apply existsb_in. Qed.

Definition ex_dup : bytes := B "load t = ""t.stl""; page { draw t { scale = 1:2; scale = 1:3; } }".
Lemma ex_dup_ok : exists d, parses (B "s") ex_dup d /\ exists k ml, block d k ml /\ ~ NoDup (map m_name ml).
Proof.
  exists (doc_of ex_dup). split; [apply parses_ex; vm_compute; reflexivity|].
  apply block_ex with (pb := fun x => negb (nodup_b (map m_name (snd x)))); [|vm_compute; reflexivity].
  intros k ml H N. apply nodup_b_spec in N. cbn [snd] in H. rewrite N in H. discriminate.
Qed.
Definition ex_unknown : bytes := B "load t = ""t.stl""; page { draw t { dim(at=[0,0,0], dir=[1,0,0], from=[0,0,0], to=[1,0,0], colour=[1,1,1]); } }".
Lemma ex_unknown_ok : exists d, parses (B "s") ex_unknown d /\ exists k ml, block d k ml /\
  exists n, In n (map m_name ml) /\ ~ In n (map B (documented k)).
Proof.
  exists (doc_of ex_unknown). split; [apply parses_ex; vm_compute; reflexivity|].
  apply block_ex with (pb := fun x => existsb (fun n => negb (existsb (bytes_eqb n) (map B (documented (fst x))))) (map m_name (snd x)));
    [|vm_compute; reflexivity].
  intros k ml H. apply existsb_exists in H. destruct H as (n & HI & HN). exists n. split; [exact HI|].
  intro K. apply existsb_in in K. cbn [fst] in HN. rewrite K in HN. discriminate.
Qed.
Definition ex_missing : bytes := B "load t = ""t.stl""; page { draw t { angle(at=[0,0,0], apex=[0,0,0], from_dir=[1,0,0], from_point=[1,0,0], to_dir=[0,1,0]); } }".
Lemma ex_missing_ok : exists d, parses (B "s") ex_missing d /\ exists k ml, block d k ml /\ ~ complete k ml.
Proof.
  exists (doc_of ex_missing). split; [apply parses_ex; vm_compute; reflexivity|].
  apply block_ex with (pb := fun x => match fst x with BDim KAngle => has_b (snd x) "from_dir" && has_b (snd x) "from_point" | _ => false end);
    [|vm_compute; reflexivity].
  intros k ml. cbn [fst snd]. destruct k as [| | |[| | |]]; try discriminate. rewrite andb_true_iff, <- !has_b_spec.
  intros [H1 H2] (_ & _ & [[_ H]|[H _]] & _); contradiction.
Qed.

Definition ex_refs : bytes := B "load t = ""t.stl""; load t = ""u.stl""; page { draw v { view = ""W+""; } }".
Lemma draw_ex d (pb : bytes -> list meta -> list dim -> bool) :
  existsb (fun pg => existsb (fun i => match i with DDraw _ n ml ds => pb n ml ds | _ => false end) (pg_draws pg)) (doc_pages d) = true ->
  exists pg l n ml ds, In pg (doc_pages d) /\ In (DDraw l n ml ds) (pg_draws pg) /\ pb n ml ds = true.
Proof.
  intro H. apply existsb_exists in H. destruct H as (pg & HP & H). apply existsb_exists in H.
  destruct H as ([l n ml ds|] & HI & H); [|discriminate]. exists pg, l, n, ml, ds. auto.
Qed.
Lemma ex_files_none p : bytes_eqb p (B "lib/t.stl") = false -> ex_files p = None.
Proof. intro H. unfold ex_files. rewrite H. reflexivity. Qed.
Lemma no_u_stl f t : f = B "u.stl" -> ~ resolves ex_files f t.
Proof.
  intros -> [((x & Hx) & _)|(_ & es & _ & HF)]; [discriminate|].
  revert HF. generalize (B "." :: es). intro ps. induction ps as [|p ps IH]; intro HF; inversion HF as [? ? ? H1|? ? ? H1 H2]; subst; [|exact (IH H2)].
  rewrite ex_files_none in H1; [discriminate|]. apply bytes_eqb_neq. intro HE.
  apply (f_equal (@rev ascii)) in HE. rewrite rev_app_distr in HE. discriminate HE.
Qed.
Definition unknown_view (x : meta) : bool :=
  bytes_eqb (m_name x) (B "view") && match m_val x with MStr v => negb (existsb (bytes_eqb v) view_names) | _ => false end.
Lemma ex_refs_ok : exists d, parses (B "s") ex_refs d /\ ~ NoDup (map mo_name (doc_models d)) /\
  (exists m, In m (doc_models d) /\ forall t, ~ resolves ex_files (mo_source m) t) /\
  exists pg l n ml ds, In pg (doc_pages d) /\ In (DDraw l n ml ds) (pg_draws pg) /\ ~ In n (map mo_name (doc_models d)) /\
    exists x v, In x ml /\ m_name x = B "view" /\ m_val x = MStr v /\ ~ In v view_names.
Proof.
  exists (doc_of ex_refs). split; [apply parses_ex; vm_compute; reflexivity|]. split.
  { intro N. apply nodup_b_spec in N. vm_compute in N. discriminate. }
  split.
  { assert (H : existsb (fun m => bytes_eqb (mo_source m) (B "u.stl")) (doc_models (doc_of ex_refs)) = true) by (vm_compute; reflexivity).
    apply existsb_exists in H. destruct H as (m & HI & H). apply bytes_eqb_eq in H. exists m. split; [exact HI|]. intro t. apply no_u_stl, H. }
  destruct (@draw_ex (doc_of ex_refs) (fun n ml _ => negb (existsb (bytes_eqb n) (map mo_name (doc_models (doc_of ex_refs)))) && existsb unknown_view ml))
    as (pg & l & n & ml & ds & H1 & H2 & H3); [vm_compute; reflexivity|].
  exists pg, l, n, ml, ds. split; [exact H1|]. split; [exact H2|]. apply andb_true_iff in H3. destruct H3 as [H3 H4]. split.
  { intro K. apply existsb_in in K. rewrite K in H3. discriminate H3. }
  apply existsb_exists in H4. destruct H4 as (x & HI & HX). unfold unknown_view in HX. apply andb_true_iff in HX. destruct HX as [HN HV].
  apply bytes_eqb_eq in HN. destruct (m_val x) as [v| | | |] eqn:V; try discriminate HV. exists x, v. split; [exact HI|]. split; [exact HN|]. split; [exact V|].
  intro K. apply existsb_in in K. rewrite K in HV. discriminate HV.
Qed.

(** A failing conversion that has drawn a page already. *)
Definition ex_late : bytes := B "load t = ""t.stl""; page { draw t { } } page { draw u { } }".
Lemma ex_late_ok : exists r, script_to_ps ex_files (B "s") ex_late = Ret r /\ r_ok r = false.
Proof.
  assert (H : match script_to_ps ex_files (B "s") ex_late with Ret r => negb (r_ok r) | _ => false end = true) by (vm_compute; reflexivity).
  destruct (script_to_ps ex_files (B "s") ex_late) as [r|]; [|discriminate H]. exists r. split; [reflexivity|]. destruct (r_ok r); [discriminate H|reflexivity].
Qed.

(** The result of a script, as far as it can be compared. *)
Definition run_ok (E : Env) (fs : files) (c : bytes) : option bool :=
  match script_to_ps (E := E) fs (B "s") c with Ret r => Some (r_ok r) | Abort _ => None end.
Definition run_log (E : Env) (fs : files) (c : bytes) : option (list diag) :=
  match script_to_ps (E := E) fs (B "s") c with Ret r => Some (r_log r) | Abort _ => None end.

(** ** Statements that do not hold *)
(** Drawing a document twice. *)
Definition ex_twice : bytes := B "load t = ""t.stl""; page { draw t { view = ""X+"";
  dim(at=[0,2,5], dir=[0,1,0], from=[0,0,4], to=[0,4,4]); } }".
Definition ex_st : stl_map := match load_files ex_files (doc_models (doc_of ex_twice)) [] with Ret (st, _, _) => st | _ => [] end.
Definition differ (a b : outcome (list opage * document * list diag * bool)) : bool :=
  match a, b with
  | Ret (os, _, _, ok), Ret (os', _, _, ok') => ok && ok' && negb (bytes_eqb (render_pages (B "s") os) (render_pages (B "s") os'))
  | _, _ => false
  end.
Lemma twice_differs : exists st d os d' lg os2 d2 lg2,
  generate_pages st d = Ret (os, d', lg, true) /\ generate_pages st d' = Ret (os2, d2, lg2, true) /\ os2 <> os.
Proof.
  assert (H : match generate_pages ex_st (doc_of ex_twice) with
              | Ret (os, d', lg, ok) => differ (Ret (os, d', lg, ok)) (generate_pages ex_st d')
              | _ => false end = true) by (vm_compute; reflexivity).
  exists ex_st, (doc_of ex_twice). generalize dependent (doc_of ex_twice). generalize ex_st. intros st d H.
  destruct (generate_pages st d) as [[[[os d'] lg] ok]|] eqn:G; [|discriminate H].
  destruct (generate_pages st d') as [[[[os2 d2] lg2] ok2]|] eqn:G2; [|discriminate H].
  cbn [differ] in H. apply andb_true_iff in H. destruct H as [H K]. apply andb_true_iff in H. destruct H as [-> ->].
  exists os, d', lg, os2, d2, lg2. split; [reflexivity|]. split; [exact G2|]. intros ->. rewrite bytes_eqb_refl in K. discriminate K.
Qed.

(** With the default --load_path, which is empty, a relative name is also tried in the root directory. *)
Definition E0 : Env := ex_env [].
Definition root_files : files := fun p => if bytes_eqb p (B "/t.stl") then Some ex_stl else None.
Definition no_files : files := fun _ => None.
Definition ex_one : bytes := B "load t = ""t.stl""; page { draw t { } }".
Lemma root_opened : exists d, parses (E := E0) (B "s") ex_one d /\
  (forall m, In m (doc_models d) -> ~ abs_path (mo_source m) /\ no_dotdot (mo_source m)) /\
  (forall p, below (E := E0) p -> root_files p = no_files p) /\
  script_to_ps (E := E0) root_files (B "s") ex_one <> script_to_ps (E := E0) no_files (B "s") ex_one.
Proof.
  assert (HP : match parse (E := E0) (B "s") ex_one with Ret (0, d, _) => forallb (fun m => bytes_eqb (mo_source m) (B "t.stl")) (doc_models d) | _ => false end = true)
    by (vm_compute; reflexivity).
  assert (HR : match run_ok E0 root_files ex_one, run_ok E0 no_files ex_one with Some true, Some false => true | _, _ => false end = true) by (vm_compute; reflexivity).
  unfold parses. destruct (parse (E := E0) (B "s") ex_one) as [[[[|n] d] lg]|]; try discriminate HP. exists d. split; [eauto|]. split.
  { intros m Hm. rewrite forallb_forall in HP. specialize (HP _ Hm). apply bytes_eqb_eq in HP. rewrite HP. split; [intros [x Hx]; discriminate Hx|].
    unfold no_dotdot. intro K. vm_compute in K. destruct K as [K|[]]. discriminate K. }
  split.
  { intros p (dd & es & rest & (HE & HF & HN) & HD & HNE & -> & _). unfold root_files, no_files. rewrite (proj2 (bytes_eqb_neq _ _)); [reflexivity|].
    assert (HDD : exists c t, dd = c :: t /\ c <> "/"%char).
    { destruct HD as [->|HD]; [exists "."%char, []; split; [reflexivity|discriminate]|].
      exfalso. cbn in HE. destruct es as [|e [|e' es]]; [congruence| |].
      - cbn in HE. subst e. destruct HD as [<-|[]]. congruence.
      - cbn [join] in HE. destruct e; discriminate HE. }
    destruct HDD as (c & t & -> & Hc). cbn [app]. intro K. injection K as K _. contradiction. }
  intro K. unfold run_ok in HR. rewrite K in HR.
  destruct (script_to_ps (E := E0) no_files (B "s") ex_one) as [r|]; [destruct (r_ok r)|]; discriminate HR.
Qed.
(** A name with .. leaves the search directories. *)
Definition ex_up : bytes := B "load t = ""../t.stl""; page { draw t { } }".
Definition up_files : files := fun p => if bytes_eqb p (B "lib/../t.stl") then Some ex_stl else None.
Lemma up_opened : exists r, script_to_ps up_files (B "s") ex_up = Ret r /\ r_ok r = true.
Proof.
  assert (H : match script_to_ps up_files (B "s") ex_up with Ret r => r_ok r | _ => false end = true) by (vm_compute; reflexivity).
  destruct (script_to_ps up_files (B "s") ex_up) as [r|]; [|discriminate H]. eauto.
Qed.

(** near() on an empty model fails without a message. *)
Definition ex_mute : bytes := B "load t = ""e.stl""; page { draw t {
  dim(at=[0,0,0], dir=[1,0,0], from=near([0,0,0]), to=[1,0,0]); } }".
Definition empty_stl : files := fun p => if bytes_eqb p (B "lib/e.stl") then Some (B "solid
endsolid
") else None.
Lemma mute_fails : exists d, parses (B "s") ex_mute d /\ exists r, script_to_ps empty_stl (B "s") ex_mute = Ret r /\ r_ok r = false /\ r_log r = [].
Proof.
  exists (doc_of ex_mute). split; [apply parses_ex; vm_compute; reflexivity|].
  assert (H : match script_to_ps empty_stl (B "s") ex_mute with Ret r => negb (r_ok r) && match r_log r with [] => true | _ => false end | _ => false end = true)
    by (vm_compute; reflexivity).
  destruct (script_to_ps empty_stl (B "s") ex_mute) as [[o b l]|]; [|discriminate H]. eexists. split; [reflexivity|].
  cbn [r_ok r_log] in *. destruct o, l; try discriminate H. auto.
Qed.

(** A draw without @ is not at the place of @[0,0]. *)
Definition zero_at : meta := Meta (B "@") (MLoc (V2 nz nz)) (Loc [] 0).
Definition draw_text (r : outcome (vst * list dim * bool)) : option bytes :=
  match r with Ret (s, _, true) => Some (lines_to_ps (o_lines (v_page s))) | _ => None end.
Lemma draw_text_differ r1 r2 :
  match draw_text r1, draw_text r2 with Some a, Some b => negb (bytes_eqb a b) | _, _ => false end = true ->
  exists s1 ds1 s2 ds2, r1 = Ret (s1, ds1, true) /\ r2 = Ret (s2, ds2, true) /\ v_page s1 <> v_page s2.
Proof.
  unfold draw_text. destruct r1 as [[[s1 ds1] [|]]|]; intro H; try discriminate H.
  destruct r2 as [[[s2 ds2] [|]]|]; try discriminate H.
  exists s1, ds1, s2, ds2. split; [reflexivity|]. split; [reflexivity|]. intro K. rewrite K, bytes_eqb_refl in H. discriminate H.
Qed.
Lemma at_zero_differs : exists s1 ds1 s2 ds2,
  visit_draw ex_st (Loc [] 0) (B "t") [] [] vst_init = Ret (s1, ds1, true) /\
  visit_draw ex_st (Loc [] 0) (B "t") [zero_at] [] vst_init = Ret (s2, ds2, true) /\ v_page s1 <> v_page s2.
Proof. apply draw_text_differ. vm_compute. reflexivity. Qed.
