(** ExPs.v - concrete cases for the theorems about the PostScript output. *)
From Coq Require Import Reals Nnat.
From Flocq Require Import IEEE754.BinarySingleNaN.
From Verif Require Import Base Num NumReal NumF64 Geo Stl StlRead RealSpec Env Ast Lexer Parser Ps Draw Main P_Base P_Doc DocSpec P_Script EnvEx ExDoc ExReal ExLang
  PsSpec P_Ps P_Ps2 P_Ps3 P_Ps4.

Local Unset Implicit Arguments.
Definition ptok_eqb (a b : ptok) : bool :=
  match a, b with
  | PName x, PName y | PWord x, PWord y | PStr x, PStr y | PMark x, PMark y => bytes_eqb x y
  | _, _ => false
  end.
Lemma ptok_eqb_refl a : ptok_eqb a a = true.
Proof. destruct a; apply bytes_eqb_refl. Qed.
Lemma not_in_toks a l : existsb (ptok_eqb a) l = false -> ~ In a l.
Proof. intros H I. rewrite (proj2 (existsb_exists _ _)) in H; [discriminate|]. exists a. split; [exact I|apply ptok_eqb_refl]. Qed.

(** Numbers are printed as single words. *)
Lemma digits_regular n : Forall (fun c => is_regular c = true) (dec_of_N n).
Proof.
  rewrite Forall_forall. intros c I. pose proof (dec_of_nat_spells (N.to_nat n)) as [_ H]. unfold dec_of_nat in H. rewrite N2Nat.id in H.
  apply dec_val_digits in H. rewrite Forall_forall in H. specialize (H c I). cbv beta in H.
  destruct c as [[] [] [] [] [] [] [] []]; cbv in H; try reflexivity; exfalso; first [apply (proj1 H); reflexivity|apply (proj2 H); reflexivity].
Qed.
Lemma digits_some n : dec_of_N n <> [].
Proof. pose proof (dec_of_nat_spells (N.to_nat n)) as [H _]. unfold dec_of_nat in H. rewrite N2Nat.id in H. exact H. Qed.
Lemma ex_words (x : @num ExA) : word_like (@fmt_num ExA ExE x).
Proof.
  change (word_like (ex_print x)). destruct x as [s|[]| |[] m e h]; cbn [ex_print].
  1-4: split; [discriminate|repeat constructor].
  - split; [discriminate|]. constructor; [reflexivity|]. apply digits_regular.
  - split; [apply digits_some|]. apply digits_regular.
Qed.

(** ** Texts *)
Definition cr_text : bytes := B "a" ++ [CR] ++ B "b".
Definition ex_cr : bytes := B "page { text[""" ++ cr_text ++ B """] { @[0,1]; } }".
Definition has_text (d : document) (t : bytes) : bool :=
  existsb (fun pg => existsb (fun i => match i with DText _ u _ => bytes_eqb u t | _ => false end) (pg_draws pg)) (doc_pages d).
Lemma has_text_in d t : has_text d t = true -> exists pg l ml, In pg (doc_pages d) /\ In (DText l t ml) (pg_draws pg).
Proof.
  unfold has_text. intro H. apply existsb_exists in H. destruct H as (pg & I & H). apply existsb_exists in H. destruct H as ([l n ml ds|l u ml] & I2 & H); [discriminate|].
  apply bytes_eqb_eq in H. subst u. eauto 6.
Qed.
Lemma cr_lost : exists d pg l ml r toks, parses (B "s") ex_cr d /\ In pg (doc_pages d) /\ In (DText l cr_text ml) (pg_draws pg) /\
  script_to_ps ex_files (B "s") ex_cr = Ret r /\ r_ok r = true /\ ps_read (r_out r) = Some toks /\ ~ In (PStr cr_text) toks.
Proof.
  destruct (has_text_in (doc_of ex_cr) cr_text) as (pg & l & ml & I1 & I2); [vm_compute; reflexivity|].
  assert (H : match script_to_ps ex_files (B "s") ex_cr with
              | Ret r => r_ok r && match ps_read (r_out r) with Some k => negb (existsb (ptok_eqb (PStr cr_text)) k) | None => false end
              | _ => false end = true) by (vm_compute; reflexivity).
  destruct (script_to_ps ex_files (B "s") ex_cr) as [r|]; [|discriminate H]. apply andb_true_iff in H. destruct H as [H1 H2].
  destruct (ps_read (r_out r)) as [k|] eqn:Q; [|discriminate H2]. apply negb_true_iff, not_in_toks in H2.
  exists (doc_of ex_cr), pg, l, ml, r, k. split; [apply parses_ex; vm_compute; reflexivity|].
  split; [exact I1|]. split; [exact I2|]. split; [reflexivity|]. split; [exact H1|]. split; [exact Q|exact H2].
Qed.
(** Parentheses, a backslash and a line end. *)
Definition odd_text : @text ExA := Text (V2 (of_Z 3) (of_Z 4)) (B "a(b\))" ++ [LF] ++ B "%c") true false.
Lemma odd_text_ok : ~ In CR (t_str odd_text) /\ In BSLASH (t_str odd_text) /\ length (t_str odd_text) = 9.
Proof. split; [vm_compute; intuition discriminate|]. split; [vm_compute; tauto|reflexivity]. Qed.

(** ** Labels *)
Definition ex_dia : bytes := B "load t = ""t.stl""; page { draw t {
  dia(center=[5,3,0], at=[6,6,0], dir=[1,0,0], fmt="")%f""); } }".
Definition has_dia (d : document) (f : bytes) : bool :=
  existsb (fun pg => existsb (fun i => match i with
    | DDraw _ _ _ ds => existsb (fun m => match d_kind m with KDia => existsb (fun x => match m_val x with MStr g => bytes_eqb g f | _ => false end) (d_meta m) | _ => false end) ds
    | _ => false end) (pg_draws pg)) (doc_pages d).
Lemma dia_breaks : exists r, script_to_ps ex_files (B "s") ex_dia = Ret r /\ r_ok r = true /\ r_log r = [] /\ ps_read (r_out r) = None.
Proof.
  assert (H : match script_to_ps ex_files (B "s") ex_dia with
              | Ret r => r_ok r && match r_log r with [] => true | _ => false end && match ps_read (r_out r) with None => true | _ => false end
              | _ => false end = true) by (vm_compute; reflexivity).
  destruct (script_to_ps ex_files (B "s") ex_dia) as [r|]; [|discriminate H]. exists r. destruct (r_ok r), (r_log r), (ps_read (r_out r)); try discriminate H. auto.
Qed.
Definition ex_dia_ok : bytes := B "load t = ""t.stl""; page { draw t {
  dia(center=[5,3,0], at=[6,6,0], dir=[1,0,0], fmt=""about %f mm""); } }".
Lemma dia_good : exists r toks, script_to_ps ex_files (B "s") ex_dia_ok = Ret r /\ r_ok r = true /\ ps_read (r_out r) = Some toks /\ In (PStr (oslash :: B "about 5 mm")) toks.
Proof.
  assert (H : match script_to_ps ex_files (B "s") ex_dia_ok with
              | Ret r => r_ok r && match ps_read (r_out r) with Some k => existsb (ptok_eqb (PStr (oslash :: B "about 5 mm"))) k | None => false end
              | _ => false end = true) by (vm_compute; reflexivity).
  destruct (script_to_ps ex_files (B "s") ex_dia_ok) as [r|]; [|discriminate H]. apply andb_true_iff in H. destruct H as [H1 H2].
  destruct (ps_read (r_out r)) as [k|] eqn:Q; [|discriminate H2]. exists r, k. split; [reflexivity|]. split; [exact H1|]. split; [exact Q|].
  apply existsb_exists in H2. destruct H2 as (t & I & H2). destruct t; try discriminate H2. cbn [ptok_eqb] in H2. apply bytes_eqb_eq in H2. rewrite H2. exact I.
Qed.

(** ** The header *)
Definition bad_name : bytes := B "s" ++ [LF] ++ B "erasepage".
Lemma name_leaks : exists toks, ps_read (document_header bad_name) = Some toks /\ In (PWord (B "erasepage")) toks /\ ~ In (PWord (B "erasepage")) prolog.
Proof.
  assert (H : match ps_read (document_header bad_name) with Some k => existsb (ptok_eqb (PWord (B "erasepage"))) k | None => false end = true) by (vm_compute; reflexivity).
  destruct (ps_read (document_header bad_name)) as [k|] eqn:Q; [|discriminate H]. exists k. split; [reflexivity|]. split.
  - apply existsb_exists in H. destruct H as (t & I & H2). destruct t; try discriminate H2. cbn [ptok_eqb] in H2. apply bytes_eqb_eq in H2. rewrite H2. exact I.
  - apply not_in_toks. vm_compute. reflexivity.
Qed.
Lemma ex_one_line : one_line (@flag_name ExA ExE) /\ one_line (B "a %!PS (b.script") /\ one_line (@now ExA ExE).
Proof. split; [|split]; apply one_line_lit; reflexivity. Qed.

(** ** Infinite coordinates *)
Definition ex_zero_scale : bytes := B "load t = ""t.stl""; page { draw t { scale = 1:0; } }".
Definition ex_flat_dir : bytes := B "load t = ""t.stl""; page { draw t { dia(center=[5,3,0], at=[6,6,0], dir=[0,0,1]); } }".
Definition prints (c : bytes) (w : bytes) : bool :=
  match script_to_ps ex_files (B "s") c with
  | Ret r => r_ok r && match r_log r with [] => true | _ => false end && match ps_read (r_out r) with Some k => existsb (ptok_eqb (PWord w)) k | None => false end
  | _ => false
  end.
Lemma prints_spec c w : prints c w = true -> exists r toks, script_to_ps ex_files (B "s") c = Ret r /\ r_ok r = true /\ r_log r = [] /\ ps_read (r_out r) = Some toks /\ In (PWord w) toks.
Proof.
  unfold prints. destruct (script_to_ps ex_files (B "s") c) as [r|]; [|discriminate]. intro H. apply andb_true_iff in H. destruct H as [H H2]. apply andb_true_iff in H. destruct H as [H1 H3].
  destruct (ps_read (r_out r)) as [k|] eqn:Q; [|discriminate H2]. exists r, k. split; [reflexivity|]. split; [exact H1|]. split; [destruct (r_log r); [reflexivity|discriminate]|]. split; [exact Q|].
  apply existsb_exists in H2. destruct H2 as (t & I & H2). destruct t; try discriminate H2. cbn [ptok_eqb] in H2. apply bytes_eqb_eq in H2. rewrite H2. exact I.
Qed.
Lemma finite_words x : is_finite x = true -> Forall (fun c => c = "-"%char \/ byte_in 48 57 c = true) (ex_print x).
Proof.
  assert (D : forall n, Forall (fun c => c = "-"%char \/ byte_in 48 57 c = true) (dec_of_N n)).
  { intro n. pose proof (dec_of_nat_spells (N.to_nat n)) as [_ H]. unfold dec_of_nat in H. rewrite N2Nat.id in H. apply dec_val_digits in H.
    eapply Forall_impl; [|exact H]. intros c [H1 H2]. right. unfold byte_in. apply andb_true_iff. split; apply N.leb_le; assumption. }
  destruct x as [s|s| |[] m e h]; cbn [ex_print]; intro F; try discriminate F; [constructor; [right; reflexivity|constructor]| |]; [constructor; [left; reflexivity|]|]; apply D.
Qed.
Lemma not_finite_word w : existsb (fun c => negb (byte_eqb c "-" || byte_in 48 57 c)) w = true -> forall x, is_finite x = true -> ex_print x <> w.
Proof.
  intros H x F <-. apply finite_words in F. rewrite Forall_forall in F. apply existsb_exists in H. destruct H as (c & I & H). destruct (F c I) as [->|K]; [discriminate H|].
  rewrite K, orb_true_r in H. discriminate H.
Qed.
Lemma infinite_output : forall c w, w = B "nan" -> c = ex_zero_scale \/ c = ex_flat_dir ->
  exists r toks, script_to_ps ex_files (B "s") c = Ret r /\ r_ok r = true /\ r_log r = [] /\ ps_read (r_out r) = Some toks /\ In (PWord w) toks /\
    forall x, is_finite x = true -> @fmt_num ExA ExE x <> w.
Proof.
  intros c w W H. assert (K : prints c w = true /\ existsb (fun c => negb (byte_eqb c "-" || byte_in 48 57 c)) w = true).
  { subst w; destruct H as [ -> | -> ]; split; vm_compute; reflexivity. }
  destruct K as [K1 K2]. destruct (prints_spec c w K1) as (r & toks & H1 & H2 & H3 & H4 & H5). exists r, toks. split; [exact H1|]. split; [exact H2|]. split; [exact H3|]. split; [exact H4|].
  split; [exact H5|]. exact (not_finite_word w K2).
Qed.

(** ** Text layout and titles *)
Definition ex_lines : bytes := B "one" ++ [LF; LF] ++ B "three".
Definition ex_place : list (@meta XR) := [Meta (B "@") (MLoc (emb2 1 (-2))) (Loc [] 0)].
Lemma text_example : exists s', @visit_text XR (Loc [] 0) ex_lines ex_place vst_init = Ret (s', true) /\ text_place ex_place (72 * 1 + 396) (72 * -2 + 306).
Proof.
  eexists. split; [reflexivity|]. left. eexists. exists 1%R, (-2)%R. split; [left; reflexivity|]. repeat split; ring.
Qed.
Lemma title_example : exists st os d' lg, generate_pages st (doc_of ex_script) = Ret (os, d', lg, true) /\ length os = 2.
Proof.
  assert (H : match load_files ex_files (doc_models (doc_of ex_script)) [] with
              | Ret (st, _, true) => match generate_pages st (doc_of ex_script) with Ret (os, _, _, ok) => ok && (length os =? 2) | _ => false end
              | _ => false end = true) by (vm_compute; reflexivity).
  destruct (load_files ex_files (doc_models (doc_of ex_script)) []) as [[[st lg] [|]]|]; [|discriminate H|discriminate H]. exists st.
  destruct (generate_pages st (doc_of ex_script)) as [[[[os d'] lg'] ok]|]; [|discriminate H]. exists os, d', lg'.
  apply andb_true_iff in H. destruct H as [-> H]. apply Nat.eqb_eq in H. auto.
Qed.
Lemma cr_lost_text : exists d pg l t ml r toks, parses (B "s") ex_cr d /\ In pg (doc_pages d) /\ In (DText l t ml) (pg_draws pg) /\ ~ In LF t /\
  script_to_ps ex_files (B "s") ex_cr = Ret r /\ r_ok r = true /\ ps_read (r_out r) = Some toks /\ ~ In (PStr t) toks.
Proof.
  destruct cr_lost as (d & pg & l & ml & r & toks & H1 & H2 & H3 & H4). exists d, pg, l, cr_text, ml, r, toks.
  split; [exact H1|]. split; [exact H2|]. split; [exact H3|]. split; [unfold cr_text; vm_compute; intuition discriminate|exact H4].
Qed.
Lemma ex_whole : one_line (@flag_name ExA ExE) /\ one_line (B "s") /\ one_line (@now ExA ExE) /\
  exists r, script_to_ps ex_files (B "s") ex_script = Ret r /\ r_ok r = true.
Proof.
  split; [apply one_line_lit; reflexivity|]. split; [apply one_line_lit; reflexivity|]. split; [apply one_line_lit; reflexivity|].
  destruct ex_converts as (r & H1 & H2 & _). exists r. split; [exact H1|exact H2].
Qed.
