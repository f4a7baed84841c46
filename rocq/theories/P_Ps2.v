(** P_Ps2.v - whole outputs read as PostScript. *)
From Verif Require Import Base Num Geo Stl StlRead Env Ast Lexer Parser Ps Draw Main P_Base P_Meta P_Frame P_Dims P_Doc DocSpec P_Script P_Script2 P_Script3 PsSpec P_Ps.

Local Unset Implicit Arguments.
Lemma dec_val_digits s : forall acc v, dec_val s acc = Some v -> Forall (fun c => (48 <= N_of_ascii c <= 57)%N) s.
Proof.
  induction s as [|c s IH]; intros acc v H; [constructor|]. cbn [dec_val] in H.
  destruct ((48 <=? N_of_ascii c) && (N_of_ascii c <=? 57))%N eqn:D; [|discriminate]. apply andb_true_iff in D. destruct D as [D1 D2].
  apply N.leb_le in D1. apply N.leb_le in D2. constructor; [lia|]. exact (IH _ _ H).
Qed.
Lemma digits_not s c n : spells s n -> (N_of_ascii c < 48)%N -> ~ In c s.
Proof. intros [_ H] L I. apply dec_val_digits in H. rewrite Forall_forall in H. specialize (H c I). cbn in H. lia. Qed.
Lemma one_line_app a b : one_line a -> one_line b -> one_line (a ++ b).
Proof. intros (H1 & H2 & H3) (K1 & K2 & K3). repeat split; rewrite in_app_iff; tauto. Qed.
Lemma one_line_spells s n : spells s n -> one_line s.
Proof. intro H. repeat split; apply (digits_not s _ n H); reflexivity. Qed.
Lemma one_line_lit s : forallb (fun c => negb (ends_comment c)) s = true -> one_line s.
Proof.
  intro H. rewrite forallb_forall in H. repeat split; intro I; specialize (H _ I); discriminate H.
Qed.
Lemma one_line_cr s : one_line s -> ~ In CR s. Proof. intros (_ & H & _). exact H. Qed.
Lemma F2_length {X Y} (R : X -> Y -> Prop) l k : Forall2 R l k -> length l = length k. Proof. induction 1; cbn; congruence. Qed.
Lemma cr_app a b : ~ In CR a -> ~ In CR b -> ~ In CR (a ++ b). Proof. rewrite in_app_iff. tauto. Qed.

Section Out.
  Context {A : Arith} {E : Env} (NW : forall x : num, word_like (fmt_num x)).
  Lemma reads_text t p : text_prog t p -> reads (text_to_ps1 t) p.
  Proof.
    intros (v & H & ->). unfold text_to_ps1. cbv zeta. apply (reads_show NW). destruct (t_raw t); [exact H|]. subst v. apply escaped_body.
  Qed.
  Lemma text_progs l : (forall t, In t l -> t_raw t = true -> exists v, string_body (t_str t) v) -> exists ts, Forall2 text_prog l ts.
  Proof.
    induction l as [|t l IH]; intro H; [exists []; constructor|]. destruct IH as [ts HT]; [intros x I; apply H; right; exact I|].
    assert (K : exists v, if t_raw t then string_body (t_str t) v else v = line_ends (t_str t)).
    { destruct (t_raw t) eqn:R; [exact (H t (or_introl eq_refl) R)|eauto]. }
    destruct K as [v K]. exists (show_prog (t_at t) v (t_center t) :: ts). constructor; [exists v; auto|exact HT].
  Qed.
  Lemma reads_texts l ts : Forall2 text_prog l ts -> reads (text_to_ps l) (concat ts).
  Proof. intro H. unfold text_to_ps. apply reads_concat. induction H; constructor; [apply reads_text; assumption|assumption]. Qed.
  Lemma reads_lines l : reads (lines_to_ps l) (concat (map line_prog l)).
  Proof. unfold lines_to_ps. apply reads_concat. induction l; constructor; [apply (reads_line NW)|assumption]. Qed.
  Lemma reads_arcs l : reads (arcs_to_ps l) (concat (map arc_prog l)).
  Proof. unfold arcs_to_ps. apply reads_concat. induction l; constructor; [apply (reads_arc NW)|assumption]. Qed.
  Lemma reads_title (s : bytes) : ~ In CR s -> reads (text_to_ps [Text (V2 (of_Z 7) (of_Z 7)) s false false]) (show_prog (V2 (of_Z 7) (of_Z 7)) s false).
  Proof.
    intro H. unfold text_to_ps. cbn [map concat]. rewrite app_nil_r. apply reads_text. exists s. cbn [t_raw t_str]. rewrite (line_ends_id s H). auto.
  Qed.
  Lemma reads_page_header kk nn k n : dec_of_nat k = kk -> dec_of_nat n = nn -> one_line now -> reads (page_header k n) (frame_prog ++ stamp_prog kk nn).
  Proof.
    intros HK HN ON. pose proof (dec_of_nat_spells k) as SK. pose proof (dec_of_nat_spells n) as SN. rewrite HK in SK. rewrite HN in SN.
    unfold page_header. rewrite HK, HN. clear HK HN.
    replace frame_prog with ([] ++ frame_prog) by reflexivity. rewrite <- app_assoc.
    change (B "
%%%%%%%%% Start of page ") with (B "
" ++ B "%" ++ B "%%%%%%%% Start of page ").
    match goal with |- reads (_ ++ kk ++ _ ++ nn ++ ?b ++ ?m) _ => 
      replace ((B "
" ++ B "%" ++ B "%%%%%%%% Start of page ") ++ kk ++ B " of " ++ nn ++ b ++ m) with ((B "
" ++ (B "%" ++ (B "%%%%%%%% Start of page " ++ kk ++ B " of " ++ nn) ++ [LF])) ++ (B "<< /PageSize [792 612] >> setpagedevice % letter/landscape

.1 setlinewidth
% draw border
newpath 5 5 moveto 5 607 lineto 787 607 lineto 787 5 lineto 5 5 lineto stroke
" ++ m)) end.
    2: { rewrite <- !app_assoc. reflexivity. }
    apply reads_app.
    { apply (reads_app _ _ [] []); [reflexivity|]. apply reads_comment. repeat apply one_line_app; try (apply one_line_lit; reflexivity); eapply one_line_spells; eassumption. }
    apply reads_app; [vm_compute; reflexivity|].
    assert (C1 : ~ In CR now) by (destruct ON as (_ & H & _); exact H).
    assert (C2 : ~ In CR (B "page " ++ kk ++ B " of " ++ nn)).
    { apply one_line_cr. repeat apply one_line_app; try (apply one_line_lit; reflexivity); eapply one_line_spells; eassumption. }
    unfold stamp_prog. cbv zeta. destruct flag_timestamp, flag_number_pages; cbn [app join].
    - apply reads_title. apply cr_app; [exact C1|]. apply (cr_app (B " ")); [apply one_line_cr, one_line_lit; reflexivity|exact C2].
    - apply reads_title; exact C1.
    - apply reads_title; exact C2.
    - apply reads_nil.
  Qed.
  Lemma reads_header src : one_line flag_name -> one_line src -> one_line now -> reads (document_header src) prolog.
  Proof.
    intros H1 H2 H3. unfold document_header.
    match goal with |- reads (_ ++ flag_name ++ _ ++ src ++ _ ++ now ++ ?a ++ ?b ++ ?c) _ =>
      change (reads ((B "% generated by stl-to-ps
") ++ B "% Name: " ++ flag_name ++ [LF] ++ B "% Source: " ++ src ++ [LF] ++ B "% Time: " ++ now ++ [LF] ++ skipn 1 a ++ b ++ c) prolog) end.
    apply (reads_app _ _ [] prolog); [reflexivity|].
    match goal with |- reads (_ ++ flag_name ++ _ ++ _ ++ src ++ _ ++ _ ++ now ++ _ ++ ?r) _ =>
      replace (B "% Name: " ++ flag_name ++ [LF] ++ B "% Source: " ++ src ++ [LF] ++ B "% Time: " ++ now ++ [LF] ++ r) with
      ((B "%" ++ (B " Name: " ++ flag_name) ++ [LF]) ++ (B "%" ++ (B " Source: " ++ src) ++ [LF]) ++ (B "%" ++ (B " Time: " ++ now) ++ [LF]) ++ r) end.
    2: { rewrite <- !app_assoc. reflexivity. }
    apply (reads_app _ _ [] prolog); [apply reads_comment, one_line_app; [apply one_line_lit; reflexivity|assumption]|].
    apply (reads_app _ _ [] prolog); [apply reads_comment, one_line_app; [apply one_line_lit; reflexivity|assumption]|].
    apply (reads_app _ _ [] prolog); [apply reads_comment, one_line_app; [apply one_line_lit; reflexivity|assumption]|].
    vm_compute. reflexivity.
  Qed.
  Lemma reads_page kk nn k n p g : dec_of_nat k = kk -> dec_of_nat n = nn -> one_line now -> page_prog kk nn p g -> reads (render_page n k p) g.
  Proof.
    intros HK HN ON (ts & HT & ->). unfold render_page. rewrite (app_assoc frame_prog).
    apply reads_app; [eapply reads_page_header; eassumption|]. apply reads_app; [apply reads_texts; exact HT|].
    apply reads_app; [apply reads_arcs|]. apply reads_app; [apply reads_lines|]. reflexivity.
  Qed.
  Lemma reads_pages total ps : one_line now -> raw_ok ps -> forall n, exists progs, page_progs (dec_of_nat total) n ps progs /\ reads (render_from total n ps) (concat progs).
  Proof.
    intros ON. induction ps as [|p ps IH]; intros RO n; [exists []; split; [exact I|apply reads_nil]|].
    destruct (IH (fun q t I => RO q t (or_intror I)) (S n)) as (progs & P & R). destruct (text_progs (o_text p) (fun t => RO p t (or_introl eq_refl))) as [ts HT].
    assert (G : page_prog (dec_of_nat (S n)) (dec_of_nat total) p (frame_prog ++ stamp_prog (dec_of_nat (S n)) (dec_of_nat total) ++ concat ts ++ concat (map arc_prog (o_arcs p)) ++ concat (map line_prog (o_lines p)) ++ ws "showpage")) by (exists ts; auto).
    eexists (_ :: progs). split; [split; [exists (dec_of_nat (S n)); split; [apply dec_of_nat_spells|exact G]|exact P]|].
    cbn [render_from concat]. apply reads_app; [|exact R]. eapply reads_page; [reflexivity|reflexivity|exact ON|exact G].
  Qed.
  Lemma gen_page_shows st k pg s s' pg' : gen_page st k pg s = Ret (s', pg', true) -> page_shows st pg (v_page s').
  Proof.
    intro H. destruct (page_indep st k pg) as [[e HE]|(r & rs & pre & post & ok0 & HG & HI & HP & _ & _ & HO & _)]; [rewrite HE in H; discriminate|].
    destruct (gen_page_spec _ _ _ _ H) as [_ O]. destruct (O eq_refl) as [(_ & _ & HT & _) _].
    destruct (HG s) as (s1 & G1 & G2 & _). rewrite H in G1. injection G1 as <- _ HK. rewrite <- HK in HO. symmetry in HO.
    apply andb_true_iff in HO. destruct HO as [_ HO]. rewrite G2, HP.
    exists (map contrib_of rs), (add_header opage_empty (title_of pg)), (title_of pg). split; [apply gives_adds; exact HI|].
    split. { apply Forall_forall. intros c Hc. apply in_map_iff in Hc. destruct Hc as (e & <- & He). rewrite forallb_forall in HO. exact (HO _ He). }
    split; [apply title_titled; exact HT|]. split; [do 3 eexists; reflexivity|]. rewrite sum_pages_of. unfold plus_page, add_header; simpl; rewrite app_nil_r; reflexivity.
  Qed.
  Lemma gen_pages_show st : forall pgs n s s' pgs' os, gen_pages st n pgs s = Ret (s', pgs', os, true) -> Forall2 (page_shows st) pgs os.
  Proof.
    induction pgs as [|pg pgs IH]; intros n s s' pgs' os H; cbn [gen_pages] in H.
    - injection H as <- <- <-. constructor.
    - rewrite obind_ret in H. destruct H as ([[s1 d1] ok1] & H1 & H). rewrite obind_ret in H. destruct H as ([[[s2 t2] os2] ok2] & H2 & H).
      injection H as <- <- <- HK. apply andb_true_iff in HK. destruct HK as [-> ->]. constructor; [eapply gen_page_shows; exact H1|eapply IH; exact H2].
  Qed.
  Theorem whole_program fs src c r : one_line flag_name -> one_line src -> one_line now -> script_to_ps fs src c = Ret r -> r_ok r = true ->
    exists d st lg ps nn, parses src c d /\ load_files fs (doc_models d) [] = Ret (st, lg, true) /\ Forall2 (page_shows st) (doc_pages d) ps /\ spells nn (length (doc_pages d)) /\
      (raw_ok ps -> exists progs, page_progs nn 0 ps progs /\ ps_read (r_out r) = Some (prolog ++ concat progs)).
  Proof.
    intros N1 N2 N3 H HO. destruct (script_ok _ _ _ H HO) as (d & r' & HP & (st & lg1 & os & d' & lg2 & HL & HG & ->) & HR & _).
    unfold generate_pages in HG. rewrite obind_ret in HG. destruct HG as ([[[s pgs'] os'] ok'] & HG & HQ). injection HQ as <- _ _ ->.
    pose proof (gen_pages_show _ _ _ _ _ _ _ HG) as HS. exists d, st, lg1, os', (dec_of_nat (length (doc_pages d))).
    split; [exact HP|]. split; [exact HL|]. split; [exact HS|]. split; [apply dec_of_nat_spells|]. intro RO.
    destruct (reads_pages (length os') os' N3 RO 0) as (progs & P & R). rewrite <- (F2_length _ _ _ HS) in P. exists progs. split; [exact P|].
    rewrite HR. cbn [r_out]. unfold render_pages. apply reads_whole, reads_app; [apply reads_header; assumption|exact R].
  Qed.
End Out.
