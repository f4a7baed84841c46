(** P_Ps3.v - labels of diameters, lines of texts, titles of pages. *)
From Coq Require Import Reals Lra.
From Flocq Require Import Core IEEE754.BinarySingleNaN.
From Verif Require Import Base Num NumReal NumF64 RealSpec Geo Stl StlRead Env Ast Lexer Parser Ps Draw Main P_Base P_Meta P_Frame P_Dims P_Doc DocSpec P_Script4 P_Value PsSpec P_Ps P_Ps2.

Local Unset Implicit Arguments.
(** ** Strings with something before them *)
Definition sh (p : bytes) (s : pst) : option pst :=
  match s with
  | St d a => Some (St d (p ++ a)) | Es d a => Some (Es d (p ++ a)) | Oc d a v m => Some (Oc d (p ++ a) v m) | Cr d a => Some (Cr d (p ++ a)) | _ => None
  end.
Definition shifted (p : bytes) (r r' : pst * list ptok) : Prop :=
  (exists s', sh p (fst r) = Some s' /\ snd r = [] /\ r' = (s', [])) \/
  (exists v o, snd r = PStr v :: o /\ r' = (fst r, PStr (p ++ v) :: o)).
Lemma in_str_sh p d a c : shifted p (in_str d a c) (in_str d (p ++ a) c).
Proof.
  unfold in_str. repeat match goal with |- context [if ?b then _ else _] => destruct b end; try destruct d; first [left; cbn [fst snd sh]; eexists; repeat split; rewrite ?app_assoc; reflexivity | right; cbn [fst snd]; do 2 eexists; split; reflexivity].
Qed.
Lemma step_sh p s s' c : sh p s = Some s' -> shifted p (step s c) (step s' c).
Proof.
  destruct s; cbn [sh]; intro H; try discriminate H; injection H as <-; cbn [step].
  - apply in_str_sh.
  - destruct (octal c); [|repeat match goal with |- context [if ?b then _ else _] => destruct b end]; left; cbn [fst snd sh]; eexists; repeat split; rewrite ?app_assoc; reflexivity.
  - destruct (octal c); [destruct more; left; cbn [fst snd sh]; eexists; repeat split; rewrite ?app_assoc; reflexivity|]. rewrite <- app_assoc. apply in_str_sh.
  - destruct (byte_eqb c LF); [left; cbn [fst snd sh]; eexists; repeat split; reflexivity|]. apply in_str_sh.
Qed.
Lemma run_sh p t : forall s s', sh p s = Some s' -> shifted p (run s t) (run s' t).
Proof.
  induction t as [|c t IH]; intros s s' H; [left; exists s'; auto|]. cbn [run]. pose proof (step_sh p s s' c H) as K. destruct (step s c) as [s1 o1].
  destruct K as [(s2 & K1 & K2 & K3)|(v & o & K1 & K2)]; cbn [fst snd] in *; subst.
  - rewrite K3. specialize (IH s1 s2 K1). destruct (run s1 t) as [s3 o3]. destruct (run s2 t) as [s4 o4]. exact IH.
  - rewrite K2. destruct (run s1 t) as [s3 o3]. right. cbn [fst snd]. do 2 eexists. split; reflexivity.
Qed.
Lemma body_start s v : string_body s v <-> run (St 0 []) (s ++ B ")") = (Gap, [PStr v]).
Proof. unfold string_body. rewrite run_app. change (run Gap (B "(")) with (St 0 [], @nil ptok). cbv iota beta. destruct (run (St 0 []) (s ++ B ")")). reflexivity. Qed.
Lemma label_body f w : string_body (B "\351" ++ f) w <-> exists v, w = oslash :: v /\ string_body f v.
Proof.
  rewrite body_start. rewrite <- app_assoc, run_app. change (run (St 0 []) (B "\351")) with (St 0 [oslash], @nil ptok). cbv iota beta.
  assert (SB : forall v, string_body f v <-> run (St 0 []) (f ++ B ")") = (Gap, [PStr v])) by apply body_start.
  pose proof (run_sh [oslash] (f ++ B ")") (St 0 []) (St 0 [oslash]) eq_refl) as K. destruct (run (St 0 []) (f ++ B ")")) as [s2 o2]. destruct (run (St 0 [oslash]) (f ++ B ")")) as [s3 o3].
  destruct K as [(s' & K1 & K2 & K3)|(v & o & K1 & K2)]; cbn [fst snd app] in *.
  - injection K3 as -> ->. subst o2. split; [intro H; discriminate H|]. intros (v & _ & H). apply SB in H. discriminate H.
  - injection K2 as -> ->. subst o2. split.
    + intro H. injection H as -> <- ->. exists v. split; [reflexivity|]. apply SB. reflexivity.
    + intros (v' & -> & H). apply SB in H. injection H as -> -> ->. reflexivity.
Qed.
(** Text without parentheses and backslashes. *)
Lemma harmless_escape s : harmless s -> ps_escape s = s.
Proof.
  intros (H1 & H2 & H3). induction s as [|c s IH]; [reflexivity|]. rewrite escape_cons. unfold special.
  assert (N : forall x, ~ In x (c :: s) -> byte_eqb c x = false) by (intros x I; apply Ascii.eqb_neq; intros ->; apply I; left; reflexivity).
  rewrite (N _ H1), (N _ H2), (N _ H3). cbn [orb]. f_equal. apply IH; intro I; [apply H1|apply H2|apply H3]; right; exact I.
Qed.
Lemma harmless_body s : harmless s -> string_body s (line_ends s).
Proof. intro H. rewrite <- (harmless_escape s H) at 1. apply escaped_body. Qed.
Section Dia.
  Context {A : Arith} {E : Env}.
  Lemma dia_text_any fm ce a dd r s : exists pos, o_text (v_page (draw_dia fm ce a dd r s)) = o_text (v_page s) ++ [Text pos (B "\351" ++ pf_format fm (nmul r n2)) true true].
  Proof.
    unfold draw_dia. cbv zeta. unfold add_text. cbn [v_page set_page o_text map t_str t_center t_raw]. rewrite add_lines_text.
    match goal with |- context [if ?b then _ else _] => destruct b end; rewrite add_lines_text; eexists; reflexivity.
  Qed.
  Lemma dia_label d s s' d' : d_kind d = KDia -> visit_base_dim d s = Ret (s', d', true) ->
    exists fm x pos str, format_used (d_meta d) "%.3f" fm /\ o_text (v_page s') = o_text (v_page s) ++ [Text pos str true true] /\
      (forall w, string_body str w <-> exists v, w = oslash :: v /\ string_body (pf_format fm x) v).
  Proof.
    intros K H. apply used_once in H. unfold uses_once in H. cbv zeta in H. rewrite K in H. destruct H as (fm & a & dd & t & ce & r & HF & _ & _ & _ & _ & ->).
    destruct (dia_text_any fm ce (xy a) (xy dd) r s) as [pos P]. exists fm. do 3 eexists. split; [exact HF|]. split; [exact P|]. intro w. apply label_body.
  Qed.
End Dia.
(** ** Lines of a text *)
Section Lines.
  Context {E : @Env XR}.
  Local Open Scope R_scope.
  Lemma text_lines_laid tx ty ls : forall k, @text_lines XR (emb2 tx (ty - 12 * INR k)) ls = concat (map (text_line tx ty) (combine (seq k (length ls)) ls)).
  Proof.
    induction ls as [|w ls IH]; intro k; [reflexivity|]. cbn [text_lines length seq combine map concat].
    assert (Q : @nsub XR (y2 (emb2 tx (ty - 12 * INR k))) (of_Z 12) = Fin (ty - 12 * INR (S k))).
    { cbn [y2 emb2 of_Z nsub XR xsub xadd xneg]. change (Fin (ty - 12 * INR k + - 12) = Fin (ty - 12 * INR (S k))). rewrite S_INR. f_equal. ring. }
    apply f_equal2; [destruct w; reflexivity|]. transitivity (@text_lines XR (emb2 tx (ty - 12 * INR (S k))) ls); [|exact (IH (S k))]. f_equal. unfold emb2. apply (f_equal (fun y => V2 (Fin tx : @num XR) y)). exact Q.
  Qed.
  Lemma text_place_asks (ml : list (@meta XR)) tx ty pl : NoDup (map m_name ml) -> text_place ml tx ty -> @text_place_of XR ml = Some pl -> pl = emb2 tx ty.
  Proof.
    intros N [(x & a & b & I & Q & V & -> & ->)|(Ab & -> & ->)]; unfold text_place_of.
    - rewrite (arg_unique "@" ml x N I Q). unfold as_loc. rewrite V. intro H. injection H as <-. unfold add2, mul2, page_mid, emb2. cbn [x2 y2 of_Z nmul nadd XR xmul xadd].
      change (@nz XR) with (Fin 0). cbn [xadd]. rewrite !Rplus_0_l, (Rmult_comm a), (Rmult_comm b). reflexivity.
    - rewrite (arg_absent "@" ml Ab). intro H. injection H as <-. unfold add2, page_mid, emb2. change (@nz XR) with (Fin 0). cbn [x2 y2 of_Z nadd XR xadd]. rewrite !Rplus_0_l. reflexivity.
  Qed.
  Theorem text_layout l t (ml : list (@meta XR)) s s' tx ty : visit_text l t ml s = Ret (s', true) -> text_place ml tx ty ->
    exists ls, join [LF] ls = t /\ Forall (fun w => ~ In LF w) ls /\ v_page s' = plus_page (v_page s) (OPage [] [] (laid_out tx ty ls)).
  Proof.
    intros H T. destruct (visit_text_spec _ _ _ _ H) as [O P]. destruct (proj1 O eq_refl) as [N _]. destruct (P eq_refl) as (pl & PL & AD).
    exists (split_on LF t). split; [apply join_split|]. split; [apply Forall_forall; intros w I; eapply split_on_pieces; exact I|].
    rewrite (text_place_asks ml tx ty pl N T PL) in AD. unfold adds in AD. rewrite AD. unfold laid_out. rewrite <- (text_lines_laid tx ty _ 0). change (INR 0) with 0. rewrite Rmult_0_r, Rminus_0_r. reflexivity.
  Qed.
End Lines.
(** ** Titles *)
Section Title.
  Context {A : Arith} {E : Env}.
  Lemma gen_page_title st k pg s s' pg' : gen_page st k pg s = Ret (s', pg', true) ->
    exists p t, titled pg t /\ v_page s' = plus_page p (title_box t (text_at t) (to_f32 (nsub (text_at t) (of_Z 3)))).
  Proof.
    intro H. destruct (page_indep st k pg) as [[e HE]|(r & rs & pre & post & ok0 & HG & HI & HP & _ & _ & HO & _)]; [rewrite HE in H; discriminate|].
    destruct (gen_page_spec _ _ _ _ H) as [_ O]. destruct (O eq_refl) as [(_ & _ & HT & _) _].
    destruct (HG s) as (s1 & G1 & G2 & _). rewrite H in G1. injection G1 as <- _ HK. exists (pages_of rs), (title_of pg).
    split; [apply P_Script3.title_titled; exact HT|]. rewrite G2, HP. unfold plus_page, title_box, add_header. cbn [o_lines o_arcs o_text]. rewrite app_nil_r. reflexivity.
  Qed.
End Title.
(** ** Quoted text among other text *)
Lemma quoted_back s : ~ In CR s -> string_body (ps_escape s) s.
Proof. intro H. rewrite <- (line_ends_id s H) at 2. apply escaped_body. Qed.
Section Amid.
  Context {A : Arith} {E : Env}.
  Lemma text_amid : (forall x : num, word_like (fmt_num x)) -> forall t, t_raw t = false -> ~ In CR (t_str t) -> forall before after toks, run Gap before = (Gap, toks) ->
    run Gap (before ++ text_to_ps1 t ++ after) = (fst (run Gap after), toks ++ show_prog (t_at t) (t_str t) (t_center t) ++ snd (run Gap after)).
  Proof.
    intros NW t R NC before after toks HB. assert (K : reads (text_to_ps1 t) (show_prog (t_at t) (t_str t) (t_center t))).
    { apply (reads_text NW). exists (t_str t). rewrite R, (line_ends_id _ NC). auto. }
    rewrite run_app, HB. rewrite run_app. unfold reads in K. rewrite K. destruct (run Gap after). reflexivity.
  Qed.
  Lemma dia_label_ok d s s' d' : d_kind d = KDia -> visit_base_dim d s = Ret (s', d', true) ->
    exists fm x pos str, format_used (d_meta d) "%.3f" fm /\ o_text (v_page s') = o_text (v_page s) ++ [Text pos str true true] /\
      (forall w, string_body str w <-> exists v, w = oslash :: v /\ string_body (pf_format fm x) v) /\
      (harmless (pf_format fm x) -> string_body str (oslash :: line_ends (pf_format fm x))).
  Proof.
    intros K H. destruct (dia_label d s s' d' K H) as (fm & x & pos & str & H1 & H2 & H3). exists fm, x, pos, str. split; [exact H1|]. split; [exact H2|]. split; [exact H3|].
    intro HH. apply H3. exists (line_ends (pf_format fm x)). split; [reflexivity|apply harmless_body, HH].
  Qed.
End Amid.
