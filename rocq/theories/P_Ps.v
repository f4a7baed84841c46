(** P_Ps.v - reading the output as PostScript. *)
From Verif Require Import Base Num Geo Env Ps PsSpec.

Local Unset Implicit Arguments.
Lemma run_app a : forall s b, run s (a ++ b) = let '(s1, o1) := run s a in let '(s2, o2) := run s1 b in (s2, o1 ++ o2).
Proof.
  induction a as [|c a IH]; intros s b; cbn [app run].
  - destruct (run s b). reflexivity.
  - destruct (step s c) as [s1 o1]. rewrite IH. destruct (run s1 a) as [s2 o2]. destruct (run s2 b) as [s3 o3]. rewrite app_assoc. reflexivity.
Qed.
Definition reads (s : bytes) (o : list ptok) : Prop := run Gap s = (Gap, o).
Lemma reads_nil : reads [] []. Proof. reflexivity. Qed.
Lemma reads_app a b o1 o2 : reads a o1 -> reads b o2 -> reads (a ++ b) (o1 ++ o2).
Proof. unfold reads. intros H1 H2. rewrite run_app, H1, H2. reflexivity. Qed.
Lemma reads_concat l os : Forall2 reads l os -> reads (concat l) (concat os).
Proof. induction 1; [exact reads_nil|]. cbn. apply reads_app; assumption. Qed.
Lemma reads_whole s o : reads s o -> ps_read s = Some o.
Proof. unfold reads, ps_read. intros ->. reflexivity. Qed.
Lemma regular_not_white c : is_regular c = true -> is_white c = false.
Proof. unfold is_regular. destruct (is_white c); [discriminate|reflexivity]. Qed.
Lemma run_word w : Forall (fun c => is_regular c = true) w -> forall a, run (Wd a) (w ++ [SP]) = (Gap, [PWord (a ++ w)]).
Proof.
  induction 1 as [|c w R _ IH]; intro a; [rewrite app_nil_r; reflexivity|]. cbn [app run step]. rewrite R. rewrite IH, <- app_assoc. reflexivity.
Qed.
Lemma reads_word w : word_like w -> reads (w ++ B " ") [PWord w].
Proof.
  intros [N F]. destruct w as [|c w]; [congruence|]. pose proof (Forall_inv F) as R. apply Forall_inv_tail in F.
  unfold reads. cbn [app run step]. unfold gap. rewrite (regular_not_white c R), R. change (B " ") with [SP]. rewrite (run_word w F). reflexivity.
Qed.
(** Comments *)
Lemma run_comment s : one_line s -> run Cmt s = (Cmt, []).
Proof.
  intros (H1 & H2 & H3). induction s as [|c s IH]; [reflexivity|]. cbn [run step]. unfold ends_comment. cbn [existsb].
  assert (N : forall x, ~ In x (c :: s) -> byte_eqb c x = false) by (intros x I; apply Ascii.eqb_neq; intros ->; apply I; left; reflexivity).
  rewrite (N LF H1), (N CR H2), (N FF H3). cbn [orb]. rewrite IH; [reflexivity|..]; intro I; [apply H1|apply H2|apply H3]; right; exact I.
Qed.
Lemma reads_comment s : one_line s -> reads (B "%" ++ s ++ [LF]) [].
Proof. intro H. unfold reads. rewrite run_app. change (run Gap (B "%")) with (Cmt, @nil ptok). cbv iota beta. rewrite run_app, (run_comment s H). reflexivity. Qed.
(** Strings *)
Lemma in_str_plain d acc c : byte_eqb c "(" = false -> byte_eqb c ")" = false -> byte_eqb c BSLASH = false -> byte_eqb c CR = false -> in_str d acc c = (St d (acc ++ [c]), []).
Proof. unfold in_str. intros -> -> -> ->. reflexivity. Qed.
Definition special (c : ascii) : bool := byte_eqb c "(" || byte_eqb c ")" || byte_eqb c BSLASH.
Lemma escaped_back d acc c : special c = true -> step (Es d acc) c = (St d (acc ++ [c]), []).
Proof.
  unfold special. rewrite !orb_true_iff. intros [[H|H]|H]; apply Ascii.eqb_eq in H; subst c; reflexivity.
Qed.
Lemma special_cr c : special c = true -> byte_eqb c CR = false /\ byte_eqb c LF = false.
Proof. unfold special. rewrite !orb_true_iff. intros [[H|H]|H]; apply Ascii.eqb_eq in H; subst c; split; reflexivity. Qed.
Lemma run_cons s c t : run s (c :: t) = let '(s1, o1) := step s c in let '(s2, o2) := run s1 t in (s2, o1 ++ o2). Proof. reflexivity. Qed.
Lemma run_quiet s c t s1 : step s c = (s1, []) -> run s (c :: t) = run s1 t.
Proof. intro H. rewrite run_cons, H. destruct (run s1 t). reflexivity. Qed.
Lemma escape_cons c t : ps_escape (c :: t) = if special c then BSLASH :: c :: ps_escape t else c :: ps_escape t.
Proof. reflexivity. Qed.
Lemma run_escaped n : forall s, length s <= n -> forall d acc r, run (St d acc) (ps_escape s ++ r) =
  (if match rev s with c :: _ => byte_eqb c CR | [] => false end then run (Cr d (acc ++ line_ends s)) r else run (St d (acc ++ line_ends s)) r).
Proof.
  induction n as [|n IH]; intros s L d acc r; (destruct s as [|c s]; [cbn [ps_escape line_ends rev app]; rewrite app_nil_r; reflexivity|cbn [length] in L; try lia]).
  rewrite escape_cons. destruct (special c) eqn:S.
  - destruct (special_cr c S) as [N1 N2]. cbn [app]. rewrite (run_quiet (St d acc) BSLASH _ (Es d acc) eq_refl), (run_quiet _ c _ _ (escaped_back d acc c S)), (IH s) by lia.
    cbn [line_ends rev]. rewrite N1, <- !app_assoc. cbn [app]. destruct (rev s) as [|c' t]; cbn [app]; [rewrite N1|]; reflexivity.
  - unfold special in S. rewrite !orb_false_iff in S. destruct S as [[S1 S2] S3]. cbn [app]. destruct (byte_eqb c CR) eqn:C.
    + apply Ascii.eqb_eq in C. subst c. rewrite (run_quiet (St d acc) CR _ (Cr d (acc ++ [LF])) eq_refl). cbn [line_ends]. change (byte_eqb CR CR) with true. cbv iota.
      destruct s as [|e s]; [reflexivity|]. cbn [length] in L. destruct (byte_eqb e LF) eqn:EL.
      * apply Ascii.eqb_eq in EL. subst e. rewrite escape_cons. change (special LF) with false. cbv iota. cbn [app].
        rewrite (run_quiet (Cr d (acc ++ [LF])) LF _ (St d (acc ++ [LF])) eq_refl), (IH s) by lia. rewrite <- !app_assoc. cbn [app rev]. rewrite <- app_assoc.
        destruct (rev s) as [|c' t]; reflexivity.
      * assert (K : run (Cr d (acc ++ [LF])) (ps_escape (e :: s) ++ r) = run (St d (acc ++ [LF])) (ps_escape (e :: s) ++ r)).
        { rewrite escape_cons. destruct (special e); cbn [app]; rewrite !run_cons; [reflexivity|]. unfold step at 1. rewrite EL. reflexivity. }
        rewrite K, (IH (e :: s)) by (cbn [length]; lia). rewrite <- !app_assoc. cbn [app]. cbn [rev]. destruct (rev s) as [|c' t]; reflexivity.
    + rewrite (run_quiet (St d acc) c _ (St d (acc ++ [c]))) by (cbn [step]; apply in_str_plain; assumption). rewrite (IH s) by lia.
      cbn [line_ends rev]. rewrite C, <- !app_assoc. cbn [app]. destruct (rev s) as [|c' t]; cbn [app]; [rewrite C|]; reflexivity.
Qed.
Lemma escaped_body s : string_body (ps_escape s) (line_ends s).
Proof.
  unfold string_body. rewrite run_app. change (run Gap (B "(")) with (St 0 [], @nil ptok). cbv iota beta.
  rewrite (run_escaped (length s) s (le_n _)). destruct (match rev s with c :: _ => byte_eqb c CR | [] => false end); reflexivity.
Qed.
Lemma line_ends_id s : ~ In CR s -> line_ends s = s.
Proof.
  induction s as [|c s IH]; [reflexivity|]. intro N. cbn [line_ends]. assert (C : byte_eqb c CR = false) by (apply Ascii.eqb_neq; intros ->; apply N; left; reflexivity).
  rewrite C. f_equal. apply IH. intro I. apply N. right. exact I.
Qed.
Section Prog.
  Context {A : Arith} {E : Env} (NW : forall x : num, word_like (fmt_num x)).
  Lemma reads_num x : reads (fmt_num x ++ B " ") [nw x].
  Proof. apply reads_word, NW. Qed.
  Lemma reads_line l : reads (line_to_ps1 l) (line_prog l).
  Proof.
    unfold line_to_ps1, line_prog. change (B " moveto ") with (B " " ++ B "moveto "). change (B " lineto stroke" ++ [LF]) with (B " " ++ B "lineto stroke
").
    rewrite <- !app_assoc. apply (reads_app (B "newpath ") _ (ws "newpath")); [reflexivity|].
    rewrite (app_assoc (fmt_num (x2 (lo l)))). apply (reads_app _ _ [nw (x2 (lo l))]); [apply reads_num|].
    rewrite (app_assoc (fmt_num (y2 (lo l)))). apply (reads_app _ _ [nw (y2 (lo l))]); [apply reads_num|].
    apply (reads_app (B "moveto ") _ (ws "moveto")); [reflexivity|].
    rewrite (app_assoc (fmt_num (x2 (lt_ l)))). apply (reads_app _ _ [nw (x2 (lt_ l))]); [apply reads_num|].
    rewrite (app_assoc (fmt_num (y2 (lt_ l)))). apply (reads_app _ _ [nw (y2 (lt_ l))]); [apply reads_num|]. reflexivity.
  Qed.
  Lemma reads_arc a : reads (arc_to_ps1 a) (arc_prog a).
  Proof.
    unfold arc_to_ps1, arc_prog. change (B " arc stroke" ++ [LF]) with (B " " ++ B "arc stroke
").
    apply (reads_app (B "newpath ") _ (ws "newpath")); [reflexivity|].
    rewrite (app_assoc (fmt_num (x2 (ac a)))). apply (reads_app _ _ [nw (x2 (ac a))]); [apply reads_num|].
    rewrite (app_assoc (fmt_num (y2 (ac a)))). apply (reads_app _ _ [nw (y2 (ac a))]); [apply reads_num|].
    rewrite (app_assoc (fmt_num (ar a))). apply (reads_app _ _ [nw (ar a)]); [apply reads_num|].
    rewrite (app_assoc (fmt_num (deg (astart a)))). apply (reads_app _ _ [nw (deg (astart a))]); [apply reads_num|].
    rewrite (app_assoc (fmt_num (deg (aend a)))). apply (reads_app _ _ [nw (deg (aend a))]); [apply reads_num|]. reflexivity.
  Qed.
  Lemma reads_show at_ s v (center : bool) : string_body s v ->
    reads (B "newpath " ++ fmt_num (x2 at_) ++ B " " ++ fmt_num (y2 at_) ++ B " moveto (" ++ s ++ (if center then B ") CenterText show" else B ") show") ++ [LF]) (show_prog at_ v center).
  Proof.
    intro SB. unfold show_prog. apply (reads_app (B "newpath ") _ (ws "newpath")); [reflexivity|].
    change (B " moveto (") with (B " " ++ B "moveto " ++ B "("). rewrite <- !app_assoc.
    rewrite (app_assoc (fmt_num (x2 at_))). apply (reads_app _ _ [nw (x2 at_)]); [apply reads_num|].
    rewrite (app_assoc (fmt_num (y2 at_))). apply (reads_app _ _ [nw (y2 at_)]); [apply reads_num|].
    apply (reads_app (B "moveto ") _ (ws "moveto")); [reflexivity|].
    replace (B "(" ++ s ++ (if center then B ") CenterText show" else B ") show") ++ [LF]) with ((B "(" ++ s ++ B ")") ++ ((if center then B " CenterText show" else B " show") ++ [LF])).
    - apply (reads_app _ _ [PStr v]); [exact SB|]. destruct center; reflexivity.
    - rewrite <- !app_assoc. f_equal. f_equal. destruct center; reflexivity.
  Qed.
End Prog.
