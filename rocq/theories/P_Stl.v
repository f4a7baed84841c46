(** P_Stl.v - the STL reader reads exactly the supported lines. *)
From Verif Require Import Base Num Geo Stl Regex Env StlRead StlSpec NumLaws P_Base P_Order P_Part P_Index.

Local Unset Implicit Arguments.

(** ** Languages of the expressions used *)
Lemma star_chr p s : lang (RStar (RChr p)) s <-> Forall (fun c => p c = true) s.
Proof.
  split.
  - apply lang_star_ind; [constructor|]. intros u v Hu _ Hv. apply lang_chr_inv in Hu. destruct Hu as (c & -> & Hc). constructor; assumption.
  - induction 1 as [|c s Hc _ IH]; [constructor|]. change (c :: s) with ([c] ++ s). constructor; [constructor; exact Hc|exact IH].
Qed.
Lemma cat_iff a b s : lang (RCat a b) s <-> exists u v, s = u ++ v /\ lang a u /\ lang b v.
Proof. split; [apply lang_cat_inv|]. intros (u & v & -> & Hu & Hv). constructor; assumption. Qed.
Lemma alt_iff a b s : lang (RAlt a b) s <-> lang a s \/ lang b s.
Proof. split; [apply lang_alt_inv|]. intros [H|H]; [apply L_altl|apply L_altr]; exact H. Qed.
Lemma chr_iff p s : lang (RChr p) s <-> exists c, s = [c] /\ p c = true.
Proof. split; [apply lang_chr_inv|]. intros (c & -> & H). constructor; exact H. Qed.
Lemma eps_iff s : lang REps s <-> s = [].
Proof. split; [apply lang_eps_inv|intros ->; constructor]. Qed.
Lemma lit_iff k s : lang (RLit k) s <-> s = k.
Proof.
  revert s. induction k as [|c k IH]; intro s; simpl; [apply eps_iff|]. rewrite cat_iff. split.
  - intros (u & v & -> & Hu & Hv). apply chr_iff in Hu. destruct Hu as (d & -> & Hd). apply byte_eqb_eq in Hd. subst d. apply IH in Hv. subst v. reflexivity.
  - intros ->. exists [c], k. split; [reflexivity|]. split; [apply chr_iff; exists c; split; [reflexivity|apply byte_eqb_refl]|apply IH; reflexivity].
Qed.
Lemma plus_chr p s : lang (RPlus (RChr p)) s <-> s <> [] /\ Forall (fun c => p c = true) s.
Proof.
  unfold RPlus. rewrite cat_iff. split.
  - intros (u & v & -> & Hu & Hv). apply chr_iff in Hu. destruct Hu as (c & -> & Hc). apply star_chr in Hv. split; [discriminate|]. constructor; assumption.
  - intros [N H]. destruct s as [|c s]; [contradiction|]. inversion H; subst. exists [c], s. split; [reflexivity|]. split; [apply chr_iff; eauto|apply star_chr; assumption].
Qed.
Lemma sp_iff s : lang re_sp s <-> blanks s.
Proof.
  unfold re_sp, RC. rewrite star_chr. unfold blanks. split; intro H; (eapply Forall_impl; [|exact H]); intros c Hc; [apply byte_eqb_eq in Hc; exact Hc|apply byte_eqb_eq; exact Hc].
Qed.
Lemma sp1_iff s : lang re_sp1 s <-> blanks s /\ s <> [].
Proof.
  unfold re_sp1, RC. rewrite plus_chr. unfold blanks. split.
  - intros [N H]. split; [|exact N]. eapply Forall_impl; [|exact H]. intros c Hc. apply byte_eqb_eq in Hc. exact Hc.
  - intros [H N]. split; [exact N|]. eapply Forall_impl; [|exact H]. intros c Hc. apply byte_eqb_eq. exact Hc.
Qed.
Lemma num_char_iff c : num_char c = true <-> In c (B "-.e0123456789").
Proof.
  destruct c as [[] [] [] [] [] [] [] []]; vm_compute; split; intro H; try discriminate; try reflexivity; try tauto;
    repeat (destruct H as [H|H]; [discriminate H|]); destruct H.
Qed.
Lemma num_iff s : lang re_num s <-> numeral s.
Proof.
  unfold re_num. rewrite plus_chr. unfold numeral. split; intros [N H]; split; try assumption; (eapply Forall_impl; [|exact H]); intros c Hc; apply num_char_iff; exact Hc.
Qed.
Lemma range_iff lo hi c : in_range lo hi c = true <-> (lo <= code c <= hi)%N.
Proof. unfold in_range, code. rewrite andb_true_iff, !N.leb_le. tauto. Qed.
Lemma cont_iff s : lang re_cont s <-> exists c, s = [c] /\ trail c.
Proof. unfold re_cont. rewrite chr_iff. unfold trail. split; intros (c & -> & H); exists c; (split; [reflexivity|]); apply range_iff; exact H. Qed.
Lemma dots_iff s : lang (RStar re_dot) s <-> text s.
Proof.
  split.
  - apply lang_star_ind; [constructor|]. intros u v Hu _ Hv. unfold re_dot in Hu. rewrite !alt_iff, !cat_iff in Hu.
    destruct Hu as [H|[(x & y & -> & H1 & H2)|[(x & y & -> & H1 & H2)|(x & y & -> & H1 & H2)]]].
    + apply chr_iff in H. destruct H as (c & -> & H). apply andb_true_iff in H. destruct H as [H1 H2]. apply range_iff in H1. apply negb_true_iff, byte_eqb_neq in H2. apply text_1; [lia|exact H2|exact Hv].
    + apply chr_iff in H1. destruct H1 as (c & -> & H1). apply cont_iff in H2. destruct H2 as (d & -> & H2). apply range_iff in H1. apply text_2; assumption.
    + apply chr_iff in H1. destruct H1 as (c & -> & H1). apply cat_iff in H2. destruct H2 as (z & w & -> & H2 & H3).
      apply cont_iff in H2. destruct H2 as (d & -> & H2). apply cont_iff in H3. destruct H3 as (e & -> & H3). apply range_iff in H1. apply text_3; assumption.
    + apply chr_iff in H1. destruct H1 as (c & -> & H1). apply cat_iff in H2. destruct H2 as (z & w & -> & H2 & H3). apply cat_iff in H3. destruct H3 as (z' & w' & -> & H3 & H4).
      apply cont_iff in H2. destruct H2 as (d & -> & H2). apply cont_iff in H3. destruct H3 as (e & -> & H3). apply cont_iff in H4. destruct H4 as (f & -> & H4). apply range_iff in H1. apply text_4; assumption.
  - induction 1 as [|c s H1 H2 _ IH|a b s H1 H2 _ IH|a b c s H1 H2 H3 _ IH|a b c d s H1 H2 H3 H4 _ IH]; [constructor| | | |].
    + change (c :: s) with ([c] ++ s). constructor; [|exact IH]. apply L_altl, chr_iff. exists c. split; [reflexivity|]. apply andb_true_iff. split; [apply range_iff; lia|]. apply negb_true_iff, byte_eqb_neq. exact H2.
    + change (a :: b :: s) with (([a] ++ [b]) ++ s). constructor; [|exact IH]. apply L_altr, L_altl. constructor; [apply chr_iff; exists a; split; [reflexivity|apply range_iff; exact H1]|apply cont_iff; eauto].
    + change (a :: b :: c :: s) with (([a] ++ [b] ++ [c]) ++ s). constructor; [|exact IH]. apply L_altr, L_altr, L_altl.
      constructor; [apply chr_iff; exists a; split; [reflexivity|apply range_iff; exact H1]|]. constructor; apply cont_iff; eauto.
    + change (a :: b :: c :: d :: s) with (([a] ++ [b] ++ [c] ++ [d]) ++ s). constructor; [|exact IH]. apply L_altr, L_altr, L_altr.
      constructor; [apply chr_iff; exists a; split; [reflexivity|apply range_iff; exact H1]|]. constructor; [apply cont_iff; eauto|]. constructor; apply cont_iff; eauto.
Qed.

Lemma solid_iff l : rmatch re_solid l = true <-> solid_line l.
Proof.
  rewrite rmatch_spec. unfold re_solid, ROpt. split.
  - intro H. apply cat_iff in H. destruct H as (b & u & -> & Hb & H). apply cat_iff in H. destruct H as (kw & r & -> & Hk & Hr).
    apply sp_iff in Hb. rewrite alt_iff, !lit_iff in Hk. rewrite alt_iff, eps_iff in Hr. exists b, kw, r. split; [exact Hb|]. split; [exact Hk|]. split; [|reflexivity].
    destruct Hr as [Hr|Hr]; [right|left; exact Hr]. apply cat_iff in Hr. destruct Hr as (x & t & -> & Hx & Ht). apply chr_iff in Hx. destruct Hx as (c & -> & Hc). apply byte_eqb_eq in Hc. subst c.
    exists t. split; [apply dots_iff; exact Ht|reflexivity].
  - intros (b & kw & r & Hb & Hk & Hr & ->). constructor; [apply sp_iff; exact Hb|]. constructor; [rewrite alt_iff, !lit_iff; exact Hk|]. rewrite alt_iff, eps_iff.
    destruct Hr as [->|(t & Ht & ->)]; [right; reflexivity|left]. change (SP :: t) with ([SP] ++ t). constructor; [apply chr_iff; exists SP; split; [reflexivity|apply byte_eqb_refl]|apply dots_iff; exact Ht].
Qed.
Lemma loop_iff l : rmatch re_oloop l = true <-> loop_line l.
Proof.
  rewrite rmatch_spec. unfold re_oloop. split.
  - intro H. apply cat_iff in H. destruct H as (b & u & -> & Hb & H). apply cat_iff in H. destruct H as (kw & r & -> & Hk & Hr).
    apply sp_iff in Hb, Hr. rewrite alt_iff, !lit_iff in Hk. exists b, kw, r. auto.
  - intros (b & kw & r & Hb & Hk & Hr & ->). constructor; [apply sp_iff; exact Hb|]. constructor; [rewrite alt_iff, !lit_iff; exact Hk|apply sp_iff; exact Hr].
Qed.
Lemma efacet_iff l : rmatch re_efacet l = true <-> endfacet_line l.
Proof.
  rewrite rmatch_spec. unfold re_efacet. split.
  - intro H. apply cat_iff in H. destruct H as (b & u & -> & Hb & H). apply cat_iff in H. destruct H as (kw & r & -> & Hk & Hr).
    apply sp_iff in Hb, Hr. apply lit_iff in Hk. subst kw. exists b, r. auto.
  - intros (b & r & Hb & Hr & ->). constructor; [apply sp_iff; exact Hb|]. constructor; [apply lit_iff; reflexivity|apply sp_iff; exact Hr].
Qed.

(** ** The captured groups are the words after the keyword *)
Definition nonempty (w : bytes) : bool := match w with [] => false | _ => true end.
Lemma words_sp s : words (SP :: s) = words s.
Proof. unfold words. simpl. reflexivity. Qed.
Lemma words_blanks b s : blanks b -> words (b ++ s) = words s.
Proof. induction 1 as [|c b <- _ IH]; [reflexivity|]. simpl app. rewrite words_sp. exact IH. Qed.
Lemma split_nosp w : ~ In SP w -> split_on SP w = [w].
Proof.
  induction w as [|c w IH]; intro H; [reflexivity|]. simpl. destruct (byte_eqb_spec c SP) as [->|N]; [exfalso; apply H; left; reflexivity|].
  rewrite IH by (intro Q; apply H; right; exact Q). reflexivity.
Qed.
Lemma split_word w s : ~ In SP w -> split_on SP (w ++ SP :: s) = w :: split_on SP s.
Proof.
  induction w as [|c w IH]; intro H; [reflexivity|]. simpl app. simpl split_on. destruct (byte_eqb_spec c SP) as [->|N]; [exfalso; apply H; left; reflexivity|].
  rewrite IH by (intro Q; apply H; right; exact Q). reflexivity.
Qed.
Lemma words_word w s : w <> [] -> ~ In SP w -> words (w ++ SP :: s) = w :: words s.
Proof. intros N H. unfold words. rewrite split_word by exact H. destruct w; [contradiction|reflexivity]. Qed.
Lemma words_last w : w <> [] -> ~ In SP w -> words w = [w].
Proof. intros N H. unfold words. rewrite split_nosp by exact H. destruct w; [contradiction|reflexivity]. Qed.
Lemma numeral_nosp w : numeral w -> w <> [] /\ ~ In SP w.
Proof. intros [N H]. split; [exact N|]. intro Q. rewrite Forall_forall in H. specialize (H _ Q). simpl in H. repeat (destruct H as [H|H]; [discriminate H|]). destruct H. Qed.
Lemma words_then w b s : w <> [] -> ~ In SP w -> blanks b -> b <> [] -> words (w ++ b ++ s) = w :: words s.
Proof. intros N H Hb Nb. destruct b as [|c b]; [contradiction|]. inversion Hb; subst. simpl app. rewrite words_word by assumption. f_equal. apply words_blanks. assumption. Qed.
Lemma words_final w b : w <> [] -> ~ In SP w -> blanks b -> words (w ++ b) = [w].
Proof.
  intros N H Hb. destruct b as [|c b]; [rewrite app_nil_r; apply words_last; assumption|]. inversion Hb; subst. rewrite words_word by assumption.
  f_equal. rewrite <- (app_nil_r b). rewrite words_blanks by assumption. reflexivity.
Qed.
Lemma three_words s1 n1 s2 n2 s3 n3 s4 : blanks s1 -> s1 <> [] -> numeral n1 -> blanks s2 -> s2 <> [] -> numeral n2 -> blanks s3 -> s3 <> [] -> numeral n3 -> blanks s4 ->
  words (s1 ++ n1 ++ s2 ++ n2 ++ s3 ++ n3 ++ s4) = [n1; n2; n3].
Proof.
  intros B1 N1 M1 B2 N2 M2 B3 N3 M3 B4. rewrite words_blanks by exact B1. destruct (numeral_nosp _ M1), (numeral_nosp _ M2), (numeral_nosp _ M3).
  rewrite words_then by assumption. rewrite words_then by assumption. rewrite words_final by assumption. reflexivity.
Qed.


Section Read.
  Context {A : Arith} {E : Env}.

  Definition after_kw (kw : bytes) (skip : nat) : Prop := forall b s1 r, blanks b -> blanks s1 -> s1 <> [] -> skipn skip (words (b ++ kw ++ s1 ++ r)) = words (s1 ++ r).
  Lemma after_facet : after_kw (B "facet normal") 2.
  Proof.
    intros b s1 r Hb H1 N1. rewrite words_blanks by exact Hb. destruct s1 as [|c s1]; [contradiction|]. inversion H1; subst.
    change (B "facet normal" ++ (SP :: s1) ++ r) with (B "facet" ++ SP :: (B "normal" ++ SP :: (s1 ++ r))).
    rewrite words_word by (try discriminate; simpl; intuition discriminate). rewrite words_word by (try discriminate; simpl; intuition discriminate). cbn [skipn]. cbn [app]. rewrite words_sp. reflexivity.
  Qed.
  Lemma after_vertex : after_kw (B "vertex") 1.
  Proof.
    intros b s1 r Hb H1 N1. rewrite words_blanks by exact Hb. destruct s1 as [|c s1]; [contradiction|]. inversion H1; subst.
    change (B "vertex" ++ (SP :: s1) ++ r) with (B "vertex" ++ SP :: (s1 ++ r)).
    rewrite words_word by (try discriminate; simpl; intuition discriminate). cbn [skipn]. cbn [app]. rewrite words_sp. reflexivity.
  Qed.
  Lemma three_iff kw skip l v : after_kw (B kw) skip -> (match_three (re_three kw) skip l = Some v <-> triple_line (B kw) l v).
  Proof.
    intro AK. unfold match_three. split.
    - destruct (rmatch (re_three kw) l) eqn:M; [|discriminate]. apply rmatch_spec in M. unfold re_three in M.
      apply cat_iff in M. destruct M as (b & u & -> & Hb & M). apply cat_iff in M. destruct M as (k & u0 & -> & Hk & M). apply lit_iff in Hk. subst k.
      apply cat_iff in M. destruct M as (s1 & u1 & -> & H1 & M). apply cat_iff in M. destruct M as (n1 & u2 & -> & M1 & M).
      apply cat_iff in M. destruct M as (s2 & u3 & -> & H2 & M). apply cat_iff in M. destruct M as (n2 & u4 & -> & M2 & M).
      apply cat_iff in M. destruct M as (s3 & u5 & -> & H3 & M). apply cat_iff in M. destruct M as (n3 & s4 & -> & M3 & H4).
      apply sp_iff in Hb, H4. apply sp1_iff in H1, H2, H3. apply num_iff in M1, M2, M3. destruct H1 as [H1 K1]. destruct H2 as [H2 K2]. destruct H3 as [H3 K3].
      rewrite AK by assumption. rewrite three_words by assumption.
      destruct (re2_double n1) as [x|] eqn:D1; [|discriminate]. destruct (re2_double n2) as [y|] eqn:D2; [|discriminate]. destruct (re2_double n3) as [z|] eqn:D3; [|discriminate].
      intro Q; injection Q as <-. exists b, s1, n1, s2, n2, s3, n3, s4. cbn [x3 y3 z3]. auto 20.
    - intros (b & s1 & n1 & s2 & n2 & s3 & n3 & s4 & Hb & H1 & K1 & M1 & H2 & K2 & M2 & H3 & K3 & M3 & H4 & -> & D1 & D2 & D3).
      rewrite AK by assumption. rewrite three_words by assumption. rewrite D1, D2, D3. destruct v as [x y z]. cbn [x3 y3 z3].
      replace (rmatch _ _) with true; [reflexivity|symmetry]. apply rmatch_spec. unfold re_three.
      constructor; [apply sp_iff; exact Hb|]. constructor; [apply lit_iff; reflexivity|]. constructor; [apply sp1_iff; auto|]. constructor; [apply num_iff; exact M1|].
      constructor; [apply sp1_iff; auto|]. constructor; [apply num_iff; exact M2|]. constructor; [apply sp1_iff; auto|]. constructor; [apply num_iff; exact M3|apply sp_iff; exact H4].
  Qed.
  Lemma facet_iff l v : match_three re_facet 2 l = Some v <-> triple_line (B "facet normal") l v.
  Proof. apply (three_iff "facet normal"). apply after_facet. Qed.
  Lemma vertex_iff l v : match_three re_vertex 1 l = Some v <-> triple_line (B "vertex") l v.
  Proof. apply (three_iff "vertex"). apply after_vertex. Qed.

  (** ** No line is of two kinds *)
  Fixpoint strip (l : bytes) : bytes := match l with [] => [] | c :: t => if byte_eqb c SP then strip t else l end.
  Lemma strip_kw b c t : blanks b -> c <> SP -> strip (b ++ c :: t) = c :: t.
  Proof. intros Hb N. induction Hb as [|d b <- _ IH]; simpl; [|exact IH]. destruct (byte_eqb_spec c SP); [contradiction|reflexivity]. Qed.
  Definition starts (l kw : bytes) : Prop := exists r, strip l = kw ++ r.
  Lemma starts_solid l : solid_line l -> starts l (B "solid") \/ starts l (B "endsolid").
  Proof. intros (b & kw & r & Hb & [-> | ->] & _ & ->); [left|right]; exists r; apply (strip_kw b _ _ Hb); discriminate. Qed.
  Lemma starts_loop l : loop_line l -> starts l (B "outer loop") \/ starts l (B "endloop").
  Proof. intros (b & kw & r & Hb & [-> | ->] & _ & ->); [left|right]; exists r; apply (strip_kw b _ _ Hb); discriminate. Qed.
  Lemma starts_end l : endfacet_line l -> starts l (B "endfacet").
  Proof. intros (b & r & Hb & _ & ->). exists r. apply (strip_kw b _ _ Hb); discriminate. Qed.
  Lemma starts_facet l v : triple_line (B "facet normal") l v -> starts l (B "facet normal").
  Proof. intros (b & s1 & n1 & s2 & n2 & s3 & n3 & s4 & Hb & _ & _ & _ & _ & _ & _ & _ & _ & _ & _ & -> & _). eexists. apply (strip_kw b _ _ Hb); discriminate. Qed.
  Lemma starts_vertex l v : triple_line (B "vertex") l v -> starts l (B "vertex").
  Proof. intros (b & s1 & n1 & s2 & n2 & s3 & n3 & s4 & Hb & _ & _ & _ & _ & _ & _ & _ & _ & _ & _ & -> & _). eexists. apply (strip_kw b _ _ Hb); discriminate. Qed.
End Read.
  Ltac clash := match goal with H1 : starts ?l _, H2 : starts ?l _ |- _ => destruct H1 as [? H1]; destruct H2 as [? H2]; rewrite H1 in H2; discriminate H2 end.
  Ltac kinds := repeat match goal with
    | H : solid_line _ |- _ => apply starts_solid in H; destruct H as [H|H]
    | H : loop_line _ |- _ => apply starts_loop in H; destruct H as [H|H]
    | H : endfacet_line _ |- _ => apply starts_end in H
    | H : triple_line (B "facet normal") _ _ |- _ => apply starts_facet in H
    | H : triple_line (B "vertex") _ _ |- _ => apply starts_vertex in H
    end; clash.

Section Read2.
  Context {A : Arith} {E : Env}.
  (** ** One line *)
  Definition step (n : nat) (s : rd) (e : event) : outcome (rd * list diag) :=
    match e with
    | EOther => Ret (s, [])
    | EFacet v => Ret (Rd v [] (rd_facets s), [])
    | EVertex p => Ret (Rd (rd_norm s) (rd_pts s ++ [p]) (rd_facets s), [])
    | EEnd => if zero_vec (rd_norm s) then Ret (s, [DLog (dec_of_nat n ++ B ": missing normal")])
              else match rd_pts s with
                   | p0 :: p1 :: p2 :: _ => Ret (Rd zero3 [] (rd_facets s ++ [mk_facet (rd_norm s) p0 p1 p2]), [])
                   | _ => Abort (AUB "e[0..2] of a vector with fewer than three points")
                   end
    end.
  Lemma not_match r l (P : Prop) : (rmatch r l = true <-> P) -> ~ P -> rmatch r l = false.
  Proof. intros H N. destruct (rmatch r l); [exfalso; apply N, H; reflexivity|reflexivity]. Qed.
  Lemma not_three r k l (P : v3 -> Prop) : (forall v, match_three r k l = Some v <-> P v) -> (forall v, ~ P v) -> match_three r k l = None.
  Proof. intros H N. destruct (match_three r k l) as [v|] eqn:Q; [exfalso; apply (N v), H; reflexivity|reflexivity]. Qed.
  Lemma read_says n s l e : says l e -> read_line n s l = do! '(s', lg) <- step n s e; Ret (Some s', lg).
  Proof.
    intro H. unfold read_line. destruct H as [H|H|v H|v H|H].
    - rewrite (proj2 (solid_iff l) H). reflexivity.
    - destruct (rmatch re_solid l); [reflexivity|]. rewrite (proj2 (loop_iff l) H). reflexivity.
    - rewrite (not_match _ _ _ (solid_iff l)) by (intro Q; kinds). rewrite (not_match _ _ _ (loop_iff l)) by (intro Q; kinds).
      rewrite (proj2 (facet_iff l v) H). reflexivity.
    - rewrite (not_match _ _ _ (solid_iff l)) by (intro Q; kinds). rewrite (not_match _ _ _ (loop_iff l)) by (intro Q; kinds).
      rewrite (not_three _ _ _ _ (facet_iff l)) by (intros w Q; kinds). rewrite (not_match _ _ _ (efacet_iff l)) by (intro Q; kinds).
      rewrite (proj2 (vertex_iff l v) H). reflexivity.
    - rewrite (not_match _ _ _ (solid_iff l)) by (intro Q; kinds). rewrite (not_match _ _ _ (loop_iff l)) by (intro Q; kinds).
      rewrite (not_three _ _ _ _ (facet_iff l)) by (intros w Q; kinds). rewrite (proj2 (efacet_iff l) H). cbn [step].
      change (eq3 (rd_norm s) zero3) with (zero_vec (rd_norm s)). destruct (zero_vec (rd_norm s)); [reflexivity|].
      destruct (rd_pts s) as [|p0 [|p1 [|p2 ps]]]; reflexivity.
  Qed.
  Lemma read_unknown n s l : ~ supported l -> read_line n s l = Ret (None, [DLog (dec_of_nat n ++ B ": Unknown line: '" ++ l ++ B "'")]).
  Proof.
    intro H. unfold read_line.
    rewrite (not_match _ _ _ (solid_iff l)) by (intro Q; apply H; eexists; constructor 1; exact Q). rewrite (not_match _ _ _ (loop_iff l)) by (intro Q; apply H; eexists; constructor 2; exact Q).
    rewrite (not_three _ _ _ _ (facet_iff l)) by (intros w Q; apply H; eexists; econstructor 3; exact Q). rewrite (not_match _ _ _ (efacet_iff l)) by (intro Q; apply H; eexists; constructor 5; exact Q).
    rewrite (not_three _ _ _ _ (vertex_iff l)) by (intros w Q; apply H; eexists; econstructor 4; exact Q). reflexivity.
  Qed.
  Lemma supported_dec l : supported l \/ ~ supported l.
  Proof.
    destruct (rmatch re_solid l) eqn:M1; [left; eexists; constructor 1; apply solid_iff; exact M1|].
    destruct (rmatch re_oloop l) eqn:M2; [left; eexists; constructor 2; apply loop_iff; exact M2|].
    destruct (match_three re_facet 2 l) as [v|] eqn:M3; [left; eexists; econstructor 3; apply facet_iff; exact M3|].
    destruct (rmatch re_efacet l) eqn:M4; [left; eexists; constructor 5; apply efacet_iff; exact M4|].
    destruct (match_three re_vertex 1 l) as [v|] eqn:M5; [left; eexists; econstructor 4; apply vertex_iff; exact M5|].
    right. intros (e & [H|H|v H|v H|H]).
    - apply solid_iff in H. congruence.
    - apply loop_iff in H. congruence.
    - apply facet_iff in H. congruence.
    - apply vertex_iff in H. congruence.
    - apply efacet_iff in H. congruence.
  Qed.

  (** ** Lines of a text *)
  Lemma getlines_noLF l : ~ In LF l -> l <> [] -> getlines l = [l].
  Proof.
    induction l as [|c l IH]; intros H N; [contradiction|]. simpl. destruct (byte_eqb_spec c LF) as [->|C]; [exfalso; apply H; left; reflexivity|].
    destruct l as [|d l]; [reflexivity|]. rewrite IH; [reflexivity|intro Q; apply H; right; exact Q|discriminate].
  Qed.
  Lemma getlines_cons l r : ~ In LF l -> getlines (l ++ LF :: r) = l :: getlines r.
  Proof.
    induction l as [|c l IH]; intro H; [reflexivity|]. simpl app. simpl getlines. destruct (byte_eqb_spec c LF) as [->|C]; [exfalso; apply H; left; reflexivity|].
    rewrite IH by (intro Q; apply H; right; exact Q). reflexivity.
  Qed.
  Lemma getlines_of c ls : lines_in c ls -> getlines c = ls.
  Proof.
    intros [HF H]. assert (G : forall i r, Forall (fun l => ~ In LF l) i -> getlines (flat_map (fun l => l ++ [LF]) i ++ r) = i ++ getlines r).
    { induction i as [|l i IH]; intros r HI; [reflexivity|]. inversion HI; subst. cbn [flat_map]. rewrite <- !app_assoc. cbn [app]. rewrite getlines_cons by assumption. rewrite IH by assumption. reflexivity. }
    destruct H as [-> | (i & l & -> & N & ->)].
    - rewrite <- (app_nil_r (flat_map _ _)), G by exact HF. apply app_nil_r.
    - apply Forall_app in HF. destruct HF as [H1 H2]. inversion H2; subst. rewrite G by exact H1. rewrite getlines_noLF by assumption. reflexivity.
  Qed.
  Lemma lines_exist c : lines_in c (getlines c).
  Proof.
    induction c as [|a c [IH1 IH2]]; [split; [constructor|left; reflexivity]|]. simpl. destruct (byte_eqb_spec a LF) as [->|N].
    - split; [constructor; [intros []|exact IH1]|]. destruct IH2 as [E2|(i & l & E1 & NE & E2)].
      + left. cbn [flat_map app]. f_equal. exact E2.
      + right. exists ([] :: i), l. rewrite E1. split; [reflexivity|]. split; [exact NE|]. cbn [flat_map app]. f_equal. exact E2.
    - destruct (getlines c) as [|h r] eqn:G.
      + split; [constructor; [intros [Q|[]]; congruence|constructor]|]. right. exists [], [a]. split; [reflexivity|]. split; [discriminate|].
        destruct IH2 as [E2|(i & l & E1 & NE & E2)]; [simpl in *; congruence|]. destruct i; discriminate.
      + inversion IH1; subst. split; [constructor; [intros [Q|Q]; [congruence|contradiction]|assumption]|].
        destruct IH2 as [E2|(i & l & E1 & NE & E2)].
        * left. rewrite E2. reflexivity.
        * right. destruct i as [|x i]; injection E1 as -> ->.
          -- exists [], (a :: l). split; [reflexivity|]. split; [discriminate|]. rewrite E2. reflexivity.
          -- exists ((a :: x) :: i), l. split; [reflexivity|]. split; [exact NE|]. rewrite E2. reflexivity.
  Qed.

  (** ** The whole text *)
  Lemma read_ret ls : forall n s s' lg, read_lines n s ls = Ret (Some s', lg) -> exists evs, Forall2 says ls evs.
  Proof.
    induction ls as [|l ls IH]; intros n s s' lg H; [exists []; constructor|]. simpl in H. destruct (supported_dec l) as [(e & He)|N].
    - rewrite (read_says n s l e He) in H. destruct (step n s e) as [[s1 lg1]|a]; cbn [obind] in H; [|discriminate].
      apply obind_ret in H. destruct H as ([r' lg'] & H & E'). injection E' as -> _. destruct (IH _ _ _ _ H) as (evs & HE). exists (e :: evs). constructor; assumption.
    - rewrite (read_unknown n s l N) in H. cbn [obind] in H. discriminate.
  Qed.
  Lemma vertices_app a b : vertices_of (a ++ b) = vertices_of a ++ vertices_of b.
  Proof. unfold vertices_of. apply flat_map_app. Qed.

  (** Reading from inside a facet (normal v, vertices so far). *)
  Lemma read_quiet ls mid : Forall2 says ls mid -> Forall quiet mid -> forall n s rest,
    exists k, read_lines n s (ls ++ rest) = read_lines k (Rd (rd_norm s) (rd_pts s ++ vertices_of mid) (rd_facets s)) rest.
  Proof.
    induction 1 as [|l e ls mid He H IH]; intros HQ n s rest; [exists n; destruct s as [sn sp sf]; cbn [vertices_of flat_map app rd_norm rd_pts rd_facets]; rewrite app_nil_r; reflexivity|].
    inversion HQ as [|? ? Q1 Q2]; subst. simpl app. simpl read_lines. rewrite (read_says n s l e He).
    assert (ID : forall x : outcome (option rd * list diag), (do! '(r', lg') <- x; Ret (r', [] ++ lg')) = x) by (intros [[? ?]|?]; reflexivity).
    destruct e; try destruct Q1; cbn [step obind].
    - rewrite ID. edestruct (IH Q2 (S n) (Rd (rd_norm s) (rd_pts s ++ [p]) (rd_facets s)) rest) as [k Hk]. exists k. rewrite Hk. cbn [rd_norm rd_pts rd_facets vertices_of flat_map]. rewrite <- app_assoc. reflexivity.
    - rewrite ID. edestruct (IH Q2 (S n) s rest) as [k Hk]. exists k. rewrite Hk. reflexivity.
  Qed.

  (** Why reading can stop in undefined behaviour. *)
  Definition bad (v : v3) (pts : list v3) (evs : list event) : Prop :=
    (exists mid post, evs = mid ++ EEnd :: post /\ zero_vec v = false /\ Forall quiet mid /\ length (pts ++ vertices_of mid) < 3) \/ short_facet evs.
  Lemma short_cons e evs : short_facet evs -> short_facet (e :: evs).
  Proof. intros (pre & n & mid & post & -> & H). exists (e :: pre), n, mid, post. split; [reflexivity|exact H]. Qed.
  Context (ZZ : (nz =? nz)%num = true).
  Lemma zero_zero : zero_vec zero3 = true.
  Proof. unfold zero_vec, zero3. cbn [x3 y3 z3]. rewrite ZZ. reflexivity. Qed.

  Lemma bad_step n s e evs s' lg : step n s e = Ret (s', lg) -> (bad (rd_norm s) (rd_pts s) (e :: evs) <-> bad (rd_norm s') (rd_pts s') evs).
  Proof.
    intro ST. assert (NF : forall evs', short_facet (e :: evs') -> (forall v, e <> EFacet v) -> short_facet evs').
    { intros evs' (pre & n0 & mid & post & Q & H) NE. destruct pre as [|x pre]; injection Q as -> Q; [exfalso; eapply NE; reflexivity|]. exists pre, n0, mid, post. split; [exact Q|exact H]. }
    destruct e as [v|p| |]; cbn [step] in ST.
    - injection ST as <- <-. cbn [rd_norm rd_pts]. split.
      + intros [(mid & post & Q & Z & HQ & L)|(pre & n0 & mid & post & Q & Z & HQ & L)].
        * destruct mid as [|x mid]; [discriminate|]. injection Q as <- _. inversion HQ as [|? ? F _]. destruct F.
        * destruct pre as [|x pre]; injection Q as <- Q; [left; exists mid, post; auto|right; exists pre, n0, mid, post; auto].
      + intros [(mid & post & -> & Z & HQ & L)|H]; [right; exists [], v, mid, post; auto|right; apply short_cons; exact H].
    - injection ST as <- <-. cbn [rd_norm rd_pts]. split.
      + intros [(mid & post & Q & Z & HQ & L)|H]; [left|right; apply NF; [exact H|discriminate]].
        destruct mid as [|x mid]; [discriminate|]. injection Q as <- ->. inversion HQ; subst. exists mid, post. rewrite <- app_assoc. auto.
      + intros [(mid & post & -> & Z & HQ & L)|H]; [left|right; apply short_cons; exact H]. exists (EVertex p :: mid), post. rewrite <- app_assoc in L. repeat split; auto. constructor; [exact I|exact HQ].
    - destruct (zero_vec (rd_norm s)) eqn:Z.
      + injection ST as <- <-. split.
        * intros [(mid & post & _ & Z' & _)|H]; [congruence|right; apply NF; [exact H|discriminate]].
        * intros [(mid & post & _ & Z' & _)|H]; [congruence|right; apply short_cons; exact H].
      + destruct (rd_pts s) as [|p0 [|p1 [|p2 ps]]] eqn:EP; try discriminate. injection ST as <- <-. cbn [rd_norm rd_pts]. split.
        * intros [(mid & post & Q & _ & HQ & L)|H]; [|right; apply NF; [exact H|discriminate]].
          exfalso. rewrite app_length in L. simpl in L. lia.
        * intros [(mid & post & _ & Z' & _)|H]; [rewrite zero_zero in Z'; discriminate|right; apply short_cons; exact H].
    - injection ST as <- <-. split.
      + intros [(mid & post & Q & Z & HQ & L)|H]; [left|right; apply NF; [exact H|discriminate]].
        destruct mid as [|x mid]; [discriminate|]. injection Q as <- ->. inversion HQ; subst. exists mid, post. auto.
      + intros [(mid & post & -> & Z & HQ & L)|H]; [left|right; apply short_cons; exact H]. exists (EOther :: mid), post. repeat split; auto. constructor; [exact I|exact HQ].
  Qed.
  Lemma step_abort n s e a : step n s e = Abort a -> a = AUB "e[0..2] of a vector with fewer than three points" /\ e = EEnd /\ zero_vec (rd_norm s) = false /\ length (rd_pts s) < 3.
  Proof.
    destruct e; cbn [step]; try discriminate. destruct (zero_vec (rd_norm s)) eqn:Z; [discriminate|].
    destruct (rd_pts s) as [|p0 [|p1 [|p2 ps]]]; try discriminate; intro H; injection H as <-; simpl; repeat split; lia.
  Qed.
  Lemma read_spec ls : forall n s,
    (exists pre l post evs r, ls = pre ++ l :: post /\ Forall2 says pre evs /\ ~ supported l /\ ~ bad (rd_norm s) (rd_pts s) evs /\ read_lines n s ls = Ret (None, r)) \/
    (exists evs s' lg, Forall2 says ls evs /\ ~ bad (rd_norm s) (rd_pts s) evs /\ read_lines n s ls = Ret (Some s', lg)) \/
    (exists pre post evs, ls = pre ++ post /\ Forall2 says pre evs /\ bad (rd_norm s) (rd_pts s) evs /\ read_lines n s ls = Abort (AUB "e[0..2] of a vector with fewer than three points")).
  Proof.
    assert (NB : forall v pts, ~ bad v pts []).
    { intros v pts [(mid & post & Q & _)|(pre & n & mid & post & Q & _)]; [destruct mid|destruct pre]; discriminate. }
    induction ls as [|l ls IH]; intros n s.
    - right; left. exists [], s, []. split; [constructor|]. split; [apply NB|reflexivity].
    - destruct (supported_dec l) as [(e & He)|N].
      + cbn [read_lines]. rewrite (read_says n s l e He). destruct (step n s e) as [[s1 lg1]|a] eqn:ST; cbn [obind].
        * destruct (IH (S n) s1) as [(pre & x & post & evs & r & -> & H1 & H2 & H3 & H4)|[(evs & s' & lg & H1 & H2 & H3)|(pre & post & evs & -> & H1 & H2 & H3)]].
          -- left. rewrite H4. exists (l :: pre), x, post, (e :: evs), (lg1 ++ r). split; [reflexivity|]. split; [constructor; assumption|]. split; [exact H2|]. split; [|reflexivity].
             rewrite (bad_step n s e evs s1 lg1 ST). exact H3.
          -- right; left. rewrite H3. exists (e :: evs), s', (lg1 ++ lg). split; [constructor; assumption|]. split; [|reflexivity]. rewrite (bad_step n s e evs s1 lg1 ST). exact H2.
          -- right; right. rewrite H3. exists (l :: pre), post, (e :: evs). split; [reflexivity|]. split; [constructor; assumption|]. split; [|reflexivity]. rewrite (bad_step n s e evs s1 lg1 ST). exact H2.
        * destruct (step_abort n s e a ST) as (-> & -> & Z & L). right; right. exists [l], ls, [EEnd]. split; [reflexivity|]. split; [constructor; [exact He|constructor]|]. split; [|reflexivity].
          left. exists [], []. split; [reflexivity|]. split; [exact Z|]. split; [constructor|]. rewrite app_length. simpl. lia.
      + left. exists [], l, ls, []. cbn [read_lines]. rewrite (read_unknown n s l N). cbn [obind]. eexists. split; [reflexivity|]. split; [constructor|]. split; [exact N|]. split; [apply NB|reflexivity].
  Qed.
  Lemma bad_start evs : bad zero3 [] evs <-> short_facet evs.
  Proof. split; [|right; assumption]. intros [(mid & post & _ & Z & _)|H]; [rewrite zero_zero in Z; discriminate|exact H]. Qed.

  (** ** Vertices stay comparable *)
  Context (NUM : forall w x, numeral w -> re2_double w = Some x -> ok x).
  Definition fine (s : rd) : Prop := Forall ok3 (rd_pts s) /\ Forall okF (rd_facets s).
  Lemma mk_facet_ok n p0 p1 p2 : ok3 p0 -> ok3 p1 -> ok3 p2 -> okF (mk_facet n p0 p1 p2).
  Proof. intros H0 H1 H2. unfold mk_facet. destruct (_ <? _)%num; repeat split; cbn [fe0 fe1 fe2]; try apply H0; try apply H1; try apply H2. Qed.
  Lemma step_fine n s e s' lg l : says l e -> fine s -> step n s e = Ret (s', lg) -> fine s'.
  Proof.
    intros HS [F1 F2]. destruct e as [v|p| |]; cbn [step]; intro H.
    - injection H as <- <-. split; [constructor|exact F2].
    - injection H as <- <-. split; [|exact F2]. cbn [rd_pts]. apply Forall_app. split; [exact F1|]. constructor; [|constructor].
      inversion HS as [| | |? T|]; subst. destruct T as (b & s1 & n1 & s2 & n2 & s3 & n3 & s4 & _ & _ & _ & M1 & _ & _ & M2 & _ & _ & M3 & _ & _ & D1 & D2 & D3). repeat split; [exact (NUM _ _ M1 D1)|exact (NUM _ _ M2 D2)|exact (NUM _ _ M3 D3)].
    - destruct (zero_vec (rd_norm s)); [injection H as <- <-; split; assumption|]. destruct (rd_pts s) as [|p0 [|p1 [|p2 ps]]] eqn:EP; try discriminate. injection H as <- <-.
      split; [constructor|]. cbn [rd_facets]. apply Forall_app. split; [exact F2|]. constructor; [|constructor].
      inversion F1 as [|? ? K0 F3]; subst. inversion F3 as [|? ? K1 F4]; subst. inversion F4 as [|? ? K2 F5]; subst. apply mk_facet_ok; assumption.
    - injection H as <- <-. split; assumption.
  Qed.
  Lemma read_fine ls : forall n s s' lg, fine s -> read_lines n s ls = Ret (Some s', lg) -> fine s'.
  Proof.
    induction ls as [|l ls IH]; intros n s s' lg F H; [injection H as <- _; exact F|]. cbn [read_lines] in H. destruct (supported_dec l) as [(e & He)|N].
    - rewrite (read_says n s l e He) in H. destruct (step n s e) as [[s1 lg1]|a] eqn:ST; cbn [obind] in H; [|discriminate].
      apply obind_ret in H. destruct H as ([r' lg'] & H & E'). injection E' as -> _. eapply IH; [|exact H]. eapply step_fine; eassumption.
    - rewrite (read_unknown n s l N) in H. discriminate.
  Qed.
  Lemma fine_start : fine (Rd zero3 [] []). Proof. split; constructor. Qed.
End Read2.

Section Top.
  Context {A : Arith} {E : Env} (O : ordered A) (ZZ : ok (nz : num)) (NUM : forall w x, numeral w -> re2_double w = Some x -> ok x).

  (** Exactly one of three things happens. *)
  Lemma make_spec c ls : lines_in c ls ->
    (exists pre l post evs lg, ls = pre ++ l :: post /\ Forall2 says pre evs /\ ~ supported l /\ ~ short_facet evs /\ stl_make c = Ret (None, lg)) \/
    (exists evs m lg, Forall2 says ls evs /\ ~ short_facet evs /\ stl_make c = Ret (Some m, lg)) \/
    (exists pre post evs what, ls = pre ++ post /\ Forall2 says pre evs /\ short_facet evs /\ stl_make c = Abort (AUB what)).
  Proof.
    intro HL. unfold stl_make. rewrite (getlines_of c ls HL).
    destruct (read_spec ZZ ls 1 (Rd zero3 [] [])) as [(pre & l & post & evs & r & H1 & H2 & H3 & H4 & H5)|[(evs & s' & lg & H1 & H2 & H3)|(pre & post & evs & H1 & H2 & H3 & H4)]].
    - left. exists pre, l, post, evs, r. rewrite H5. cbn [obind]. split; [exact H1|]. split; [exact H2|]. split; [exact H3|]. split; [|reflexivity]. rewrite <- (bad_start ZZ). exact H4.
    - right; left. rewrite H3. cbn [obind]. destruct (index_spec O (fs := rd_facets s')) as (m & HI & _).
      { exact (proj2 (read_fine NUM ls 1 _ s' lg fine_start H3)). }
      rewrite HI. cbn [obind]. exists evs, m, lg. split; [exact H1|]. split; [|reflexivity]. rewrite <- (bad_start ZZ). exact H2.
    - right; right. rewrite H4. cbn [obind]. do 4 eexists. split; [exact H1|]. split; [exact H2|]. split; [|reflexivity]. apply (bad_start ZZ). exact H3.
  Qed.

  (** ** Facet blocks *)
  Definition block_facet (b : v3 * list v3) : option facet :=
    match snd b with p0 :: p1 :: p2 :: _ => if zero_vec (fst b) then None else Some (mk_facet (fst b) p0 p1 p2) | _ => None end.
  Lemma read_blocks evs bs : blocks evs bs -> forall ls n s, Forall2 says ls evs -> zero_vec (rd_norm s) = true ->
    exists s' lg, read_lines n s ls = Ret (Some s', lg) /\ rd_facets s' = rd_facets s ++ collect_some (map block_facet bs) /\ length lg = length (filter (fun b => zero_vec (fst b)) bs).
  Proof.
    induction 1 as [|evs bs H IH|v mid evs bs HQ HL H IH]; intros ls n s HF HZ.
    - inversion HF; subst. exists s, []. split; [reflexivity|]. split; [symmetry; apply app_nil_r|reflexivity].
    - inversion HF as [|l ? ls' ? H1 H2]; subst. destruct (IH ls' (S n) s H2 HZ) as (s' & lg & E1 & E2 & E3). exists s', lg. split; [|split; assumption].
      cbn [read_lines]. rewrite (read_says n s l _ H1). cbn [step obind]. rewrite E1. reflexivity.
    - inversion HF as [|l ? ls' ? H1 H2]; subst. apply Forall2_app_inv_r in H2. destruct H2 as (lm & lr & H2 & H3 & ->). inversion H3 as [|le ? lr' ? H4 H5]; subst.
      cbn [read_lines]. rewrite (read_says n s l _ H1). cbn [step obind].
      destruct (read_quiet lm mid H2 HQ (S n) (Rd v [] (rd_facets s)) (le :: lr')) as [k Hk]. rewrite Hk. cbn [rd_norm rd_pts rd_facets app read_lines].
      rewrite (read_says k _ le _ H4). cbn [step rd_norm rd_pts rd_facets app]. cbn [map collect_some block_facet fst snd filter].
      destruct (zero_vec v) eqn:Z.
      + destruct (IH lr' (S k) (Rd v (vertices_of mid) (rd_facets s)) H5 Z) as (s' & lg & E1 & E2 & E3). cbn [obind]. rewrite E1. cbn [obind]. eexists s', _. split; [reflexivity|]. split; [|cbn [app length]; rewrite E3; reflexivity].
        rewrite E2. cbn [rd_facets]. unfold block_facet. cbn [fst snd]. destruct (vertices_of mid) as [|p0 [|p1 [|p2 ps]]]; rewrite ?Z; reflexivity.
      + destruct (vertices_of mid) as [|p0 [|p1 [|p2 ps]]] eqn:V; try (simpl in HL; lia). cbn [obind].
        destruct (IH lr' (S k) (Rd zero3 [] (rd_facets s ++ [mk_facet v p0 p1 p2])) H5 (zero_zero ZZ)) as (s' & lg & E1 & E2 & E3). rewrite E1. cbn [obind].
        eexists s', _. split; [reflexivity|]. split; [|cbn [app]; exact E3]. rewrite E2. cbn [rd_facets]. rewrite <- app_assoc. f_equal. unfold block_facet at 2. cbn [fst snd]. rewrite Z. reflexivity.
  Qed.
  Lemma make_blocks c ls evs bs : lines_in c ls -> Forall2 says ls evs -> blocks evs bs ->
    exists m lg, stl_make c = Ret (Some m, lg) /\
      facets m = collect_some (map block_facet bs) /\ length lg = length (filter (fun b => zero_vec (fst b)) bs).
  Proof.
    intros HL HF HB. unfold stl_make. rewrite (getlines_of c ls HL).
    destruct (read_blocks evs bs HB ls 1 (Rd zero3 [] []) HF (zero_zero ZZ)) as (s' & lg & E1 & E2 & E3). rewrite E1. cbn [obind].
    destruct (index_spec O (fs := rd_facets s')) as (m & HI & IX).
    { exact (proj2 (read_fine NUM ls 1 _ s' lg fine_start E1)). }
    rewrite HI. cbn [obind]. exists m, lg. split; [reflexivity|]. split; [|exact E3]. rewrite (ix_facets IX). exact E2.
  Qed.
  Lemma block_forall bs : Forall (fun b => 3 <= length (snd b)) bs ->
    Forall2 (fun b f => exists p0 p1 p2 r, snd b = p0 :: p1 :: p2 :: r /\ f = mk_facet (fst b) p0 p1 p2) (filter (fun b => negb (zero_vec (fst b))) bs) (collect_some (map block_facet bs)).
  Proof.
    induction 1 as [|[v ps] bs H _ IH]; [constructor|]. cbn [map filter fst]. unfold block_facet at 1. cbn [fst snd] in *.
    destruct ps as [|p0 [|p1 [|p2 ps]]]; try (simpl in H; lia). destruct (zero_vec v); cbn [negb collect_some]; [exact IH|]. constructor; [|exact IH].
    exists p0, p1, p2, ps. split; reflexivity.
  Qed.
  Lemma blocks_long evs bs : blocks evs bs -> Forall (fun b => 3 <= length (snd b)) bs.
  Proof. induction 1; [constructor|assumption|constructor; assumption]. Qed.
  Lemma make_facets c ls evs bs : lines_in c ls -> Forall2 says ls evs -> blocks evs bs ->
    exists m lg, stl_make c = Ret (Some m, lg) /\
      Forall2 (fun b f => exists p0 p1 p2 r, snd b = p0 :: p1 :: p2 :: r /\ f = mk_facet (fst b) p0 p1 p2) (filter (fun b => negb (zero_vec (fst b))) bs) (facets m).
  Proof.
    intros H1 H2 H3. destruct (make_blocks c ls evs bs H1 H2 H3) as (m & lg & H4 & H5 & _). exists m, lg. split; [exact H4|]. rewrite H5. apply block_forall. eapply blocks_long. exact H3.
  Qed.
  (** A line says one thing: the events of a text are determined, up to the value of the numbers, which re2_double determines. *)
  Lemma facet_uniq kw k l v w : after_kw (B kw) k -> triple_line (B kw) l v -> triple_line (B kw) l w -> v = w.
  Proof. intros AK H1 H2. apply (three_iff _ _ _ _ AK) in H1, H2. congruence. Qed.
  Lemma says_uniq1 l e e' : says l e -> says l e' -> e = e'.
  Proof.
    intros [H|H|v H|v H|H] [K|K|w K|w K|K]; try reflexivity; try (exfalso; kinds).
    - f_equal. eapply facet_uniq; [apply after_facet|exact H|exact K].
    - f_equal. eapply facet_uniq; [apply after_vertex|exact H|exact K].
  Qed.
  Lemma says_uniq ls evs evs' : Forall2 says ls evs -> Forall2 says ls evs' -> evs = evs'.
  Proof. intro H. revert evs'. induction H as [|l e ls evs He _ IH]; intros evs' K; inversion K; subst; [reflexivity|]. f_equal; [eapply says_uniq1; eassumption|apply IH; assumption]. Qed.
  Lemma app_split {T} (a b c d : list T) : a ++ b = c ++ d -> (exists x, a = c ++ x /\ d = x ++ b) \/ (exists x, c = a ++ x /\ b = x ++ d).
  Proof.
    revert c. induction a as [|h a IH]; intros c H; [right; exists c; auto|]. destruct c as [|k c]; [left; exists (h :: a); auto|].
    injection H as -> H. destruct (IH c H) as [(x & -> & ->)|(x & -> & ->)]; [left|right]; exists x; auto.
  Qed.
  Lemma read_only c ls m lg : lines_in c ls -> stl_make c = Ret (Some m, lg) -> Forall supported ls.
  Proof.
    intros HL H. destruct (make_spec c ls HL) as [(pre & l & post & evs & lg' & _ & _ & _ & _ & H4)|[(evs & m' & lg' & H1 & _ & H2)|(pre & post & evs & what & _ & _ & _ & H3)]]; try congruence.
    clear -H1. induction H1; constructor; [eexists; eassumption|assumption].
  Qed.
  Lemma read_all c ls evs : lines_in c ls -> Forall2 says ls evs -> ~ short_facet evs -> exists m lg, stl_make c = Ret (Some m, lg).
  Proof.
    intros HL HF NS. destruct (make_spec c ls HL) as [(pre & l & post & evs' & lg' & -> & _ & N & _ & _)|[(evs' & m' & lg' & _ & _ & H2)|(pre & post & evs' & what & -> & H1 & H2 & H3)]].
    - exfalso. apply N. apply Forall2_app_inv_l in HF. destruct HF as (e1 & e2 & _ & HF & _). inversion HF; subst. eexists; eassumption.
    - eauto.
    - exfalso. apply NS. apply Forall2_app_inv_l in HF. destruct HF as (e1 & e2 & HF & _ & ->). replace e1 with evs'; [|eapply says_uniq; eassumption].
      destruct H2 as (p & n & mid & q & -> & Q). exists p, n, mid, (q ++ e2). rewrite <- app_assoc. cbn [app]. rewrite <- app_assoc. auto.
  Qed.
  Lemma reject_one c ls pre l post evs : lines_in c ls -> ls = pre ++ l :: post -> Forall2 says pre evs -> ~ short_facet evs -> ~ supported l -> exists lg, stl_make c = Ret (None, lg).
  Proof.
    intros HL -> HF NS N. destruct (make_spec c _ HL) as [(pre' & l' & post' & evs' & lg' & _ & _ & _ & _ & H4)|[(evs' & m' & lg' & H1 & _ & H2)|(pre' & post' & evs' & what & E1 & H1 & H2 & H3)]].
    - eauto.
    - exfalso. apply N. apply Forall2_app_inv_l in H1. destruct H1 as (e1 & e2 & _ & HF' & _). inversion HF'; subst. eexists; eassumption.
    - exfalso. destruct (app_split pre (l :: post) pre' post' E1) as [(d & -> & _)|(d & -> & E2)].
      + apply Forall2_app_inv_l in HF. destruct HF as (e1 & e2 & HF & _ & ->). replace e1 with evs' in *; [|eapply says_uniq; eassumption].
        apply NS. destruct H2 as (p & n & mid & q & -> & Q). exists p, n, mid, (q ++ e2). rewrite <- app_assoc. cbn [app]. rewrite <- app_assoc. auto.
      + destruct d as [|x d].
        * rewrite app_nil_r in H1. replace evs' with evs in *; [contradiction|eapply says_uniq; eassumption].
        * injection E2 as <- _. apply N. apply Forall2_app_inv_l in H1. destruct H1 as (e1 & e2 & _ & HF' & _). inversion HF'; subst. eexists; eassumption.
  Qed.
End Top.

Section Bounds.
  Context {A : Arith} {E : Env}.
  Lemma out_of_bounds : ordered A -> ok (nz : num) -> (forall w x, numeral w -> re2_double w = Some x -> ok x) -> forall c ls, lines_in c ls ->
    ((exists e, stl_make c = Abort e) <-> exists pre post evs, ls = pre ++ post /\ Forall2 says pre evs /\ short_facet evs).
  Proof.
    intros O ZZ NUM c ls HL. destruct (make_spec O ZZ NUM c ls HL) as [(pre & l & post & evs & lg & E1 & H1 & N & NS & H4)|[(evs & m & lg & H1 & NS & H2)|(pre & post & evs & what & E1 & H1 & H2 & H3)]].
    - split; [intros [e H]; congruence|]. intros (pre' & post' & evs' & E2 & H2 & H3). exfalso. rewrite E1 in E2. destruct (app_split pre (l :: post) pre' post' E2) as [(d & -> & _)|(d & -> & E3)].
      + apply Forall2_app_inv_l in H1. destruct H1 as (e1 & e2 & H1 & _ & ->). rewrite (says_uniq _ _ _ H1 H2) in NS.
        apply NS. destruct H3 as (p & n & mid & q & -> & Q). exists p, n, mid, (q ++ e2). rewrite <- app_assoc. cbn [app]. rewrite <- app_assoc. auto.
      + destruct d as [|x d].
        * rewrite app_nil_r in H2. rewrite (says_uniq _ _ _ H1 H2) in NS. contradiction.
        * injection E3 as <- _. apply N. apply Forall2_app_inv_l in H2. destruct H2 as (e1 & e2 & _ & HF' & _). inversion HF'; subst. eexists; eassumption.
    - split; [intros [e H]; congruence|]. intros (pre' & post' & evs' & -> & H4 & H3). exfalso. apply Forall2_app_inv_l in H1. destruct H1 as (e1 & e2 & H1 & _ & ->). rewrite (says_uniq _ _ _ H1 H4) in NS.
      apply NS. destruct H3 as (p & n & mid & q & -> & Q). exists p, n, mid, (q ++ e2). rewrite <- app_assoc. cbn [app]. rewrite <- app_assoc. auto.
    - split; [intros _; eauto 10|]. intros _. eauto.
  Qed.
  Lemma reads_exactly : ordered A -> ok (nz : num) -> (forall w x, numeral w -> re2_double w = Some x -> ok x) -> forall c ls, lines_in c ls ->
    (forall m lg, stl_make c = Ret (Some m, lg) -> Forall supported ls) /\
    (forall evs, Forall2 says ls evs -> ~ short_facet evs -> exists m lg, stl_make c = Ret (Some m, lg)) /\
    (forall pre l post evs, ls = pre ++ l :: post -> ~ supported l -> Forall2 says pre evs -> ~ short_facet evs -> exists lg, stl_make c = Ret (None, lg)).
  Proof.
    intros O ZZ NUM c ls HL. repeat split; intros.
    - eapply (read_only O ZZ NUM); eassumption.
    - eapply (read_all O ZZ NUM); eassumption.
    - eapply (reject_one O ZZ NUM); eassumption.
  Qed.
End Bounds.
