(** P_Lex2.v - the pieces found by the scanner. *)
From Verif Require Import Base Num Env Regex Lexer P_Base P_Lex LangSpec.

Local Unset Implicit Arguments.

Lemma digit_iff c : is_digit c = true <-> digit c.
Proof. unfold is_digit, byte_in, digit, ord. rewrite andb_true_iff, !N.leb_le. tauto. Qed.
Lemma letter_iff c : is_alpha_ c = true <-> letter c.
Proof. unfold is_alpha_, byte_in, letter, ord. rewrite !orb_true_iff, !andb_true_iff, !N.leb_le, byte_eqb_eq. tauto. Qed.
Lemma wordy_iff c : is_alnum_ c = true <-> wordy c.
Proof. unfold is_alnum_, wordy. rewrite orb_true_iff, digit_iff, letter_iff. tauto. Qed.
Lemma punct_iff c : is_punct c = true <-> punctuation c.
Proof. unfold is_punct, punctuation. rewrite existsb_exists. split; [intros (d & H & E); apply byte_eqb_eq in E; subst; exact H|]. intro H. exists c. split; [exact H|apply byte_eqb_refl]. Qed.
Lemma blank_iff c : is_ws c = true <-> blank c.
Proof. unfold is_ws, blank. rewrite !orb_true_iff, !byte_eqb_eq. simpl. intuition congruence. Qed.
Lemma not_lf_iff c : not_lf c = true <-> c <> LF.
Proof. unfold not_lf. rewrite negb_true_iff. apply byte_eqb_neq. Qed.
Lemma Forall_iff {T} (P Q : T -> Prop) l : (forall x, P x <-> Q x) -> (Forall P l <-> Forall Q l).
Proof. intro H. split; intro F; (eapply Forall_impl; [|exact F]); intros x; apply H. Qed.
Lemma noLF_iff t : Forall (fun c => not_lf c = true) t <-> ~ In LF t.
Proof. rewrite Forall_forall. split; [intros H HI; specialize (H _ HI); discriminate H|]. intros H c HI. apply not_lf_iff. intros ->. contradiction. Qed.
Lemma kws_eq : kws = keywords. Proof. reflexivity. Qed.

(** ** Forward: what is taken is a piece *)
Lemma firstn_len {T} (a b : list T) : firstn (length a) (a ++ b) = a.
Proof. rewrite firstn_app, Nat.sub_diag, firstn_all. apply app_nil_r. Qed.
Lemma run_firstn p s : firstn (length (run p s)) s = run p s.
Proof. destruct (run_prefix p s) as (r & E & _). rewrite E at 2. apply firstn_len. Qed.
Lemma run_len p s : length (run p s) <= length s.
Proof. destruct (run_prefix p s) as (r & E & _). rewrite E at 2. rewrite app_length. lia. Qed.
Lemma tail_piece t : num_tail t <= length t /\ exists a r, firstn (num_tail t) t = a ++ r /\ Forall digit a /\ (r = [] \/ exists f, Forall digit f /\ r = "."%char :: f).
Proof.
  induction t as [|c t (L & a & r & E & H1 & H2)]; [split; [simpl; lia|]; exists [], []; auto|]. cbn [num_tail]. destruct (is_digit c) eqn:D.
  - split; [simpl; lia|]. exists (c :: a), r. cbn [firstn]. rewrite E. split; [reflexivity|]. split; [constructor; [apply digit_iff; exact D|exact H1]|exact H2].
  - destruct (byte_eqb "." c) eqn:P; [|split; [simpl; lia|]; exists [], []; auto]. apply byte_eqb_eq in P. subst c. pose proof (run_len is_digit t). split; [simpl; lia|].
    exists [], ("."%char :: run is_digit t). cbn [firstn]. rewrite run_firstn. split; [reflexivity|]. split; [constructor|]. right. eexists. split; [|reflexivity].
    eapply Forall_iff; [intro; symmetry; apply digit_iff|apply run_all].
Qed.
Lemma frac_piece t n : frac_len t = Some n -> n <= length t /\ firstn n t <> [] /\ Forall digit (firstn n t).
Proof.
  destruct t as [|d t]; [discriminate|]. cbn [frac_len]. destruct (is_digit d) eqn:D; [|discriminate]. intro H; injection H as <-. pose proof (run_len is_digit t). split; [simpl; lia|]. cbn [firstn]. rewrite run_firstn.
  split; [discriminate|]. constructor; [apply digit_iff; exact D|]. eapply Forall_iff; [intro; symmetry; apply digit_iff|apply run_all].
Qed.
Lemma sign_cases c : sign_char c = true -> signed [c].
Proof. unfold sign_char. intro H. apply orb_true_iff in H. destruct H as [H|H]; apply byte_eqb_eq in H; subst c; [right; left|right; right]; reflexivity. Qed.
Lemma num_piece s n : num_len s = Some n -> 1 <= n <= length s /\ number (firstn n s).
Proof.
  destruct s as [|c t]; [discriminate|]. cbn [num_len]. destruct (is_digit c) eqn:D; [|destruct (byte_eqb "." c) eqn:P; [|destruct (sign_char c) eqn:Sg; [|discriminate]]].
  - intro H; injection H as <-. destruct (tail_piece t) as (L & a & r & E & H1 & H2). split; [simpl; lia|]. cbn [firstn]. rewrite E. exists [], (c :: a), r. split; [left; reflexivity|]. split; [reflexivity|].
    split; [constructor; [apply digit_iff; exact D|exact H1]|]. left. split; [discriminate|exact H2].
  - apply byte_eqb_eq in P. subst c. destruct (frac_len t) as [m|] eqn:F; [|discriminate]. intro H; injection H as <-. destruct (frac_piece _ _ F) as (L & N & FD). split; [simpl; lia|]. cbn [firstn].
    exists [], [], ("."%char :: firstn m t). split; [left; reflexivity|]. split; [reflexivity|]. split; [constructor|]. right. split; [reflexivity|]. eauto.
  - destruct t as [|d t]; [discriminate|]. destruct (is_digit d) eqn:D2; [|destruct (byte_eqb "." d) eqn:P2; [|discriminate]].
    + intro H; injection H as <-. destruct (tail_piece t) as (L & a & r & E & H1 & H2). split; [simpl; lia|]. cbn [firstn]. rewrite E. exists [c], (d :: a), r. split; [apply sign_cases; exact Sg|]. split; [reflexivity|].
      split; [constructor; [apply digit_iff; exact D2|exact H1]|]. left. split; [discriminate|exact H2].
    + apply byte_eqb_eq in P2. subst d. destruct (frac_len t) as [m|] eqn:F; [|discriminate]. intro H; injection H as <-. destruct (frac_piece _ _ F) as (L & N & FD). split; [simpl; lia|]. cbn [firstn].
      exists [c], [], ("."%char :: firstn m t). split; [apply sign_cases; exact Sg|]. split; [reflexivity|]. split; [constructor|]. right. split; [reflexivity|]. eauto.
Qed.
Lemma str_piece k : forall t n, length t <= k -> str_end t = Some n -> 1 <= n <= length t /\ exists b v, firstn n t = b ++ [DQUOTE] /\ quoted b v.
Proof.
  induction k as [|k IH]; intros t n L H; (destruct t as [|c t]; [discriminate|]); [simpl in L; lia|]. cbn [str_end] in H. destruct (byte_eqb_spec c DQUOTE) as [->|N1].
  - injection H as <-. split; [simpl; lia|]. exists [], []. split; [reflexivity|constructor].
  - destruct (byte_eqb_spec c BSLASH) as [->|N2].
    + destruct t as [|e t]; [discriminate|]. destruct (str_esc e) eqn:ES; [|discriminate]. destruct (str_end t) as [m|] eqn:SE; [|discriminate]. injection H as <-.
      destruct (IH t m ltac:(simpl in L; lia) SE) as (L2 & b & v & E & Q). split; [simpl; lia|]. cbn [firstn]. rewrite E.
      unfold str_esc in ES. rewrite !orb_true_iff, !byte_eqb_eq in ES. exists (BSLASH :: e :: b).
      destruct ES as [[[[-> | ->]| ->]| ->]| ->]; eexists; (split; [reflexivity|]); try (apply quoted_esc; [simpl; tauto|exact Q]). apply quoted_lf. exact Q.
    + destruct (byte_eqb_spec c LF) as [->|N3]; [discriminate|]. destruct (str_end t) as [m|] eqn:SE; [|discriminate]. injection H as <-.
      destruct (IH t m ltac:(simpl in L; lia) SE) as (L2 & b & v & E & Q). split; [simpl; lia|]. cbn [firstn]. rewrite E. exists (c :: b), (c :: v). split; [reflexivity|]. apply quoted_plain; assumption.
Qed.

Lemma lex_piece c t n a : lex1 c t = (n, a) -> 1 <= n <= length (c :: t) /\ piece a (firstn n (c :: t)).
Proof.
  unfold lex1. destruct (is_punct c) eqn:EP.
  { intro H; injection H as <- <-. split; [simpl; lia|]. split; [reflexivity|]. apply punct_iff. exact EP. }
  destruct (is_alpha_ c) eqn:EA.
  { pose proof (run_len is_alnum_ t) as RL. assert (EF : firstn (length (c :: run is_alnum_ t)) (c :: t) = c :: run is_alnum_ t) by (cbn [length firstn]; rewrite run_firstn; reflexivity).
    cbv zeta. destruct (kw_index (c :: run is_alnum_ t) kws) as [k|] eqn:KI; intro H; injection H as <- <-; (split; [simpl; lia|]); cbn [length] in EF; rewrite EF.
    - apply kw_index_some in KI. exact KI.
    - apply kw_index_none in KI. split; [|exact KI]. exists c, (run is_alnum_ t). split; [reflexivity|]. split; [apply letter_iff; exact EA|]. eapply Forall_iff; [intro; symmetry; apply wordy_iff|apply run_all]. }
  destruct (num_len (c :: t)) as [m|] eqn:EN; [intro H; injection H as <- <-; apply num_piece; exact EN|].
  assert (NE : ~ punctuation c /\ ~ letter c) by (rewrite <- punct_iff, <- letter_iff, EP, EA; split; discriminate).
  assert (ND : ~ digit c) by (rewrite <- digit_iff; cbn [num_len] in EN; destruct (is_digit c); discriminate).
  destruct NE as [NE1 NE2].
  destruct (byte_eqb_spec c DQUOTE) as [->|NQ].
  { destruct (str_end t) as [m|] eqn:SE; intro H; injection H as <- <-.
    - destruct (str_piece (length t) t m (le_n _) SE) as (L & b & v & E & Q). split; [simpl; lia|]. exists v, b. cbn [firstn]. rewrite E. split; [reflexivity|exact Q].
    - split; [simpl; lia|]. exists DQUOTE. split; [reflexivity|]. split; [exact NE1|]. split; [exact NE2|]. split; [exact ND|]. rewrite <- blank_iff. discriminate. }
  destruct (is_ws c) eqn:EW; [intro H; injection H as <- <-; split; [simpl; lia|]; left; exists c; split; [reflexivity|apply blank_iff; exact EW]|].
  assert (NB : ~ blank c) by (rewrite <- blank_iff, EW; discriminate).
  destruct (byte_eqb_spec c "/") as [->|NS].
  { destruct t as [|d t]; [intro H; injection H as <- <-; split; [simpl; lia|]; eexists; split; [reflexivity|]; auto|].
    destruct (byte_eqb_spec "/" d) as [<-|ND2]; [|intro H; injection H as <- <-; split; [simpl; lia|]; eexists; split; [reflexivity|]; auto].
    intro H; injection H as <- <-. pose proof (run_len not_lf t). split; [simpl; lia|]. right. exists (run not_lf t). cbn [firstn]. rewrite run_firstn. split; [reflexivity|]. apply noLF_iff, run_all. }
  intro H; injection H as <- <-. split; [simpl; lia|]. eexists; split; [reflexivity|]; auto.
Qed.

(** ** The whole input *)
Lemma count_newlines s : count_lf s = newlines s.
Proof.
  unfold count_lf, newlines. induction s as [|c s IH]; [reflexivity|]. cbn [filter count_occ]. destruct (ascii_dec c LF) as [->|N].
  - rewrite byte_eqb_refl. cbn [length]. f_equal. exact IH.
  - replace (byte_eqb LF c) with false by (symmetry; apply byte_eqb_neq; congruence). exact IH.
Qed.
Lemma newlines_app a b : newlines (a ++ b) = newlines a + newlines b.
Proof. apply count_occ_app. Qed.
Definition after_ok (line : nat) (l : list lexeme) : Prop := forall pre x post, l = pre ++ x :: post -> lx_line x = line + newlines (flat_map lx_text pre) + newlines (lx_text x).
Definition lexed (l : list lexeme) : Prop := forall pre x post, l = pre ++ x :: post -> exists c t, lx_text x ++ flat_map lx_text post = c :: t /\ lex1 c t = (length (lx_text x), lx_act x).
Lemma scan_all_pieces fuel : forall line s, length s <= fuel -> exists l, scan fuel line s = Some l /\ flat_map lx_text l = s /\
  Forall (fun x => lx_text x <> [] /\ piece (lx_act x) (lx_text x)) l /\ after_ok line l /\ lexed l.
Proof.
  induction fuel as [|fuel IH]; intros line s L.
  - destruct s as [|c t]; [|simpl in L; lia]. exists []. repeat split; [constructor| |]; intros [|p pre] x post H; discriminate.
  - destruct s as [|c t]; [exists []; repeat split; [constructor| |]; intros [|p pre] x post H; discriminate|].
    cbn [scan]. rewrite best_lex. destruct (lex1 c t) as [n a] eqn:EL. destruct (lex_piece _ _ _ _ EL) as [Ln Pn]. destruct n as [|n]; [lia|].
    destruct (IH (line + count_lf (firstn (S n) (c :: t))) (skipn (S n) (c :: t))) as (l & E1 & E2 & E3 & E4 & E5). { rewrite skipn_length. simpl in *. lia. }
    rewrite E1. eexists. split; [reflexivity|]. split; [cbn [flat_map lx_text]; rewrite E2; apply firstn_skipn|]. split; [|split].
    + constructor; [|exact E3]. split; [discriminate|exact Pn].
    + intros [|p pre] x post H; injection H as <- H; cbn [lx_line lx_text flat_map].
      * rewrite count_newlines. change (newlines []) with 0. lia.
      * rewrite (E4 pre x post H). rewrite newlines_app, count_newlines. change (c :: firstn n t) with (firstn (S n) (c :: t)). lia.
    + intros [|p pre] x post H; injection H as <- H; cbn [lx_act lx_text]; [|exact (E5 pre x post H)].
      subst post. exists c, t. change (c :: firstn n t) with (firstn (S n) (c :: t)). rewrite E2. split; [apply firstn_skipn|]. rewrite firstn_length, Nat.min_l by lia. exact EL.
Qed.
Lemma piece_one_line a w : piece a w -> a <> ASkip -> newlines w = 0.
Proof.
  intros P N. apply count_occ_not_In. intro HI. destruct a; cbn [piece] in P.
  - destruct P as [-> P]. destruct HI as [->|[]]. apply punct_iff in P. discriminate.
  - apply nth_error_In in P. repeat (destruct P as [<-|P]; [simpl in HI; intuition discriminate|]). destruct P.
  - destruct P as [(c & r & -> & Lc & Wr) _]. destruct HI as [->|HI]; [apply letter_iff in Lc; discriminate|]. rewrite Forall_forall in Wr. specialize (Wr _ HI). apply wordy_iff in Wr. discriminate.
  - destruct P as (sg & x & r & Sg & -> & Fx & Hr). assert (DG : forall f, Forall digit f -> ~ In LF f) by (intros f Ff Hf; rewrite Forall_forall in Ff; specialize (Ff _ Hf); apply digit_iff in Ff; discriminate).
    apply in_app_or in HI. destruct HI as [HI|HI]; [destruct Sg as [->|[-> | ->]]; simpl in HI; intuition discriminate|]. apply in_app_or in HI. destruct HI as [HI|HI]; [exact (DG _ Fx HI)|].
    destruct Hr as [[_ [->|(f & Ff & ->)]]|[_ (f & _ & Ff & ->)]]; [destruct HI|destruct HI as [HI|HI]; [discriminate|exact (DG _ Ff HI)]|destruct HI as [HI|HI]; [discriminate|exact (DG _ Ff HI)]].
  - destruct P as (v & b & -> & Q). destruct HI as [HI|HI]; [discriminate|]. apply in_app_or in HI. destruct HI as [HI|[HI|[]]]; [|discriminate].
    induction Q as [|c b v N1 N2 N3 Q IH|e b v He Q IH|b v Q IH].
    + destruct HI.
    + destruct HI as [HI|HI]; [congruence|exact (IH HI)].
    + destruct HI as [HI|[HI|HI]]; [discriminate|subst e; simpl in He; intuition discriminate|exact (IH HI)].
    + destruct HI as [HI|[HI|HI]]; [discriminate|discriminate|exact (IH HI)].
  - contradiction.
  - destruct P as (c & -> & _ & _ & _ & NB). destruct HI as [->|[]]. apply NB. right; right; left; reflexivity.
Qed.
Lemma scanned s : exists l, scan_all s = Some l /\ flat_map lx_text l = s /\ Forall (fun x => lx_text x <> [] /\ piece (lx_act x) (lx_text x)) l /\
  (forall pre x post, l = pre ++ x :: post -> lx_act x <> ASkip -> lx_line x = 1 + newlines (flat_map lx_text pre)) /\ lexed l.
Proof.
  destruct (scan_all_pieces (length s) 1 s (le_n _)) as (l & E1 & E2 & E3 & E4 & E5). exists l. split; [exact E1|]. split; [exact E2|]. split; [exact E3|]. split; [|exact E5].
  intros pre x post H N. rewrite (E4 pre x post H). rewrite Forall_forall in E3. destruct (E3 x) as [_ P]; [rewrite H; apply in_or_app; right; left; reflexivity|]. rewrite (piece_one_line _ _ P N). lia.
Qed.
Lemma scanned_of s l : scan_all s = Some l -> flat_map lx_text l = s /\ Forall (fun x => lx_text x <> [] /\ piece (lx_act x) (lx_text x)) l /\
  (forall pre x post, l = pre ++ x :: post -> lx_act x <> ASkip -> lx_line x = 1 + newlines (flat_map lx_text pre)) /\ lexed l.
Proof. intro H. destruct (scanned s) as (l' & H1 & H2). rewrite H in H1. injection H1 as <-. exact H2. Qed.

(** ** Whole words *)
Lemma alpha_not_punct c : is_alpha_ c = true -> is_punct c = false.
Proof. intro EA. pose proof (every_byte (fun c => negb (is_alpha_ c) || negb (is_punct c)) eq_refl c) as Q. cbv beta in Q. rewrite EA in Q. cbn [negb orb] in Q. apply negb_true_iff in Q. exact Q. Qed.
Lemma whole_words s l pre x post : scan_all s = Some l -> l = pre ++ x :: post ->
  (lx_act x = AId \/ (exists n, lx_act x = AKw n) <-> exists c r, lx_text x = c :: r /\ letter c) /\
  ((exists c r, lx_text x = c :: r /\ letter c) -> word (lx_text x) /\ match flat_map lx_text post with [] => True | d :: _ => ~ wordy d end /\
    ((exists n, lx_act x = AKw n /\ nth_error keywords n = Some (lx_text x)) \/ (lx_act x = AId /\ ~ In (lx_text x) keywords))).
Proof.
  intros H HL. destruct (scanned_of s l H) as (_ & FP & _ & LX). rewrite Forall_forall in FP. destruct (FP x) as [NE P]; [rewrite HL; apply in_or_app; right; left; reflexivity|]. destruct (LX pre x post HL) as (c & t & E1 & E2).
  assert (HD : exists r, lx_text x = c :: r /\ t = r ++ flat_map lx_text post) by (destruct (lx_text x) as [|d r]; [contradiction|]; injection E1 as -> <-; eauto). destruct HD as (r & HT & ->).
  assert (MAIN : letter c -> word (lx_text x) /\ match flat_map lx_text post with [] => True | d :: _ => ~ wordy d end /\
    ((exists n, lx_act x = AKw n /\ nth_error keywords n = Some (lx_text x)) \/ (lx_act x = AId /\ ~ In (lx_text x) keywords))).
  { intro HC. assert (EA : is_alpha_ c = true) by (apply letter_iff; exact HC). unfold lex1 in E2. rewrite (alpha_not_punct c EA), EA in E2. cbv zeta in E2.
    set (t := r ++ flat_map lx_text post) in *. assert (ER : run is_alnum_ t = r).
    { apply (f_equal fst) in E2. cbn [fst] in E2. rewrite HT in E2. cbn [length] in E2. injection E2 as E2. rewrite <- run_firstn, E2. apply firstn_len. }
    rewrite ER in E2. rewrite HT. split; [|split].
    - exists c, r. split; [reflexivity|]. split; [exact HC|]. rewrite <- ER. eapply Forall_iff; [intro; symmetry; apply wordy_iff|apply run_all].
    - destruct (run_prefix is_alnum_ t) as (q & Eq & Hq). rewrite ER in Eq. unfold t in Eq. apply app_inv_head in Eq. rewrite Eq. destruct q as [|d q]; [exact I|]. rewrite <- wordy_iff, Hq. discriminate.
    - destruct (kw_index (c :: r) kws) as [n|] eqn:KI; apply (f_equal snd) in E2; cbn [snd] in E2.
      + left. exists n. split; [congruence|]. apply kw_index_some in KI. exact KI.
      + right. split; [congruence|]. apply kw_index_none in KI. exact KI. }
  assert (UN : forall d r', lx_text x = d :: r' -> d = c) by (intros d r' Q; rewrite HT in Q; congruence).
  split.
  - split; [|intros (d & r' & Q & HC); rewrite (UN _ _ Q) in HC; destruct (MAIN HC) as (_ & _ & [(n & Q2 & _)|(Q2 & _)]); eauto].
    intros [Q|(n & Q)]; rewrite Q in P; cbn [piece] in P.
    + destruct P as [(d & r' & Q2 & HC & _) _]. eauto.
    + apply nth_error_In in P. exists c, r. split; [exact HT|]. rewrite HT in P. apply letter_iff. clear -P. repeat (destruct P as [P|P]; [injection P as <- _; reflexivity|]). destruct P.
  - intros (d & r' & Q & HC). rewrite (UN _ _ Q) in HC. exact (MAIN HC).
Qed.
