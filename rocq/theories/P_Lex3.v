(** P_Lex3.v - string literals, and the tokens of a laid out script. *)
From Verif Require Import Base Num Env Regex Lexer P_Base P_Lex LangSpec P_Lex2.

Local Unset Implicit Arguments.

(** ** NewQuote *)
Lemma skip_skip {T} a : forall b (l : list T), skipn a (skipn b l) = skipn (b + a) l.
Proof. intros b l. revert a. revert l. induction b as [|b IH]; intros l a; [reflexivity|]. destruct l as [|x l]; [simpl; apply skipn_nil|]. simpl. apply IH. Qed.
Lemma set_nth_first {T} t (c : T) buf : t < length buf -> firstn (S t) (set_nth t c buf) = firstn t buf ++ [c].
Proof.
  intro H. unfold set_nth. destruct (Nat.ltb_spec t (length buf)); [|lia]. change (c :: skipn (S t) buf) with ([c] ++ skipn (S t) buf). rewrite app_assoc. rewrite firstn_app.
  assert (LL : length (firstn t buf ++ [c]) = S t) by (rewrite app_length, firstn_length; simpl; lia). rewrite LL, Nat.sub_diag, firstn_O, app_nil_r, <- LL. apply firstn_all.
Qed.
Lemma set_nth_skip {T} t f (c : T) buf : t < f -> skipn f (set_nth t c buf) = skipn f buf.
Proof.
  intro H. unfold set_nth. destruct (Nat.ltb_spec t (length buf)) as [L|L]; [|reflexivity].
  rewrite skipn_app. rewrite (skipn_all2 (firstn t buf)) by (rewrite firstn_length; lia). rewrite firstn_length, Nat.min_l by lia. cbn [app].
  replace (f - t) with (S (f - t - 1)) by lia. change (skipn (S (f - t - 1)) (c :: skipn (S t) buf)) with (skipn (f - t - 1) (skipn (S t) buf)). rewrite skip_skip. f_equal. lia.
Qed.
Lemma nth_skip {T} f (buf : list T) c r : skipn f buf = c :: r -> nth_error buf f = Some c /\ skipn (S f) buf = r /\ length buf = f + S (length r).
Proof.
  revert f. induction buf as [|x buf IH]; intros f H; [rewrite skipn_nil in H; discriminate|]. destruct f as [|f]; [injection H as -> ->; auto|].
  simpl in H. destruct (IH f H) as (H1 & H2 & H3). simpl. split; [exact H1|]. split; [exact H2|lia].
Qed.
(** One round. *)
Lemma nq_plain fuel t f buf c r : skipn f buf = c :: r -> r <> [] -> t < f -> c <> BSLASH ->
  exists buf', nq_loop (S fuel) t f buf = nq_loop fuel (S t) (S f) buf' /\ length buf' = length buf /\ firstn (S t) buf' = firstn t buf ++ [c] /\ skipn (S f) buf' = r.
Proof.
  intros H N T C. destruct (nth_skip _ _ _ _ H) as (H1 & H2 & H3). assert (1 <= length r) by (destruct r; [contradiction|simpl; lia]). exists (set_nth t c buf).
  cbn [nq_loop]. destruct (Nat.ltb_spec f (length buf - 1)); [|lia]. rewrite orb_true_r, H1. destruct (byte_eqb_spec c BSLASH); [contradiction|]. cbn [negb]. destruct (Nat.ltb_spec t (length buf)); [|lia].
  split; [reflexivity|]. split; [apply set_nth_length|]. split; [apply set_nth_first; lia|]. rewrite set_nth_skip by lia. exact H2.
Qed.
Lemma nq_esc fuel t f buf e r : skipn f buf = BSLASH :: e :: r -> t < f ->
  exists buf', nq_loop (S fuel) t f buf = nq_loop fuel (S t) (S (S f)) buf' /\ length buf' = length buf /\ firstn (S t) buf' = firstn t buf ++ [if byte_eqb e "n" then LF else e] /\ skipn (S (S f)) buf' = r.
Proof.
  intros H T. destruct (nth_skip _ _ _ _ H) as (H1 & H2 & H3). destruct (nth_skip _ _ _ _ H2) as (H4 & H5 & _). simpl in H3. exists (set_nth t (if byte_eqb e "n" then LF else e) buf).
  cbn [nq_loop]. destruct (Nat.ltb_spec f (length buf - 1)); [|lia]. rewrite orb_true_r, H1. rewrite byte_eqb_refl. cbn [negb]. rewrite H4. destruct (Nat.ltb_spec t (length buf)); [|lia].
  split; [reflexivity|]. split; [apply set_nth_length|]. split; [apply set_nth_first; lia|]. rewrite set_nth_skip by lia. exact H5.
Qed.
Lemma nq_done fuel t f buf : length buf <> 0 -> length buf - 1 <= f -> nq_loop fuel t f buf = Ret (firstn t buf).
Proof. intros N H. destruct fuel; cbn [nq_loop]; (destruct (Nat.eqb_spec (length buf) 0); [contradiction|]); (destruct (Nat.ltb_spec f (length buf - 1)); [lia|]); reflexivity. Qed.
Lemma nq_value b v : quoted b v -> forall fuel t f buf q, skipn f buf = b ++ [q] -> t < f -> length b <= fuel -> nq_loop fuel t f buf = Ret (firstn t buf ++ v).
Proof.
  induction 1 as [|c b v N1 N2 N3 Q IH|e b v He Q IH|b v Q IH]; intros fuel t f buf q H T L.
  - destruct (nth_skip _ _ _ _ H) as (_ & _ & H3). simpl in H3. rewrite nq_done by lia. rewrite app_nil_r. reflexivity.
  - destruct fuel as [|fuel]; [simpl in L; lia|]. destruct (nq_plain fuel t f buf c (b ++ [q]) H ltac:(intro Z; apply app_eq_nil in Z; destruct Z; discriminate) T N2) as (buf' & E1 & _ & E3 & E4).
    rewrite E1, (IH fuel (S t) (S f) buf' q E4) by (simpl in L; lia). rewrite E3, <- app_assoc. reflexivity.
  - destruct fuel as [|fuel]; [simpl in L; lia|]. destruct (nq_esc fuel t f buf e (b ++ [q]) H T) as (buf' & E1 & _ & E3 & E4).
    rewrite E1, (IH fuel (S t) (S (S f)) buf' q E4) by (simpl in L; lia). rewrite E3, <- app_assoc. replace (byte_eqb e "n") with false; [reflexivity|]. simpl in He. destruct He as [<-|[<-|[<-|[<-|[]]]]]; reflexivity.
  - destruct fuel as [|fuel]; [simpl in L; lia|]. destruct (nq_esc fuel t f buf "n" (b ++ [q]) H T) as (buf' & E1 & _ & E3 & E4).
    rewrite E1, (IH fuel (S t) (S (S f)) buf' q E4) by (simpl in L; lia). rewrite E3, <- app_assoc. reflexivity.
Qed.
(** Cut short by a NUL byte: decoding stays inside. *)
Lemma nq_safe b v : quoted b v -> forall fuel t f buf, buf <> [] -> skipn f buf = b -> f <= length buf -> t < f -> length b <= fuel -> exists u, nq_loop fuel t f buf = Ret u.
Proof.
  induction 1 as [|c b v N1 N2 N3 Q IH|e b v He Q IH|b v Q IH]; intros fuel t f buf NB H F T L.
  - assert (length buf <= f). { pose proof (skipn_length f buf) as Z. rewrite H in Z. simpl in Z. lia. } assert (length buf <> 0) by (destruct buf; [contradiction|simpl; lia]). rewrite nq_done by lia. eauto.
  - destruct b as [|d b].
    + destruct (nth_skip _ _ _ _ H) as (_ & _ & H3). simpl in H3. rewrite nq_done by lia. eauto.
    + destruct fuel as [|fuel]; [simpl in L; lia|]. destruct (nq_plain fuel t f buf c (d :: b) H ltac:(discriminate) T N2) as (buf' & E1 & E2 & E3 & E4). rewrite E1. destruct (nth_skip _ _ _ _ H) as (_ & _ & H3). simpl in H3.
      apply (IH fuel (S t) (S f) buf'); [destruct buf'; [simpl in E2; lia|discriminate]|exact E4|lia|lia|simpl in *; lia].
  - destruct fuel as [|fuel]; [simpl in L; lia|]. destruct (nq_esc fuel t f buf e b H T) as (buf' & E1 & E2 & E3 & E4). rewrite E1. destruct (nth_skip _ _ _ _ H) as (_ & _ & H3). simpl in H3.
    apply (IH fuel (S t) (S (S f)) buf'); [destruct buf'; [simpl in E2; lia|discriminate]|exact E4|lia|lia|simpl in *; lia].
  - destruct fuel as [|fuel]; [simpl in L; lia|]. destruct (nq_esc fuel t f buf "n" b H T) as (buf' & E1 & E2 & E3 & E4). rewrite E1. destruct (nth_skip _ _ _ _ H) as (_ & _ & H3). simpl in H3.
    apply (IH fuel (S t) (S (S f)) buf'); [destruct buf'; [simpl in E2; lia|discriminate]|exact E4|lia|lia|simpl in *; lia].
Qed.
Lemma cstr_id s : ~ In NUL s -> cstr s = s.
Proof. induction s as [|c s IH]; intro H; [reflexivity|]. simpl. destruct (byte_eqb_spec c NUL) as [->|N]; [exfalso; apply H; left; reflexivity|]. f_equal. apply IH. intro Q; apply H; right; exact Q. Qed.
Lemma quote_value w v : literal w v -> ~ In NUL w -> new_quote (cstr w) = Ret v.
Proof.
  intros (b & -> & Q) N. rewrite cstr_id by exact N. unfold new_quote. rewrite (nq_value b v Q _ 0 1 (DQUOTE :: b ++ [DQUOTE]) DQUOTE); [reflexivity|reflexivity|lia|simpl; rewrite app_length; lia].
Qed.
Lemma cstr_quoted b v : quoted b v -> forall q, exists b' v', quoted b' v' /\ (cstr (b ++ [q]) = b' \/ cstr (b ++ [q]) = b' ++ [q]).
Proof.
  induction 1 as [|c b v N1 N2 N3 Q IH|e b v He Q IH|b v Q IH]; intro q.
  - exists [], []. split; [constructor|]. simpl. destruct (byte_eqb q NUL); auto.
  - destruct (IH q) as (b' & v' & H1 & H2). simpl. destruct (byte_eqb c NUL); [exists [], []; split; [constructor|auto]|]. exists (c :: b'), (c :: v'). split; [constructor; assumption|]. destruct H2 as [-> | ->]; auto.
  - destruct (IH q) as (b' & v' & H1 & H2). assert (byte_eqb e NUL = false) by (simpl in He; destruct He as [<-|[<-|[<-|[<-|[]]]]]; reflexivity).
    simpl. rewrite H. exists (BSLASH :: e :: b'), (e :: v'). split; [constructor; assumption|]. destruct H2 as [-> | ->]; auto.
  - destruct (IH q) as (b' & v' & H1 & H2). simpl. exists (BSLASH :: "n"%char :: b'), (LF :: v'). split; [apply quoted_lf; assumption|]. destruct H2 as [-> | ->]; auto.
Qed.
Lemma quote_safe w v : literal w v -> exists u, new_quote (cstr w) = Ret u.
Proof.
  intros (b & -> & Q). destruct (cstr_quoted b v Q DQUOTE) as (b' & v' & Q' & H). change (cstr (DQUOTE :: b ++ [DQUOTE])) with (DQUOTE :: cstr (b ++ [DQUOTE])). destruct H as [-> | ->]; unfold new_quote.
  - apply (nq_safe b' v' Q' _ 0 1 (DQUOTE :: b')); [discriminate|reflexivity|simpl; lia|lia|simpl; lia].
  - eexists. apply (nq_value b' v' Q' _ 0 1 (DQUOTE :: b' ++ [DQUOTE]) DQUOTE); [reflexivity|lia|simpl; rewrite app_length; lia].
Qed.
Lemma spell_quoted s : quoted (flat_map spell_char s) s.
Proof.
  induction s as [|c s IH]; [constructor|]. cbn [flat_map]. unfold spell_char. destruct (byte_eqb_spec c DQUOTE) as [->|N1]; [apply quoted_esc; [simpl; auto|exact IH]|].
  destruct (byte_eqb_spec c BSLASH) as [->|N2]; [apply quoted_esc; [simpl; auto|exact IH]|]. destruct (byte_eqb_spec c LF) as [->|N3]; [apply quoted_lf; exact IH|]. apply quoted_plain; assumption.
Qed.
Lemma spell_literal s : literal (spell s) s.
Proof. exists (flat_map spell_char s). split; [reflexivity|apply spell_quoted]. Qed.
Lemma spell_nul s : ~ In NUL s -> ~ In NUL (spell s).
Proof.
  intros N H. destruct H as [H|H]; [discriminate|]. apply in_app_or in H. destruct H as [H|[H|[]]]; [|discriminate]. apply in_flat_map in H. destruct H as (c & HI & HC).
  unfold spell_char in HC. destruct (byte_eqb_spec c DQUOTE); [simpl in HC; intuition discriminate|]. destruct (byte_eqb_spec c BSLASH); [simpl in HC; intuition discriminate|].
  destruct (byte_eqb_spec c LF); [simpl in HC; intuition discriminate|]. destruct HC as [->|[]]. contradiction.
Qed.

(** ** What follows a token *)
Definition next_ok (P : ascii -> Prop) (s : bytes) : Prop := match s with [] => True | c :: _ => ~ P c end.
Definition act_of (w : bytes) : action := match w with [] => AError | c :: t => snd (lex1 c t) end.

Lemma num_tail_app a s : Forall digit a -> num_tail (a ++ s) = length a + num_tail s.
Proof. induction 1 as [|c a H _ IH]; [reflexivity|]. cbn [app num_tail]. apply digit_iff in H. rewrite H, IH. reflexivity. Qed.
Lemma digits_run a s : Forall digit a -> next_ok digit s -> run is_digit (a ++ s) = a.
Proof.
  intros F N. rewrite run_app by (eapply Forall_iff; [intro; apply digit_iff|exact F]). rewrite run_stop; [apply app_nil_r|]. destruct s as [|c s]; [exact I|]. simpl in N. rewrite <- digit_iff in N. destruct (is_digit c); [exfalso; auto|reflexivity].
Qed.
Lemma num_tail_end r s : (r = [] /\ next_ok (fun c => digit c \/ c = "."%char) s) \/ (exists f, r = "."%char :: f /\ Forall digit f /\ next_ok digit s) -> num_tail (r ++ s) = length r.
Proof.
  intros [[-> N]|(f & -> & F & N)].
  - destruct s as [|c s]; [reflexivity|]. simpl in N. cbn [app num_tail length]. destruct (is_digit c) eqn:D; [apply digit_iff in D; tauto|]. destruct (byte_eqb_spec "." c) as [<-|Q]; [tauto|reflexivity].
  - cbn [app num_tail length]. change (is_digit ".") with false. rewrite byte_eqb_refl. f_equal. rewrite digits_run by assumption. reflexivity.
Qed.
Lemma num_first w : number w -> exists c t, w = c :: t /\ is_punct c = false /\ is_alpha_ c = false.
Proof.
  assert (DG : forall c, digit c -> is_punct c = false /\ is_alpha_ c = false).
  { intros c H. apply digit_iff in H. pose proof (every_byte (fun c => negb (is_digit c) || (negb (is_punct c) && negb (is_alpha_ c))) eq_refl c) as Q. cbv beta in Q. rewrite H in Q. cbn [negb orb] in Q. apply andb_true_iff in Q. destruct Q as [Q1 Q2]. apply negb_true_iff in Q1, Q2. auto. }
  intros (sg & a & r & Sg & -> & Fa & Hr). destruct Sg as [->|[-> | ->]]; [|eexists _, _; split; [reflexivity|]; auto|eexists _, _; split; [reflexivity|]; auto].
  destruct Hr as [[N _]|[-> (f & _ & _ & ->)]]; [|eexists _, _; split; [reflexivity|]; auto]. destruct a as [|c a]; [contradiction|]. inversion Fa; subst. eexists _, _. split; [reflexivity|]. apply DG. assumption.
Qed.
Lemma number_more sg a r c : signed sg -> Forall digit a -> digit c ->
  (a <> [] /\ (r = [] \/ exists f, Forall digit f /\ r = "."%char :: f) \/ a = [] /\ exists f, f <> [] /\ Forall digit f /\ r = "."%char :: f) -> number ((sg ++ a ++ r) ++ [c]).
Proof.
  intros Sg Fa D Hr. destruct Hr as [[N [->|(f & Ff & ->)]]|[-> (f & Nf & Ff & ->)]].
  - exists sg, (a ++ [c]), []. split; [exact Sg|]. split; [rewrite !app_nil_r, app_assoc; reflexivity|]. split; [apply Forall_app; auto|]. left. split; [intro Q; apply app_eq_nil in Q; destruct Q; discriminate|auto].
  - exists sg, a, ("."%char :: f ++ [c]). split; [exact Sg|]. split; [rewrite <- !app_assoc; reflexivity|]. split; [exact Fa|]. left. split; [exact N|]. right. eexists. split; [|reflexivity]. apply Forall_app; auto.
  - exists sg, [], ("."%char :: f ++ [c]). split; [exact Sg|]. split; [rewrite <- !app_assoc; reflexivity|]. split; [constructor|]. right. split; [reflexivity|]. exists (f ++ [c]). split; [intro Q; apply app_eq_nil in Q; destruct Q; discriminate|]. split; [apply Forall_app; auto|reflexivity].
Qed.
Lemma num_whole w s : number w -> next_ok (fun c => number (w ++ [c])) s -> num_len (w ++ s) = Some (length w).
Proof.
  intros (sg & a & r & Sg & -> & Fa & Hr) N.
  assert (ND : next_ok digit s) by (destruct s as [|c s]; [exact I|]; simpl in *; intro D; apply N; apply number_more; assumption).
  assert (TL : a <> [] -> num_tail (r ++ s) = length r).
  { intro NA. apply num_tail_end. destruct Hr as [[_ [->|(f & Ff & ->)]]|[-> _]]; [left|right; eauto|contradiction]. split; [reflexivity|]. destruct s as [|c s]; [exact I|]. simpl in *. intros [D| ->]; [tauto|]. apply N.
    exists sg, a, ["."%char]. split; [exact Sg|]. split; [rewrite app_nil_r, <- app_assoc; reflexivity|]. split; [exact Fa|]. left. split; [exact NA|]. right. exists []. auto. }
  assert (BODY : forall c a', a = c :: a' -> num_tail (a' ++ r ++ s) = length a' + length r).
  { intros c a' ->. inversion Fa; subst. rewrite num_tail_app by assumption. rewrite TL by discriminate. reflexivity. }
  assert (FR : forall f, a = [] -> r = "."%char :: f -> f <> [] -> Forall digit f -> frac_len (f ++ s) = Some (length f)).
  { intros f _ _ Nf Ff. destruct f as [|d f]; [contradiction|]. inversion Ff; subst. cbn [app frac_len]. apply digit_iff in H1. rewrite H1. rewrite digits_run by assumption. reflexivity. }
  rewrite <- !app_assoc. destruct a as [|d a].
  - destruct Hr as [[NA _]|[_ (f & Nf & Ff & ->)]]; [contradiction|]. specialize (FR f eq_refl eq_refl Nf Ff).
    destruct Sg as [->|[-> | ->]]; cbn [app B list_ascii_of_string num_len]; change (is_digit ".") with false; change (is_digit "-") with false; change (is_digit "+") with false; change (byte_eqb "." "-") with false; change (byte_eqb "." "+") with false;
      change (sign_char "-") with true; change (sign_char "+") with true; rewrite ?byte_eqb_refl; cbn [app]; rewrite FR; reflexivity.
  - specialize (BODY d a eq_refl). inversion Fa; subst. apply digit_iff in H1.
    destruct Sg as [->|[-> | ->]]; cbn [app B list_ascii_of_string num_len]; change (is_digit "-") with false; change (is_digit "+") with false; change (byte_eqb "." "-") with false; change (byte_eqb "." "+") with false;
      change (sign_char "-") with true; change (sign_char "+") with true; cbn [app]; rewrite H1, BODY; cbn [length app]; rewrite ?app_length; reflexivity.
Qed.
Lemma str_end_app b v s : quoted b v -> str_end (b ++ DQUOTE :: s) = Some (S (length b)).
Proof.
  induction 1 as [|c b v N1 N2 N3 Q IH|e b v He Q IH|b v Q IH]; cbn [app str_end].
  - reflexivity.
  - destruct (byte_eqb_spec c DQUOTE); [contradiction|]. destruct (byte_eqb_spec c BSLASH); [contradiction|]. destruct (byte_eqb_spec c LF); [contradiction|]. rewrite IH. reflexivity.
  - replace (str_esc e) with true by (simpl in He; destruct He as [<-|[<-|[<-|[<-|[]]]]]; reflexivity). rewrite IH. reflexivity.
  - change (str_esc "n") with true. rewrite IH. reflexivity.
Qed.
Lemma lex_token w s : token w -> next_ok (joins_on w) s -> exists c t, w ++ s = c :: t /\ lex1 c t = (length w, act_of w).
Proof.
  intros T N. assert (GEN : forall k, (forall s', next_ok (joins_on w) s' -> exists c t, w ++ s' = c :: t /\ lex1 c t = (length w, k)) -> exists c t, w ++ s = c :: t /\ lex1 c t = (length w, act_of w)).
  { intros k H. destruct (H [] I) as (c0 & t0 & E0 & L0). rewrite app_nil_r in E0. destruct (H s N) as (c & t & E & L). exists c, t. split; [exact E|]. rewrite L. f_equal. unfold act_of. rewrite E0, L0. reflexivity. }
  destruct T as [(c & -> & P)|[(c & r & -> & Lc & Wr)|[Nm|(v & b & -> & Q)]]].
  - apply (GEN (APunct c)). intros s' _. exists c, s'. split; [reflexivity|]. unfold lex1. apply punct_iff in P. rewrite P. reflexivity.
  - apply (GEN (match kw_index (c :: r) kws with Some n => AKw n | None => AId end)). intros s' N'. exists c, (r ++ s'). split; [reflexivity|]. apply letter_iff in Lc. unfold lex1. rewrite (alpha_not_punct c Lc), Lc. cbv zeta.
    replace (run is_alnum_ (r ++ s')) with r; [reflexivity|]. rewrite run_app by (eapply Forall_iff; [intro; apply wordy_iff|exact Wr]). rewrite run_stop; [rewrite app_nil_r; reflexivity|].
    destruct s' as [|d s']; [exact I|]. simpl in N'. destruct (is_alnum_ d) eqn:W; [|reflexivity]. exfalso. apply N'. left. split; [exists c, r; split; [reflexivity|]; split; [apply letter_iff; exact Lc|exact Wr]|apply wordy_iff; exact W].
  - apply (GEN ANum). intros s' N'. destruct (num_first w Nm) as (c & t & -> & P1 & P2). exists c, (t ++ s'). split; [reflexivity|]. unfold lex1. rewrite P1, P2. change (c :: t ++ s') with ((c :: t) ++ s').
    rewrite num_whole; [reflexivity|exact Nm|]. destruct s' as [|d s']; [exact I|]. simpl in *. intro Q. apply N'. right. split; [exact Nm|exact Q].
  - apply (GEN AStr). intros s' _. exists DQUOTE, (b ++ DQUOTE :: s'). split; [cbn [app]; rewrite <- app_assoc; reflexivity|]. unfold lex1. change (is_punct DQUOTE) with false. change (is_alpha_ DQUOTE) with false. change (num_len (DQUOTE :: b ++ DQUOTE :: s')) with (@None nat).
    rewrite byte_eqb_refl, (str_end_app _ _ _ Q). cbn [length]. rewrite app_length. cbn [length]. repeat f_equal. lia.
Qed.

(** ** Token values *)
Section Values.
  Context {A : Arith} {E : Env}.
  Definition val (w : bytes) (a : action) : list tok :=
    match a with
    | APunct c => [TP c] | AKw n => [TKw n] | AId => [TId (cstr w)]
    | ANum => [match stof (cstr w) with Some f => TNum f | None => TThrow end]
    | AStr => [TStr (match new_quote (cstr w) with Ret u => u | Abort _ => [] end)]
    | ASkip => [] | AError => [TErr (cstr w)]
    end.
  Inductive reads : bytes -> list tok -> Prop :=
  | reads_nil : reads [] []
  | reads_step c t n a vs : lex1 c t = (n, a) -> reads (skipn n (c :: t)) vs -> reads (c :: t) (val (firstn n (c :: t)) a ++ vs).
  Lemma reads_tokens fuel : forall line s vs, length s <= fuel -> reads s vs -> exists l ts, scan fuel line s = Some l /\ toks_of l = Ret ts /\ map t_tok ts = vs.
  Proof.
    induction fuel as [|fuel IH]; intros line s vs L R.
    - destruct R; [exists [], []; auto|simpl in L; lia].
    - destruct R as [|c t n a vs EL R]; [exists [], []; auto|]. destruct (lex_piece _ _ _ _ EL) as [Ln P]. destruct n as [|n]; [lia|]. cbn [scan]. rewrite best_lex, EL.
      destruct (IH (line + count_lf (firstn (S n) (c :: t))) (skipn (S n) (c :: t)) vs) as (l & ts & E1 & E2 & E3); [rewrite skipn_length; simpl in *; lia|exact R|]. rewrite E1.
      set (w := firstn (S n) (c :: t)) in *. set (ln := line + count_lf w) in *.
      assert (TK : tok_of (Lexeme ln w a) = Ret (match val w a with [] => None | v :: _ => Some (LTok ln v) end)).
      { unfold tok_of. cbn [lx_act lx_text lx_line]. destruct a; try reflexivity. destruct P as [v P]. destruct (quote_safe w v P) as [u Hu]. cbn [val]. rewrite Hu. reflexivity. }
      exists (Lexeme ln w a :: l). cbn [toks_of]. rewrite TK, E2. cbn [obind]. eexists. split; [reflexivity|]. split; [reflexivity|].
      destruct a; cbn [val map app t_tok]; rewrite ?E3; reflexivity.
  Qed.
  Lemma reads_all s : exists vs, reads s vs.
  Proof.
    assert (H : forall k s, length s <= k -> exists vs, reads s vs); [|exact (H _ s (le_n _))]. clear s.
    induction k as [|k IH]; intros s L; (destruct s as [|c t]; [exists []; constructor|]); [simpl in L; lia|]. destruct (lex1 c t) as [n a] eqn:EL. destruct (lex_piece _ _ _ _ EL) as [Ln _]. destruct n as [|n]; [lia|].
    destruct (IH (skipn (S n) (c :: t))) as [vs H]; [rewrite skipn_length; simpl in *; lia|]. eexists. econstructor; eassumption.
  Qed.
  Lemma tokens_total s : exists ts, tokens s = Ret ts.
  Proof. destruct (reads_all s) as [vs H]. destruct (reads_tokens (length s) 1 s vs (le_n _) H) as (l & ts & E1 & E2 & _). exists ts. unfold tokens, scan_all. rewrite E1. exact E2. Qed.
  Lemma tokens_of s vs : reads s vs -> exists ts, tokens s = Ret ts /\ map t_tok ts = vs.
  Proof. intro H. destruct (reads_tokens (length s) 1 s vs (le_n _) H) as (l & ts & E1 & E2 & E3). exists ts. split; [|exact E3]. unfold tokens, scan_all. rewrite E1. exact E2. Qed.
  Lemma reads_blank c s vs : blank c -> reads s vs -> reads (c :: s) vs.
  Proof.
    intros Bc R. assert (EL : lex1 c s = (1, ASkip)) by (simpl in Bc; destruct Bc as [<-|[<-|[<-|[<-|[]]]]]; reflexivity).
    exact (reads_step c s 1 ASkip vs EL R).
  Qed.
  Lemma reads_comment t s vs : ~ In LF t -> next_ok (fun c => c <> LF) s -> reads s vs -> reads (B "//" ++ t ++ s) vs.
  Proof.
    intros Nt Ns R. change (B "//" ++ t ++ s) with ("/"%char :: "/"%char :: t ++ s). assert (EL : lex1 "/" ("/"%char :: t ++ s) = (S (S (length t)), ASkip)).
    { unfold lex1. change (is_punct "/") with false. change (is_alpha_ "/") with false. change (num_len ("/"%char :: "/"%char :: t ++ s)) with (@None nat). change (byte_eqb "/" DQUOTE) with false. change (is_ws "/") with false. rewrite byte_eqb_refl.
      rewrite run_app by (apply noLF_iff; exact Nt). rewrite run_stop; [rewrite app_nil_r; reflexivity|]. destruct s as [|c s]; [exact I|]. simpl in Ns. unfold not_lf. apply negb_false_iff, byte_eqb_eq. destruct (ascii_dec c LF); [assumption|contradiction]. }
    assert (SK : skipn (S (S (length t))) ("/"%char :: "/"%char :: t ++ s) = s) by (cbn [skipn]; rewrite skipn_app, Nat.sub_diag, skipn_all; reflexivity).
    refine (reads_step _ _ _ _ vs EL _). rewrite SK. exact R.
  Qed.
  Lemma reads_layout g s vs : layout g -> reads s vs -> reads (g ++ s) vs.
  Proof.
    intros H R. induction H as [|c g Bc H IH|t g Nt H IH]; [exact R|apply reads_blank; assumption|]. rewrite <- !app_assoc. cbn [app]. apply reads_comment; [exact Nt|intro Q; apply Q; reflexivity|]. apply reads_blank; [right; right; left; reflexivity|exact IH].
  Qed.
  Lemma reads_last g : last_layout g -> reads g [].
  Proof.
    intros (g1 & g2 & -> & H1 & H2). apply reads_layout; [exact H1|]. destruct H2 as [->|(t & -> & Nt)]; [constructor|]. rewrite <- (app_nil_r t). apply reads_comment; [exact Nt|exact I|constructor].
  Qed.
  Lemma reads_token w s vs : token w -> next_ok (joins_on w) s -> reads s vs -> reads (w ++ s) (val w (act_of w) ++ vs).
  Proof.
    intros T N R. destruct (lex_token w s T N) as (c & t & E1 & E2). rewrite E1. replace w with (firstn (length w) (c :: t)) at 1 by (rewrite <- E1; apply firstn_len).
    refine (reads_step _ _ _ _ vs E2 _). rewrite <- E1, skipn_app, Nat.sub_diag, skipn_all. exact R.
  Qed.
  Lemma arranged_reads ws s : arranged ws s -> reads s (flat_map (fun w => val w (act_of w)) ws).
  Proof. induction 1 as [g H|g w ws s H T HA IH N]; [apply reads_last; exact H|]. apply reads_layout; [exact H|]. cbn [flat_map]. apply reads_token; assumption. Qed.
  Lemma token_single w : token w -> arranged [w] w.
  Proof. intro T. rewrite <- (app_nil_r w) at 2. apply (arranged_token [] w [] []); [constructor|exact T| |exact I]. constructor. exists [], []. split; [reflexivity|]. split; [constructor|left; reflexivity]. Qed.
  Lemma literal_act w v : literal w v -> act_of w = AStr.
  Proof.
    intros (b & -> & Q). unfold act_of, lex1. change (is_punct DQUOTE) with false. change (is_alpha_ DQUOTE) with false. change (num_len (DQUOTE :: b ++ [DQUOTE])) with (@None nat).
    rewrite byte_eqb_refl, (str_end_app _ _ _ Q). reflexivity.
  Qed.
  Lemma one_token w v : token w -> val w (act_of w) = [v] -> tokens w = Ret [LTok 1 v].
  Proof.
    intros T V. destruct (scanned w) as (l & E1 & E2 & E3 & E4 & _). destruct (tokens_of w [v]) as (ts & H1 & H2). { pose proof (arranged_reads _ _ (token_single w T)) as R. cbn [flat_map] in R. rewrite V in R. exact R. }
    destruct (lex_token w [] T I) as (c & t & F1 & F2). rewrite app_nil_r in F1.
    assert (SC : scan_all w = Some [Lexeme (1 + count_lf w) w (act_of w)]).
    { unfold scan_all. rewrite F1. cbn [length scan]. rewrite best_lex, F2. rewrite <- F1. destruct (length w) as [|n] eqn:LW; [destruct w; [discriminate|discriminate LW]|]. rewrite <- LW.
      rewrite firstn_all, skipn_all. destruct (length t); reflexivity. }
    rewrite SC in E1. injection E1 as <-. pose proof (E4 [] (Lexeme (1 + count_lf w) w (act_of w)) [] eq_refl) as LN. cbn [lx_act lx_line flat_map] in LN.
    assert (NS : act_of w <> ASkip) by (intro Q; rewrite Q in V; discriminate). specialize (LN NS). change (newlines []) with 0 in LN.
    unfold tokens in *. rewrite SC in *. cbn [toks_of] in *. destruct (tok_of (Lexeme (1 + count_lf w) w (act_of w))) as [o|e] eqn:TK; [|discriminate]. cbn [obind] in *.
    unfold tok_of in TK. cbn [lx_act lx_text lx_line] in TK. rewrite LN in TK.
    destruct (act_of w); cbn [val] in V; try (injection TK as <-; injection V as <-; rewrite ?LN; reflexivity); try contradiction.
    destruct (new_quote (cstr w)); [|discriminate]. injection TK as <-. injection V as <-. reflexivity.
  Qed.
  Lemma literal_token w v : literal w v -> ~ In NUL w -> tokens w = Ret [LTok 1 (TStr v)].
  Proof.
    intros H N. apply one_token; [right; right; right; eauto|]. rewrite (literal_act w v H). cbn [val]. rewrite (quote_value w v H N). reflexivity.
  Qed.
End Values.
