(** P_Lex.v - what the scanner does, by the first byte. *)
From Verif Require Import Base Regex Lexer P_Base.

Local Unset Implicit Arguments.

Fixpoint run (p : ascii -> bool) (s : bytes) : bytes := match s with [] => [] | c :: t => if p c then c :: run p t else [] end.
Lemma run_all p s : Forall (fun c => p c = true) (run p s).
Proof. induction s as [|c t IH]; simpl; [constructor|]. destruct (p c) eqn:P; constructor; assumption. Qed.
Lemma run_prefix p s : exists r, s = run p s ++ r /\ match r with [] => True | c :: _ => p c = false end.
Proof.
  induction s as [|c t (r & E1 & E2)]; simpl; [exists []; auto|]. destruct (p c) eqn:P; [|exists (c :: t); auto]. exists r. split; [simpl; congruence|exact E2].
Qed.
Lemma run_app p a b : Forall (fun c => p c = true) a -> run p (a ++ b) = a ++ run p b.
Proof. induction 1 as [|c a H _ IH]; [reflexivity|]. simpl. rewrite H, IH. reflexivity. Qed.
Lemma run_stop p s : match s with [] => True | c :: _ => p c = false end -> run p s = [].
Proof. destruct s as [|c t]; [reflexivity|]. simpl. intros ->. reflexivity. Qed.

(** ** Longest matches of the expressions used *)
Lemma longest_none_re s : longest RNone s = None.
Proof. destruct (longest RNone s) as [n|] eqn:L; [|reflexivity]. apply longest_some in L. destruct L as (_ & L & _). exfalso; exact (lang_none L). Qed.
Lemma longest_eps s : longest REps s = Some 0.
Proof. destruct s as [|c t]; [reflexivity|]. simpl. rewrite longest_none_re. reflexivity. Qed.
Lemma longest_chr p c t : longest (RChr p) (c :: t) = if p c then Some 1 else None.
Proof. simpl. destruct (p c); [rewrite longest_eps|rewrite longest_none_re]; reflexivity. Qed.
Lemma longest_star p s : longest (RStar (RChr p)) s = Some (length (run p s)).
Proof. induction s as [|c t IH]; [reflexivity|]. cbn [longest deriv run nullable]. destruct (p c); cbn [mkcat length]; [rewrite IH|rewrite longest_none_re]; reflexivity. Qed.
Definition dead (c : ascii) (r : re) : bool := negb (nullable r) && match deriv c r with RNone => true | _ => false end.
Lemma dead_longest c r t : dead c r = true -> longest r (c :: t) = None.
Proof. unfold dead. cbn [longest]. destruct (nullable r); [discriminate|]. destruct (deriv c r); try discriminate. intros _. rewrite longest_none_re. reflexivity. Qed.
Fixpoint prefix (k s : bytes) : bool := match k, s with [], _ => true | a :: k', b :: s' => byte_eqb a b && prefix k' s' | _, [] => false end.
Lemma prefix_app k s : prefix k s = true <-> exists r, s = k ++ r.
Proof.
  revert s. induction k as [|a k IH]; intro s; simpl; [split; eauto|]. destruct s as [|b s]; [split; [discriminate|intros [r H]; discriminate]|].
  rewrite andb_true_iff, IH, byte_eqb_eq. split; [intros [-> (r & ->)]; eauto|]. intros (r & H). injection H as -> ->. eauto.
Qed.
Lemma longest_lit k s : longest (RLit k) s = if prefix k s then Some (length k) else None.
Proof.
  revert s. induction k as [|a k IH]; intro s; [apply longest_eps|]. destruct s as [|b s]; [reflexivity|].
  cbn [RLit longest deriv nullable RC prefix length]. destruct (byte_eqb a b); cbn [andb mkcat].
  - assert (EQ : mkcat REps (RLit k) = RLit k) by (destruct k; reflexivity). change (mkcat REps (RLit k)) with (match RLit k with RNone => RNone | _ => RLit k end) in *.
    replace (match RLit k with RNone => RNone | _ => RLit k end) with (RLit k) by (destruct k; reflexivity). rewrite IH. destruct (prefix k s); reflexivity.
  - rewrite longest_none_re. reflexivity.
Qed.
Lemma longest_id c t : is_alpha_ c = true -> longest re_id (c :: t) = Some (S (length (run is_alnum_ t))).
Proof. intro H. unfold re_id. cbn [longest deriv nullable]. rewrite H. cbn [mkcat]. rewrite longest_star. reflexivity. Qed.
(** After the first digit. *)
Definition re_tail : re := RCat (RStar (RChr is_digit)) (ROpt (RCat (RC ".") (RStar (RChr is_digit)))).
Fixpoint num_tail (s : bytes) : nat :=
  match s with
  | [] => 0
  | c :: t => if is_digit c then S (num_tail t) else if byte_eqb "." c then S (length (run is_digit t)) else 0
  end.
Lemma dot_digit c : byte_eqb "." c = true -> is_digit c = false.
Proof. intro H. apply byte_eqb_eq in H. subst c. reflexivity. Qed.
Lemma longest_tail s : longest re_tail s = Some (num_tail s).
Proof.
  induction s as [|c t IH]; [reflexivity|]. unfold re_tail in *. cbn [longest num_tail nullable andb orb ROpt]. cbn [deriv nullable RC ROpt mkalt].
  destruct (is_digit c) eqn:D; [|destruct (byte_eqb "." c) eqn:P]; cbn [mkcat mkalt].
  - destruct (byte_eqb "." c) eqn:P; [rewrite (dot_digit c P) in D; discriminate|]. cbn [mkcat mkalt]. match goal with |- context [longest ?q t] => change (longest q t) with (longest re_tail t) end. unfold re_tail, ROpt, RC. unfold ROpt, RC in IH. rewrite IH. reflexivity.
  - rewrite longest_star. reflexivity.
  - rewrite longest_none_re. reflexivity.
Qed.
Definition sign_char (c : ascii) : bool := byte_eqb c "-" || byte_eqb c "+".
Lemma sign_not c : sign_char c = true -> is_digit c = false /\ byte_eqb "." c = false.
Proof. unfold sign_char. intro H. apply orb_true_iff in H. destruct H as [H|H]; apply byte_eqb_eq in H; subst c; split; reflexivity. Qed.
Lemma longest_num1_digit c t : is_digit c = true -> longest re_num1 (c :: t) = Some (S (num_tail t)).
Proof.
  intro H. unfold re_num1, re_sign, ROpt, RPlus. cbn [longest deriv nullable andb orb]. destruct (byte_eqb c "-" || byte_eqb c "+") eqn:Sg; [destruct (sign_not c Sg); congruence|].
  rewrite H. cbn [mkcat mkalt]. change (RCat (RStar (RChr is_digit)) (RAlt (RCat (RC ".") (RStar (RChr is_digit))) REps)) with re_tail. rewrite longest_tail. reflexivity.
Qed.
Lemma longest_num1_sign c t : sign_char c = true ->
  longest re_num1 (c :: t) = match t with d :: t' => if is_digit d then Some (S (S (num_tail t'))) else None | [] => None end.
Proof.
  intro H. destruct (sign_not c H) as [H1 H2]. unfold re_num1, re_sign, ROpt, RPlus. cbn [longest deriv nullable andb orb]. unfold sign_char in H. rewrite H, H1. cbn [mkcat mkalt].
  destruct t as [|d t]; [reflexivity|]. cbn [longest deriv nullable andb orb]. destruct (is_digit d); cbn [mkcat mkalt]; [|rewrite longest_none_re; reflexivity].
  change (RCat (RStar (RChr is_digit)) (RAlt (RCat (RC ".") (RStar (RChr is_digit))) REps)) with re_tail. rewrite longest_tail. reflexivity.
Qed.
Lemma longest_num1_dot t : longest re_num1 ("."%char :: t) = None.
Proof. apply dead_longest. reflexivity. Qed.
Definition frac_len (s : bytes) : option nat := match s with d :: t => if is_digit d then Some (S (length (run is_digit t))) else None | [] => None end.
Lemma longest_plus p s : longest (RCat (RChr p) (RStar (RChr p))) s = match s with d :: t => if p d then Some (S (length (run p t))) else None | [] => None end.
Proof. destruct s as [|d t]; [reflexivity|]. cbn [longest deriv nullable andb]. destruct (p d); cbn [mkcat]; [rewrite longest_star|rewrite longest_none_re]; reflexivity. Qed.
Lemma longest_num2_dot t : longest re_num2 ("."%char :: t) = option_map S (frac_len t).
Proof.
  unfold re_num2, re_sign, ROpt, RPlus. cbn [longest deriv nullable andb orb RC]. change (byte_eqb "." "-" || byte_eqb "." "+") with false. rewrite byte_eqb_refl. cbn [mkcat mkalt].
  rewrite longest_plus. unfold frac_len. destruct t as [|d t]; [reflexivity|]. destruct (is_digit d); reflexivity.
Qed.
Lemma longest_num2_digit c t : is_digit c = true -> longest re_num2 (c :: t) = None.
Proof.
  intro H. unfold re_num2, re_sign, ROpt, RPlus. cbn [longest deriv nullable andb orb RC]. destruct (byte_eqb c "-" || byte_eqb c "+") eqn:Sg; [destruct (sign_not c Sg); congruence|].
  destruct (byte_eqb "." c) eqn:P; [rewrite (dot_digit c P) in H; discriminate|]. cbn [mkcat mkalt]. rewrite longest_none_re. reflexivity.
Qed.
Lemma longest_num2_sign c t : sign_char c = true ->
  longest re_num2 (c :: t) = match t with d :: t' => if byte_eqb "." d then option_map (fun n => S (S n)) (frac_len t') else None | [] => None end.
Proof.
  intro H. destruct (sign_not c H) as [H1 H2]. unfold re_num2, re_sign, ROpt, RPlus. cbn [longest deriv nullable andb orb RC]. unfold sign_char in H. rewrite H, H2. cbn [mkcat mkalt].
  destruct t as [|d t]; [reflexivity|]. cbn [longest deriv nullable andb orb RC]. destruct (byte_eqb "." d); cbn [mkcat mkalt]; [|rewrite longest_none_re; reflexivity].
  rewrite longest_plus. unfold frac_len. destruct t as [|e t]; [reflexivity|]. destruct (is_digit e); reflexivity.
Qed.
(** After the opening quote: the length up to and with the closing one. *)
Fixpoint str_end (s : bytes) : option nat :=
  match s with
  | [] => None
  | c :: t =>
      if byte_eqb c DQUOTE then Some 1
      else if byte_eqb c BSLASH then match t with e :: t' => if str_esc e then option_map (fun n => S (S n)) (str_end t') else None | [] => None end
      else if byte_eqb c LF then None else option_map S (str_end t)
  end.
Definition re_body : re := RStar (RAlt (RChr str_plain) (RCat (RC BSLASH) (RChr str_esc))).
Lemma longest_body_len n : forall s, length s <= n -> longest (RCat re_body (RC DQUOTE)) s = str_end s.
Proof.
  induction n as [|n IH]; intros s L; (destruct s as [|c t]; [reflexivity|]); [simpl in L; lia|]. cbn [str_end].
  assert (IHt : longest (RCat re_body (RC DQUOTE)) t = str_end t) by (apply IH; simpl in L; lia).
  unfold re_body, RC in *. cbn [longest deriv nullable andb]. unfold str_plain at 1. destruct (byte_eqb_spec c DQUOTE) as [->|N1].
  - change (byte_eqb BSLASH DQUOTE) with false. change (byte_eqb DQUOTE DQUOTE) with true. cbn [orb negb mkcat mkalt]. rewrite longest_eps. reflexivity.
  - replace (byte_eqb DQUOTE c) with false by (symmetry; apply byte_eqb_neq; congruence). cbn [orb]. destruct (byte_eqb_spec c BSLASH) as [->|N2].
    + rewrite byte_eqb_refl. cbn [orb negb mkcat mkalt]. destruct t as [|e t]; [reflexivity|]. cbn [longest deriv nullable andb]. destruct (str_esc e); cbn [mkcat mkalt]; [|rewrite longest_none_re; reflexivity].
      rewrite IH by (simpl in L; lia). destruct (str_end t); reflexivity.
    + replace (byte_eqb BSLASH c) with false by (symmetry; apply byte_eqb_neq; congruence). cbn [orb]. destruct (byte_eqb c LF); cbn [negb mkcat mkalt].
      * rewrite longest_none_re. reflexivity.
      * rewrite IHt. destruct (str_end t); reflexivity.
Qed.
Lemma longest_str t : longest re_str (DQUOTE :: t) = option_map S (str_end t).
Proof.
  assert (D : deriv DQUOTE re_str = RCat re_body (RC DQUOTE)) by reflexivity. cbn [longest]. rewrite D, (longest_body_len (length t) t (le_n _)). destruct (str_end t); reflexivity.
Qed.
Lemma longest_comment t : longest re_comment ("/"%char :: t) = match t with d :: t' => if byte_eqb "/" d then Some (S (S (length (run not_lf t')))) else None | [] => None end.
Proof.
  assert (D : deriv "/" re_comment = RCat (RCat (RC "/") REps) (RStar (RChr not_lf))) by reflexivity. cbn [longest]. rewrite D.
  destruct t as [|d t]; [reflexivity|]. assert (D2 : deriv d (RCat (RCat (RC "/") REps) (RStar (RChr not_lf))) = if byte_eqb "/" d then RStar (RChr not_lf) else RNone) by (cbn [deriv nullable RC andb]; destruct (byte_eqb "/" d); reflexivity).
  cbn [longest]. rewrite D2. destruct (byte_eqb "/" d); [rewrite longest_star|rewrite longest_none_re]; reflexivity.
Qed.

(** ** The chosen rule *)
Lemma best_le rs s n : (forall r a m, In (r, a) rs -> longest r s = Some m -> m <= n) -> match best rs s with Some (m, _) => m <= n | None => True end.
Proof.
  induction rs as [|[r a] rs IH]; intro H; simpl; [exact I|]. specialize (IH (fun r' a' m HI => H r' a' m (or_intror HI))).
  destruct (longest r s) as [k|] eqn:L; [|exact IH]. pose proof (H r a k (or_introl eq_refl) L). destruct (best rs s) as [[m b]|]; [|exact H0]. destruct (k <? m); [exact IH|exact H0].
Qed.
Lemma best_intro pre r a post s n : longest r s = Some n -> (forall r' a' m, In (r', a') pre -> longest r' s = Some m -> m < n) ->
  (forall r' a' m, In (r', a') post -> longest r' s = Some m -> m <= n) -> best (pre ++ (r, a) :: post) s = Some (n, a).
Proof.
  intros L H1 H2. induction pre as [|[r0 a0] pre IH].
  - simpl. rewrite L. pose proof (best_le post s n H2) as Q. destruct (best post s) as [[m b]|]; [|reflexivity]. destruct (Nat.ltb_spec n m); [lia|reflexivity].
  - simpl. rewrite IH by (intros r' a' m HI; apply (H1 r' a' m); right; exact HI). destruct (longest r0 s) as [k|] eqn:L0; [|reflexivity].
    pose proof (H1 r0 a0 k (or_introl eq_refl) L0). destruct (Nat.ltb_spec k n); [reflexivity|lia].
Qed.

Definition all_bytes : list ascii := map ascii_of_nat (seq 0 256).
Lemma all_bytes_in c : In c all_bytes.
Proof. unfold all_bytes. rewrite <- (ascii_nat_embedding c). apply in_map. apply in_seq. pose proof (nat_ascii_bounded c). lia. Qed.
Lemma every_byte (f : ascii -> bool) : forallb f all_bytes = true -> forall c, f c = true.
Proof. intros H c. rewrite forallb_forall in H. apply H, all_bytes_in. Qed.

Definition kws : list bytes := [B "angle"; B "dia"; B "dim"; B "draw"; B "load"; B "page"; B "rad"; B "text"].
Definition puncts : bytes := B "{}[]()=;:,@".
Definition is_punct (c : ascii) : bool := existsb (byte_eqb c) puncts.
Definition is_ws (c : ascii) : bool := byte_eqb c SP || byte_eqb c TAB || byte_eqb c LF || byte_eqb c CR.
Fixpoint kw_index (w : bytes) (l : list bytes) : option nat := match l with [] => None | k :: t => if bytes_eqb w k then Some 0 else option_map S (kw_index w t) end.

(** The number starting here, if any. *)
Definition num_len (s : bytes) : option nat :=
  match s with
  | [] => None
  | c :: t =>
      if is_digit c then Some (S (num_tail t))
      else if byte_eqb "." c then option_map S (frac_len t)
      else if sign_char c then
        match t with
        | d :: t' => if is_digit d then Some (S (S (num_tail t'))) else if byte_eqb "." d then option_map (fun n => S (S n)) (frac_len t') else None
        | [] => None
        end
      else None
  end.
(** What the scanner takes next. *)
Definition lex1 (c : ascii) (t : bytes) : nat * action :=
  if is_punct c then (1, APunct c)
  else if is_alpha_ c then
    let w := c :: run is_alnum_ t in (length w, match kw_index w kws with Some n => AKw n | None => AId end)
  else match num_len (c :: t) with
  | Some n => (n, ANum)
  | None =>
      if byte_eqb c DQUOTE then match str_end t with Some n => (S n, AStr) | None => (1, AError) end
      else if is_ws c then (1, ASkip)
      else if byte_eqb c "/" then match t with d :: t' => if byte_eqb "/" d then (S (S (length (run not_lf t'))), ASkip) else (1, AError) | [] => (1, AError) end
      else (1, AError)
  end.

Definition err_rule : re * action := (RChr not_lf, AError).
Lemma err_len c t m : longest (RChr not_lf) (c :: t) = Some m -> m = 1.
Proof. rewrite longest_chr. destruct (not_lf c); intro H; [injection H as <-; reflexivity|discriminate]. Qed.

(** All rules but the named ones cannot start with this byte. *)
Definition others (keep : action -> bool) (c : ascii) : bool := forallb (fun ra => keep (snd ra) || dead c (fst ra)) rules.
Lemma others_dead keep c r a m t : others keep c = true -> In (r, a) rules -> longest r (c :: t) = Some m -> keep a = true.
Proof.
  intros H HI L. unfold others in H. rewrite forallb_forall in H. specialize (H _ HI). cbn [fst snd] in H. apply orb_true_iff in H. destruct H as [H|H]; [exact H|].
  rewrite (dead_longest c r t H) in L. discriminate.
Qed.

Definition is_err (a : action) : bool := match a with AError => true | _ => false end.
Definition k_num (a : action) : bool := match a with ANum | AError => true | _ => false end.
Definition k_str (a : action) : bool := match a with AStr | AError => true | _ => false end.
Definition k_skip (a : action) : bool := match a with ASkip | AError => true | _ => false end.
Definition k_word (a : action) : bool := match a with AKw _ | AId | AError => true | _ => false end.
Definition k_punct (c : ascii) (a : action) : bool := match a with APunct d => byte_eqb d c | AError => true | _ => false end.
Definition class_ok (c : ascii) : bool :=
  if is_punct c then others (k_punct c) c && not_lf c
  else if is_alpha_ c then others k_word c && not_lf c
  else if is_digit c || byte_eqb "." c || sign_char c then others k_num c && not_lf c
  else if byte_eqb c DQUOTE then others k_str c
  else if is_ws c then others k_skip c && dead c re_comment
  else if byte_eqb c "/" then others k_skip c && dead c re_ws
  else others is_err c && not_lf c.
Lemma classes c : class_ok c = true.
Proof. apply every_byte. vm_compute. reflexivity. Qed.

Lemma rules_err r : In (r, AError) rules -> r = RChr not_lf.
Proof. unfold rules. intro H. repeat (destruct H as [H|H]; [injection H as <-; reflexivity || discriminate H|]). destruct H. Qed.
Lemma rules_kw r n : In (r, AKw n) rules -> exists k, nth_error kws n = Some k /\ r = RLit k.
Proof.
  unfold rules. intro H. repeat (destruct H as [H|H]; [first [discriminate H | injection H as <- <-; eexists; split; reflexivity]|]). destruct H.
Qed.
Lemma kws_words k : In k kws -> exists c r, k = c :: r /\ Forall (fun c => is_alnum_ c = true) (c :: r).
Proof. intro H. repeat (destruct H as [H|H]; [subst k; eexists _, _; split; [reflexivity|repeat constructor]|]). destruct H. Qed.
Lemma kw_index_some w l n : kw_index w l = Some n -> nth_error l n = Some w.
Proof.
  revert n. induction l as [|k l IH]; intro n; simpl; [discriminate|]. destruct (bytes_eqb w k) eqn:Q.
  - intro H; injection H as <-. apply bytes_eqb_eq in Q. subst. reflexivity.
  - destruct (kw_index w l) as [m|]; [|discriminate]. intro H; injection H as <-. simpl. apply IH. reflexivity.
Qed.
Lemma kw_index_none w l : kw_index w l = None -> ~ In w l.
Proof.
  induction l as [|k l IH]; simpl; [intros _ []|]. destruct (bytes_eqb w k) eqn:Q; [discriminate|]. apply bytes_eqb_neq in Q.
  destruct (kw_index w l); [discriminate|]. intros _ [H|H]; [congruence|apply IH; auto].
Qed.
Lemma run_longest p k s : Forall (fun c => p c = true) k -> prefix k s = true -> length k <= length (run p s) /\ (length k = length (run p s) -> run p s = k).
Proof.
  intros H P. apply prefix_app in P. destruct P as (r & ->). rewrite run_app by exact H. rewrite app_length. split; [lia|]. intro L. destruct (run p r); [apply app_nil_r|simpl in L; lia].
Qed.

Lemma nth_split_rules n r a : nth_error rules n = Some (r, a) -> exists pre post, rules = pre ++ (r, a) :: post /\ length pre = n.
Proof. intro H. apply nth_error_split in H. destruct H as (pre & post & H1 & H2). eauto. Qed.

Lemma best_lex c t : best rules (c :: t) = Some (lex1 c t).
Proof.
  pose proof (classes c) as K. unfold class_ok in K. unfold lex1. destruct (is_punct c) eqn:EP.
  { apply andb_true_iff in K. destruct K as [K NL]. assert (IN : exists n, n < 11 /\ nth_error rules n = Some (RC c, APunct c)).
    { unfold is_punct in EP. apply existsb_exists in EP. destruct EP as (d & HI & HE). apply byte_eqb_eq in HE. subst d. unfold puncts in HI. simpl in HI.
      repeat (destruct HI as [<-|HI]; [first [exists 0; split; [lia|reflexivity] | exists 1; split; [lia|reflexivity] | exists 2; split; [lia|reflexivity] | exists 3; split; [lia|reflexivity] | exists 4; split; [lia|reflexivity] | exists 5; split; [lia|reflexivity] | exists 6; split; [lia|reflexivity] | exists 7; split; [lia|reflexivity] | exists 8; split; [lia|reflexivity] | exists 9; split; [lia|reflexivity] | exists 10; split; [lia|reflexivity]]|]). destruct HI. }
    destruct IN as (n & Hn & IN). assert (UN : forall r d, In (r, APunct d) (firstn n rules) -> d <> c).
    { intros r d HI ->. apply In_nth_error in HI. destruct HI as (k & HK).
      assert (KL : k < n). { pose proof (proj1 (nth_error_Some (firstn n rules) k)) as Q. rewrite HK in Q. specialize (Q ltac:(discriminate)). rewrite firstn_length in Q. lia. }
      clear EP K NL. do 11 (destruct n as [|n]; [injection IN as _ IN; subst c; do 11 (destruct k as [|k]; [solve [lia | discriminate HK]|]); lia|]). lia. }
    destruct (nth_split_rules _ _ _ IN) as (pre & post & ER & LP). assert (FN : firstn n rules = pre) by (rewrite ER, <- LP; apply firstn_app_2 with (n := 0) || (rewrite firstn_app, Nat.sub_diag, firstn_all; apply app_nil_r)).
    rewrite ER. apply best_intro.
    - unfold RC. rewrite longest_chr, byte_eqb_refl. reflexivity.
    - intros r' a' m HI L. assert (HR : In (r', a') rules) by (rewrite ER; apply in_or_app; left; exact HI). pose proof (others_dead _ _ _ _ _ _ K HR L) as KK. destruct a'; try discriminate.
      + cbn in KK. apply byte_eqb_eq in KK. subst. rewrite <- FN in HI. exfalso. exact (UN _ _ HI eq_refl).
      + exfalso. assert (QQ : n < 11) by exact Hn. rewrite <- FN in HI. clear -HI QQ. do 11 (destruct n as [|n]; [simpl in HI; repeat (destruct HI as [HI|HI]; [discriminate HI|]); destruct HI|]). lia.
    - intros r' a' m HI L. assert (HR : In (r', a') rules) by (rewrite ER; apply in_or_app; right; right; exact HI). pose proof (others_dead _ _ _ _ _ _ K HR L) as KK. destruct a'; try discriminate.
      + cbn in KK. apply byte_eqb_eq in KK. subst c0. assert (RR : r' = RC c).
        { clear -HR. unfold rules in HR. simpl in HR. repeat (destruct HR as [HR|HR]; [first [discriminate HR | injection HR as <- <-; reflexivity]|]). destruct HR. }
        subst r'. unfold RC in L. rewrite longest_chr, byte_eqb_refl in L. injection L as <-. lia.
      + rewrite (rules_err _ HR) in L. apply err_len in L. lia. }
  destruct (is_alpha_ c) eqn:EA.
  { apply andb_true_iff in K. destruct K as [K NL]. assert (EAN : is_alnum_ c = true) by (unfold is_alnum_; rewrite EA; reflexivity).
    set (w := c :: run is_alnum_ t). assert (EW : run is_alnum_ (c :: t) = w) by (cbn [run]; rewrite EAN; reflexivity).
    assert (LK : forall n k m, nth_error kws n = Some k -> longest (RLit k) (c :: t) = Some m -> m <= length w /\ (m = length w -> k = w)).
    { intros n k m HK L. rewrite longest_lit in L. destruct (prefix k (c :: t)) eqn:P; [|discriminate]. injection L as <-.
      assert (FW : Forall (fun c => is_alnum_ c = true) k) by (destruct (kws_words k (nth_error_In _ _ HK)) as (a & r & -> & F); exact F).
      destruct (run_longest _ _ _ FW P) as [R1 R2]. rewrite EW in R1, R2. split; [exact R1|]. intro Q. symmetry. apply R2. exact Q. }
    assert (LW : 1 <= length w) by (simpl; lia).
    destruct (kw_index w kws) as [n|] eqn:KI.
    - pose proof (kw_index_some _ _ _ KI) as KN. assert (IN : nth_error rules (11 + n) = Some (RLit w, AKw n)).
      { clear -KN. clearbody w. do 8 (destruct n as [|n]; [simpl in KN; injection KN as KN; subst w; reflexivity|]). destruct n; discriminate. }
      destruct (nth_split_rules _ _ _ IN) as (pre & post & ER & LP). rewrite ER. apply best_intro.
      + rewrite longest_lit. replace (prefix w (c :: t)) with true; [reflexivity|symmetry]. apply prefix_app. destruct (run_prefix is_alnum_ t) as (r & E1 & _). exists r. unfold w. simpl. congruence.
      + intros r' a' m HI L. assert (HR : In (r', a') rules) by (rewrite ER; apply in_or_app; left; exact HI). pose proof (others_dead _ _ _ _ _ _ K HR L) as KK.
        apply In_nth_error in HI. destruct HI as (j & HJ). assert (JL : j < 11 + n) by (rewrite <- LP; apply nth_error_Some; rewrite HJ; discriminate).
        assert (HJR : nth_error rules j = Some (r', a')) by (rewrite ER, nth_error_app1 by lia; exact HJ).
        assert (N8 : n < 8) by (apply nth_error_Some with (l := kws); rewrite KN; discriminate).
        destruct a'; try discriminate.
        * destruct (rules_kw _ _ HR) as (k & HK & ->). destruct (LK _ _ _ HK L) as [L1 L2]. destruct (Nat.eq_dec m (length w)) as [Q|Q]; [|lia]. specialize (L2 Q). subst k. exfalso.
          assert (E1 : j = 11 + n0). { clear -HJR. apply (f_equal (option_map snd)) in HJR. do 26 (destruct j as [|j]; [cbn in HJR; first [discriminate HJR | injection HJR as <-; reflexivity]|]). destruct j; discriminate. }
          assert (n0 = n); [|lia]. clear -HK KN. do 8 (destruct n0 as [|n0]; [do 8 (destruct n as [|n]; [first [reflexivity | exfalso; simpl in HK, KN; congruence]|]); destruct n; discriminate|]). destruct n0; discriminate.
        * exfalso. clear -HJR JL N8. do 19 (destruct j as [|j]; [discriminate HJR|]). lia.
        * exfalso. clear -HJR JL N8. do 19 (destruct j as [|j]; [discriminate HJR|]). lia.
      + intros r' a' m HI L. assert (HR : In (r', a') rules) by (rewrite ER; apply in_or_app; right; right; exact HI). pose proof (others_dead _ _ _ _ _ _ K HR L) as KK. destruct a'; try discriminate.
        * destruct (rules_kw _ _ HR) as (k & HK & ->). apply (LK _ _ _ HK L).
        * assert (RR : r' = re_id) by (clear -HR; unfold rules in HR; simpl in HR; repeat (destruct HR as [HR|HR]; [first [discriminate HR | injection HR as <-; reflexivity]|]); destruct HR).
          subst r'. rewrite longest_id in L by exact EA. injection L as <-. unfold w. simpl. lia.
        * rewrite (rules_err _ HR) in L. apply err_len in L. lia.
    - assert (IN : nth_error rules 19 = Some (re_id, AId)) by reflexivity. destruct (nth_split_rules _ _ _ IN) as (pre & post & ER & LP). rewrite ER. apply best_intro.
      + rewrite longest_id by exact EA. reflexivity.
      + intros r' a' m HI L. assert (HR : In (r', a') rules) by (rewrite ER; apply in_or_app; left; exact HI). pose proof (others_dead _ _ _ _ _ _ K HR L) as KK.
        apply In_nth_error in HI. destruct HI as (j & HJ). assert (JL : j < 19) by (rewrite <- LP; apply nth_error_Some; rewrite HJ; discriminate).
        assert (HJR : nth_error rules j = Some (r', a')) by (rewrite ER, nth_error_app1 by lia; exact HJ). destruct a'; try discriminate.
        * destruct (rules_kw _ _ HR) as (k & HK & ->). destruct (LK _ _ _ HK L) as [L1 L2]. destruct (Nat.eq_dec m (length w)) as [Q|Q]; [|lia]. specialize (L2 Q). subst k. exfalso.
          apply (kw_index_none _ _ KI). apply nth_error_In in HK. exact HK.
        * exfalso. clear -HJR JL. do 19 (destruct j as [|j]; [discriminate HJR|]). lia.
        * exfalso. clear -HJR JL. do 19 (destruct j as [|j]; [discriminate HJR|]). lia.
      + intros r' a' m HI L. assert (HR : In (r', a') rules) by (rewrite ER; apply in_or_app; right; right; exact HI). pose proof (others_dead _ _ _ _ _ _ K HR L) as KK. destruct a'; try discriminate.
        * destruct (rules_kw _ _ HR) as (k & HK & ->). apply (LK _ _ _ HK L).
        * assert (RR : r' = re_id) by (clear -HR; unfold rules in HR; simpl in HR; repeat (destruct HR as [HR|HR]; [first [discriminate HR | injection HR as <-; reflexivity]|]); destruct HR).
          subst r'. rewrite longest_id in L by exact EA. injection L as <-. unfold w. simpl. lia.
        * rewrite (rules_err _ HR) in L. apply err_len in L. lia. }
  assert (ERR : not_lf c = true -> (forall r a m, In (r, a) rules -> longest r (c :: t) = Some m -> a = AError) -> best rules (c :: t) = Some (1, AError)).
  { intros NL OT. assert (IN : nth_error rules 25 = Some (RChr not_lf, AError)) by reflexivity. destruct (nth_split_rules _ _ _ IN) as (pre & post & ER & LP). rewrite ER. apply best_intro.
    - rewrite longest_chr, NL. reflexivity.
    - intros r' a' m HI L. exfalso. assert (HR : In (r', a') rules) by (rewrite ER; apply in_or_app; left; exact HI). pose proof (OT _ _ _ HR L) as ->.
      apply In_nth_error in HI. destruct HI as (j & HJ). assert (JL : j < 25) by (rewrite <- LP; apply nth_error_Some; rewrite HJ; discriminate).
      assert (HJR : nth_error rules j = Some (r', AError)) by (rewrite ER, nth_error_app1 by lia; exact HJ). clear -HJR JL. do 25 (destruct j as [|j]; [discriminate HJR|]). lia.
    - intros r' a' m HI L. assert (HR : In (r', a') rules) by (rewrite ER; apply in_or_app; right; right; exact HI). pose proof (OT _ _ _ HR L) as ->. rewrite (rules_err _ HR) in L. apply err_len in L. lia. }
  assert (ONE : forall i r a n, nth_error rules i = Some (r, a) -> i < 25 -> longest r (c :: t) = Some n -> 1 <= n -> (forall j r' a' m, nth_error rules j = Some (r', a') -> j <> i -> j < 25 -> longest r' (c :: t) = Some m -> False) -> best rules (c :: t) = Some (n, a)).
  { intros i r a n IN IL LN N1 OT. destruct (nth_split_rules _ _ _ IN) as (pre & post & ER & LP). rewrite ER. apply best_intro; [exact LN| |].
    - intros r' a' m HI L. exfalso. apply In_nth_error in HI. destruct HI as (j & HJ). assert (JL : j < i) by (rewrite <- LP; apply nth_error_Some; rewrite HJ; discriminate).
      apply (OT j r' a' m); [rewrite ER, nth_error_app1 by lia; exact HJ|lia|lia|exact L].
    - intros r' a' m HI L. apply In_nth_error in HI. destruct HI as (j & HJ). assert (HJR : nth_error rules (i + S j) = Some (r', a')).
      { rewrite ER, nth_error_app2 by lia. replace (i + S j - length pre) with (S j) by lia. exact HJ. }
      destruct (Nat.lt_ge_cases (i + S j) 25) as [Q|Q]; [exfalso; apply (OT (i + S j) r' a' m); [exact HJR|lia|exact Q|exact L]|].
      assert (i + S j = 25) by (assert (i + S j < length rules) by (apply nth_error_Some; rewrite HJR; discriminate); change (length rules) with 26 in *; lia).
      rewrite H in HJR. injection HJR as <- <-. apply err_len in L. lia. }
  assert (POS : forall keep j r' a' m, others keep c = true -> nth_error rules j = Some (r', a') -> longest r' (c :: t) = Some m -> keep a' = true).
  { intros keep j r' a' m O HJ L. exact (others_dead _ _ _ _ _ _ O (nth_error_In _ _ HJ) L). }
  destruct (is_digit c || byte_eqb "." c || sign_char c) eqn:EN.
  { apply andb_true_iff in K. destruct K as [K NL].
    assert (NUMJ : forall j r' a' m, nth_error rules j = Some (r', a') -> j < 25 -> longest r' (c :: t) = Some m -> j = 20 \/ j = 21).
    { intros j r' a' m HJ JL L. pose proof (POS _ _ _ _ _ K HJ L) as KK. clear -HJ JL KK. do 25 (destruct j as [|j]; [injection HJ as <- <-; first [discriminate KK | lia]|]). lia. }
    assert (NQ : byte_eqb c DQUOTE = false /\ is_ws c = false /\ byte_eqb c "/" = false).
    { apply orb_true_iff in EN. destruct EN as [EN|EN]; [apply orb_true_iff in EN; destruct EN as [EN|EN]|].
      - clear -EN. revert EN. generalize (every_byte (fun c => negb (is_digit c) || (negb (byte_eqb c DQUOTE) && negb (is_ws c) && negb (byte_eqb c "/"))) eq_refl c). cbv beta. intros H E. rewrite E in H. cbn [negb orb] in H.
        apply andb_true_iff in H. destruct H as [H H3]. apply andb_true_iff in H. destruct H as [H1 H2]. apply negb_true_iff in H1, H2, H3. auto.
      - apply byte_eqb_eq in EN. subst c. auto.
      - unfold sign_char in EN. apply orb_true_iff in EN. destruct EN as [EN|EN]; apply byte_eqb_eq in EN; subst c; auto. }
    destruct NQ as (Q1 & Q2 & Q3). rewrite Q1, Q2, Q3.
    assert (NONUM : longest re_num1 (c :: t) = None -> longest re_num2 (c :: t) = None -> best rules (c :: t) = Some (1, AError)).
    { intros L1 L2. apply ERR; [exact NL|]. intros r a m HI L. apply In_nth_error in HI. destruct HI as (j & HJ). destruct (Nat.lt_ge_cases j 25) as [JL|JL].
      - destruct (NUMJ _ _ _ _ HJ JL L) as [-> | ->]; injection HJ as <- <-; congruence.
      - assert (j < length rules) by (apply nth_error_Some; rewrite HJ; discriminate). change (length rules) with 26 in *. assert (j = 25) by lia. subst j. injection HJ as <- <-. reflexivity. }
    assert (N1 : forall n, longest re_num1 (c :: t) = Some (S n) -> longest re_num2 (c :: t) = None -> best rules (c :: t) = Some (S n, ANum)).
    { intros n L1 L2. apply (ONE 20 re_num1 ANum (S n) eq_refl ltac:(lia) L1 ltac:(lia)). intros j r' a' m HJ JN JL L. destruct (NUMJ _ _ _ _ HJ JL L) as [-> | ->]; [lia|]. injection HJ as <- <-. congruence. }
    assert (N2 : forall n, longest re_num2 (c :: t) = Some (S n) -> longest re_num1 (c :: t) = None -> best rules (c :: t) = Some (S n, ANum)).
    { intros n L1 L2. apply (ONE 21 re_num2 ANum (S n) eq_refl ltac:(lia) L1 ltac:(lia)). intros j r' a' m HJ JN JL L. destruct (NUMJ _ _ _ _ HJ JL L) as [-> | ->]; [|lia]. injection HJ as <- <-. congruence. }
    cbn [num_len]. destruct (is_digit c) eqn:ED.
    - apply N1; [apply longest_num1_digit; exact ED|apply longest_num2_digit; exact ED].
    - destruct (byte_eqb "." c) eqn:EDot.
      + apply byte_eqb_eq in EDot. subst c. pose proof (longest_num2_dot t) as L2. destruct (frac_len t) as [n|]; cbn [option_map] in *; [apply N2; [exact L2|apply longest_num1_dot]|apply NONUM; [apply longest_num1_dot|exact L2]].
      + cbn [orb] in EN. rewrite EN. pose proof (longest_num1_sign c t EN) as L1. pose proof (longest_num2_sign c t EN) as L2. destruct t as [|d t]; [apply NONUM; assumption|].
        destruct (is_digit d) eqn:EDd.
        * destruct (byte_eqb "." d) eqn:P; [rewrite (dot_digit d P) in EDd; discriminate|]. apply N1; assumption.
        * destruct (byte_eqb "." d); [|apply NONUM; assumption]. destruct (frac_len t) as [n|]; cbn [option_map] in *; [apply N2; assumption|apply NONUM; assumption]. }
  apply orb_false_iff in EN. destruct EN as [EN ES]. apply orb_false_iff in EN. destruct EN as [ED EDot].
  cbn [num_len]. rewrite ED, EDot, ES.
  destruct (byte_eqb c DQUOTE) eqn:EQ.
  { apply byte_eqb_eq in EQ. subst c. assert (STJ : forall j r' a' m, nth_error rules j = Some (r', a') -> j < 25 -> longest r' (DQUOTE :: t) = Some m -> j = 22).
    { intros j r' a' m HJ JL L. pose proof (POS _ _ _ _ _ K HJ L) as KK. clear -HJ JL KK. do 25 (destruct j as [|j]; [injection HJ as <- <-; first [discriminate KK | lia]|]). lia. }
    pose proof (longest_str t) as LS. destruct (str_end t) as [n|]; cbn [option_map] in LS.
    - apply (ONE 22 re_str AStr (S n) eq_refl ltac:(lia) LS ltac:(lia)). intros j r' a' m HJ JN JL L. apply JN. exact (STJ _ _ _ _ HJ JL L).
    - apply ERR; [reflexivity|]. intros r a m HI L. apply In_nth_error in HI. destruct HI as (j & HJ). destruct (Nat.lt_ge_cases j 25) as [JL|JL].
      + pose proof (STJ _ _ _ _ HJ JL L). subst j. injection HJ as <- <-. congruence.
      + assert (j < length rules) by (apply nth_error_Some; rewrite HJ; discriminate). change (length rules) with 26 in *. assert (j = 25) by lia. subst j. injection HJ as <- <-. reflexivity. }
  destruct (is_ws c) eqn:EWS.
  { apply andb_true_iff in K. destruct K as [K DC]. apply (ONE 23 re_ws ASkip 1 eq_refl ltac:(lia)); [|lia|].
    - unfold re_ws. rewrite longest_chr. unfold is_ws in EWS. rewrite EWS. reflexivity.
    - intros j r' a' m HJ JN JL L. pose proof (POS _ _ _ _ _ K HJ L) as KK. assert (j = 24) by (clear -HJ JL KK JN; do 25 (destruct j as [|j]; [injection HJ as <- <-; first [discriminate KK | lia]|]); lia). subst j. injection HJ as <- <-.
      rewrite (dead_longest _ _ _ DC) in L. discriminate. }
  destruct (byte_eqb c "/") eqn:ESl.
  { apply andb_true_iff in K. destruct K as [K DC]. apply byte_eqb_eq in ESl. subst c. pose proof (longest_comment t) as LC.
    assert (CJ : forall j r' a' m, nth_error rules j = Some (r', a') -> j < 25 -> longest r' ("/"%char :: t) = Some m -> j = 24).
    { intros j r' a' m HJ JL L. pose proof (POS _ _ _ _ _ K HJ L) as KK. assert (j = 23 \/ j = 24) as [-> | ->] by (clear -HJ JL KK; do 25 (destruct j as [|j]; [injection HJ as <- <-; first [discriminate KK | lia]|]); lia); [|reflexivity].
      injection HJ as <- <-. rewrite (dead_longest _ _ _ DC) in L. discriminate. }
    assert (NOC : longest re_comment ("/"%char :: t) = None -> best rules ("/"%char :: t) = Some (1, AError)).
    { intro LN. apply ERR; [reflexivity|]. intros r a m HI L. apply In_nth_error in HI. destruct HI as (j & HJ). destruct (Nat.lt_ge_cases j 25) as [JL|JL].
      - pose proof (CJ _ _ _ _ HJ JL L). subst j. injection HJ as <- <-. congruence.
      - assert (j < length rules) by (apply nth_error_Some; rewrite HJ; discriminate). change (length rules) with 26 in *. assert (j = 25) by lia. subst j. injection HJ as <- <-. reflexivity. }
    destruct t as [|d t]; [apply NOC; exact LC|]. destruct (byte_eqb "/" d); [|apply NOC; exact LC].
    apply (ONE 24 re_comment ASkip _ eq_refl ltac:(lia) LC ltac:(lia)). intros j r' a' m HJ JN JL L. apply JN. exact (CJ _ _ _ _ HJ JL L). }
  apply andb_true_iff in K. destruct K as [K NL]. apply ERR; [exact NL|]. intros r a m HI L. pose proof (others_dead _ _ _ _ _ _ K HI L) as KK. destruct a; try discriminate. reflexivity.
Qed.
