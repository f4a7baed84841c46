(** P_Layout.v - every script without stray characters is an arrangement of its
    tokens. *)
From Verif Require Import Base Num Env Ast Lexer Parser P_Base LangSpec P_Lex P_Lex2 P_Lex3 Grammar P_Parser P_Parser2 P_Parser3.

Local Unset Implicit Arguments.

Lemma tail_greedy r s : (r = [] \/ exists f, Forall digit f /\ r = "."%char :: f) -> length r <= num_tail (r ++ s).
Proof.
  intros [->|(f & F & ->)]; [simpl; lia|]. cbn [app num_tail length]. change (is_digit ".") with false. rewrite byte_eqb_refl.
  rewrite run_app by (eapply Forall_iff; [intro; apply digit_iff|exact F]). rewrite app_length. lia.
Qed.
Lemma num_greedy p s : number p -> exists n, num_len (p ++ s) = Some n /\ length p <= n.
Proof.
  intros (sg & a & r & Sg & -> & Fa & Hr). rewrite <- !app_assoc. destruct a as [|d a].
  - destruct Hr as [[NA _]|[_ (f & Nf & Ff & ->)]]; [contradiction|].
    assert (FR : exists m, frac_len (f ++ s) = Some m /\ length f <= m).
    { destruct f as [|d f]; [contradiction|]. inversion Ff as [|? ? D F']; subst. cbn [app frac_len]. apply digit_iff in D. rewrite D. eexists. split; [reflexivity|].
      rewrite run_app by (eapply Forall_iff; [intro; apply digit_iff|exact F']). rewrite app_length. simpl; lia. }
    destruct FR as (m & FR & LM).
    destruct Sg as [->|[-> | ->]]; cbn [app B list_ascii_of_string num_len]; change (is_digit ".") with false; change (is_digit "-") with false; change (is_digit "+") with false; change (byte_eqb "." "-") with false; change (byte_eqb "." "+") with false;
      change (sign_char "-") with true; change (sign_char "+") with true; rewrite ?byte_eqb_refl; cbn [app]; rewrite FR; eexists; (split; [reflexivity|]); cbn [length app]; lia.
  - inversion Fa as [|? ? D Fa']; subst. apply digit_iff in D.
    assert (BODY : length a + length r <= num_tail (a ++ r ++ s)) by (rewrite num_tail_app by assumption; destruct Hr as [[_ Hr]|[Q _]]; [|discriminate Q]; pose proof (tail_greedy r s Hr); lia).
    destruct Sg as [->|[-> | ->]]; cbn [app B list_ascii_of_string num_len]; change (is_digit "-") with false; change (is_digit "+") with false; change (byte_eqb "." "-") with false; change (byte_eqb "." "+") with false;
      change (sign_char "-") with true; change (sign_char "+") with true; cbn [app]; rewrite D; eexists; (split; [reflexivity|]); cbn [length app]; rewrite ?app_length; lia.
Qed.
Lemma maximal c t n a : lex1 c t = (n, a) -> next_ok (joins_on (firstn n (c :: t))) (skipn n (c :: t)).
Proof.
  intro EL. destruct (lex_piece _ _ _ _ EL) as [Ln _]. destruct n as [|n]; [lia|]. pose proof (firstn_skipn (S n) (c :: t)) as SPL.
  destruct (skipn (S n) (c :: t)) as [|d rest] eqn:SK; [exact I|]. cbn [next_ok]. intros [[W Wd]|[_ N]].
  - cbn [firstn] in W. destruct W as (c' & r & E & Lc & _). injection E as <- _. apply letter_iff in Lc. unfold lex1 in EL. rewrite (alpha_not_punct c Lc), Lc in EL. cbv zeta in EL. injection EL as EL _.
    destruct (run_prefix is_alnum_ t) as (q & Et & Q). cbn [skipn] in SK. rewrite Et in SK at 1. rewrite <- EL in SK. rewrite skipn_app, skipn_all, Nat.sub_diag in SK. cbn [app skipn] in SK. rewrite SK in Q. apply wordy_iff in Wd. congruence.
  - destruct (num_greedy _ rest N) as (m & NL & LM). rewrite <- app_assoc in NL. cbn [app] in NL. rewrite SPL in NL.
    destruct (num_first _ N) as (c' & t' & E & P1 & P2). cbn [firstn app] in E. injection E as <- _. unfold lex1 in EL. rewrite P1, P2, NL in EL. injection EL as EL _.
    rewrite app_length, firstn_length, Nat.min_l in LM by lia. simpl in LM. lia.
Qed.
Lemma layout_app a b : layout a -> layout b -> layout (a ++ b).
Proof. induction 1 as [|c g H _ IH|t g H _ IH]; intro LB; [exact LB|constructor; auto|]. rewrite <- !app_assoc. cbn [app]. apply (layout_comment t (g ++ b)); auto. Qed.
Lemma arranged_layout g ws s : layout g -> arranged ws s -> arranged ws (g ++ s).
Proof.
  intros L H. destruct H as [g0 (g1 & g2 & -> & L1 & L2)|g0 w ws s L0 T H N].
  - apply arranged_end. exists (g ++ g1), g2. split; [rewrite <- app_assoc; reflexivity|]. split; [apply layout_app; assumption|exact L2].
  - rewrite app_assoc. apply arranged_token; [apply layout_app; assumption|exact T|exact H|exact N].
Qed.
Section Arr.
  Context {A : Arith} {E : Env}.
  Lemma reads_arranged : forall k s vs, length s <= k -> reads s vs -> (forall u, ~ In (TErr u) vs) -> exists ws, arranged ws s /\ flat_map (fun w => val w (act_of w)) ws = vs.
  Proof.
    induction k as [|k IH]; intros s vs L R NE; inversion R as [|c t n a vs' EL R' E1 E2]; subst.
    1,3: exists []; split; [apply arranged_end; exists [], []; split; [reflexivity|]; split; [constructor|left; reflexivity]|reflexivity].
    1: simpl in L; lia.
    destruct (lex_piece _ _ _ _ EL) as [Ln P]. pose proof (maximal _ _ _ _ EL) as MX. pose proof (firstn_skipn n (c :: t)) as SPL.
    assert (NE' : forall u, ~ In (TErr u) vs') by (intros u I; apply (NE u), in_or_app; right; exact I).
    assert (TK : token (firstn n (c :: t)) -> exists ws, arranged ws (c :: t) /\ flat_map (fun w => val w (act_of w)) ws = val (firstn n (c :: t)) a ++ vs').
    { intro T. destruct (IH (skipn n (c :: t)) vs') as (ws & H1 & H2); [rewrite skipn_length; cbn [length] in L, Ln |- *; lia|exact R'|exact NE'|].
      exists (firstn n (c :: t) :: ws). split.
      - rewrite <- SPL at 2. apply (arranged_token []); [constructor|exact T|exact H1|]. exact MX.
      - cbn [flat_map]. rewrite H2. f_equal. destruct (lex_token _ _ T MX) as (c0 & t0 & E0 & L0). rewrite SPL in E0. injection E0 as <- <-. rewrite EL in L0. injection L0 as _ <-. reflexivity. }
    destruct a; cbn [piece] in P.
    - apply TK. left. destruct P as [-> P]. eauto.
    - apply TK. right; left. apply nth_error_In in P. clear - P. simpl in P. repeat (destruct P as [<-|P]; [eexists _, _; split; [reflexivity|]; split; [apply letter_iff; reflexivity|repeat (constructor; [apply wordy_iff; reflexivity|]); constructor]|]); destruct P.
    - apply TK. right; left. exact (proj1 P).
    - apply TK. right; right; left. exact P.
    - apply TK. right; right; right. exact P.
    - destruct P as [(b & E0 & Bb)|(u & E0 & NL)].
      + destruct (IH (skipn n (c :: t)) vs') as (ws & H1 & H2); [rewrite skipn_length; cbn [length] in L, Ln |- *; lia|exact R'|exact NE'|]. exists ws. split; [|exact H2]. rewrite <- SPL, E0. apply arranged_layout; [|exact H1]. constructor; [exact Bb|constructor].
      + rewrite E0 in SPL. destruct (skipn n (c :: t)) as [|d rest] eqn:SK.
        * exists []. split; [apply arranged_end; rewrite <- SPL; exists [], (B "//" ++ u); split; [apply app_nil_r|]; split; [constructor|right; exists u; auto]|].
          inversion R'; subst. reflexivity.
        * assert (d = LF).
          { assert (Ec : c = "/"%char /\ exists t', t = "/"%char :: t' /\ n = S (S (length (run not_lf t')))).
            { cbn [app B list_ascii_of_string] in SPL. injection SPL as Ec Et. subst c. split; [reflexivity|]. rewrite <- Et. eexists. split; [reflexivity|]. rewrite <- Et in EL. unfold lex1 in EL. change (is_punct "/") with false in EL. change (is_alpha_ "/") with false in EL. change (is_ws "/") with false in EL. change (byte_eqb "/" DQUOTE) with false in EL. change (byte_eqb "/" "/") with true in EL.
              cbn [num_len] in EL. change (is_digit "/") with false in EL. change (byte_eqb "." "/") with false in EL. change (sign_char "/") with false in EL. cbv iota in EL. injection EL as <-. reflexivity. }
            destruct Ec as (-> & t' & -> & ->). cbn [skipn] in SK. destruct (run_prefix not_lf t') as (q & Et & Q). assert (SK2 : skipn (length (run not_lf t')) (run not_lf t' ++ q) = d :: rest) by (rewrite <- Et; exact SK). rewrite skipn_app, skipn_all, Nat.sub_diag in SK2. cbn [app skipn] in SK2. rewrite SK2 in Q. unfold not_lf in Q. apply negb_false_iff in Q. apply byte_eqb_eq in Q. auto. }
          subst d. assert (R2 : reads rest vs').
          { inversion R' as [|c1 t1 n1 a1 v1 EL1 R1 X1 X2]; subst. assert (EL2 : lex1 LF rest = (1, ASkip)) by reflexivity. rewrite EL2 in EL1. injection EL1 as <- <-. exact R1. }
          assert (LL : length (c :: t) = length (skipn n (c :: t)) + n) by (rewrite skipn_length; cbn [length] in L, Ln |- *; lia). rewrite SK in LL.
          destruct (IH rest vs') as (ws & H1 & H2); [cbn [length] in L, Ln, LL |- *; lia|exact R2|exact NE'|]. exists ws. split; [|exact H2]. rewrite <- SPL.
          replace ((B "//" ++ u) ++ LF :: rest) with ((B "//" ++ u ++ LF :: []) ++ rest) by (rewrite <- !app_assoc; reflexivity). apply arranged_layout; [|exact H1]. apply layout_comment; [exact NL|constructor].
    - exfalso. apply (NE (cstr (firstn n (c :: t)))). left. reflexivity.
  Qed.
End Arr.
