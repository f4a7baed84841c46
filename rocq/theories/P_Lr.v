(** P_Lr.v - the table driven parser of LrParser.v and the predictive parser of Parser.v do the same. *)
From Verif Require Import Base Num Env Ast Lexer Parser Grammar LangSpec SyntaxSpec P_Parser2 P_Parser3 P_Lang3 P_Syntax2 Lalr LrParser.
Local Unset Implicit Arguments.

Section Lr.
  Context {A : Arith} {E : Env}.
  Variable file : bytes.
  Variable eof : nat.
  Notation step := (LrParser.step file eof).
  Notation stop := (Parser.stop eof).
  Notation reduce := (LrParser.reduce file).
  Definition res : Type := document * option perr.
  Definition ev (c : conf) (R : res) : Prop := exists n, iter n step c = Done (fst R) (snd R).
  Lemma iter_done n d e : iter n step (Done d e) = Done d e.
  Proof. induction n; cbn; congruence. Qed.
  Lemma iter_S n c : iter (S n) step c = iter n step (step c).
  Proof. induction n; cbn in *; congruence. Qed.
  Lemma ev_step c R : ev (step c) R -> ev c R.
  Proof. intros [n H]. exists (S n). rewrite iter_S. exact H. Qed.
  Lemma ev_back c R : ev c R -> ev (step c) R.
  Proof. intros [n H]. destruct n; cbn in H; [subst c; exists 0; reflexivity|]. exists n. rewrite <- iter_S. exact H. Qed.
  Lemma ev_done d e R : ev (Done d e) R -> R = (d, e).
  Proof. intros [n H]. rewrite iter_done in H. inversion H. destruct R; reflexivity. Qed.
  Lemma ev_end d e : ev (Done d e) (d, e).
  Proof. exists 0. reflexivity. Qed.

  Definition bad (ts : list ltok) : bool := match ts with LTok _ TThrow :: _ | LTok _ (TErr _) :: _ => true | _ => false end.
  Definition head (ts : list ltok) : nat := match ts with [] => 0 | t :: _ => code (t_tok t) end.
  Definition reads (q : nat) : bool := negb (q =? final) && negb (consistent (row_of q)).
  Lemma step_reads q v stk ts d : reads q = true ->
    step (Conf ((q, v) :: stk) ts d) =
    if bad ts then Done d (Some (stop ts))
    else match action (row_of q) (head ts) with
         | Shift q' => match ts with [] => Conf ((q', VNone) :: (q, v) :: stk) [] d | t :: r => Conf ((q', VTok t) :: (q, v) :: stk) r d end
         | Reduce p => reduce p ((q, v) :: stk) ts d
         | Error => Done d (Some (stop ts))
         end.
  Proof.
    unfold reads. intros H. apply andb_true_iff in H. destruct H as [H1 H2]. apply negb_true_iff in H1, H2. unfold step, LrParser.step. rewrite H1, H2.
    destruct ts as [|[l []] r]; reflexivity.
  Qed.
  Lemma ev_shift q v stk t r d R q' : reads q = true -> bad (t :: r) = false -> action (row_of q) (code (t_tok t)) = Shift q' ->
    ev (Conf ((q', VTok t) :: (q, v) :: stk) r d) R -> ev (Conf ((q, v) :: stk) (t :: r) d) R.
  Proof. intros H B H2 K. apply ev_step. rewrite step_reads by assumption. rewrite B. cbn [head]. rewrite H2. exact K. Qed.
  Lemma ev_err q v stk ts d R : reads q = true -> bad ts = true \/ action (row_of q) (head ts) = Error -> R = (d, Some (stop ts)) -> ev (Conf ((q, v) :: stk) ts d) R.
  Proof. intros H B ->. apply ev_step. rewrite step_reads by assumption. destruct (bad ts); [apply ev_end|]. destruct B as [B|B]; [discriminate|]. rewrite B. apply ev_end. Qed.
  Definition always (q p : nat) : bool := negb (q =? final) && consistent (row_of q) && match default (row_of q) with Some p' => p' =? p | None => false end.
  Lemma ev_reduce p q v stk ts d R : always q p = true -> ev (reduce p ((q, v) :: stk) ts d) R -> ev (Conf ((q, v) :: stk) ts d) R.
  Proof.
    unfold always. intros H K. apply andb_true_iff in H. destruct H as [H H3]. apply andb_true_iff in H. destruct H as [H1 H2]. apply negb_true_iff in H1.
    destruct (default (row_of q)) as [p'|] eqn:D; [|discriminate]. apply Nat.eqb_eq in H3. subst p'.
    apply ev_step. unfold step, LrParser.step. rewrite H1, H2, D. exact K.
  Qed.
  (** Continuations: what follows a success, and what a failure must have been. *)
  Definition oof : perr := PDead (AUB "fuel").
  Definition kont {X} (d : document) (R : res) (r : pres X) (K : X -> list ltok -> Prop) : Prop :=
    match r with POk x ts => K x ts | PFail e => e <> oof /\ R = (d, Some e) end.
  Lemma kont_bind {X Y} d R (a : pres X) (f : X -> list ltok -> pres Y) K : kont d R (pbind a f) K -> kont d R a (fun x r => kont d R (f x r) K).
  Proof. destruct a; exact (fun H => H). Qed.
  Lemma kont_mono {X} d R (a : pres X) (K K' : X -> list ltok -> Prop) : kont d R a K -> (forall x r, K x r -> K' x r) -> kont d R a K'.
  Proof. destruct a; cbn; auto. Qed.
  Lemma kont_fail {X} d R ts (K : X -> list ltok -> Prop) : kont d R (fail eof ts) K -> R = (d, Some (stop ts)).
  Proof. intros [_ H]. exact H. Qed.

  (** States that go on with one terminal only. *)
  Definition only (q n q' : nat) : bool :=
    reads q && forallb (fun k => match action (row_of q) k with Shift r => (k =? n) && (r =? q') | Reduce _ => false | Error => negb (k =? n) end) (seq 0 24).
  Lemma code_char_lt c : code_char c < 24.
  Proof. unfold code_char. repeat destruct (byte_eqb _ _); cbv; lia. Qed.
  Lemma code_lt k : code k < 24.
  Proof. destruct k as [c| | | | | |]; cbn [code]; try (cbv; lia). - apply code_char_lt. - destruct (Nat.ltb_spec n 8); unfold tKw; lia. Qed.
  Lemma head_lt ts : head ts < 24.
  Proof. destruct ts; [cbn; lia|apply code_lt]. Qed.
  Lemma only_at q n q' ts : only q n q' = true -> reads q = true /\ action (row_of q) (head ts) = if head ts =? n then Shift q' else Error.
  Proof.
    unfold only. intros H. apply andb_true_iff in H. destruct H as [H1 H2]. split; [exact H1|]. rewrite forallb_forall in H2.
    specialize (H2 (head ts)). rewrite in_seq in H2. pose proof (head_lt ts). specialize (H2 ltac:(lia)).
    destruct (action _ _) as [r|p|]; [|discriminate|].
    - apply andb_true_iff in H2. destruct H2 as [-> H2]. apply Nat.eqb_eq in H2. congruence.
    - apply negb_true_iff in H2. rewrite H2. reflexivity.
  Qed.
  Definition is_punct (c : ascii) : bool := negb (code_char c =? 1).
  Lemma code_char_inj c x : is_punct x = true -> code_char c = code_char x -> c = x.
  Proof.
    unfold is_punct, code_char. intros P H.
    repeat match type of P with context [byte_eqb x ?y] => destruct (byte_eqb x y) eqn:?B end; cbv in P; try discriminate P;
    repeat match type of H with context [byte_eqb c ?y] => destruct (byte_eqb c y) eqn:?B end; cbv in H; try discriminate H;
    repeat match goal with Hb : byte_eqb _ _ = true |- _ => apply Ascii.eqb_eq in Hb; rewrite Hb; clear Hb end; try reflexivity.
  Qed.
  Lemma code_punct k x : is_punct x = true -> code k = code_char x -> k = TP x.
  Proof.
    intros P H. assert (L : code_char x < 13 /\ code_char x <> 1).
    { unfold is_punct in P. apply negb_true_iff, Nat.eqb_neq in P. split; [|exact P]. unfold code_char in *. repeat destruct (byte_eqb _ _); cbv; try lia; cbv in P; lia. }
    destruct k as [c| | | | | |]; cbn [code] in H; unfold tID, tNUM, tSTR in H; try lia.
    - f_equal. apply code_char_inj; assumption.
    - destruct (Nat.ltb_spec n 8); unfold tKw in H; lia.
  Qed.
  Lemma ev_punct q v stk ts d R c q' : is_punct c = true -> only q (code_char c) q' = true ->
    kont d R (punct eof c ts) (fun l r => ev (Conf ((q', VTok (LTok l (TP c))) :: (q, v) :: stk) r d) R) -> ev (Conf ((q, v) :: stk) ts d) R.
  Proof.
    intros P O K. destruct (only_at _ _ _ ts O) as [H1 H2]. destruct (Nat.eqb_spec (head ts) (code_char c)) as [e|e].
    - destruct ts as [|[l k] r]; [exfalso; cbn in e; revert P; unfold is_punct, code_char in *; repeat destruct (byte_eqb _ _); cbv; cbv in e; intros; discriminate|].
      cbn [head t_tok] in e. apply code_punct in e; [|exact P]. subst k. cbn [punct] in K. unfold byte_eqb in K; rewrite Ascii.eqb_refl in K. cbn [kont] in K.
      eapply ev_shift; [exact H1|reflexivity| |exact K]. exact H2.
    - apply ev_err; [exact H1|right; exact H2|].
      destruct ts as [|[l k] r]; [apply K|]. destruct k; try apply K. cbn [punct] in K. destruct (byte_eqb c c0) eqn:B; [|apply K]. exfalso. apply Ascii.eqb_eq in B. subst c0. apply e. reflexivity.
  Qed.
  Lemma code_num k : code k = tNUM -> exists x, k = TNum x.
  Proof.
    destruct k as [c| | | | | |]; cbn [code]; intros H; try (cbv in H; lia).
    - exfalso. revert H. unfold code_char. repeat destruct (byte_eqb _ _); cbv; lia.
    - destruct (Nat.ltb_spec n 8); unfold tKw in H; cbv in H; lia.
    - eauto.
  Qed.
  Lemma ev_num q v stk ts d R q' : only q tNUM q' = true ->
    kont d R (pnum eof ts) (fun x r => forall l, ev (Conf ((q', VTok (LTok l (TNum x))) :: (q, v) :: stk) r d) R) -> ev (Conf ((q, v) :: stk) ts d) R.
  Proof.
    intros O K. destruct (only_at _ _ _ ts O) as [H1 H2]. destruct (Nat.eqb_spec (head ts) tNUM) as [e|e].
    - destruct ts as [|[l k] r]; [cbv in e; lia|]. cbn [head t_tok] in e. apply code_num in e. destruct e as [x ->].
      eapply ev_shift; [exact H1|reflexivity|exact H2|apply K].
    - apply ev_err; [exact H1|right; exact H2|]. destruct ts as [|[l k] r]; [apply K|]. destruct k; try apply K. exfalso. apply e. reflexivity.
  Qed.
  (** States that only go on with the terminals of a list. *)
  Definition errs (q : nat) (ex : list nat) : bool := forallb (fun k => mem k ex || match action (row_of q) k with Error => true | _ => false end) (seq 0 24).
  Lemma errs_at q ex ts : errs q ex = true -> mem (head ts) ex = false -> action (row_of q) (head ts) = Error.
  Proof.
    unfold errs. rewrite forallb_forall. intros H M. specialize (H (head ts)). rewrite in_seq in H. pose proof (head_lt ts). specialize (H ltac:(lia)). rewrite M in H. cbn in H.
    destruct (action _ _); congruence.
  Qed.
  Lemma code_char_small c : code_char c < 13.
  Proof. unfold code_char. repeat destruct (byte_eqb _ _); cbv; lia. Qed.
  Ltac nx H := apply kont_bind in H; eapply kont_mono; [exact H|]; clear H; intros ? ? H; cbv beta in H.
  Definition next_of (q n : nat) : nat := match lookup n (shifts (row_of q)) with Some r => r | None => 0 end.
  Ltac pu c := match goal with |- ev (Conf ((?q, _) :: _) _ _) _ => let q' := eval vm_compute in (next_of q (code_char c)) in
                 eapply (ev_punct q _ _ _ _ _ c q'); [reflexivity|reflexivity|] end.
  Ltac pc c H := pu c; nx H.
  Ltac nm H := match goal with |- ev (Conf ((?q, _) :: _) _ _) _ => let q' := eval vm_compute in (next_of q tNUM) in
                 eapply (ev_num q _ _ _ _ _ q'); [reflexivity|nx H; intros ?] end.

  Lemma sim_location v stk ts d R : kont d R (parse_location eof ts) (fun x r => ev (Conf ((21, VLoc x) :: (14, v) :: stk) r d) R) -> ev (Conf ((14, v) :: stk) ts d) R.
  Proof.
    intros H. unfold parse_location in H. pc "["%char H.
    nm H. pc ","%char H.
    nm H. pc "]"%char H.
    apply (ev_reduce 1); [reflexivity|]. exact H.
  Qed.
  Lemma sim_triple q l v stk ts d R g : q = 36 -> g = 44 ->
    kont d R (pbind (pnum eof ts) (fun x t1 => pbind (punct eof "," t1) (fun _ t2 =>
          pbind (pnum eof t2) (fun y t3 => pbind (punct eof "," t3) (fun _ t4 =>
          pbind (pnum eof t4) (fun z t5 => pbind (punct eof "]" t5) (fun _ t6 =>
          POk (PVal (V3 x y z) (mkloc file l)) t6)))))))
      (fun p r => ev (Conf ((g, VPoint p) :: (q, v) :: stk) r d) R) ->
    ev (Conf ((43, VTok (LTok l (TP "["))) :: (q, v) :: stk) ts d) R.
  Proof.
    intros -> -> H. nm H. pc ","%char H.
    nm H. pc ","%char H.
    nm H. pc "]"%char H.
    apply (ev_reduce 2); [reflexivity|]. exact H.
  Qed.
  (** ID '(' point ')' from a state that goes on with a point. *)
  Lemma sim_func q g l n v stk r d R :
    lookup nPoint (gotos (row_of q)) = Some g ->
    (forall v' stk' ts R', length ts < length r -> kont d R' (parse_point file eof ts) (fun p r => ev (Conf ((44, VPoint p) :: (36, v') :: stk') r d) R') -> ev (Conf ((36, v') :: stk') ts d) R') ->
    kont d R (parse_point file eof (LTok l (TId n) :: r)) (fun p r => ev (Conf ((g, VPoint p) :: (q, v) :: stk) r d) R) ->
    ev (Conf ((26, VTok (LTok l (TId n))) :: (q, v) :: stk) r d) R.
  Proof.
    intros G IH H.
    pu "("%char.
    destruct r as [|[lp k] r]; [exact H|]. destruct k; try exact H. cbn [parse_point] in H. cbn [punct].
    unfold byte_eqb in *. rewrite Ascii.eqb_sym. destruct (Ascii.eqb c "(") eqn:B; [|exact H]. cbn [kont].
    apply IH; [cbn; lia|]. nx H.
    pc ")"%char H.
    apply (ev_reduce 3); [reflexivity|]. unfold reduce, LrParser.reduce. cbn [length rhs nth the_grammar snd firstn skipn rev map app act].
    change (lookup (lhs the_grammar 3) (gotos (row_of q))) with (lookup nPoint (gotos (row_of q))). rewrite G. exact H.
  Qed.
  Lemma sim_point n : forall v stk ts d R, length ts < n ->
    kont d R (parse_point file eof ts) (fun p r => ev (Conf ((44, VPoint p) :: (36, v) :: stk) r d) R) -> ev (Conf ((36, v) :: stk) ts d) R.
  Proof.
    induction n as [|n IH]; intros v stk ts d R L H; [lia|].
    assert (D : mem (head ts) [tID; tLB] = false -> action (row_of 36) (head ts) = Error) by (apply errs_at; reflexivity).
    destruct ts as [|[l k] r]; [apply ev_err; [reflexivity|right; reflexivity|apply H]|].
    destruct k as [c|m|s|x|s|s|].
    - destruct (byte_eqb c "[") eqn:B.
      + apply Ascii.eqb_eq in B. subst c. apply ev_shift with (q' := 43); [reflexivity|reflexivity|reflexivity|]. apply sim_triple with (g := 44); [reflexivity|reflexivity|exact H].
      + cbn [parse_point] in H. rewrite B in H. apply ev_err; [reflexivity|right|apply H]. apply D. cbn [head t_tok code]. unfold code_char. rewrite B. repeat destruct (byte_eqb _ _); reflexivity.
    - apply ev_err; [reflexivity|right|apply H]. apply D. cbn [head t_tok code]. do 8 (destruct m as [|m]; [reflexivity|]). reflexivity.
    - apply ev_shift with (q' := 26); [reflexivity|reflexivity|reflexivity|]. apply sim_func with (g := 44); [reflexivity| |exact H].
      intros v' stk' ts' R' L' K. apply IH; [cbn in L; lia|exact K].
    - apply ev_err; [reflexivity|right; reflexivity|apply H].
    - apply ev_err; [reflexivity|right; reflexivity|apply H].
    - apply ev_err; [reflexivity|left; reflexivity|apply H].
    - apply ev_err; [reflexivity|left; reflexivity|apply H].
  Qed.
  Lemma reduce_eq p stk top q0 v0 rest ts d val d' g : length top = length (rhs the_grammar p) -> stk = top ++ (q0, v0) :: rest ->
    act file p (rev (map snd top)) d = Ret (val, d') -> lookup (lhs the_grammar p) (gotos (row_of q0)) = Some g ->
    reduce p stk ts d = Conf ((g, val) :: (q0, v0) :: rest) ts d'.
  Proof.
    intros L -> HA G. unfold reduce, LrParser.reduce. rewrite <- L. rewrite firstn_app, Nat.sub_diag, firstn_all. cbn [firstn]. rewrite app_nil_r, HA.
    rewrite skipn_app, Nat.sub_diag, skipn_all. cbn [skipn app]. rewrite G. reflexivity.
  Qed.
  (** Reduce by a production with this many symbols. *)
  Ltac rd p top G := apply (ev_reduce p); [reflexivity|]; erewrite (reduce_eq p _ top); [|reflexivity|reflexivity|reflexivity|exact G].
  Lemma ev_look p q v stk ts d R : reads q = true -> bad ts = false -> action (row_of q) (head ts) = Reduce p ->
    ev (reduce p ((q, v) :: stk) ts d) R -> ev (Conf ((q, v) :: stk) ts d) R.
  Proof. intros H B H2 K. apply ev_step. rewrite step_reads by assumption. rewrite B, H2. exact K. Qed.
  Definition reds_but (q p n : nat) : bool := forallb (fun k => (k =? n) || match action (row_of q) k with Reduce p' => p' =? p | _ => false end) (seq 0 24).
  Lemma reds_at q p n ts : reds_but q p n = true -> head ts <> n -> action (row_of q) (head ts) = Reduce p.
  Proof.
    unfold reds_but. rewrite forallb_forall. intros H M. specialize (H (head ts)). rewrite in_seq in H. pose proof (head_lt ts). specialize (H ltac:(lia)).
    apply Nat.eqb_neq in M. rewrite M in H. cbn in H. destruct (action _ _); try discriminate. apply Nat.eqb_eq in H. congruence.
  Qed.

  Lemma sim_strs q0 q : lookup nString (gotos (row_of q0)) = Some q -> reads q = true -> action (row_of q) tSTR = Shift 37 ->
    forall v0 stk d R ts acc, ev (Conf ((q, VStr (fst (parse_more_str acc ts))) :: (q0, v0) :: stk) (snd (parse_more_str acc ts)) d) R -> ev (Conf ((q, VStr acc) :: (q0, v0) :: stk) ts d) R.
  Proof.
    intros G Rq S v0 stk d R. induction ts as [|[l k] r IH]; intros acc H; [exact H|]. destruct k; try exact H.
    apply ev_shift with (q' := 37); [exact Rq|reflexivity|exact S|]. rd 9 [(37, VTok (LTok l (TStr s))); (q, VStr acc)] G. apply IH. exact H.
  Qed.
  Lemma more_str_head ts : forall acc, head (snd (parse_more_str acc ts)) <> tSTR.
  Proof.
    induction ts as [|[l k] r IH]; intros acc; [cbv; lia|].
    assert (D : forall c, code_char c <> tSTR) by (intros c; pose proof (code_char_small c); unfold tSTR; lia).
    destruct k; cbn [parse_more_str snd head t_tok code]; try (cbv; lia); [apply D| |apply IH].
    destruct (Nat.ltb_spec n 8); unfold tKw, tSTR; lia.
  Qed.

  (** A state of the parser where an argument may start. *)
  Definition argctx (q g : nat) : Prop := reads q = true /\ action (row_of q) tID = Shift 13 /\ action (row_of q) tAt = Shift 14 /\ lookup nArg (gotos (row_of q)) = Some g.
  (** A token that the lexer has reported, or that throws, stops the parse in the state after the argument. *)
  Definition stops (q g : nat) (v : sval) (stk : list (nat * sval)) (d : document) (R : res) : Prop :=
    forall m r, bad r = true -> ev (Conf ((g, VMeta m) :: (q, v) :: stk) r d) R -> R = (d, Some (stop r)).
  Lemma sim_value q g v stk l n ve ts d R : lookup nArg (gotos (row_of q)) = Some g -> stops q g v stk d R ->
    kont d R (parse_value file eof ts) (fun m r => ev (Conf ((g, VMeta (Meta n m (mkloc file l))) :: (q, v) :: stk) r d) R) ->
    ev (Conf ((19, ve) :: (13, VTok (LTok l (TId n))) :: (q, v) :: stk) ts d) R.
  Proof.
    intros G HB H.
    assert (D : mem (head ts) [tID; tLB; tSTR; tNUM] = false -> action (row_of 19) (head ts) = Error) by (apply errs_at; reflexivity).
    destruct ts as [|[l1 k] r]; [apply ev_err; [reflexivity|right; reflexivity|apply H]|].
    destruct k as [c|m|s|x|s|s|].
    - cbn [parse_value] in H. destruct (byte_eqb c "[") eqn:B.
      + apply Ascii.eqb_eq in B. subst c. apply ev_shift with (q' := 25); [reflexivity|reflexivity|reflexivity|].
        nm H. pc ","%char H. nm H.
        assert (D' : mem (head r2) [tRB; tComma] = false -> action (row_of 54) (head r2) = Error) by (apply errs_at; reflexivity).
        destruct r2 as [|[l3 k3] r3]; [apply ev_err; [reflexivity|right; reflexivity|apply H]|].
        destruct k3 as [c|m|s|z|s|s|]; try (apply ev_err; [reflexivity|first [left; reflexivity|right; reflexivity]|apply H]).
        * destruct (byte_eqb c "]") eqn:B1.
          { apply Ascii.eqb_eq in B1. subst c. apply ev_shift with (q' := 57); [reflexivity|reflexivity|reflexivity|].
            apply (ev_reduce 1); [reflexivity|]. rd 14 [(31, VLoc (V2 x x1)); (19, ve); (13, VTok (LTok l (TId n)))] G. exact H. }
          destruct (byte_eqb c ",") eqn:B2.
          { apply Ascii.eqb_eq in B2. subst c. apply ev_shift with (q' := 64); [reflexivity|reflexivity|reflexivity|]. nm H. pc "]"%char H.
            apply (ev_reduce 2); [reflexivity|]. rd 12 [(29, VPoint (PVal (V3 x x1 x2) (mkloc file l1))); (19, ve); (13, VTok (LTok l (TId n)))] G. exact H. }
          apply ev_err; [reflexivity|right|apply H]. apply D'. cbn [head t_tok code]. unfold code_char. rewrite B1, B2. repeat destruct (byte_eqb _ _); reflexivity.
        * apply ev_err; [reflexivity|right|apply H]. apply D'. cbn [head t_tok code]. do 8 (destruct m as [|m]; [reflexivity|]). reflexivity.
      + apply ev_err; [reflexivity|right|apply H]. apply D. cbn [head t_tok code]. unfold code_char. rewrite B. repeat destruct (byte_eqb _ _); reflexivity.
    - apply ev_err; [reflexivity|right|apply H]. apply D. cbn [head t_tok code]. do 8 (destruct m as [|m]; [reflexivity|]). reflexivity.
    - unfold parse_value in H. apply ev_shift with (q' := 26); [reflexivity|reflexivity|reflexivity|].
      apply sim_func with (g := 29); [reflexivity|intros v' stk' ts' R' L' K; exact (sim_point _ _ _ _ _ _ L' K)|]. nx H.
      rd 12 [(29, VPoint x); (19, ve); (13, VTok (LTok l (TId n)))] G. exact H.
    - apply ev_shift with (q' := 30); [reflexivity|reflexivity|reflexivity|]. cbn [parse_value] in H.
      assert (W : head r <> tColon -> kont d R (POk (MNum x) r) (fun m r => ev (Conf ((g, VMeta (Meta n m (mkloc file l))) :: (q, v) :: stk) r d) R) ->
                  ev (Conf ((30, VTok (LTok l1 (TNum x))) :: (19, ve) :: (13, VTok (LTok l (TId n))) :: (q, v) :: stk) r d) R).
      { intros NC K. cbn [kont] in K. destruct (bad r) eqn:BR.
        - apply ev_err; [reflexivity|left; exact BR|]. exact (HB _ _ BR K).
        - apply (ev_look 13); [reflexivity|exact BR|apply reds_at with (n := tColon); [reflexivity|exact NC]|].
          erewrite (reduce_eq 13 _ [(30, VTok (LTok l1 (TNum x))); (19, ve); (13, VTok (LTok l (TId n)))]); [|reflexivity|reflexivity|reflexivity|exact G]. exact K. }
      destruct r as [|[l3 k3] r3]; [apply W; [cbv; lia|exact H]|].
      destruct k3 as [c|m|s|z|s|s|]; try (apply W; [cbv; lia|exact H]).
      + destruct (byte_eqb c ":") eqn:B.
        * apply Ascii.eqb_eq in B. subst c. apply ev_shift with (q' := 38); [reflexivity|reflexivity|reflexivity|]. nm H.
          apply (ev_reduce 15); [reflexivity|]. unfold reduce, LrParser.reduce.
          change (length (rhs the_grammar 15)) with 5. cbn [firstn skipn map snd rev app act]. destruct (mk_scale x x0) as [w|e]; cbn [obind].
          { change (lookup (lhs the_grammar 15) (gotos (row_of q))) with (lookup nArg (gotos (row_of q))). rewrite G. exact H. }
          { destruct H as [_ ->]. apply ev_end. }
        * apply W; [|exact H]. cbn [head t_tok code]. unfold code_char. rewrite B. repeat destruct (byte_eqb _ _); cbv; lia.
      + apply W; [|exact H]. cbn [head t_tok code]. destruct (Nat.ltb_spec m 8); unfold tKw, tColon; lia.
    - apply ev_shift with (q' := 28); [reflexivity|reflexivity|reflexivity|]. apply (ev_reduce 10); [reflexivity|].
      apply (sim_strs 19 27); [reflexivity|reflexivity|reflexivity|]. pose proof (more_str_head r s) as M.
      cbn [parse_value parse_string_lit] in H. destruct (parse_more_str s r) as [w r'] eqn:Ew. cbn [fst snd] in *. cbn [pbind kont] in H.
      destruct (bad r') eqn:BR; [apply ev_err; [reflexivity|left; exact BR|exact (HB _ _ BR H)]|].
      apply (ev_look 11); [reflexivity|exact BR|apply reds_at with (n := tSTR); [reflexivity|exact M]|].
      erewrite (reduce_eq 11 _ [(27, VStr w); (19, ve); (13, VTok (LTok l (TId n)))]); [|reflexivity|reflexivity|reflexivity|exact G]. exact H.
    - apply ev_err; [reflexivity|left; reflexivity|apply H].
    - apply ev_err; [reflexivity|left; reflexivity|apply H].
  Qed.
  Lemma sim_arg q g v stk ts d R : argctx q g -> stops q g v stk d R ->
    (mem (head ts) [tID; tAt] = false -> action (row_of q) (head ts) = Error) ->
    kont d R (parse_arg file eof ts) (fun m r => ev (Conf ((g, VMeta m) :: (q, v) :: stk) r d) R) ->
    ev (Conf ((q, v) :: stk) ts d) R.
  Proof.
    intros (Rq & S1 & S2 & G) HB D H.
    destruct ts as [|[l1 k] r]; [apply ev_err; [exact Rq|right; apply D; reflexivity|apply H]|].
    destruct k as [c|m|s|x|s|s|]; try (apply ev_err; [exact Rq|first [left; reflexivity|right; apply D; reflexivity]|apply H]).
    - cbn [parse_arg] in H. destruct (byte_eqb c "@") eqn:B.
      + apply Ascii.eqb_eq in B. subst c. apply ev_shift with (q' := 14); [exact Rq|reflexivity|exact S2|]. apply sim_location. nx H.
        rd 16 [(21, VLoc x); (14, VTok (LTok l1 (TP "@")))] G. exact H.
      + apply ev_err; [exact Rq|right|apply H]. apply D. cbn [head t_tok code]. unfold code_char. rewrite B. repeat destruct (byte_eqb _ _); reflexivity.
    - apply ev_err; [exact Rq|right|apply H]. apply D. cbn [head t_tok code]. do 8 (destruct m as [|m]; [reflexivity|]). reflexivity.
    - apply ev_shift with (q' := 13); [exact Rq|reflexivity|exact S1|]. cbn [parse_arg] in H. pc "="%char H. apply sim_value with (g := g); [exact G|exact HB|]. nx H. exact H.
  Qed.
  Lemma ev_bad q v stk r d R : reads q = true -> bad r = true -> ev (Conf ((q, v) :: stk) r d) R -> R = (d, Some (stop r)).
  Proof. intros Rq B H. apply ev_back in H. rewrite step_reads in H by exact Rq. rewrite B in H. exact (ev_done _ _ _ H). Qed.
  Lemma stops_reads q g v stk d R : reads g = true -> stops q g v stk d R.
  Proof. intros Rg m r B H. exact (ev_bad _ _ _ _ _ _ Rg B H). Qed.
  Lemma reduce_back p q v stk ts d R : always q p = true -> ev (Conf ((q, v) :: stk) ts d) R -> ev (reduce p ((q, v) :: stk) ts d) R.
  Proof.
    unfold always. intros H K. apply andb_true_iff in H. destruct H as [H H3]. apply andb_true_iff in H. destruct H as [H1 H2]. apply negb_true_iff in H1.
    destruct (default (row_of q)) as [p'|] eqn:D; [|discriminate]. apply Nat.eqb_eq in H3. subst p'.
    apply ev_back in K. unfold step, LrParser.step in K. rewrite H1, H2, D in K. exact K.
  Qed.
  (** A character where other tokens could stand too. *)
  Lemma ev_punct_or ex q v stk ts d R c q' : is_punct c = true -> reads q = true -> action (row_of q) (code_char c) = Shift q' -> errs q (code_char c :: ex) = true ->
    mem (head ts) ex = false ->
    kont d R (punct eof c ts) (fun l r => ev (Conf ((q', VTok (LTok l (TP c))) :: (q, v) :: stk) r d) R) -> ev (Conf ((q, v) :: stk) ts d) R.
  Proof.
    intros P Rq Hs He M K. destruct (Nat.eqb_spec (head ts) (code_char c)) as [e|e].
    - destruct ts as [|[l k] r]; [exfalso; cbn in e; revert P; unfold is_punct, code_char in *; repeat destruct (byte_eqb _ _); cbv; cbv in e; intros; discriminate|].
      cbn [head t_tok] in e. apply code_punct in e; [|exact P]. subst k. cbn [punct] in K. unfold byte_eqb in K; rewrite Ascii.eqb_refl in K. cbn [kont] in K.
      eapply ev_shift; [exact Rq|reflexivity|exact Hs|exact K].
    - apply ev_err; [exact Rq|right; apply (errs_at q (code_char c :: ex)); [exact He|]|].
      + cbn [mem existsb] in *. unfold mem in *. cbn [existsb]. rewrite M. apply Nat.eqb_neq in e. rewrite ?(Nat.eqb_sym (code_char c)), e. reflexivity.
      + destruct ts as [|[l k] r]; [apply K|]. destruct k; try apply K. cbn [punct] in K. destruct (byte_eqb c c0) eqn:B; [|apply K]. exfalso. apply Ascii.eqb_eq in B. subst c0. apply e. reflexivity.
  Qed.

  (** The states for one kind of dimension. *)
  Record dimctx (kw : nat) (k : dkind) (q1 q2 qe qe2 ql qr qr2 pe pl : nat) : Prop := {
    dc_open : only q1 tLP q2 = true;
    dc_arg : argctx q2 68; dc_list : lookup nDimParts (gotos (row_of q2)) = Some ql; dc_errs : errs q2 [tID; tAt; tRP] = true; dc_close0 : action (row_of q2) tRP = Shift qe;
    dc_semi0 : only qe tSemi qe2 = true; dc_red0 : always qe2 pe = true; dc_len0 : length (rhs the_grammar pe) = 5; dc_lhs0 : lhs the_grammar pe = nDrawParts;
    dc_act0 : forall ml ds l t a b c d, act file pe [VDraw ml ds; VTok (LTok l t); a; b; c] d = Ret (VDraw ml (ds ++ [Dim k (mkloc file l) []]), d);
    dc_reads : reads ql = true; dc_comma : action (row_of ql) tComma = Shift 81; dc_errs1 : errs ql [tRP; tComma] = true; dc_close : action (row_of ql) tRP = Shift qr;
    dc_semi : only qr tSemi qr2 = true; dc_red : always qr2 pl = true; dc_len : length (rhs the_grammar pl) = 6; dc_lhs : lhs the_grammar pl = nDrawParts;
    dc_act : forall ml ds l t a m b c d, act file pl [VDraw ml ds; VTok (LTok l t); a; VMetas m; b; c] d = Ret (VDraw ml (ds ++ [Dim k (mkloc file l) m]), d) }.
  Lemma ctx_angle : dimctx 0 KAngle 49 59 66 79 67 80 90 22 23.
  Proof. split; try reflexivity. repeat split; reflexivity. Qed.
  Lemma ctx_dia : dimctx 1 KDia 50 60 69 82 70 83 92 24 25.
  Proof. split; try reflexivity. repeat split; reflexivity. Qed.
  Lemma ctx_dim : dimctx 2 KDim 51 61 71 84 72 85 93 26 27.
  Proof. split; try reflexivity. repeat split; reflexivity. Qed.
  Lemma ctx_rad : dimctx 6 KRad 52 62 73 86 74 87 94 28 29.
  Proof. split; try reflexivity. repeat split; reflexivity. Qed.

  Lemma head_other c x l r : is_punct x = true -> byte_eqb c x = false -> head (LTok l (TP c) :: r) <> code_char x.
  Proof. intros P B e. cbn [head t_tok code] in e. apply (code_char_inj c x P) in e. subst c. unfold byte_eqb in B. rewrite Ascii.eqb_refl in B. discriminate B. Qed.
  Lemma sim_more q2 ql v stk d R : reads ql = true -> action (row_of ql) tComma = Shift 81 -> lookup nDimParts (gotos (row_of q2)) = Some ql ->
    forall fuel acc ts,
    kont d R (parse_more_args file eof fuel acc ts) (fun ml r => head r <> tComma -> ev (Conf ((ql, VMetas ml) :: (q2, v) :: stk) r d) R) ->
    ev (Conf ((ql, VMetas acc) :: (q2, v) :: stk) ts d) R.
  Proof.
    intros Rl S G. induction fuel as [|fuel IH]; intros acc ts H; [destruct H as [H _]; exfalso; apply H; reflexivity|]. cbn [parse_more_args] in H.
    destruct ts as [|[l k] r]; [apply H; cbv; lia|].
    destruct k as [c|m|s|x|s|s|]; try (apply H; cbv; lia).
    - destruct (byte_eqb c ",") eqn:B; [|apply H; apply (head_other c ","); [reflexivity|exact B]].
      apply Ascii.eqb_eq in B. subst c. apply ev_shift with (q' := 81); [exact Rl|reflexivity|exact S|].
      apply sim_arg with (g := 91); [repeat split; reflexivity| |apply errs_at; reflexivity|].
      + intros m r' Br K. apply (reduce_back 33) in K; [|reflexivity]. erewrite (reduce_eq 33 _ [(91, VMeta m); (81, VTok (LTok l (TP ","))); (ql, VMetas acc)]) in K; [|reflexivity|reflexivity|reflexivity|exact G].
        exact (ev_bad _ _ _ _ _ _ Rl Br K).
      + nx H. rd 33 [(91, VMeta x); (81, VTok (LTok l (TP ","))); (ql, VMetas acc)] G. apply IH. exact H.
    - apply H. cbn [head t_tok code]. destruct (Nat.ltb_spec m 8); unfold tKw, tComma; lia.
  Qed.
  Lemma sim_dim kw k q1 q2 qe qe2 ql qr qr2 pe pl : dimctx kw k q1 q2 qe qe2 ql qr qr2 pe pl ->
    forall fuel l t ml ds v stk ts d R,
    kont d R (parse_dim_args file eof fuel ts) (fun m r => ev (Conf ((40, VDraw ml (ds ++ [Dim k (mkloc file l) m])) :: (33, v) :: stk) r d) R) ->
    ev (Conf ((q1, VTok (LTok l t)) :: (40, VDraw ml ds) :: (33, v) :: stk) ts d) R.
  Proof.
    intros C fuel l t ml ds v stk ts d R H. unfold parse_dim_args in H.
    eapply (ev_punct _ _ _ _ _ _ "("%char q2); [reflexivity|apply (dc_open _ _ _ _ _ _ _ _ _ _ _ C)|nx H].
    assert (W : head r <> tRP ->
      kont d R (pbind (parse_arg file eof r) (fun a t1 => pbind (parse_more_args file eof fuel [a] t1) (fun ml t => pbind (punct eof ")" t) (fun _ t2 => pbind (punct eof ";" t2) (fun _ t3 => POk ml t3)))))
        (fun m r => ev (Conf ((40, VDraw ml (ds ++ [Dim k (mkloc file l) m])) :: (33, v) :: stk) r d) R) ->
      ev (Conf ((q2, VTok (LTok x (TP "("))) :: (q1, VTok (LTok l t)) :: (40, VDraw ml ds) :: (33, v) :: stk) r d) R).
    { clear H. intros NR H. apply sim_arg with (g := 68); [apply (dc_arg _ _ _ _ _ _ _ _ _ _ _ C)| | |].
      - intros m r' Br K. apply (reduce_back 34) in K; [|reflexivity]. erewrite (reduce_eq 34 _ [(68, VMeta m)]) in K; [|reflexivity|reflexivity|reflexivity|apply (dc_list _ _ _ _ _ _ _ _ _ _ _ C)].
        exact (ev_bad _ _ _ _ _ _ (dc_reads _ _ _ _ _ _ _ _ _ _ _ C) Br K).
      - intros M. apply (errs_at q2 [tID; tAt; tRP]); [apply (dc_errs _ _ _ _ _ _ _ _ _ _ _ C)|]. unfold mem in *. cbn [existsb] in *.
        destruct (Nat.eqb_spec (head r) tRP) as [e|e]; [contradiction|]. destruct (head r =? tID); [discriminate M|]. destruct (head r =? tAt); [discriminate M|]. reflexivity.
      - nx H. rd 34 [(68, VMeta x0)] (dc_list _ _ _ _ _ _ _ _ _ _ _ C).
        apply sim_more with (fuel := fuel); [apply (dc_reads _ _ _ _ _ _ _ _ _ _ _ C)|apply (dc_comma _ _ _ _ _ _ _ _ _ _ _ C)|apply (dc_list _ _ _ _ _ _ _ _ _ _ _ C)|]. nx H. intros NC.
        apply ev_punct_or with (c := ")"%char) (ex := [tComma]) (q' := qr); [reflexivity|apply (dc_reads _ _ _ _ _ _ _ _ _ _ _ C)|apply (dc_close _ _ _ _ _ _ _ _ _ _ _ C)|apply (dc_errs1 _ _ _ _ _ _ _ _ _ _ _ C)| |].
        { unfold mem. cbn [existsb]. apply Nat.eqb_neq in NC. rewrite NC. reflexivity. }
        nx H. eapply (ev_punct _ _ _ _ _ _ ";"%char qr2); [reflexivity|apply (dc_semi _ _ _ _ _ _ _ _ _ _ _ C)|nx H].
        apply (ev_reduce pl); [apply (dc_red _ _ _ _ _ _ _ _ _ _ _ C)|].
        erewrite (reduce_eq pl _ [_; _; _; _; _; _]); [exact H|rewrite (dc_len _ _ _ _ _ _ _ _ _ _ _ C); reflexivity|reflexivity|apply (dc_act _ _ _ _ _ _ _ _ _ _ _ C)|rewrite (dc_lhs _ _ _ _ _ _ _ _ _ _ _ C); reflexivity]. }
    destruct r as [|[l1 k1] r]; [apply W; [cbv; lia|exact H]|].
    destruct k1 as [c|m|s|z|s|s|]; try (apply W; [cbv; lia|exact H]).
    - destruct (byte_eqb c ")") eqn:B; [|apply W; [apply (head_other c ")"); [reflexivity|exact B]|exact H]].
      apply Ascii.eqb_eq in B. subst c. cbv zeta in H. cbn [punct byte_eqb Ascii.eqb Bool.eqb pbind] in H.
      destruct (dc_arg _ _ _ _ _ _ _ _ _ _ _ C) as [Rq _].
      apply ev_shift with (q' := qe); [exact Rq|reflexivity|apply (dc_close0 _ _ _ _ _ _ _ _ _ _ _ C)|].
      eapply (ev_punct _ _ _ _ _ _ ";"%char qe2); [reflexivity|apply (dc_semi0 _ _ _ _ _ _ _ _ _ _ _ C)|nx H].
      apply (ev_reduce pe); [apply (dc_red0 _ _ _ _ _ _ _ _ _ _ _ C)|].
      erewrite (reduce_eq pe _ [_; _; _; _; _]); [exact H|rewrite (dc_len0 _ _ _ _ _ _ _ _ _ _ _ C); reflexivity|reflexivity|apply (dc_act0 _ _ _ _ _ _ _ _ _ _ _ C)|rewrite (dc_lhs0 _ _ _ _ _ _ _ _ _ _ _ C); reflexivity].
    - apply W; [|exact H]. cbn [head t_tok code]. destruct (Nat.ltb_spec m 8); unfold tKw, tRP; lia.
  Qed.
  (** arg ';' from the state of a list of parts. *)
  Lemma sim_semi q g qs v stk ts d R : argctx q g -> only g tSemi qs = true ->
    (mem (head ts) [tID; tAt] = false -> action (row_of q) (head ts) = Error) ->
    kont d R (parse_arg_semi file eof ts) (fun m r => forall l, ev (Conf ((qs, VTok (LTok l (TP ";"))) :: (g, VMeta m) :: (q, v) :: stk) r d) R) ->
    ev (Conf ((q, v) :: stk) ts d) R.
  Proof.
    intros C O D H. unfold parse_arg_semi in H. apply sim_arg with (g := g); [exact C|apply stops_reads; apply (only_at _ _ _ [] O)|exact D|]. nx H.
    eapply (ev_punct _ _ _ _ _ _ ";"%char qs); [reflexivity|exact O|]. nx H. exact (H _).
  Qed.
  Lemma not_mem n l : ~ In n l -> mem n l = false.
  Proof. intros H. unfold mem. destruct (existsb (Nat.eqb n) l) eqn:e; [|reflexivity]. exfalso. apply existsb_exists in e. destruct e as (y & Hy & e). apply Nat.eqb_eq in e. subst y. contradiction. Qed.
  Lemma mem_not n l : mem n l = false -> ~ In n l.
  Proof. unfold mem. intros H K. rewrite (proj2 (existsb_exists _ _)) in H; [discriminate H|]. exists n. split; [exact K|apply Nat.eqb_refl]. Qed.
  (** With none of the tokens that start another part, an argument must start. *)
  Lemma errs_arg q ex ts : errs q (tID :: tAt :: ex) = true -> ~ In (head ts) ex -> mem (head ts) [tID; tAt] = false -> action (row_of q) (head ts) = Error.
  Proof. intros He N M. apply (errs_at q (tID :: tAt :: ex)); [exact He|]. apply not_mem. intros [e|[e|e]]; [| |exact (N e)]; apply (mem_not _ _ M); [left|right; left]; exact e. Qed.
  Lemma char_not c l r ex : (forall n, In n ex -> n = tRC \/ 12 < n) -> byte_eqb c "}" = false -> ~ In (head (LTok l (TP c) :: r)) ex.
  Proof.
    intros HE B H. destruct (HE _ H) as [e|e]; [exact (head_other c "}" l r eq_refl B e)|]. cbn [head t_tok code] in e. pose proof (code_char_small c). lia.
  Qed.

  Lemma sim_draw v stk d R : forall fuel ml ds ts,
    kont d R (parse_draw_parts file eof fuel ml ds ts) (fun md r => forall l, ev (Conf ((47, VTok (LTok l (TP "}"))) :: (40, VDraw (fst md) (snd md)) :: (33, v) :: stk) r d) R) ->
    ev (Conf ((40, VDraw ml ds) :: (33, v) :: stk) ts d) R.
  Proof.
    induction fuel as [|fuel IH]; intros ml ds ts H; [destruct H as [H _]; exfalso; apply H; reflexivity|]. cbn [parse_draw_parts] in H.
    assert (W : ~ In (head ts) [tRC; tKw 0; tKw 1; tKw 2; tKw 6] ->
      kont d R (pbind (parse_arg_semi file eof ts) (fun a t => parse_draw_parts file eof fuel (ml ++ [a]) ds t)) (fun md r => forall l, ev (Conf ((47, VTok (LTok l (TP "}"))) :: (40, VDraw (fst md) (snd md)) :: (33, v) :: stk) r d) R) ->
      ev (Conf ((40, VDraw ml ds) :: (33, v) :: stk) ts d) R).
    { clear H. intros N H. apply sim_semi with (g := 48) (qs := 58); [repeat split; reflexivity|reflexivity|apply errs_arg with (ex := [tRC; tKw 0; tKw 1; tKw 2; tKw 6]); [reflexivity|exact N]|].
      nx H. intros l. rd 21 [(58, VTok (LTok l (TP ";"))); (48, VMeta x); (40, VDraw ml ds)] (eq_refl (Some 40)). apply IH. exact H. }
    destruct ts as [|[l k] r]; [apply W; [cbv; lia|exact H]|].
    destruct k as [c|m|s|x|s|s|]; try (apply W; [cbv; lia|exact H]).
    - destruct (byte_eqb c "}") eqn:B.
      + apply Ascii.eqb_eq in B. subst c. apply ev_shift with (q' := 47); [reflexivity|reflexivity|reflexivity|]. apply H.
      + apply W; [|exact H]. apply char_not; [|exact B]. intros n [<-|[<-|[<-|[<-|[<-|[]]]]]]; [left; reflexivity|right; cbv; lia..].
    - destruct (dkind_of_kw m) as [dk|] eqn:K.
      + destruct (Nat.eq_dec m 0) as [->|]; [injection K as <-; apply ev_shift with (q' := 49); [reflexivity|reflexivity|reflexivity|]; apply (sim_dim _ _ _ _ _ _ _ _ _ _ _ ctx_angle fuel); nx H; apply IH; exact H|].
        destruct (Nat.eq_dec m 1) as [->|]; [injection K as <-; apply ev_shift with (q' := 50); [reflexivity|reflexivity|reflexivity|]; apply (sim_dim _ _ _ _ _ _ _ _ _ _ _ ctx_dia fuel); nx H; apply IH; exact H|].
        destruct (Nat.eq_dec m 2) as [->|]; [injection K as <-; apply ev_shift with (q' := 51); [reflexivity|reflexivity|reflexivity|]; apply (sim_dim _ _ _ _ _ _ _ _ _ _ _ ctx_dim fuel); nx H; apply IH; exact H|].
        destruct (Nat.eq_dec m 6) as [->|]; [injection K as <-; apply ev_shift with (q' := 52); [reflexivity|reflexivity|reflexivity|]; apply (sim_dim _ _ _ _ _ _ _ _ _ _ _ ctx_rad fuel); nx H; apply IH; exact H|].
        exfalso. do 7 (destruct m as [|m]; [cbn in K; first [lia|discriminate K]|]). discriminate K.
      + apply ev_err; [reflexivity|right|apply H]. do 8 (destruct m as [|m]; [first [discriminate K|reflexivity]|]). reflexivity.
  Qed.
  Lemma sim_text v stk d R : forall fuel ml ts,
    kont d R (parse_text_parts file eof fuel ml ts) (fun m r => forall l, ev (Conf ((75, VTok (LTok l (TP "}"))) :: (63, VMetas m) :: (53, v) :: stk) r d) R) ->
    ev (Conf ((63, VMetas ml) :: (53, v) :: stk) ts d) R.
  Proof.
    induction fuel as [|fuel IH]; intros ml ts H; [destruct H as [H _]; exfalso; apply H; reflexivity|]. cbn [parse_text_parts] in H.
    assert (W : ~ In (head ts) [tRC] ->
      kont d R (pbind (parse_arg_semi file eof ts) (fun a t => parse_text_parts file eof fuel (ml ++ [a]) t)) (fun m r => forall l, ev (Conf ((75, VTok (LTok l (TP "}"))) :: (63, VMetas m) :: (53, v) :: stk) r d) R) ->
      ev (Conf ((63, VMetas ml) :: (53, v) :: stk) ts d) R).
    { clear H. intros N H. apply sim_semi with (g := 76) (qs := 88); [repeat split; reflexivity|reflexivity|apply errs_arg with (ex := [tRC]); [reflexivity|exact N]|].
      nx H. intros l. rd 31 [(88, VTok (LTok l (TP ";"))); (76, VMeta x); (63, VMetas ml)] (eq_refl (Some 63)). apply IH. exact H. }
    destruct ts as [|[l k] r]; [apply W; [cbv; lia|exact H]|].
    destruct k as [c|m|s|x|s|s|]; try (apply W; [cbv; lia|exact H]).
    - destruct (byte_eqb c "}") eqn:B.
      + apply Ascii.eqb_eq in B. subst c. apply ev_shift with (q' := 75); [reflexivity|reflexivity|reflexivity|]. apply H.
      + apply W; [|exact H]. apply char_not; [|exact B]. intros n [<-|[]]. left; reflexivity.
    - apply W; [|exact H]. cbn [head t_tok code]. destruct (Nat.ltb_spec m 8); unfold tKw, tRC; cbn [In]; lia.
  Qed.
  Lemma sim_string v stk ts d R : kont d R (parse_string_lit eof ts) (fun s r => head r <> tSTR -> ev (Conf ((34, VStr s) :: (24, v) :: stk) r d) R) -> ev (Conf ((24, v) :: stk) ts d) R.
  Proof.
    intros H. destruct ts as [|[l k] r]; [apply ev_err; [reflexivity|right; reflexivity|apply H]|].
    assert (D : mem (head (LTok l k :: r)) [tSTR] = false -> action (row_of 24) (head (LTok l k :: r)) = Error) by (apply errs_at; reflexivity).
    destruct k as [c|m|s|x|s|s|]; try (apply ev_err; [reflexivity|first [left; reflexivity|right; reflexivity]|apply H]).
    - apply ev_err; [reflexivity|right|apply H]. apply D. apply not_mem. intros [e|[]]. cbn [head t_tok code] in e. pose proof (code_char_small c). unfold tSTR in e. lia.
    - apply ev_err; [reflexivity|right|apply H]. apply D. apply not_mem. intros [e|[]]. cbn [head t_tok code] in e. destruct (Nat.ltb_spec m 8); unfold tKw, tSTR in e; lia.
    - apply ev_shift with (q' := 28); [reflexivity|reflexivity|reflexivity|]. apply (ev_reduce 10); [reflexivity|].
      apply (sim_strs 24 34); [reflexivity|reflexivity|reflexivity|]. pose proof (more_str_head r s) as M. cbn [parse_string_lit] in H. destruct (parse_more_str s r) as [w r']. cbn [fst snd] in *. apply H. exact M.
  Qed.
  Lemma sim_page v stk d R : forall fuel ml ds ts,
    kont d R (parse_page_parts file eof fuel ml ds ts) (fun md r => forall l, ev (Conf ((12, VTok (LTok l (TP "}"))) :: (10, VParts (fst md) (snd md)) :: (8, v) :: stk) r d) R) ->
    ev (Conf ((10, VParts ml ds) :: (8, v) :: stk) ts d) R.
  Proof.
    induction fuel as [|fuel IH]; intros ml ds ts H; [destruct H as [H _]; exfalso; apply H; reflexivity|]. cbn [parse_page_parts] in H.
    assert (W : ~ In (head ts) [tRC; tKw 3; tKw 7] ->
      kont d R (pbind (parse_arg_semi file eof ts) (fun a t => parse_page_parts file eof fuel (ml ++ [a]) ds t)) (fun md r => forall l, ev (Conf ((12, VTok (LTok l (TP "}"))) :: (10, VParts (fst md) (snd md)) :: (8, v) :: stk) r d) R) ->
      ev (Conf ((10, VParts ml ds) :: (8, v) :: stk) ts d) R).
    { clear H. intros N H. apply sim_semi with (g := 15) (qs := 22); [repeat split; reflexivity|reflexivity|apply errs_arg with (ex := [tRC; tKw 3; tKw 7]); [reflexivity|exact N]|].
      nx H. intros l. rd 17 [(22, VTok (LTok l (TP ";"))); (15, VMeta x); (10, VParts ml ds)] (eq_refl (Some 10)). apply IH. exact H. }
    destruct ts as [|[l k] r]; [apply W; [cbv; lia|exact H]|].
    destruct k as [c|m|s|x|s|s|]; try (apply W; [cbv; lia|exact H]).
    - destruct (byte_eqb c "}") eqn:B.
      + apply Ascii.eqb_eq in B. subst c. apply ev_shift with (q' := 12); [reflexivity|reflexivity|reflexivity|]. apply H.
      + apply W; [|exact H]. apply char_not; [|exact B]. intros n [<-|[<-|[<-|[]]]]; [left; reflexivity|right; cbv; lia..].
    - destruct (Nat.eq_dec m 3) as [->|N3]; [|destruct (Nat.eq_dec m 7) as [->|N7]].
      + apply ev_shift with (q' := 16); [reflexivity|reflexivity|reflexivity|].
        assert (D : mem (head r) [tID] = false -> action (row_of 16) (head r) = Error) by (apply errs_at; reflexivity).
        destruct r as [|[l1 k] r]; [apply ev_err; [reflexivity|right; reflexivity|apply H]|].
        destruct k as [c|m|s|x|s|s|]; try (apply ev_err; [reflexivity|first [left; reflexivity|right; reflexivity]|apply H]).
        * apply ev_err; [reflexivity|right|apply H]. apply D. apply not_mem. intros [e|[]]. cbn [head t_tok code] in e. pose proof (code_char_small c). unfold tID in e. lia.
        * apply ev_err; [reflexivity|right|apply H]. apply D. apply not_mem. intros [e|[]]. cbn [head t_tok code] in e. destruct (Nat.ltb_spec m 8); unfold tKw, tID in e; lia.
        * apply ev_shift with (q' := 23); [reflexivity|reflexivity|reflexivity|]. pc "{"%char H. apply (ev_reduce 30); [reflexivity|]. apply (sim_draw _ _ _ _ fuel [] []). nx H. intros l2.
          rd 18 [(47, VTok (LTok l2 (TP "}"))); (40, VDraw (fst x0) (snd x0)); (33, VTok (LTok x (TP "{"))); (23, VTok (LTok l1 (TId s))); (16, VTok (LTok l (TKw 3))); (10, VParts ml ds)] (eq_refl (Some 10)).
          apply IH. exact H.
      + apply ev_shift with (q' := 17); [reflexivity|reflexivity|reflexivity|]. pc "["%char H. apply sim_string. nx H. intros NS.
        apply ev_punct_or with (c := "]"%char) (ex := [tSTR]) (q' := 41); [reflexivity|reflexivity|reflexivity|reflexivity|apply not_mem; intros [e|[]]; apply NS; symmetry; exact e|]. nx H.
        pc "{"%char H. apply (ev_reduce 32); [reflexivity|]. apply (sim_text _ _ _ _ fuel []). nx H. intros l2.
        rd 19 [(75, VTok (LTok l2 (TP "}"))); (63, VMetas x3); (53, VTok (LTok x2 (TP "{"))); (41, VTok (LTok x1 (TP "]"))); (34, VStr x0); (24, VTok (LTok x (TP "["))); (17, VTok (LTok l (TKw 7))); (10, VParts ml ds)] (eq_refl (Some 10)).
        apply IH. exact H.
      + assert (HN : ~ In (head (LTok l (TKw m) :: r)) [tRC; tKw 3; tKw 7]) by (cbn [head t_tok code In]; destruct (Nat.ltb_spec m 8); unfold tKw, tRC; lia).
        apply W; [exact HN|]. do 8 (destruct m as [|m]; [first [lia|exact H]|]). exact H.
  Qed.
  Lemma sim_input : forall fuel ts d, snd (parse_input file eof fuel d ts) <> Some oof -> ev (Conf [(1, VNone); (0, VNone)] ts d) (parse_input file eof fuel d ts).
  Proof.
    induction fuel as [|fuel IH]; intros ts d H; [exfalso; apply H; reflexivity|]. cbn [parse_input] in *.
    destruct ts as [|[l k] r].
    { apply ev_step. rewrite step_reads by reflexivity. cbn [bad head]. change (action (row_of 1) 0) with (Lalr.Shift 2). cbv iota. apply ev_step. apply ev_end. }
    assert (D : mem (head (LTok l k :: r)) [tKw 4; tKw 5] = false -> action (row_of 1) (head (LTok l k :: r)) = Error).
    { intros M. apply (errs_at 1 [0; tKw 4; tKw 5]); [reflexivity|]. apply not_mem. apply mem_not in M. intros [e|e]; [|exact (M e)]. revert e. cbn [head t_tok].
      destruct k as [c| | | | | |]; cbn [code]; try (cbv; lia); [unfold code_char; repeat destruct (byte_eqb _ _); cbv; lia|destruct (_ <? _); unfold tKw; lia]. }
    destruct k as [c|m|s|x|s|s|]; try (apply ev_err; [reflexivity|first [left; reflexivity|right; reflexivity]|reflexivity]).
    - apply ev_err; [reflexivity|right|reflexivity]. apply D. apply not_mem. cbn [head t_tok code In]. pose proof (code_char_small c). unfold tKw. lia.
    - destruct (Nat.eq_dec m 4) as [->|N4]; [|destruct (Nat.eq_dec m 5) as [->|N5]].
      + apply ev_shift with (q' := 5); [reflexivity|reflexivity|reflexivity|].
        set (R := match parse_model file eof (LTok l (TKw 4) :: r) with POk m r0 => parse_input file eof fuel (Doc (doc_models d ++ [m]) (doc_pages d)) r0 | PFail e => (d, Some e) end) in *.
        assert (K : kont d R (parse_model file eof (LTok l (TKw 4) :: r)) (fun m r => ev (Conf [(3, VModel m); (1, VNone); (0, VNone)] r d) R)).
        { unfold R in *. destruct (parse_model _ _ _) as [m r'|e]; cbn [kont]; [|split; [intros ->; apply H; reflexivity|reflexivity]].
          rd 4 [(3, VModel m); (1, @VNone A)] (eq_refl (Some 1)). apply IH. exact H. }
        clearbody R. clear H. unfold parse_model in K. clear D.
        assert (D : mem (head r) [tID] = false -> action (row_of 5) (head r) = Error) by (apply errs_at; reflexivity).
        destruct r as [|[l1 k] r]; [apply ev_err; [reflexivity|right; reflexivity|apply K]|].
        destruct k as [c|m|s|x|s|s|]; try (apply ev_err; [reflexivity|first [left; reflexivity|right; reflexivity]|apply K]).
        * apply ev_err; [reflexivity|right|apply K]. apply D. apply not_mem. cbn [head t_tok code In]. pose proof (code_char_small c). unfold tID. lia.
        * apply ev_err; [reflexivity|right|apply K]. apply D. apply not_mem. cbn [head t_tok code In]. destruct (Nat.ltb_spec m 8); unfold tKw, tID; lia.
        * apply ev_shift with (q' := 7); [reflexivity|reflexivity|reflexivity|]. pc "="%char K. clear D.
          assert (D : mem (head r0) [tSTR] = false -> action (row_of 9) (head r0) = Error) by (apply errs_at; reflexivity).
          destruct r0 as [|[l2 k] r2]; [apply ev_err; [reflexivity|right; reflexivity|apply K]|].
          destruct k as [c|m|s2|y|s2|s2|]; try (apply ev_err; [reflexivity|first [left; reflexivity|right; reflexivity]|apply K]).
          { apply ev_err; [reflexivity|right|apply K]. apply D. apply not_mem. cbn [head t_tok code In]. pose proof (code_char_small c). unfold tSTR. lia. }
          { apply ev_err; [reflexivity|right|apply K]. apply D. apply not_mem. cbn [head t_tok code In]. destruct (Nat.ltb_spec m 8); unfold tKw, tSTR; lia. }
          apply ev_shift with (q' := 11); [reflexivity|reflexivity|reflexivity|]. pc ";"%char K. apply (ev_reduce 7); [reflexivity|]. exact K.
      + apply ev_shift with (q' := 6); [reflexivity|reflexivity|reflexivity|].
        set (R := match parse_page file eof fuel (LTok l (TKw 5) :: r) with POk p r0 => parse_input file eof fuel (Doc (doc_models d) (doc_pages d ++ [p])) r0 | PFail e => (d, Some e) end) in *.
        assert (K : kont d R (parse_page file eof fuel (LTok l (TKw 5) :: r)) (fun p r => ev (Conf [(4, VPage p); (1, VNone); (0, VNone)] r d) R)).
        { unfold R in *. destruct (parse_page _ _ _ _) as [m r'|e]; cbn [kont]; [|split; [intros ->; apply H; reflexivity|reflexivity]].
          rd 5 [(4, VPage m); (1, @VNone A)] (eq_refl (Some 1)). apply IH. exact H. }
        clearbody R. clear H. unfold parse_page in K. pc "{"%char K. apply (ev_reduce 20); [reflexivity|]. apply (sim_page _ _ _ _ fuel [] []). nx K. intros l2.
        apply (ev_reduce 8); [reflexivity|]. exact K.
      + assert (Q : snd (d, Some (stop (LTok l (TKw m) :: r))) <> Some oof -> ev (Conf [(1, VNone); (0, VNone)] (LTok l (TKw m) :: r) d) (d, Some (stop (LTok l (TKw m) :: r)))).
        { intros _. apply ev_err; [reflexivity|right|reflexivity]. apply D. apply not_mem. cbn [head t_tok code In]. destruct (Nat.ltb_spec m 8); unfold tKw; lia. }
        do 6 (destruct m as [|m]; [first [lia|exact (Q H)]|]). exact (Q H).
  Qed.
  (** The two parsers agree on every sequence of tokens. *)
  Theorem tables_parse ts : runs file eof ts (fst (parse_input file eof (S (length ts)) (Doc [] []) ts)) (snd (parse_input file eof (S (length ts)) (Doc [] []) ts)).
  Proof.
    change (ev (Conf [(0, VNone)] ts (Doc [] [])) (parse_input file eof (S (length ts)) (Doc [] []) ts)). apply (ev_reduce 6); [reflexivity|]. apply sim_input.
    intros H. destruct (parse_input file eof (S (length ts)) (Doc [] []) ts) as [d e] eqn:K. cbn [snd] in H. subst e. apply input_dead in K; [|lia]. destruct K as [[K _]|[K _]]; discriminate K.
  Qed.
  Lemma runs_fun ts d e d' e' : runs file eof ts d e -> runs file eof ts d' e' -> d = d' /\ e = e'.
  Proof.
    intros [n H] [m H']. assert (W : forall a b c, iter a step c = Done d e -> a <= b -> iter b step c = Done d e).
    { clear. intros a. induction a as [|a IH]; intros b c H L; [cbn in H; subst c; apply iter_done|]. destruct b as [|b]; [lia|]. rewrite iter_S in *. apply IH; [exact H|lia]. }
    assert (W' : forall a b c, iter a step c = Done d' e' -> a <= b -> iter b step c = Done d' e').
    { clear. intros a. induction a as [|a IH]; intros b c H L; [cbn in H; subst c; apply iter_done|]. destruct b as [|b]; [lia|]. rewrite iter_S in *. apply IH; [exact H|lia]. }
    specialize (W _ (n + m) _ H ltac:(lia)). specialize (W' _ (n + m) _ H' ltac:(lia)). rewrite W in W'. inversion W'. auto.
  Qed.
End Lr.

(** ** What the tables decide *)
Section Decide.
  Context {A : Arith}.
  Lemma runs_iff f el ts d e : runs f el ts d e <-> parse_input f el (S (length ts)) (Doc [] []) ts = (d, e).
  Proof.
    pose proof (tables_parse f el ts) as T. split.
    - intros H. destruct (runs_fun f el ts _ _ _ _ H T) as [-> ->]. destruct (parse_input _ _ _ _ _); reflexivity.
    - intros H. rewrite H in T. exact T.
  Qed.
  Lemma runs_accept f el ts d : runs f el ts d None <-> g_input f ts d.
  Proof. rewrite runs_iff. apply input_iff. Qed.
  Lemma runs_end f el ts : exists d e, runs f el ts d e /\ forall d' e', runs f el ts d' e' -> d' = d /\ e' = e.
  Proof. do 2 eexists. split; [apply tables_parse|]. intros d' e' H. exact (runs_fun f el ts _ _ _ _ H (tables_parse f el ts)). Qed.
  Lemma runs_wrong f el ts d l m : runs f el ts d (Some (PSyntax l m)) -> exists pre, viable (kinds pre) /\
    ((ts = pre /\ l = el /\ m = B "syntax error") \/ exists t post, ts = pre ++ t :: post /\ ~ viable (kinds (pre ++ [t])) /\ l = t_line t /\ m = complaint t).
  Proof.
    rewrite runs_iff. intros H. destruct (stops_where f _ _ _ _ _ _ H) as (pre & V & K). exists pre. split; [exact V|]. destruct K as [(-> & S & N)|(t & post & -> & S & N)].
    - left. simpl in S. injection S as <- <-. repeat split.
    - right. exists t, post. split; [reflexivity|]. split; [exact N|]. destruct t as [lt k]. destruct k; try discriminate S; injection S as <- <-; split; reflexivity.
  Qed.
  Lemma runs_dead f el ts d a : runs f el ts d (Some (PDead a)) ->
    (a = AThrow "std::stof" /\ exists l, In (LTok l TThrow) ts) \/ (a = AUB "Scale: float to int out of range" /\ exists l x, In (LTok l (TNum x)) ts /\ to_int x = None).
  Proof. rewrite runs_iff. intros H. apply input_dead in H; [exact H|lia]. Qed.
End Decide.
