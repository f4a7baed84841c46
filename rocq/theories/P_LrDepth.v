(** P_LrDepth.v - how large the stack of the parser gets. *)
From Coq Require Import ZArith.
From Verif Require Import Base Num Env Ast Lexer Parser Lalr LrParser LrHeap HeapSpec StackSpec Grammar P_Lr P_LrHeap.
Local Unset Implicit Arguments.

(** ** Facts about the tables, by computation *)
Definition wt (x : sym) : Z := match x with T n => if n =? tLP then 1%Z else if n =? tRP then (-1)%Z else 0%Z | N _ => 0%Z end.
Definition bal (q : nat) : Z := match symbol_of q with Some x => wt x | None => 0 end%Z.
Definition sum (l : list Z) : Z := fold_right Z.add 0%Z l.
Lemma sum_app a b : sum (a ++ b) = (sum a + sum b)%Z.
Proof. induction a as [|x a IH]; [reflexivity|]. unfold sum in *. cbn [app fold_right]. rewrite IH. lia. Qed.
(** Longest ways from the first state to each, a parenthesis counting for two. *)
Definition relax (l : list Z) : list Z :=
  fold_left (fun l r => fold_left (fun l e => let q := snd e in let v := (nth r l 0 + 1 - 2 * wt (fst e))%Z in if (v >? nth q l 0)%Z then firstn q l ++ v :: skipn (S q) l else l) (trans r) l) all_q l.
Definition ranks : list Z := Eval vm_compute in iter 40 relax (1%Z :: repeat (-100)%Z (length the_tables - 1)).
Definition rank (q : nat) : Z := nth q ranks 0%Z.
Lemma ranks_ok : forallb (fun r => forallb (fun e => (rank r + 1 <=? rank (snd e) + 2 * wt (fst e))%Z) (trans r)) all_q = true.
Proof. vm_compute. reflexivity. Qed.
Lemma ranks_top : forallb (fun z => (z <=? 20)%Z) ranks = true.
Proof. vm_compute. reflexivity. Qed.
Lemma rank_le q : (rank q <= 20)%Z.
Proof.
  unfold rank. destruct (nth_in_or_default q ranks 0%Z) as [I|D]; [|rewrite D; lia]. pose proof ranks_top as H. rewrite forallb_forall in H. apply Z.leb_le. exact (H _ I).
Qed.
Lemma rank_step r x q : In (x, q) (trans r) -> (rank r + 1 <= rank q + 2 * bal q)%Z.
Proof.
  intros I. unfold bal. rewrite (trans_sym _ _ _ I). destruct (Nat.lt_ge_cases r (length the_tables)) as [L|L]; [|rewrite trans_big in I by exact L; destruct I].
  pose proof ranks_ok as H. rewrite forallb_forall in H. specialize (H r ltac:(apply in_seq; lia)). rewrite forallb_forall in H. specialize (H _ I). apply Z.leb_le in H. exact H.
Qed.
Lemma rules_level : forallb (fun p => (sum (map wt (rhs the_grammar p)) =? 0)%Z) (seq 0 35) = true.
Proof. vm_compute. reflexivity. Qed.
Lemma rule_level q p ls : In (p, ls) (reds (row_of q)) -> sum (map wt (rhs the_grammar p)) = 0%Z.
Proof.
  intros I. pose proof reds_small_ok as S. rewrite forallb_forall in S. assert (Q : In q all_q).
  { destruct (Nat.lt_ge_cases q (length the_tables)) as [K|K]; [apply in_seq; lia|]. unfold row_of in I. rewrite nth_overflow in I by exact K. destruct I. }
  specialize (S _ Q). rewrite forallb_forall in S. specialize (S _ I). apply Nat.ltb_lt in S. cbn in S. pose proof rules_level as R. rewrite forallb_forall in R. apply Z.eqb_eq. apply R. apply in_seq. lia.
Qed.
Lemma linked_size : forall qs, linked qs -> (Z.of_nat (length qs) <= rank (hd 0%nat qs) + 2 * sum (map bal qs))%Z.
Proof.
  induction qs as [|q [|r qs] IH]; [intros []|intros ->; vm_compute; discriminate|]. intros [[x X] L]. specialize (IH L). pose proof (rank_step _ _ _ X) as K. cbn [hd] in *. cbn [length map] in *. unfold sum in *. cbn [fold_right] in *. lia.
Qed.
Lemma linked_rest top : forall rest, rest <> [] -> linked (top ++ rest) -> linked rest.
Proof.
  induction top as [|q top IH]; intros rest N L; [exact L|]. apply IH; [exact N|]. cbn [app] in L. destruct (top ++ rest) as [|r t] eqn:C; [apply app_eq_nil in C; destruct C; contradiction|]. exact (proj2 L).
Qed.
Lemma bal_syms : forall top xs, Forall2 (fun q x => symbol_of q = Some x) top xs -> sum (map bal top) = sum (map wt xs).
Proof. induction 1 as [|q x top xs H F IH]; [reflexivity|]. cbn [map]. unfold sum in *. cbn [fold_right]. rewrite IH. unfold bal. rewrite H. reflexivity. Qed.
Lemma sum_rev l : sum (rev l) = sum l.
Proof. induction l as [|x l IH]; [reflexivity|]. cbn [rev]. rewrite sum_app, IH. unfold sum. cbn [fold_right]. lia. Qed.

Section Depth.
  Context {A : Arith}.
  Variable file : bytes.
  Variable eof : nat.
  Notation step := (LrParser.step file eof).
  Notation reduce := (LrParser.reduce file).
  Lemma open_app a b : open_parens (a ++ b) = (open_parens a + open_parens b)%Z.
  Proof. induction a as [|[l k] a IH]; [reflexivity|]. cbn [app open_parens]. destruct k; rewrite ?IH; lia. Qed.
  Lemma open_code t : open_parens [t] = wt (T (code (t_tok t))).
  Proof.
    destruct t as [l k]. destruct k as [c|n| | | | |]; try reflexivity.
    - cbn [open_parens t_tok code]. rewrite Z.add_0_r. destruct c as [[] [] [] [] [] [] [] []]; reflexivity.
    - cbn [open_parens t_tok code]. destruct (n <? 8) eqn:K; [|reflexivity]. apply Nat.ltb_lt in K. do 8 (destruct n as [|n]; [reflexivity|]). lia.
  Qed.
  Variable ts : list ltok.
  Definition inv (c : conf) : Prop :=
    match c with
    | Conf stk r _ => linked (map fst stk) /\ exists pre, ts = pre ++ r /\ sum (map bal (map fst stk)) = open_parens pre
    | Done _ _ => True
    end.
  Lemma inv_reduce p q v stk r d ls : q <> final -> In (p, ls) (reds (row_of q)) -> inv (Conf ((q, v) :: stk) r d) -> inv (reduce p ((q, v) :: stk) r d).
  Proof.
    intros F I [L (pre & T & S)]. unfold LrParser.reduce. set (n := length (rhs the_grammar p)).
    destruct (LrParser.act file p _ d) as [[w d']|]; [|exact Logic.I]. destruct (reduce_back_syms q p ls (map fst stk) L F I) as (top & rest & EQ & N & F2).
    assert (LT : length top = n) by (unfold n; rewrite <- (rev_length (rhs the_grammar p)); clear - F2; induction F2; cbn; congruence).
    assert (R : map fst (skipn n ((q, v) :: stk)) = rest) by (rewrite <- skipn_map; cbn [map fst]; rewrite EQ, <- LT, skipn_app, skipn_all, Nat.sub_diag; reflexivity).
    assert (SS : sum (map bal rest) = open_parens pre).
    { rewrite <- S. change (map fst ((q, v) :: stk)) with (q :: map fst stk). rewrite EQ, map_app, sum_app, (bal_syms _ _ F2), map_rev, sum_rev, (rule_level _ _ _ I). lia. }
    assert (LR : linked rest) by (apply (linked_rest top); [exact N|rewrite <- EQ; exact L]).
    destruct (skipn n ((q, v) :: stk)) as [|[q1 w1] t] eqn:K; [exact Logic.I|]. destruct (lookup (lhs the_grammar p) (gotos (row_of q1))) as [q'|] eqn:G; [|exact Logic.I].
    apply goto_trans in G. cbn [map fst] in R. cbn [inv map fst]. split.
    - split; [eexists; exact G|]. rewrite R. exact LR.
    - exists pre. split; [exact T|]. rewrite <- SS, <- R. unfold sum. cbn [map fold_right]. unfold bal at 1. rewrite (trans_sym _ _ _ G). reflexivity.
  Qed.
  Lemma inv_step c : inv c -> inv (step c).
  Proof.
    destruct c as [[|[q v] stk] r d|]; [intros _; exact Logic.I| |intros _; exact Logic.I]. intros H. cbn [LrParser.step]. destruct (q =? final) eqn:F; [exact Logic.I|]. apply Nat.eqb_neq in F.
    assert (SH : forall q' w, action (row_of q) (match r with [] => 0 | t :: _ => code (t_tok t) end) = Shift q' ->
      inv (match r with [] => Conf ((q', w) :: (q, v) :: stk) [] d | t :: r => Conf ((q', VTok t) :: (q, v) :: stk) r d end)).
    { intros q' w K. apply shift_trans in K. destruct H as [L (pre & T & S)]. destruct r as [|t r]; cbn [inv map fst] in *.
      - split; [split; [eexists; exact K|exact L]|]. exists pre. split; [exact T|]. rewrite <- S. unfold sum. cbn [fold_right]. unfold bal at 1. rewrite (trans_sym _ _ _ K). reflexivity.
      - split; [split; [eexists; exact K|exact L]|]. exists (pre ++ [t]). split; [rewrite <- app_assoc; exact T|]. rewrite open_app, <- S, open_code. unfold sum. cbn [fold_right]. unfold bal at 1. rewrite (trans_sym _ _ _ K). lia. }
    assert (RD : forall p, action (row_of q) (match r with [] => 0 | t :: _ => code (t_tok t) end) = Reduce p -> inv (reduce p ((q, v) :: stk) r d)).
    { intros p K. apply action_in in K. destruct K as [ls K]. exact (inv_reduce _ _ _ _ _ _ _ F K H). }
    assert (LK : inv (match r with
            | LTok _ TThrow :: _ | LTok _ (TErr _) :: _ => Done d (Some (stop eof r))
            | _ => match action (row_of q) (match r with [] => 0 | t :: _ => code (t_tok t) end) with
                   | Shift q' => match r with [] => Conf ((q', VNone) :: (q, v) :: stk) [] d | t :: r => Conf ((q', VTok t) :: (q, v) :: stk) r d end
                   | Reduce p => reduce p ((q, v) :: stk) r d
                   | Error => Done d (Some (stop eof r))
                   end
            end)).
    { destruct r as [|[l k] r]; [|destruct k; try exact Logic.I]; match goal with |- inv (match ?a with _ => _ end) => destruct a eqn:K end; try exact Logic.I; solve [exact (SH _ VNone eq_refl)|exact (RD _ eq_refl)]. }
    destruct (consistent (row_of q)); [|exact LK]. destruct (default (row_of q)) as [p|] eqn:D; [|exact LK].
    destruct (default_in _ _ D) as [ls K]. exact (inv_reduce _ _ _ _ _ _ _ F K H).
  Qed.
  Lemma inv_iter n : forall c, inv c -> inv (iter n step c).
  Proof. induction n as [|n IH]; intros c H; [exact H|]. cbn [iter]. apply IH. apply inv_step. exact H. Qed.
  Lemma stack_size n stk r d : iter n step (Conf [(0, VNone)] ts (Doc [] [])) = Conf stk r d ->
    exists pre, ts = pre ++ r /\ (Z.of_nat (length stk) <= 20 + 2 * open_parens pre)%Z.
  Proof.
    intros H. assert (I : inv (Conf [(0, VNone)] ts (Doc [] []))) by (split; [reflexivity|exists []; split; reflexivity]).
    apply (inv_iter n) in I. rewrite H in I. destruct I as [L (pre & T & S)]. exists pre. split; [exact T|]. pose proof (linked_size _ L) as K. rewrite S, map_length in K. pose proof (rank_le (hd 0%nat (map fst stk))). lia.
  Qed.
  Lemma stack_nests m n stk r d : nests m ts -> iter n step (Conf [(0, VNone)] ts (Doc [] [])) = Conf stk r d -> (Z.of_nat (length stk) <= 20 + 2 * m)%Z.
  Proof. intros M H. destruct (stack_size _ _ _ _ H) as (pre & T & K). specialize (M _ _ T). lia. Qed.
  (** ** Nested functions take two entries each *)
  Lemma iter_add {X} (f : X -> X) a : forall b x, iter (a + b) f x = iter b f (iter a f x).
  Proof. induction a as [|a IH]; intros b x; [reflexivity|]. cbn [Nat.add iter]. apply IH. Qed.
  Lemma go_deep n : forall v stk r d, exists stk', iter (2 * n) step (Conf ((36, v) :: stk) (concat (repeat [LTok 1 (TId (B "f")); LTok 1 (TP "(")] n) ++ r) d) = Conf stk' r d /\ length stk' = 2 * n + 1 + length stk.
  Proof.
    induction n as [|n IH]; intros v stk r d; [exists ((36, v) :: stk); split; [reflexivity|cbn; lia]|]. replace (2 * S n) with (2 + 2 * n) by lia. rewrite iter_add. cbn [repeat concat app].
    destruct (IH (VTok (LTok 1 (TP "("))) ((26, VTok (LTok 1 (TId (B "f")))) :: (36, v) :: stk) r d) as (stk' & H & L).
    exists stk'. split; [exact H|]. rewrite L. cbn [length]. lia.
  Qed.
End Depth.

(** ** Nesting of a script *)
Section Nest.
  Context {A : Arith}.
  Variable file : bytes.
  Definition level (m : Z) (ts : list ltok) : Prop := open_parens ts = 0%Z /\ nests m ts.
  Lemma app_cases {X} (a b pre post : list X) : a ++ b = pre ++ post -> (exists c, a = pre ++ c) \/ exists c, pre = a ++ c /\ b = c ++ post.
  Proof.
    revert pre. induction a as [|x a IH]; intros pre H; [right; exists pre; split; [reflexivity|exact H]|]. destruct pre as [|y pre]; [left; eexists; reflexivity|]. injection H as -> H.
    destruct (IH _ H) as [[c ->]|[c [-> K]]]; [left; eexists; reflexivity|right; exists c; split; [reflexivity|exact K]].
  Qed.
  Lemma level_app m a b : level m a -> level m b -> level m (a ++ b).
  Proof.
    intros [A1 A2] [B1 B2]. split; [rewrite open_app, A1, B1; reflexivity|]. intros pre post H. destruct (app_cases _ _ _ _ H) as [[c C]|[c [-> C]]]; [exact (A2 _ _ C)|]. rewrite open_app, A1. exact (B2 _ _ C).
  Qed.
  Definition quiet (t : ltok) : Prop := open_parens [t] = 0%Z.
  Lemma level_quiet m ts : (0 <= m)%Z -> Forall quiet ts -> level m ts.
  Proof.
    intros M F. assert (Z0 : forall l, Forall quiet l -> open_parens l = 0%Z) by (induction 1 as [|t l Q _ IH]; [reflexivity|]; change (t :: l) with ([t] ++ l); rewrite open_app, IH, Q; reflexivity).
    split; [exact (Z0 _ F)|]. intros pre post ->. apply Forall_app in F. rewrite (Z0 _ (proj1 F)). exact M.
  Qed.
  Lemma level_parens m a b ts : (0 <= m)%Z -> level m ts -> level (m + 1) (LTok a (TP "(") :: ts ++ [LTok b (TP ")")]).
  Proof.
    intros M [T1 T2]. split; [change (LTok a (TP "(") :: ts ++ [LTok b (TP ")")]) with ([LTok a (TP "(")] ++ ts ++ [LTok b (TP ")")]); rewrite !open_app, T1; reflexivity|].
    intros [|t pre] post H; [cbn; lia|]. injection H as <- H. change (LTok a (TP "(") :: pre) with ([LTok a (TP "(")] ++ pre). rewrite open_app. change (open_parens [LTok a (TP "(")]) with 1%Z.
    destruct (app_cases _ _ _ _ H) as [[c C]|[c [-> C]]]; [specialize (T2 _ _ C); lia|]. rewrite open_app, T1. destruct c as [|t c]; [cbn; lia|]. destruct c as [|t' c]; [|destruct c; discriminate C]. injection C as <- _. cbn. lia.
  Qed.
  Lemma level_mono m m' ts : (m <= m')%Z -> level m ts -> level m' ts.
  Proof. intros L [H1 H2]. split; [exact H1|]. intros pre post K. specialize (H2 _ _ K). lia. Qed.
  Ltac qs := repeat (apply Forall_cons; [reflexivity|]); try apply Forall_nil.
  Lemma lv_point ts p : g_point file ts p -> level (Z.of_nat (functions p)) ts.
  Proof.
    induction 1 as [| a b c n ts p G IH]; [apply level_quiet; [cbn; lia|qs]|]. cbn [functions]. replace (Z.of_nat (S (functions p))) with (Z.of_nat (functions p) + 1)%Z by lia.
    change (LTok a (TId n) :: ?x) with ([LTok a (TId n)] ++ x). apply level_app; [apply level_quiet; [lia|qs]|]. apply level_parens; [lia|exact IH].
  Qed.
  Lemma lv_location ts v : g_location ts v -> Forall quiet ts. Proof. destruct 1; qs. Qed.
  Lemma lv_string ts v : g_string ts v -> Forall quiet ts. Proof. induction 1; [qs|]. apply Forall_app; split; [assumption|qs]. Qed.
  Variable m : nat.
  Definition small (x : meta) : Prop := forall p, m_val x = MPoint p -> functions p <= m.
  Notation lm := (level (Z.of_nat m)).
  Notation lm1 := (level (Z.of_nat m + 1)).
  Lemma lv_value ts v : g_value file ts v -> (forall p, v = MPoint p -> functions p <= m) -> lm ts.
  Proof.
    intros G H. assert (M : (0 <= Z.of_nat m)%Z) by lia. destruct G as [ts s G|ts p G| |ts v G|]; [apply level_quiet; [exact M|exact (lv_string _ _ G)]| |apply level_quiet; [exact M|qs]|apply level_quiet; [exact M|exact (lv_location _ _ G)]|apply level_quiet; [exact M|qs]].
    apply (level_mono (Z.of_nat (functions p))); [specialize (H _ eq_refl); lia|exact (lv_point _ _ G)].
  Qed.
  Lemma lv_arg ts x : g_arg file ts x -> small x -> lm ts.
  Proof.
    intros G H. assert (M : (0 <= Z.of_nat m)%Z) by lia. destruct G as [a b n ts v G|a ts v G].
    - change (level (Z.of_nat m) ([LTok a (TId n); LTok b (TP "=")] ++ ts)). apply level_app; [apply level_quiet; [exact M|qs]|]. exact (lv_value _ _ G H).
    - apply level_quiet; [exact M|]. apply Forall_cons; [reflexivity|exact (lv_location _ _ G)].
  Qed.
  Lemma lv_dim_parts ts ml : g_dim_parts file ts ml -> Forall small ml -> lm ts.
  Proof.
    induction 1 as [ts x G|a ts ml us x G IH GA]; intros F; [inversion F; eapply lv_arg; eassumption|]. apply Forall_app in F. destruct F as [F1 F2]. inversion F2; subst. apply level_app; [exact (IH F1)|].
    change (LTok a (TP ",") :: us) with ([LTok a (TP ",")] ++ us). apply level_app; [apply level_quiet; [lia|qs]|]. eapply lv_arg; eassumption.
  Qed.
  Lemma lv_draw_parts ts r : g_draw_parts file ts r -> Forall small (fst r ++ flat_map d_meta (snd r)) -> lm1 ts.
  Proof.
    induction 1 as [|a ts ml ds us x G IH GA|a b c d ts ml ds k kd G IH K|a b c d ts ml ds k kd us x G IH K GD]; cbn [fst snd]; intros F.
    - apply level_quiet; [lia|constructor].
    - rewrite <- app_assoc in F. apply Forall_app in F. destruct F as [F1 F2]. apply Forall_app in F2. destruct F2 as [F2 F3]. inversion F2; subst.
      apply level_app; [apply IH; apply Forall_app; split; assumption|]. apply level_app; [|apply level_quiet; [lia|qs]]. apply (level_mono (Z.of_nat m)); [lia|]. eapply lv_arg; eassumption.
    - rewrite flat_map_app, app_assoc in F. apply Forall_app in F. apply level_app; [apply IH; apply F|]. change (lm1 ([LTok a (TKw k)] ++ (LTok b (TP "(") :: [] ++ [LTok c (TP ")")]) ++ [LTok d (TP ";")])).
      apply level_app; [apply level_quiet; [lia|qs]|]. apply level_app; [|apply level_quiet; [lia|qs]]. apply level_parens; [lia|apply level_quiet; [lia|constructor]].
    - rewrite flat_map_app, app_assoc in F. apply Forall_app in F. destruct F as [F1 F2]. cbn [flat_map d_meta] in F2. rewrite app_nil_r in F2. apply level_app; [apply IH; exact F1|].
      replace (LTok a (TKw k) :: LTok b (TP "(") :: us ++ [LTok c (TP ")"); LTok d (TP ";")]) with ([LTok a (TKw k)] ++ (LTok b (TP "(") :: us ++ [LTok c (TP ")")]) ++ [LTok d (TP ";")]) by (cbn; rewrite <- app_assoc; reflexivity).
      apply level_app; [apply level_quiet; [lia|qs]|]. apply level_app; [|apply level_quiet; [lia|qs]]. apply level_parens; [lia|]. eapply lv_dim_parts; eassumption.
  Qed.
  Lemma lv_text_parts ts ml : g_text_parts file ts ml -> Forall small ml -> lm1 ts.
  Proof.
    induction 1 as [|a ts ml us x G IH GA]; intros F; [apply level_quiet; [lia|constructor]|]. apply Forall_app in F. destruct F as [F1 F2]. inversion F2; subst. apply level_app; [exact (IH F1)|].
    apply level_app; [|apply level_quiet; [lia|qs]]. apply (level_mono (Z.of_nat m)); [lia|]. eapply lv_arg; eassumption.
  Qed.
  Lemma lv_page_parts ts r : g_page_parts file ts r -> Forall small (fst r ++ flat_map item_metas (snd r)) -> lm1 ts.
  Proof.
    induction 1 as [|a ts ml ds us x G IH GA|a b c d ts ml ds n us x dm G IH GD|a b c d e ts ml ds us s ws x G IH GS GT]; cbn [fst snd]; intros F.
    - apply level_quiet; [lia|constructor].
    - rewrite <- app_assoc in F. apply Forall_app in F. destruct F as [F1 F2]. apply Forall_app in F2. destruct F2 as [F2 F3]. inversion F2; subst.
      apply level_app; [apply IH; apply Forall_app; split; assumption|]. apply level_app; [|apply level_quiet; [lia|qs]]. apply (level_mono (Z.of_nat m)); [lia|]. eapply lv_arg; eassumption.
    - rewrite flat_map_app, app_assoc in F. apply Forall_app in F. destruct F as [F1 F2]. cbn [flat_map item_metas] in F2. rewrite app_nil_r in F2. apply level_app; [apply IH; exact F1|].
      change (lm1 ([LTok a (TKw 3); LTok b (TId n); LTok c (TP "{")] ++ us ++ [LTok d (TP "}")])). apply level_app; [apply level_quiet; [lia|qs]|]. apply level_app; [|apply level_quiet; [lia|qs]]. exact (lv_draw_parts _ _ GD F2).
    - rewrite flat_map_app, app_assoc in F. apply Forall_app in F. destruct F as [F1 F2]. cbn [flat_map item_metas] in F2. rewrite app_nil_r in F2. apply level_app; [apply IH; exact F1|].
      change (lm1 ([LTok a (TKw 7); LTok b (TP "[")] ++ us ++ [LTok c (TP "]"); LTok d (TP "{")] ++ ws ++ [LTok e (TP "}")])). apply level_app; [apply level_quiet; [lia|qs]|].
      apply level_app; [apply level_quiet; [lia|exact (lv_string _ _ GS)]|]. apply level_app; [apply level_quiet; [lia|qs]|]. apply level_app; [exact (lv_text_parts _ _ GT F2)|apply level_quiet; [lia|qs]].
  Qed.
  Lemma lv_input ts d : g_input file ts d -> shallow m d -> lm1 ts.
  Proof.
    intros G H. assert (F : Forall small (doc_metas d)) by (apply Forall_forall; intros x I p V; exact (H _ _ I V)). clear H. revert F.
    induction G as [|a b c e f ts ms ps n s G IH|a b c ts ms ps us ml ds G IH GP]; intros F.
    - apply level_quiet; [lia|constructor].
    - apply level_app; [apply IH; exact F|apply level_quiet; [lia|qs]].
    - unfold doc_metas in F. cbn [doc_pages] in F. rewrite flat_map_app in F. apply Forall_app in F. destruct F as [F1 F2]. cbn [flat_map] in F2. rewrite app_nil_r in F2. apply level_app; [apply IH; exact F1|].
      change (lm1 ([LTok a (TKw 5); LTok b (TP "{")] ++ us ++ [LTok c (TP "}")])). apply level_app; [apply level_quiet; [lia|qs]|]. apply level_app; [|apply level_quiet; [lia|qs]]. exact (lv_page_parts _ _ GP F2).
  Qed.
End Nest.
Lemma stack_of_scripts {A : Arith} f el ts d m n stk r d' : runs f el ts d None -> shallow m d -> iter n (LrParser.step f el) (Conf [(0, VNone)] ts (Doc [] [])) = Conf stk r d' -> length stk <= 22 + 2 * m.
Proof. intros R S H. apply runs_accept in R. destruct (lv_input f m _ _ R S) as [_ N]. pose proof (stack_nests f el ts _ _ _ _ _ N H). lia. Qed.
(** [page { p = f(f(...f([x,x,x])...)); }] *)
Fixpoint nested {A : Arith} (x : num) (n : nat) : list ltok :=
  match n with 0 => map (LTok 1) [TP "["; TNum x; TP ","; TNum x; TP ","; TNum x; TP "]"] | S n => LTok 1 (TId (B "f")) :: LTok 1 (TP "(") :: nested x n ++ [LTok 1 (TP ")")] end.
Definition nested_page {A : Arith} (x : num) (n : nat) : list ltok := map (LTok 1) [TKw 5; TP "{"; TId (B "p"); TP "="] ++ nested x n ++ map (LTok 1) [TP ";"; TP "}"].
Section Deep.
  Context {A : Arith}.
  Lemma nested_split x n : exists r, nested x n = concat (repeat [LTok 1 (TId (B "f")); LTok 1 (TP "(")] n) ++ r.
  Proof. induction n as [|n [r IH]]; [eexists; reflexivity|]. cbn [nested repeat concat app]. rewrite IH. eexists. rewrite <- app_assoc. reflexivity. Qed.
  Lemma nested_stack f el x n : exists k stk r d, iter k (LrParser.step f el) (Conf [(0, VNone)] (nested_page x n) (Doc [] [])) = Conf stk r d /\ 2 * n < length stk.
  Proof.
    destruct n as [|n]; [exists 0; do 3 eexists; split; [reflexivity|cbn; lia]|]. destruct (nested_split x n) as [r R]. unfold nested_page. cbn [nested]. rewrite R.
    exists (8 + 2 * n). rewrite iter_add. cbn [app map]. rewrite <- ?app_assoc.
    destruct (go_deep f el n (VTok (LTok 1 (TP "("))) [(26, VTok (LTok 1 (TId (B "f")))); (19, VTok (LTok 1 (TP "="))); (13, VTok (LTok 1 (TId (B "p")))); (10, VParts [] []); (8, VTok (LTok 1 (TP "{"))); (6, VTok (LTok 1 (TKw 5))); (1, VNone); (0, VNone)]
      (r ++ [LTok 1 (TP ")")] ++ map (LTok 1) [TP ";"; TP "}"]) (Doc [] [])) as (stk & H & L).
    exists stk. do 2 eexists. split; [exact H|]. rewrite L. cbn [length]. lia.
  Qed.
  Lemma nested_parses f el x n : exists d, runs f el (nested_page x n) d None /\ shallow n d.
  Proof.
    assert (G : exists p, g_point f (nested x n) p /\ functions p = n).
    { induction n as [|n (p & G & D)]; [eexists; split; [apply gp_val|reflexivity]|]. eexists. split; [apply gp_func; exact G|cbn; rewrite D; reflexivity]. }
    destruct G as (p & G & D). eexists. split.
    - apply runs_accept. set (us := [] ++ (LTok 1 (TId (B "p")) :: LTok 1 (TP "=") :: nested x n) ++ [LTok 1 (TP ";")]).
      replace (nested_page x n) with ([] ++ LTok 1 (TKw 5) :: LTok 1 (TP "{") :: us ++ [LTok 1 (TP "}")]) by (unfold us, nested_page; cbn; rewrite <- app_assoc; reflexivity).
      apply gi_page; [apply gi_none|]. apply gq_arg; [apply gq_none|]. apply ga_named. apply gv_point. exact G.
    - intros y q I V. cbn in I. destruct I as [<-|[]]. cbn in V. injection V as <-. lia.
  Qed.
End Deep.
Lemma deep_scripts {A : Arith} f el n : exists ts, (exists d, runs f el ts d None /\ shallow n d) /\
  exists k stk r d, iter k (LrParser.step f el) (Conf [(0, VNone)] ts (Doc [] [])) = Conf stk r d /\ 2 * n < length stk.
Proof. exists (nested_page nz n). split; [apply nested_parses|apply nested_stack]. Qed.
