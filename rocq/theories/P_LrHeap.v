(** P_LrHeap.v - every object of the parser is deleted once or ends in the document. *)
From Coq Require Import Permutation.
From Verif Require Import Base Num Env Ast Lexer Parser Lalr LrParser LrHeap HeapSpec P_Lr.
Local Unset Implicit Arguments.

(** ** Facts about the tables, by computation *)
Definition has (q : nat) (x : sym) : bool := match symbol_of q with Some y => sym_eqb y x | None => false end.
Lemma sym_eqb_eq x y : sym_eqb x y = true -> x = y.
Proof. destruct x, y; cbn; try discriminate; intros H; apply Nat.eqb_eq in H; congruence. Qed.
Lemma has_symbol q x : has q x = true -> symbol_of q = Some x.
Proof. unfold has. destruct (symbol_of q); [|discriminate]. intros H. apply sym_eqb_eq in H. congruence. Qed.
Definition trans (q : nat) : list (sym * nat) := transitions (row_of q).
Definition all_q : list nat := seq 0 (length the_tables).
Lemma trans_sym_ok : forallb (fun q => forallb (fun e => has (snd e) (fst e)) (trans q)) all_q = true.
Proof. vm_compute. reflexivity. Qed.
Lemma trans_big q : length the_tables <= q -> trans q = [].
Proof. intros H. unfold trans, row_of. rewrite nth_overflow by exact H. reflexivity. Qed.
Lemma trans_sym q x q' : In (x, q') (trans q) -> symbol_of q' = Some x.
Proof.
  intros H. destruct (Nat.lt_ge_cases q (length the_tables)) as [L|L]; [|rewrite trans_big in H by exact L; destruct H].
  pose proof trans_sym_ok as T. rewrite forallb_forall in T. specialize (T q). assert (I : In q all_q) by (apply in_seq; lia). specialize (T I).
  rewrite forallb_forall in T. specialize (T _ H). exact (has_symbol _ _ T).
Qed.
(** The states from which one leads to [q]. *)
Definition preds (q : nat) : list nat := filter (fun r => existsb (fun e => snd e =? q) (trans r)) all_q.
Lemma in_preds r q x : In (x, q) (trans r) -> In r (preds q).
Proof.
  intros H. apply filter_In. split.
  - destruct (Nat.lt_ge_cases r (length the_tables)) as [L|L]; [apply in_seq; lia|rewrite trans_big in H by exact L; destruct H].
  - apply existsb_exists. exists (x, q). split; [exact H|apply Nat.eqb_refl].
Qed.
(** Going back from any of these states one meets these symbols. *)
Fixpoint backs (xs : list sym) (qs : list nat) : bool :=
  match xs with [] => true | x :: xs => forallb (fun q => has q x) qs && backs xs (nodup Nat.eq_dec (flat_map preds qs)) end.
Lemma backs_ok : forallb (fun q => (q =? final) || forallb (fun e => backs (rev (rhs the_grammar (fst e))) [q]) (reds (row_of q))) all_q = true.
Proof. vm_compute. reflexivity. Qed.

(** A stack of states that follow each other. *)
Fixpoint linked (qs : list nat) : Prop :=
  match qs with
  | [] => False
  | [q] => q = 0
  | q :: ((r :: _) as rest) => (exists x, In (x, q) (trans r)) /\ linked rest
  end.
Lemma linked_back : forall xs qs stk, linked stk -> (exists q r, stk = q :: r /\ In q qs) -> backs xs qs = true ->
  exists top rest, stk = top ++ rest /\ rest <> [] /\ Forall2 (fun q x => symbol_of q = Some x) top xs.
Proof.
  induction xs as [|x xs IH]; intros qs stk L (q & r & -> & I) B.
  - exists [], (q :: r). repeat split; [discriminate|constructor].
  - cbn [backs] in B. apply andb_true_iff in B. destruct B as [B1 B2]. rewrite forallb_forall in B1. specialize (B1 _ I). apply has_symbol in B1.
    destruct r as [|r0 r]; [cbn in L; subst q; discriminate B1|]. destruct L as [[y Y] L].
    destruct (IH (nodup Nat.eq_dec (flat_map preds qs)) (r0 :: r) L) as (top & rest & E & N & F).
    { exists r0, r. split; [reflexivity|]. apply nodup_In. apply in_flat_map. exists q. split; [exact I|exact (in_preds _ _ _ Y)]. }
    { exact B2. }
    exists (q :: top), rest. rewrite E. repeat split; [exact N|]. constructor; [exact B1|exact F].
Qed.
Lemma reduce_back_syms q p ls stk : linked (q :: stk) -> q <> final -> In (p, ls) (reds (row_of q)) ->
  exists top rest, q :: stk = top ++ rest /\ rest <> [] /\ Forall2 (fun q x => symbol_of q = Some x) top (rev (rhs the_grammar p)).
Proof.
  intros L F I. apply linked_back with (qs := [q]); [exact L|exists q, stk; split; [reflexivity|left; reflexivity]|].
  pose proof backs_ok as B. rewrite forallb_forall in B. assert (Q : In q all_q).
  { destruct (Nat.lt_ge_cases q (length the_tables)) as [K|K]; [apply in_seq; lia|]. unfold row_of in I. rewrite nth_overflow in I by exact K. destruct I. }
  specialize (B _ Q). apply orb_true_iff in B. destruct B as [B|B]; [apply Nat.eqb_eq in B; contradiction|]. rewrite forallb_forall in B. exact (B _ I).
Qed.
Lemma default_in r p : default r = Some p -> exists ls, In (p, ls) (reds r).
Proof.
  unfold default. set (f := fun acc e => _). assert (W : forall l acc, (forall e, acc = Some e -> In e (reds r)) -> (forall e, In e l -> In e (reds r)) -> forall e, fold_left f l acc = Some e -> In e (reds r)).
  { induction l as [|a l IH]; intros acc H1 H2 e He; [exact (H1 _ He)|]. cbn [fold_left] in He. apply (IH (f acc a)); [|intros; apply H2; right; assumption|exact He].
    intros e' K. unfold f in K. destruct acc as [b|]; [|injection K as <-; apply H2; left; reflexivity]. destruct (_ <? _); [injection K as <-; apply H2; left; reflexivity|apply H1; exact K]. }
  intros H. destruct (fold_left f (reds r) None) as [[p' ls]|] eqn:K; [|discriminate H]. injection H as ->. exists ls. apply (W (reds r) None); [discriminate|auto|exact K].
Qed.
Lemma action_in r t p : action r t = Reduce p -> exists ls, In (p, ls) (reds r).
Proof.
  unfold action. destruct (lookup t (shifts r)); [discriminate|]. destruct (find _ _) as [[p' ls]|] eqn:K.
  - intros H. injection H as <-. apply find_some in K. exists ls. apply K.
  - destruct (default r) eqn:D; [|discriminate]. intros H. injection H as <-. exact (default_in _ _ D).
Qed.
Lemma lookup_in n l q : lookup n l = Some q -> In (n, q) l.
Proof. unfold lookup. destruct (find _ _) as [[m q']|] eqn:K; [|discriminate]. intros H. injection H as <-. apply find_some in K. destruct K as [K1 K2]. apply Nat.eqb_eq in K2. cbn in *. subst m. exact K1. Qed.
Lemma shift_trans q t q' : action (row_of q) t = Shift q' -> In (T t, q') (trans q).
Proof.
  unfold action. destruct (lookup t (shifts (row_of q))) as [r|] eqn:K.
  - intros H. injection H as <-. apply lookup_in in K. unfold trans, transitions. apply in_or_app. left. apply in_map_iff. exists (t, r). split; [reflexivity|exact K].
  - destruct (find _ _); [discriminate|]. destruct (default _); discriminate.
Qed.
Lemma goto_trans q n q' : lookup n (gotos (row_of q)) = Some q' -> In (N n, q') (trans q).
Proof. intros K. apply lookup_in in K. unfold trans, transitions. apply in_or_app. right. apply in_map_iff. exists (n, q'). split; [reflexivity|exact K]. Qed.

(** ** The rules: exactly the symbols with an object have a fate *)
Definition plain (f : fate) : bool := match f with Plain => true | _ => false end.
Definition passes (f : fate) : bool := match f with Keep | Empty => true | _ => false end.
Definition rule_ok (p : nat) : bool :=
  (length (fates (rule_of p)) =? length (rhs the_grammar p))
  && forallb (fun e => Bool.eqb (plain (fst e)) (negb (destroyed (snd e)))) (combine (fates (rule_of p)) (rhs the_grammar p))
  && (destroyed (N (lhs the_grammar p)) || (negb (existsb passes (fates (rule_of p))) && negb (newly (rule_of p)) && negb (inner (rule_of p))))
  && negb (newly (rule_of p) && inner (rule_of p)).
Lemma rules_ok : forallb rule_ok (seq 0 35) = true.
Proof. vm_compute. reflexivity. Qed.
Lemma reds_small_ok : forallb (fun q => forallb (fun e => fst e <? 35) (reds (row_of q))) all_q = true.
Proof. vm_compute. reflexivity. Qed.
Lemma rule_at q p ls : In (p, ls) (reds (row_of q)) -> rule_ok p = true.
Proof.
  intros I. pose proof reds_small_ok as S. rewrite forallb_forall in S. assert (Q : In q all_q).
  { destruct (Nat.lt_ge_cases q (length the_tables)) as [K|K]; [apply in_seq; lia|]. unfold row_of in I. rewrite nth_overflow in I by exact K. destruct I. }
  specialize (S _ Q). rewrite forallb_forall in S. specialize (S _ I). apply Nat.ltb_lt in S. pose proof rules_ok as R. rewrite forallb_forall in R. apply R. apply in_seq. cbn in S. lia.
Qed.
Definition occ (z : nat) (l : list nat) : nat := count_occ Nat.eq_dec l z.
Lemma occ_app z a b : occ z (a ++ b) = occ z a + occ z b.
Proof. apply count_occ_app. Qed.
Lemma occ_cons z a l : occ z (a :: l) = occ z [a] + occ z l.
Proof. exact (occ_app z [a] l). Qed.
Lemma occ_nil z : occ z [] = 0.
Proof. reflexivity. Qed.
Lemma perm_occ a b : Permutation a b <-> forall z, occ z a = occ z b.
Proof. apply (Permutation_count_occ Nat.eq_dec). Qed.
Lemma settle_all : forall fs os k x g, settle_fates fs os = (k, x, g) -> length fs = length os -> (forall f o, In (f, o) (combine fs os) -> f = Plain -> o = []) ->
  forall z, occ z (concat os) = occ z k + occ z x + occ z g.
Proof.
  induction fs as [|f fs IH]; intros [|o os] k x g H L P z; try discriminate L; [injection H as <- <- <-; reflexivity|].
  cbn [settle_fates] in H. destruct (settle_fates fs os) as [[k' x'] g'] eqn:S. injection L as L. specialize (IH os k' x' g' S L (fun f o I => P f o (or_intror I)) z). cbn [concat]. rewrite occ_app, IH.
  destruct f; try (injection H as <- <- <-; rewrite ?occ_app; lia).
  - injection H as <- <- <-. rewrite (P Plain o (or_introl eq_refl) eq_refl). reflexivity.
  - destruct o as [|a o]; injection H as <- <- <-; [rewrite occ_nil; lia|]. rewrite (occ_cons z a o), (occ_cons z a x'), occ_app. lia.
  - destruct o as [|a o]; injection H as <- <- <-; [rewrite occ_nil; lia|]. rewrite (occ_cons z a o), (occ_cons z a x'), occ_app. lia.
Qed.

Section Inv.
  Context {A : Arith} {E : Env}.
  Variable file : bytes.
  Variable eof : nat.
  Notation hstep := (LrHeap.hstep file eof).
  Notation entry := (nat * sval * list nat)%type.
  Definition owned (stk : list entry) : list nat := concat (map snd stk).
  Definition states_of (stk : list entry) : list nat := map (fun e => fst (fst e)) stk.
  (** A value without destructor has no object. *)
  Definition typed (e : entry) : Prop := match symbol_of (fst (fst e)) with Some x => destroyed x = false -> snd e = [] | None => snd e = [] end.
  Definition needs (ts : list ltok) : bool := match ts with LTok _ (TId _) :: _ | LTok _ (TStr _) :: _ => true | _ => false end.
  Definition la_list (la : option (list nat)) : list nat := match la with Some o => o | None => [] end.
  (** Every object created is in exactly one place. *)
  Definition whole (h : store) (here : list nat) : Prop := forall z, occ z (seq 0 (made h)) = occ z (gone h) + occ z (kept h) + occ z here.
  Definition ok (c : hconf) : Prop :=
    match c with
    | HConf stk la ts d h => linked (states_of stk) /\ Forall typed stk /\ (needs ts = false -> la_list la = []) /\ whole h (la_list la ++ owned stk)
    | HDone d (Some (PDead (AUB _))) h => True
    | HDone _ _ h => whole h []
    end.
  Lemma cleared_owned stk : Forall typed stk -> cleared stk = owned stk.
  Proof.
    induction 1 as [|[[q v] o] stk T F IH]; [reflexivity|]. unfold cleared, owned in *. cbn [flat_map map concat fst snd]. rewrite IH. f_equal. unfold typed in T. cbn [fst snd] in T.
    destruct (symbol_of q) as [x|]; [|symmetry; exact T]. destruct (destroyed x); [reflexivity|]. symmetry. apply T. reflexivity.
  Qed.
  Lemma finish_ok stk la d e h : Forall typed stk -> whole h (la ++ owned stk) -> ok (finish stk la d e h).
  Proof.
    intros F W. unfold finish. rewrite (cleared_owned stk F). assert (K : whole (Store (made h) (gone h ++ la ++ owned stk) (kept h)) []).
    { intros z. specialize (W z). cbn [made gone kept]. rewrite !occ_app in *. rewrite occ_nil. lia. }
    cbn [ok]. destruct e as [[l m|[]]|]; try exact K. exact I.
  Qed.
  Lemma occ_made z n : occ z (seq 0 (S n)) = occ z (seq 0 n) + occ z [n].
  Proof. rewrite seq_S. apply occ_app. Qed.
  Lemma forall2_length {X Y} (P : X -> Y -> Prop) a b : Forall2 P a b -> length a = length b.
  Proof. induction 1; cbn; congruence. Qed.
  Lemma firstn_states n stk : map (fun e : entry => fst (fst e)) (firstn n stk) = firstn n (states_of stk).
  Proof. unfold states_of. symmetry. apply firstn_map. Qed.
  Lemma linked_skipn : forall n qs, linked qs -> skipn n qs <> [] -> linked (skipn n qs).
  Proof.
    induction n as [|n IH]; intros qs L N; [exact L|]. destruct qs as [|q qs]; [destruct L|]. cbn [skipn] in *. destruct qs as [|r qs]; [exfalso; apply N; apply skipn_nil|]. apply IH; [apply L|exact N].
  Qed.
  Definition ub_only {X} (r : outcome X) : Prop := match r with Abort (AUB _) | Ret _ => True | _ => False end.
  Lemma act_ub p vs d : ub_only (act file p vs d).
  Proof.
    assert (MS : forall x y f, (forall v, exists w, f v = Ret w) -> @ub_only (sval * document) (obind (mk_scale x y) f)).
    { intros x y f Hf. unfold mk_scale. destruct (to_int x) as [i|]; [destruct (to_int y) as [i0|]|]; cbn [obind]; try exact I. destruct (Hf (MScale i i0)) as [w Hw]. rewrite Hw. exact I. }
    unfold act.
    repeat first [exact I | match goal with |- ub_only (match ?x with _ => _ end) => is_var x; case x; clear x; intros end].
    all: apply MS; intros; eexists; reflexivity.
  Qed.
  Lemma fates_plain (top : list entry) xs : Forall2 (fun e x => symbol_of (fst (fst e)) = Some x) top xs -> Forall typed top ->
    forall fs, forallb (fun e => Bool.eqb (plain (fst e)) (negb (destroyed (snd e)))) (combine fs xs) = true ->
    forall f o, In (f, o) (combine fs (map snd top)) -> f = Plain -> o = [].
  Proof.
    induction 1 as [|[[q v] o] x top xs H F2 IH]; intros T fs C f o' I E'; [destruct fs; destruct I|].
    destruct fs as [|f0 fs]; [destruct I|]. cbn [combine forallb map] in *. apply andb_true_iff in C. destruct C as [C1 C2]. inversion T; subst. destruct I as [I|I].
    - injection I as -> <-. cbn [fst snd plain] in *. unfold typed in H2. cbn [fst snd] in H2. rewrite H in H2. apply H2. destruct (destroyed x); [discriminate C1|reflexivity].
    - exact (IH H3 fs C2 Plain o' I eq_refl).
  Qed.
  Lemma passes_none : forall fs os k x g, settle_fates fs os = (k, x, g) -> existsb passes fs = false -> k = [].
  Proof.
    induction fs as [|f fs IH]; intros [|o os] k x g H P; try (injection H as <- <- <-; reflexivity). cbn [settle_fates existsb] in *. apply orb_false_iff in P. destruct P as [P1 P2].
    destruct (settle_fates fs os) as [[k' x'] g'] eqn:S. pose proof (IH os k' x' g' S P2) as ->. destruct f; try discriminate P1; try (injection H as <- _ _; reflexivity). destruct o; injection H as <- _ _; reflexivity.
  Qed.
  Lemma occ_concat_rev z (l : list (list nat)) : occ z (concat (rev l)) = occ z (concat l).
  Proof. induction l as [|a l IH]; [reflexivity|]. cbn [rev concat]. rewrite concat_app, !occ_app, IH. cbn [concat]. rewrite app_nil_r. lia. Qed.
  Lemma forall2_rev {X Y} (P : X -> Y -> Prop) a b : Forall2 P a b -> Forall2 P (rev a) (rev b).
  Proof. induction 1; cbn [rev]; [constructor|]. apply Forall2_app; [assumption|constructor; [assumption|constructor]]. Qed.
  Lemma hreduce_ok p ls q v o stk la ts d h : q <> final -> In (p, ls) (reds (row_of q)) -> ok (HConf ((q, v, o) :: stk) la ts d h) -> ok (hreduce file p ((q, v, o) :: stk) la ts d h).
  Proof.
    intros NF I (L & F & LA & W). pose proof (rule_at _ _ _ I) as RK. destruct (reduce_back_syms q p ls (states_of stk) L NF I) as (top & rest & Etop & NR & F2).
    set (S := (q, v, o) :: stk) in *. change (q :: states_of stk) with (states_of S) in Etop. unfold hreduce. set (n := length (rhs the_grammar p)).
    pose proof (act_ub p (rev (map (fun e : entry => snd (fst e)) (firstn n S))) d) as UB.
    destruct (act file p _ d) as [[v' d']|a]; [|destruct a; try destruct UB; exact Logic.I].
    assert (LT : length top = n) by (apply forall2_length in F2; rewrite rev_length in F2; exact F2).
    assert (Et : states_of (firstn n S) = top) by (unfold states_of; rewrite <- firstn_map; fold (states_of S); rewrite Etop, <- LT, firstn_app, Nat.sub_diag, firstn_all, firstn_O, app_nil_r; reflexivity).
    assert (Er : states_of (skipn n S) = rest) by (unfold states_of; rewrite <- skipn_map; fold (states_of S); rewrite Etop, <- LT, skipn_app, Nat.sub_diag, skipn_all; reflexivity).
    assert (LR : linked (states_of (skipn n S))) by (unfold states_of; rewrite <- skipn_map; fold (states_of S); apply linked_skipn; [exact L|unfold states_of; rewrite skipn_map; fold (states_of (skipn n S)); rewrite Er; exact NR]).
    assert (FS : Forall typed (firstn n S) /\ Forall typed (skipn n S)) by (apply Forall_app; rewrite firstn_skipn; exact F).
    destruct FS as [FT FR].
    assert (OW : forall z, occ z (owned S) = occ z (owned (firstn n S)) + occ z (owned (skipn n S))).
    { intros z. rewrite <- occ_app. f_equal. unfold owned. rewrite <- concat_app, <- map_app, firstn_skipn. reflexivity. }
    destruct (skipn n S) as [|[[q0 w] o0] r] eqn:ES; [cbn in Er; congruence|].
    destruct (lookup (lhs the_grammar p) (gotos (row_of q0))) as [q'|] eqn:G; [|exact Logic.I].
    destruct (settle_fates (fates (rule_of p)) (rev (map snd (firstn n S)))) as [[k x] g] eqn:SF.
    unfold rule_ok in RK. apply andb_true_iff in RK. destruct RK as [RK NI]. apply andb_true_iff in RK. destruct RK as [RK RN]. apply andb_true_iff in RK. destruct RK as [RL RP]. apply Nat.eqb_eq in RL.
    assert (LF : length (firstn n S) = n) by (pose proof (f_equal (@length _) Et) as Q; unfold states_of in Q; rewrite map_length, LT in Q; exact Q).
    assert (F2' : Forall2 (fun e x => symbol_of (fst (fst e)) = Some x) (rev (firstn n S)) (rhs the_grammar p)).
    { rewrite <- (rev_involutive (rhs the_grammar p)). apply forall2_rev. rewrite <- Et in F2. clear -F2. unfold states_of in F2. revert F2. generalize (rev (rhs the_grammar p)). induction (firstn n S) as [|e l IH]; intros ys H; inversion H; subst; constructor; [assumption|apply IH; assumption]. }
    pose proof (settle_all _ _ _ _ _ SF) as ST. rewrite rev_length, map_length, LF in ST. specialize (ST RL).
    assert (PL : forall f o, In (f, o) (combine (fates (rule_of p)) (rev (map snd (firstn n S)))) -> f = Plain -> o = []).
    { intros f o' If Ef. rewrite <- map_rev in If. exact (fates_plain _ _ F2' (Forall_rev FT) _ RP f o' If Ef). }
    specialize (ST PL).
    cbn [ok]. split; [|split; [|split; [exact LA|]]].
    - cbn [states_of map fst]. split; [|exact LR]. exists (N (lhs the_grammar p)). exact (goto_trans _ _ _ G).
    - constructor; [|exact FR]. unfold typed. cbn [fst snd]. rewrite (trans_sym _ _ _ (goto_trans _ _ _ G)). intros ND. rewrite ND in RN. cbn [orb] in RN.
      apply andb_true_iff in RN. destruct RN as [RN RI]. apply andb_true_iff in RN. destruct RN as [RE RN]. apply negb_true_iff in RI, RE, RN. rewrite RI, RN.
      rewrite (passes_none _ _ _ _ _ SF RE). reflexivity.
    - intros z. specialize (W z). specialize (OW z). specialize (ST z). rewrite occ_concat_rev in ST. change (concat (map snd (firstn n S))) with (owned (firstn n S)) in ST.
      cbn [made gone kept]. rewrite occ_app in W. unfold owned at 1. cbn [map snd concat]. change (concat (map snd r)) with (owned r). unfold owned in OW at 3. cbn [map snd concat] in OW. change (concat (map snd r)) with (owned r) in OW. rewrite occ_app in OW.
      rewrite !occ_app.
      destruct (newly (rule_of p)), (inner (rule_of p)); try discriminate NI; cbn [length]; rewrite ?occ_nil, ?Nat.add_0_r, ?Nat.add_1_r, ?occ_made; lia.
  Qed.
  Lemma read_ok stk ts h la : (needs ts = false -> la_list la = []) -> whole h (la_list la ++ owned stk) ->
    forall o h', (match la with Some o => (o, h) | None => read ts h end) = (o, h') -> (needs ts = false -> o = []) /\ whole h' (o ++ owned stk).
  Proof.
    intros LA W o h' H. destruct la as [o1|]; [injection H as <- <-; split; [exact LA|exact W]|]. cbn [la_list app] in W.
    assert (K : (needs ts = true /\ o = [made h] /\ h' = Store (S (made h)) (gone h) (kept h)) \/ (needs ts = false /\ o = [] /\ h' = h)).
    { destruct ts as [|[l []] r]; cbn in H |- *; injection H as <- <-; auto. }
    destruct K as [(-> & -> & ->)|(-> & -> & ->)]; split; [discriminate| |reflexivity|exact W].
    intros z. specialize (W z). cbn [made gone kept]. rewrite occ_made, occ_app. lia.
  Qed.
  Lemma hstep_ok c : ok c -> ok (hstep c).
  Proof.
    destruct c as [stk la ts d h|d e h]; [|exact (fun H => H)]. intros H. destruct stk as [|[[q v] o] stk]; [exact I|]. unfold hstep, LrHeap.hstep.
    destruct (Nat.eqb_spec q final) as [->|NF].
    { destruct H as (L & F & LA & W). apply finish_ok; [exact F|]. exact W. }
    assert (RD : ok (let '(o, h) := match la with Some o => (o, h) | None => read ts h end in
            match ts with
            | LTok _ TThrow :: _ | LTok _ (TErr _) :: _ => finish ((q, v, o) :: stk) o d (Some (stop eof ts)) h
            | _ => HDone d None h end) -> True) by auto.
    clear RD.
    assert (GO : forall o0 h0, (match la with Some o => (o, h) | None => read ts h end) = (o0, h0) ->
      ok (match ts with
            | LTok _ TThrow :: _ | LTok _ (TErr _) :: _ => finish ((q, v, o) :: stk) o0 d (Some (stop eof ts)) h0
            | _ => match action (row_of q) (match ts with [] => 0 | t :: _ => code (t_tok t) end) with
                   | Shift q' => match ts with [] => HConf ((q', VNone, o0) :: (q, v, o) :: stk) None [] d h0 | t :: r => HConf ((q', VTok t, o0) :: (q, v, o) :: stk) None r d h0 end
                   | Reduce p => hreduce file p ((q, v, o) :: stk) (Some o0) ts d h0
                   | Error => finish ((q, v, o) :: stk) o0 d (Some (stop eof ts)) h0
                   end
            end)).
    { intros o0 h0 RE. destruct H as (L & F & LA & W). destruct (read_ok _ _ _ _ LA W _ _ RE) as [LA' W'].
      assert (FI : ok (finish ((q, v, o) :: stk) o0 d (Some (stop eof ts)) h0)) by (apply finish_ok; assumption).
      assert (AC : ok (match action (row_of q) (match ts with [] => 0 | t :: _ => code (t_tok t) end) with
                   | Shift q' => match ts with [] => HConf ((q', VNone, o0) :: (q, v, o) :: stk) None [] d h0 | t :: r => HConf ((q', VTok t, o0) :: (q, v, o) :: stk) None r d h0 end
                   | Reduce p => hreduce file p ((q, v, o) :: stk) (Some o0) ts d h0
                   | Error => finish ((q, v, o) :: stk) o0 d (Some (stop eof ts)) h0
                   end)).
      { destruct (action _ _) as [q'|p|] eqn:HA; [|destruct (action_in _ _ _ HA) as [ls I]; apply (hreduce_ok p ls); [exact NF|exact I|repeat split; assumption]|exact FI].
        apply shift_trans in HA. assert (TY : forall w, typed (q', w, o0)).
        { intros w. unfold typed. cbn [fst snd]. rewrite (trans_sym _ _ _ HA). intros ND. apply LA'. destruct ts as [|[l []] r]; try reflexivity; discriminate ND. }
        assert (LK : linked (q' :: states_of ((q, v, o) :: stk))) by (split; [eexists; exact HA|exact L]).
        destruct ts as [|t r]; (split; [exact LK|split; [constructor; [apply TY|exact F]|split; [reflexivity|exact W']]]). }
      destruct ts as [|[l []] r]; first [exact AC|exact FI]. }
    destruct (consistent (row_of q)), (default (row_of q)) as [p|] eqn:D.
    1: { destruct (default_in _ _ D) as [ls I]. apply (hreduce_ok p ls); [exact NF|exact I|exact H]. }
    all: destruct (match la with Some o => (o, h) | None => read ts h end) as [o0 h0]; exact (GO _ _ eq_refl).
  Qed.
  Lemma start_ok ts : ok (hstart ts).
  Proof. split; [reflexivity|]. split; [constructor; [reflexivity|constructor]|]. split; [reflexivity|]. intros z. reflexivity. Qed.
  Lemma reach_ok ts n : ok (iter n hstep (hstart ts)).
  Proof.
    assert (W : forall n c, ok c -> ok (iter n hstep c)) by (clear; induction n as [|n IH]; intros c H; [exact H|cbn; apply IH, hstep_ok, H]). apply W, start_ok.
  Qed.
  (** The objects do not change what the parser does. *)
  Definition erase (c : hconf) : conf := match c with HConf stk la ts d h => Conf (map fst stk) ts d | HDone d e h => Done d e end.
  Lemma erase_reduce p stk la ts d h : erase (hreduce file p stk la ts d h) = reduce file p (map fst stk) ts d.
  Proof.
    unfold hreduce, reduce. rewrite (firstn_map fst), map_map.
    destruct (act file p _ d) as [[v' d']|a]; [|reflexivity]. rewrite skipn_map. destruct (skipn _ stk) as [|[[q w] o] r]; [reflexivity|]. cbn [map fst].
    destruct (lookup _ _); [|reflexivity]. destruct (settle_fates _ _) as [[k x] g]. reflexivity.
  Qed.
  Lemma erase_step c : erase (hstep c) = step file eof (erase c).
  Proof.
    destruct c as [stk la ts d h|d e h]; [|reflexivity]. destruct stk as [|[[q v] o] stk]; [reflexivity|]. unfold hstep, LrHeap.hstep, step. cbn [erase map fst].
    destruct (q =? final); [reflexivity|]. pose proof (fun p l h => erase_reduce p ((q, v, o) :: stk) l ts d h) as ER. cbn [map fst] in ER.
    destruct (consistent (row_of q)), (default (row_of q)) as [p|]; try apply ER.
    all: destruct (match la with Some o => (o, h) | None => read ts h end) as [o0 h0]; destruct ts as [|[l []] r]; try reflexivity; destruct (action _ _); try reflexivity; apply ER.
  Qed.
  Lemma erase_iter n : forall c, erase (iter n hstep c) = iter n (step file eof) (erase c).
  Proof. induction n as [|n IH]; intros c; [reflexivity|]. cbn [iter]. rewrite IH, erase_step. reflexivity. Qed.

  (** ** How many objects a value has *)
  Definition tok_objects (t : ltok) : nat := match t_tok t with TId _ | TStr _ => 1 | _ => 0 end.
  Definition val_objects (v : sval) : nat :=
    match v with
    | VNone => 0 | VTok t => tok_objects t | VLoc _ => 1 | VPoint p => point_objects p | VStr _ => 1 | VMeta m => meta_objects m | VMetas l => S (metas_objects l)
    | VDraw ml ds => S (metas_objects ml + list_sum (map dim_objects ds)) | VParts ml ds => S (metas_objects ml + list_sum (map drawable_objects ds))
    | VModel _ => 1 | VPage p => S (page_objects p)
    end.
  Definition one (b : bool) : nat := if b then 1 else 0.
  Lemma metas_app a b : metas_objects (a ++ b) = metas_objects a + metas_objects b.
  Proof. unfold metas_objects. rewrite map_app. apply list_sum_app. Qed.
  Lemma metas_one m : metas_objects [m] = meta_objects m.
  Proof. unfold metas_objects. cbn. lia. Qed.
  Lemma metas_none : metas_objects [] = 0.
  Proof. reflexivity. Qed.
  Lemma dim_is k l m : dim_objects (Dim k l m) = S (metas_objects m).
  Proof. reflexivity. Qed.
  Lemma act_objects p vs d v' d' os k x g : act file p vs d = Ret (v', d') -> Forall2 (fun v o => length o = val_objects v) vs os -> settle_fates (fates (rule_of p)) os = (k, x, g) ->
    one (newly (rule_of p)) + length k + one (inner (rule_of p)) = val_objects v' /\ document_objects d + length g = document_objects d'.
  Proof.
    intros H F SF.
    assert (MS : forall x y (f : mval -> outcome (sval * document)) r, obind (mk_scale x y) f = Ret r -> exists m n, f (MScale m n) = Ret r).
    { clear. intros x y f r K. unfold mk_scale in K. destruct (to_int x) as [i|]; [destruct (to_int y) as [i0|]|]; cbn [obind] in K; try discriminate K. eauto. }
    unfold act in H.
    do 35 (destruct p as [|p]; [repeat (match type of H with context [match ?x with _ => _ end] => is_var x; destruct x end; try discriminate H); try discriminate H;
      try (apply MS in H; destruct H as (? & ? & H)); injection H as <- <-; 
      repeat match goal with Q : Forall2 _ (_ :: _) _ |- _ => inversion Q; clear Q; subst | Q : Forall2 _ [] _ |- _ => inversion Q; clear Q; subst end;
      cbn in SF; cbn [one newly inner rule_of nth rules val_objects] in *;
      repeat match goal with Q : length ?o = S _ |- _ => destruct o; [discriminate Q|cbn [length] in Q; injection Q as Q] end;
      cbn in SF; injection SF as <- <- <-; cbn [length app]; rewrite ?app_length; cbn [length app]; rewrite ?app_length; cbn [length];
      repeat match goal with Q : length ?o = _ |- _ => rewrite Q; clear Q end;
      unfold document_objects, page_objects; cbn [doc_pages doc_models pg_meta pg_draws m_val tok_objects Lexer.t_tok val_objects point_objects]; rewrite ?metas_app, ?metas_one, ?metas_none, ?map_app, ?list_sum_app; cbn [map list_sum fold_right drawable_objects dim_objects meta_objects m_val d_meta length]; rewrite ?dim_is, ?metas_none; first [split; lia | match goal with |- ?G => fail 2 G end]
      |]).
    all: discriminate H.
  Qed.
  Definition entry_sized (e : entry) : Prop := length (snd e) = val_objects (snd (fst e)).
  Definition head_objects (ts : list ltok) : nat := match ts with t :: _ => tok_objects t | [] => 0 end.
  Definition sized (c : hconf) : Prop :=
    match c with
    | HConf stk la ts d h => Forall entry_sized stk /\ (forall o, la = Some o -> length o = head_objects ts) /\ length (kept h) = document_objects d
    | HDone d _ h => length (kept h) = document_objects d
    end.
  Lemma hreduce_sized p stk la ts d h : sized (HConf stk la ts d h) -> sized (hreduce file p stk la ts d h).
  Proof.
    intros (F & LA & K). unfold hreduce. set (n := length (rhs the_grammar p)).
    assert (FS : Forall entry_sized (firstn n stk) /\ Forall entry_sized (skipn n stk)) by (apply Forall_app; rewrite firstn_skipn; exact F). destruct FS as [FT FR].
    destruct (act file p _ d) as [[v' d']|a] eqn:HA; [|exact K]. destruct (skipn n stk) as [|[[q0 w] o0] r]; [exact K|]. destruct (lookup _ _) as [q'|]; [|exact K].
    destruct (settle_fates _ _) as [[k x] g] eqn:SF.
    assert (F2 : Forall2 (fun v o => length o = val_objects v) (rev (map (fun e : entry => snd (fst e)) (firstn n stk))) (rev (map snd (firstn n stk)))).
    { apply forall2_rev. clear -FT. induction FT as [|e l H F IH]; constructor; assumption. }
    destruct (act_objects p _ d v' d' _ k x g HA F2 SF) as [H1 H2].
    split; [|split; [exact LA|]].
    - constructor; [|exact FR]. unfold entry_sized. cbn [fst snd]. rewrite <- H1, !app_length. destruct (newly _), (inner _); cbn [length one]; lia.
    - cbn [kept]. rewrite app_length. lia.
  Qed.
  Lemma hstep_sized c : sized c -> sized (hstep c).
  Proof.
    destruct c as [stk la ts d h|d e h]; [|exact (fun H => H)]. intros H. destruct stk as [|[[q v] o] stk]; [apply H|]. unfold hstep, LrHeap.hstep.
    destruct (q =? final); [apply H|].
    assert (GO : forall o0 h0, (match la with Some o => (o, h) | None => read ts h end) = (o0, h0) ->
      sized (match ts with
            | LTok _ TThrow :: _ | LTok _ (TErr _) :: _ => finish ((q, v, o) :: stk) o0 d (Some (stop eof ts)) h0
            | _ => match action (row_of q) (match ts with [] => 0 | t :: _ => code (t_tok t) end) with
                   | Shift q' => match ts with [] => HConf ((q', VNone, o0) :: (q, v, o) :: stk) None [] d h0 | t :: r => HConf ((q', VTok t, o0) :: (q, v, o) :: stk) None r d h0 end
                   | Reduce p => hreduce file p ((q, v, o) :: stk) (Some o0) ts d h0
                   | Error => finish ((q, v, o) :: stk) o0 d (Some (stop eof ts)) h0
                   end
            end)).
    { intros o0 h0 RE. destruct H as (F & LA & K).
      assert (HO : length o0 = head_objects ts /\ kept h0 = kept h).
      { destruct la as [o1|]; [injection RE as <- <-; split; [apply LA|]; reflexivity|]. destruct ts as [|[l []] r]; cbn in RE; injection RE as <- <-; split; reflexivity. }
      destruct HO as [HO HK]. assert (FI : sized (finish ((q, v, o) :: stk) o0 d (Some (stop eof ts)) h0)) by (cbn; rewrite HK; exact K).
      assert (AC : sized (match action (row_of q) (match ts with [] => 0 | t :: _ => code (t_tok t) end) with
                   | Shift q' => match ts with [] => HConf ((q', VNone, o0) :: (q, v, o) :: stk) None [] d h0 | t :: r => HConf ((q', VTok t, o0) :: (q, v, o) :: stk) None r d h0 end
                   | Reduce p => hreduce file p ((q, v, o) :: stk) (Some o0) ts d h0
                   | Error => finish ((q, v, o) :: stk) o0 d (Some (stop eof ts)) h0
                   end)).
      { destruct (action _ _) as [q'|p|]; [|apply hreduce_sized; split; [exact F|split; [intros o1 Q; injection Q as <-; exact HO|rewrite HK; exact K]]|exact FI].
        destruct ts as [|t r]; (split; [constructor; [exact HO|exact F]|split; [discriminate|rewrite HK; exact K]]). }
      destruct ts as [|[l []] r]; first [exact AC|exact FI]. }
    destruct (consistent (row_of q)), (default (row_of q)) as [p|]; [apply hreduce_sized; exact H|..].
    all: destruct (match la with Some o => (o, h) | None => read ts h end) as [o0 h0]; exact (GO _ _ eq_refl).
  Qed.
  Lemma reach_sized ts n : sized (iter n hstep (hstart ts)).
  Proof.
    assert (W : forall n c, sized c -> sized (iter n hstep c)) by (clear; induction n as [|n IH]; intros c H; [exact H|cbn; apply IH, hstep_sized, H]). apply W.
    split; [constructor; [reflexivity|constructor]|]. split; [discriminate|reflexivity].
  Qed.
End Inv.

Section Once.
  Context {A : Arith}.
  Lemma objects_once f el ts d e h : hruns f el ts d e h -> (forall s, e <> Some (PDead (AUB s))) -> Permutation (seq 0 (made h)) (gone h ++ kept h).
  Proof.
    intros [n H] U. pose proof (reach_ok f el ts n) as K. rewrite H in K. apply perm_occ. intros z. rewrite occ_app.
    assert (W : whole h []) by (cbn [ok] in K; destruct e as [[l m|[]]|]; try exact K; exfalso; exact (U _ eq_refl)). specialize (W z). rewrite occ_nil in W. lia.
  Qed.
  Lemma objects_always f el ts n stk la r d h : iter n (hstep f el) (hstart ts) = HConf stk la r d h ->
    Permutation (seq 0 (made h)) (gone h ++ kept h ++ match la with Some o => o | None => [] end ++ concat (map snd stk)).
  Proof.
    intros H. pose proof (reach_ok f el ts n) as K. rewrite H in K. destruct K as (_ & _ & _ & W). apply perm_occ. intros z. specialize (W z). unfold la_list, owned in W. rewrite !occ_app in *. lia.
  Qed.
  Lemma objects_document f el ts d e h : hruns f el ts d e h -> length (kept h) = document_objects d.
  Proof. intros [n H]. pose proof (reach_sized f el ts n) as K. rewrite H in K. exact K. Qed.
  Lemma objects_runs f el ts d e : runs f el ts d e <-> exists h, hruns f el ts d e h.
  Proof.
    split.
    - intros [n H]. change (Conf [(0, VNone)] ts (Doc [] [])) with (erase (hstart ts)) in H. rewrite <- erase_iter in H.
      destruct (iter n (hstep f el) (hstart ts)) as [|d' e' h] eqn:K; [discriminate H|]. injection H as -> ->. exists h, n. exact K.
    - intros [h [n H]]. exists n. change (Conf [(0, VNone)] ts (Doc [] [])) with (erase (hstart ts)). rewrite <- erase_iter, H. reflexivity.
  Qed.
End Once.
