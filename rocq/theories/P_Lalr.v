(** P_Lalr.v - the states and lookaheads of the tables are those of the grammar. *)
From Coq Require Import List Arith Bool Lia.
From Verif Require Import Base Lalr LrParser LalrSpec.
Import ListNotations.

Local Unset Implicit Arguments.

Lemma mem_in n l : mem n l = true <-> In n l.
Proof. unfold mem. rewrite existsb_exists. split; [intros (x & I & E); apply Nat.eqb_eq in E; subst; exact I|intro I; exists n; split; [exact I|apply Nat.eqb_refl]]. Qed.
Lemma union_in n l r : In n (union l r) <-> In n l \/ In n r.
Proof.
  unfold union. revert l. induction r as [|x r IH]; intro l; cbn [fold_left]; [cbn; tauto|]. rewrite IH. destruct (mem x l) eqn:M.
  - apply mem_in in M. cbn [In]. split; [tauto|]. intros [H|[->|H]]; auto.
  - rewrite in_app_iff. cbn [In]. tauto.
Qed.
Lemma derives_trans g u v w : derives g u v -> derives g v w -> derives g u w.
Proof. intros D E. induction D; [exact E|]. eapply derives_step; [eassumption|auto]. Qed.
Lemma derives_ctx g x u v y : derives g u v -> derives g (x ++ u ++ y) (x ++ v ++ y).
Proof.
  intro D. induction D as [w|u n p r v w G D IH]; [apply derives_refl|].
  replace (x ++ (u ++ N n :: v) ++ y) with ((x ++ u) ++ N n :: (v ++ y)) by (rewrite <- !app_assoc; reflexivity). eapply derives_step; [exact G|].
  replace ((x ++ u) ++ r ++ v ++ y) with (x ++ (u ++ r ++ v) ++ y) by (rewrite <- !app_assoc; reflexivity). exact IH.
Qed.

(** ** First terminals *)
Section First.
  Variables (g : grammar) (nl : list nat) (fs : list (list nat)).
  Local Notation F := (first_of nl fs).
  Lemma F_app u v : snd (F (u ++ v)) = (snd (F u) && snd (F v))%bool /\ forall t, In t (fst (F (u ++ v))) <-> In t (fst (F u)) \/ (snd (F u) = true /\ In t (fst (F v))).
  Proof.
    induction u as [|[n|n] u [I1 I2]]; cbn [first_of app fst snd].
    - split; [reflexivity|]. intro t. cbn [In]. tauto.
    - split; [reflexivity|]. intro t. cbn [In]. split; [tauto|]. intros [H|[H _]]; [exact H|discriminate].
    - destruct (mem n nl).
      + destruct (F (u ++ v)) as [f e], (F u) as [f' e']. cbn [fst snd] in *. split; [exact I1|]. intro t. rewrite !union_in, I2. tauto.
      + cbn [fst snd]. split; [reflexivity|]. intro t. split; [tauto|]. intros [H|[H _]]; [exact H|discriminate].
  Qed.
  (** The sets are closed under the productions. *)
  Definition first_closed : bool := forallb (fun pr => forallb (fun t => mem t (nth (fst pr) fs [])) (fst (F (snd pr))) && implb (snd (F (snd pr))) (mem (fst pr) nl)) g.
  Lemma F_derives u w : first_closed = true -> derives g u w -> (forall t, In t (fst (F w)) -> In t (fst (F u))) /\ (snd (F w) = true -> snd (F u) = true).
  Proof.
    intros C D. induction D as [w|u n p r v w G D [I1 I2]]; [tauto|].
    unfold first_closed in C. rewrite forallb_forall in C. specialize (C _ (nth_error_In _ _ G)). cbn [fst snd] in C. apply andb_true_iff in C. destruct C as [C1 C2]. rewrite forallb_forall in C1.
    assert (K : (forall t, In t (fst (F (r ++ v))) -> In t (fst (F (N n :: v)))) /\ (snd (F (r ++ v)) = true -> snd (F (N n :: v)) = true)).
    { destruct (F_app r v) as [A1 A2]. cbn [first_of]. destruct (mem n nl) eqn:M.
      - destruct (F v) as [f e]. cbn [fst snd] in *. split.
        + intros t H. apply A2 in H. apply union_in. destruct H as [H|[_ H]]; [left; apply mem_in, C1, H|right; exact H].
        + rewrite A1. intro H. apply andb_true_iff in H. exact (proj2 H).
      - assert (E : snd (F r) = false) by (destruct (snd (F r)); [discriminate C2|reflexivity]). cbn [fst snd]. split.
        + intros t H. apply A2 in H. destruct H as [H|[H _]]; [apply mem_in, C1, H|congruence].
        + rewrite A1, E. discriminate. }
    destruct K as [K1 K2]. destruct (F_app u (r ++ v)) as [A1 A2], (F_app u (N n :: v)) as [B1 B2]. split.
    - intros t H. apply I1, A2 in H. apply B2. destruct H as [H|[E H]]; [left; exact H|right; split; [exact E|apply K1, H]].
    - intro H. apply I2 in H. rewrite A1 in H. apply andb_true_iff in H. rewrite B1, (proj1 H), (K2 (proj2 H)). reflexivity.
  Qed.
  Lemma F_complete w la t : first_closed = true -> starts g (w ++ tail_of la) t -> In t (fst (F w)) \/ (snd (F w) = true /\ la = Some t).
  Proof.
    intros C (v & D). destruct (F_derives _ _ C D) as [I _]. specialize (I t (or_introl eq_refl)). apply F_app in I. destruct I as [I|[E I]]; [left; exact I|].
    right. split; [exact E|]. destruct la as [u|]; cbn in I; [destruct I as [->|[]]; reflexivity|destruct I].
  Qed.
  (** The sets hold nothing else. *)
  Definition nl_sound : Prop := forall n, In n nl -> derives g [N n] [].
  Definition fs_sound : Prop := forall n t, In t (nth n fs []) -> starts g [N n] t.
  Lemma F_null w : nl_sound -> snd (F w) = true -> derives g w [].
  Proof.
    intro S. induction w as [|[n|n] w IH]; cbn [first_of]; [intros _; apply derives_refl|discriminate|]. destruct (mem n nl) eqn:M; [|discriminate]. apply mem_in in M. destruct (F w) as [f e]. cbn [snd]. intro E.
    change (N n :: w) with ([] ++ [N n] ++ w). eapply derives_trans; [apply derives_ctx, S, M|]. cbn [app]. exact (IH E).
  Qed.
  Lemma F_sound w t : nl_sound -> fs_sound -> In t (fst (F w)) -> forall x, starts g (w ++ x) t.
  Proof.
    intros S1 S2. induction w as [|[n|n] w IH]; cbn [first_of]; [intros []|intros [->|[]] x; exists (w ++ x); apply derives_refl|].
    assert (K : In t (nth n fs []) -> forall x, starts g ((N n :: w) ++ x) t).
    { intros I x. destruct (S2 _ _ I) as (v & D). exists (v ++ w ++ x). exact (derives_ctx g [] [N n] (T t :: v) (w ++ x) D). }
    destruct (mem n nl) eqn:M; [|exact K]. apply mem_in in M. destruct (F w) as [f e]. cbn [fst] in *. intros I x. apply union_in in I. destruct I as [I|I]; [exact (K I x)|].
    destruct (IH I x) as (v & D). exists v. eapply derives_trans; [exact (derives_ctx g [] [N n] [] (w ++ x) (S1 _ M))|exact D].
  Qed.
End First.
Lemma one_step g n p r : nth_error g p = Some (n, r) -> derives g [N n] r.
Proof. intro G. apply (derives_step g [] n p r [] r G). cbn [app]. rewrite app_nil_r. apply derives_refl. Qed.
Lemma nullable_step_sound g nl : nl_sound g nl -> nl_sound g (nullable_step g nl).
Proof.
  intros S n I. unfold nullable_step in I. apply union_in in I. destruct I as [I|I]; [exact (S n I)|]. apply in_map_iff in I. destruct I as ((m & r) & Q & I). cbn [fst] in Q. subst m. apply filter_In in I. destruct I as [I H]. cbn [snd] in H.
  apply In_nth_error in I. destruct I as (p & I). eapply derives_trans; [exact (one_step _ _ _ _ I)|]. clear I. induction r as [|[k|k] r IH]; [apply derives_refl|discriminate H|]. cbn [forallb] in H. apply andb_true_iff in H. destruct H as [M H]. apply mem_in in M.
  eapply derives_trans; [exact (derives_ctx g [] [N k] [] r (S _ M))|exact (IH H)].
Qed.
Lemma first_step_sound g nl fs : nl_sound g nl -> fs_sound g fs -> fs_sound g (first_step g nl fs).
Proof.
  intros S1 S2 n t I. unfold first_step in I. destruct (lt_dec n (length fs)) as [L|L]; [|rewrite nth_overflow in I by (rewrite map_length, seq_length; lia); destruct I].
  match type of I with In t (nth n (map ?h _) []) => set (h0 := h) in I end. rewrite (nth_indep _ [] (h0 0)) in I by (rewrite map_length, seq_length; exact L). rewrite map_nth, seq_nth in I by exact L. cbn [plus] in I. unfold h0 in I. clear h0.
  assert (K : forall l acc, incl l g -> In t (fold_left (fun acc p => if fst p =? n then union acc (fst (first_of nl fs (snd p))) else acc) l acc) -> (In t acc -> starts g [N n] t) -> starts g [N n] t).
  { induction l as [|(m & r) l IH]; intros acc INC H A; [exact (A H)|]. cbn [fold_left fst snd] in H. refine (IH _ (fun x J => INC x (or_intror J)) H _). destruct (Nat.eqb_spec m n) as [->|_]; [|exact A]. intro J. apply union_in in J. destruct J as [J|J]; [exact (A J)|].
    destruct (F_sound g nl fs r t S1 S2 J []) as (v & D). rewrite app_nil_r in D. destruct (In_nth_error _ _ (INC _ (or_introl eq_refl))) as (p & G). exists v. eapply derives_trans; [exact (one_step _ _ _ _ G)|exact D]. }
  exact (K g _ (fun x J => J) I (S2 n t)).
Qed.
Lemma iter_inv {X} (P : X -> Prop) (f : X -> X) k x : (forall y, P y -> P (f y)) -> P x -> P (iter k f x).
Proof. intros S. revert x. induction k as [|k IH]; intros x H; [exact H|]. cbn [iter]. apply IH, S, H. Qed.
Lemma nullables_sound g : nl_sound g (nullables g).
Proof. apply (iter_inv (nl_sound g)); [apply nullable_step_sound|intros n []]. Qed.
Lemma firsts_sound g k : fs_sound g (firsts g k).
Proof.
  apply (iter_inv (fs_sound g)); [intros y; apply first_step_sound, nullables_sound|]. intros n t I. exfalso. revert n I. induction k as [|k IH]; intros [|n] I; cbn in I; try exact I. exact (IH n I).
Qed.

(** ** The tables *)
Definition the_nl : list nat := Eval vm_compute in nullables the_grammar.
Definition the_fs : list (list nat) := Eval vm_compute in firsts the_grammar 12.
Lemma nl_eq : nullables the_grammar = the_nl. Proof. vm_compute. reflexivity. Qed.
Lemma fs_eq : firsts the_grammar 12 = the_fs. Proof. vm_compute. reflexivity. Qed.
Definition trans_of (q : nat) (x : sym) : option nat :=
  match nth_error the_tables q with Some r => match x with T n => lookup n (shifts r) | N n => lookup n (gotos r) end | None => None end.
Lemma lookup_in n l q : lookup n l = Some q -> In (n, q) l.
Proof. unfold lookup. destruct (find _ l) as [[m r]|] eqn:Q; [|discriminate]. cbn. intro H. injection H as ->. apply find_some in Q. destruct Q as [I E]. cbn in E. apply Nat.eqb_eq in E. subst. exact I. Qed.
Lemma leads_trans d q x q' : leads the_tables d q -> trans_of q x = Some q' -> leads the_tables (d ++ [x]) q'.
Proof. intros L H. unfold trans_of in H. destruct (nth_error the_tables q) as [r|] eqn:R; [|discriminate]. destruct x as [n|n]; apply lookup_in in H; [eapply leads_shift|eapply leads_goto]; eassumption. Qed.
Definition keys_once (l : list (nat * nat)) : bool := forallb (fun e => match lookup (fst e) l with Some q => q =? snd e | None => false end) l.
Lemma once_tables : forallb (fun r => keys_once (shifts r) && keys_once (gotos r)) the_tables = true. Proof. vm_compute. reflexivity. Qed.
Lemma once_lookup l n q : keys_once l = true -> In (n, q) l -> lookup n l = Some q.
Proof. unfold keys_once. rewrite forallb_forall. intros H I. specialize (H _ I). cbn [fst snd] in H. destruct (lookup n l); [apply Nat.eqb_eq in H; subst; reflexivity|discriminate]. Qed.

(** *** Facts: in state q item i may be followed by la *)
Definition fact := (nat * item * option nat)%type.
Definition la_eqb (a b : option nat) : bool := match a, b with None, None => true | Some m, Some n => m =? n | _, _ => false end.
Definition firsts_of (w : list sym) (la : option nat) : list nat :=
  let '(f, e) := first_of the_nl the_fs w in f ++ (if e then match la with Some t => [t] | None => [] end else []).
Definition consequences (f : fact) : list fact :=
  let '(q, (p, k), la) := f in
  match nth_error the_grammar p with
  | None => []
  | Some (_, r) =>
      match nth_error r k with
      | None => []
      | Some x =>
          match trans_of q x with Some q' => [(q', (p, S k), la)] | None => [] end ++
          match x with
          | T _ => []
          | N n => flat_map (fun p' => match nth_error the_grammar p' with
                                       | Some (m, _) => if m =? n then map (fun t => (q, (p', 0), Some t)) (firsts_of (skipn (S k) r) la) else []
                                       | None => []
                                       end) (seq 0 (length the_grammar))
          end
      end
  end.
Definition holds (f : fact) : Prop := let '(q, i, la) := f in exists d, leads the_tables d q /\ valid the_grammar d i la.
Lemma consequences_hold f : holds f -> Forall holds (consequences f).
Proof.
  destruct f as [[q [p k]] la]. intros (d & L & V). unfold consequences. destruct (nth_error the_grammar p) as [[m r]|] eqn:G; [|constructor]. destruct (nth_error r k) as [x|] eqn:X; [|constructor]. apply Forall_app. split.
  - destruct (trans_of q x) as [q'|] eqn:H; [|constructor]. constructor; [|constructor]. exists (d ++ [x]). split; [exact (leads_trans _ _ _ _ L H)|eapply valid_shift; eassumption].
  - destruct x as [n|n]; [constructor|]. apply Forall_forall. intros f I. apply in_flat_map in I. destruct I as (p' & _ & I). destruct (nth_error the_grammar p') as [[m' r']|] eqn:G'; [|destruct I]. destruct (Nat.eqb_spec m' n) as [->|_]; [|destruct I].
    apply in_map_iff in I. destruct I as (t & <- & I). exists d. split; [exact L|]. eapply valid_inner; [exact V|exact G|exact X|exact G'|].
    unfold firsts_of in I. destruct (first_of the_nl the_fs (skipn (S k) r)) as [f e] eqn:F. apply in_app_or in I. pose proof (nullables_sound the_grammar) as S1. rewrite nl_eq in S1. pose proof (firsts_sound the_grammar 12) as S2. rewrite fs_eq in S2. destruct I as [I|I].
    + apply (F_sound the_grammar the_nl the_fs _ t S1 S2). rewrite F. exact I.
    + destruct e; [|destruct I]. destruct la as [u|]; [|destruct I]. destruct I as [->|[]]. exists []. cbn [tail_of]. apply (derives_ctx the_grammar [] _ [] [T t]). apply (F_null the_grammar the_nl the_fs _ S1). rewrite F. reflexivity.
Qed.
(** All facts. *)
Definition fact_eqb (a b : fact) : bool := let '(q, i, la) := a in let '(q', i', la') := b in (q =? q') && item_eqb i i' && la_eqb la la'.
Lemma fact_eqb_eq a b : fact_eqb a b = true <-> a = b.
Proof.
  destruct a as [[q [p k]] la], b as [[q' [p' k']] la']. cbn. unfold item_eqb. cbn. rewrite !andb_true_iff, !Nat.eqb_eq. split.
  - intros [[-> [-> ->]] H]. destruct la, la'; cbn in H; try discriminate; [apply Nat.eqb_eq in H; subst|]; reflexivity.
  - intro H. injection H as -> -> -> ->. repeat split. destruct la'; cbn; [apply Nat.eqb_refl|reflexivity].
Qed.
Definition known (f : fact) (l : list fact) : bool := existsb (fact_eqb f) l.
Lemma known_in f l : known f l = true <-> In f l.
Proof. unfold known. rewrite existsb_exists. split; [intros (x & I & E); apply fact_eqb_eq in E; subst; exact I|intro I; exists f; split; [exact I|apply fact_eqb_eq; reflexivity]]. Qed.
Fixpoint saturate (fuel : nat) (todo : list fact) (done : list fact) : list fact :=
  match todo with
  | [] => done
  | f :: r => match fuel with 0 => done | S fuel => if known f done then saturate fuel r done else saturate fuel (consequences f ++ r) (f :: done) end
  end.
Lemma saturate_holds fuel : forall todo done, Forall holds todo -> Forall holds done -> Forall holds (saturate fuel todo done).
Proof.
  induction fuel as [|fuel IH]; intros [|f r] done H1 H2; cbn [saturate]; try exact H2. inversion_clear H1 as [|? ? Hf Hr]. destruct (known f done); apply IH; try assumption; [apply Forall_app; split; [apply consequences_hold, Hf|exact Hr]|constructor; assumption].
Qed.
Definition the_facts : list fact := Eval vm_compute in saturate (100 * 200) [(0, (0, 0), None)] [].
Lemma facts_made : saturate (100 * 200) [(0, (0, 0), None)] [] = the_facts. Proof. vm_compute. reflexivity. Qed.
Lemma facts_hold f : In f the_facts -> holds f.
Proof.
  assert (H : Forall holds the_facts). { rewrite <- facts_made. apply saturate_holds; [|constructor]. constructor; [|constructor]. exists []. split; constructor. }
  rewrite Forall_forall in H. apply H.
Qed.
Lemma facts_start : In (0, (0, 0), None) the_facts. Proof. apply known_in. vm_compute. reflexivity. Qed.
(** The facts of each state, to look them up faster. *)
Definition by_state : list (list fact) := Eval vm_compute in map (fun q => filter (fun f => fst (fst f) =? q) the_facts) (seq 0 (length the_tables)).
Lemma by_state_made : map (fun q => filter (fun f => fst (fst f) =? q) the_facts) (seq 0 (length the_tables)) = by_state. Proof. vm_compute. reflexivity. Qed.
Definition found (f : fact) : bool := known f (nth (fst (fst f)) by_state []).
Lemma found_in f : found f = true -> In f the_facts.
Proof.
  intro H. apply known_in in H. destruct (nth_in_or_default (fst (fst f)) by_state []) as [I|E]; [|rewrite E in H; destruct H]. rewrite <- by_state_made in I at 2. apply in_map_iff in I. destruct I as (q & E & _). rewrite <- E in H. apply filter_In in H. exact (proj1 H).
Qed.
Lemma facts_closed : forallb (fun f => forallb found (consequences f)) the_facts = true. Proof. vm_compute. reflexivity. Qed.
Lemma the_first_closed : first_closed the_grammar the_nl the_fs = true. Proof. vm_compute. reflexivity. Qed.
Lemma leads_snoc d x q' : leads the_tables (d ++ [x]) q' -> exists q, leads the_tables d q /\ trans_of q x = Some q'.
Proof.
  intro L. pose proof once_tables as O. rewrite forallb_forall in O. inversion L as [Q|d0 q r n q0 L0 R I Q|d0 q r n q0 L0 R I Q].
  - destruct d; discriminate Q.
  - apply app_inj_tail in Q. destruct Q as [-> <-]. exists q. split; [exact L0|]. unfold trans_of. rewrite R. specialize (O _ (nth_error_In _ _ R)). apply andb_true_iff in O. exact (once_lookup _ _ _ (proj1 O) I).
  - apply app_inj_tail in Q. destruct Q as [-> <-]. exists q. split; [exact L0|]. unfold trans_of. rewrite R. specialize (O _ (nth_error_In _ _ R)). apply andb_true_iff in O. exact (once_lookup _ _ _ (proj2 O) I).
Qed.
Lemma conseq_fact f c : In f the_facts -> In c (consequences f) -> In c the_facts.
Proof. pose proof facts_closed as C. rewrite forallb_forall in C. intros H I. specialize (C _ H). rewrite forallb_forall in C. apply found_in, C, I. Qed.
Lemma valid_fact d i la : valid the_grammar d i la -> forall q, leads the_tables d q -> In (q, i, la) the_facts.
Proof.
  intro V. induction V as [|d p k la m r n p' r' t V IH G X G' S|d p k la m r x V IH G X]; intros q L.
  - inversion L as [|d0 ? ? ? ? ? ? ? Q|d0 ? ? ? ? ? ? ? Q]; [exact facts_start|destruct d0; discriminate Q|destruct d0; discriminate Q].
  - refine (conseq_fact _ _ (IH q L) _). unfold consequences. rewrite G, X. apply in_or_app. right. apply in_flat_map. exists p'. split; [apply in_seq; split; [lia|]; apply nth_error_Some; rewrite G'; discriminate|]. rewrite G', Nat.eqb_refl. apply in_map_iff. exists t. split; [reflexivity|].
    unfold firsts_of. destruct (F_complete _ _ _ _ _ _ the_first_closed S) as [H|[H ->]]; destruct (first_of the_nl the_fs (skipn (Datatypes.S k) r)) as [f e]; cbn [fst snd] in H; apply in_or_app; [left; exact H|right; rewrite H; left; reflexivity].
  - destruct (leads_snoc _ _ _ L) as (q0 & L0 & H). refine (conseq_fact _ _ (IH q0 L0) _). unfold consequences. rewrite G, X, H. apply in_or_app. left. left. reflexivity.
Qed.

(** ** What the tables hold *)
Definition listed (q p n : nat) : bool := match nth_error the_tables q with Some r => existsb (fun e => (fst e =? p) && mem n (snd e)) (reds r) | None => false end.
Lemma listed_may q p n : listed q p n = true <-> may_reduce the_tables q p n.
Proof.
  unfold listed, may_reduce. split.
  - destruct (nth_error the_tables q) as [r|]; [|discriminate]. intro H. apply existsb_exists in H. destruct H as ((p' & la) & I & H). cbn in H. apply andb_true_iff in H. destruct H as [H1 H2]. apply Nat.eqb_eq in H1. subst p'. exists r, la. split; [reflexivity|]. split; [exact I|apply mem_in, H2].
  - intros (r & la & R & I & J). rewrite R. apply existsb_exists. exists (p, la). split; [exact I|]. cbn. rewrite Nat.eqb_refl. apply mem_in, J.
Qed.
Lemma reds_known : forallb (fun q => match nth_error the_tables q with Some r => forallb (fun e => forallb (fun n => found (q, complete the_grammar (fst e), Some n)) (snd e)) (reds r) | None => true end) (seq 0 (length the_tables)) = true.
Proof. vm_compute. reflexivity. Qed.
Lemma known_reds : forallb (fun f => let '(q, (p, k), la) := f in match la with Some n => if item_eqb (complete the_grammar p) (p, k) then listed q p n else true | None => true end) the_facts = true.
Proof. vm_compute. reflexivity. Qed.
Lemma lookaheads_right q p n : may_reduce the_tables q p n <-> exists d, leads the_tables d q /\ valid the_grammar d (complete the_grammar p) (Some n).
Proof.
  split.
  - intros (r & la & R & I & J). pose proof reds_known as K. rewrite forallb_forall in K. assert (Q : q < length the_tables) by (apply nth_error_Some; rewrite R; discriminate). specialize (K q). rewrite R in K. specialize (K ltac:(apply in_seq; lia)).
    rewrite forallb_forall in K. specialize (K _ I). cbn [fst snd] in K. rewrite forallb_forall in K. specialize (K _ J). apply found_in in K. exact (facts_hold _ K).
  - intros (d & L & V). apply listed_may. pose proof (valid_fact _ _ _ V _ L) as I. pose proof known_reds as K. rewrite forallb_forall in K. specialize (K _ I). unfold complete in K at 1. cbn beta iota in K. destruct (complete the_grammar p) as [p' k] eqn:C. assert (p' = p) by (unfold complete in C; injection C; auto). subst p'.
    cbn beta iota in K. change (p, match nth_error the_grammar p with Some (_, r) => length r | None => 0 end) with (complete the_grammar p) in K. rewrite C in K. assert (E : item_eqb (p, k) (p, k) = true) by (unfold item_eqb; cbn; rewrite !Nat.eqb_refl; reflexivity). rewrite E in K. exact K.
Qed.
Definition next_is (f : fact) (x : sym) : bool := let '(_, (p, k), _) := f in match nth_error the_grammar p with Some (_, r) => match nth_error r k with Some y => sym_eqb x y | None => false end | None => false end.
Definition next_of (f : fact) : option sym := let '(_, (p, k), _) := f in match nth_error the_grammar p with Some (_, r) => nth_error r k | None => None end.
Lemma trans_exist : forallb (fun f => match next_of f with Some x => match trans_of (fst (fst f)) x with Some _ => true | None => false end | None => true end) the_facts = true.
Proof. vm_compute. reflexivity. Qed.
Lemma trans_needed : forallb (fun q => match nth_error the_tables q with Some r => forallb (fun x => existsb (fun f => (fst (fst f) =? q) && next_is f x) the_facts) (map (fun e => T (fst e)) (shifts r) ++ map (fun e => N (fst e)) (gotos r)) | None => true end) (seq 0 (length the_tables)) = true.
Proof. vm_compute. reflexivity. Qed.
(** The tables follow exactly the transitions of the grammar. *)
Lemma transitions_right q x : (exists q', trans_of q x = Some q') <-> exists d p k la m r, leads the_tables d q /\ valid the_grammar d (p, k) la /\ nth_error the_grammar p = Some (m, r) /\ nth_error r k = Some x.
Proof.
  split.
  - intros (q' & H). unfold trans_of in H. destruct (nth_error the_tables q) as [r|] eqn:R; [|discriminate]. pose proof trans_needed as K. rewrite forallb_forall in K. assert (Q : q < length the_tables) by (apply nth_error_Some; rewrite R; discriminate). specialize (K q ltac:(apply in_seq; lia)). rewrite R in K. rewrite forallb_forall in K.
    assert (I : In x (map (fun e => T (fst e)) (shifts r) ++ map (fun e => N (fst e)) (gotos r))). { apply in_or_app. destruct x as [n|n]; apply lookup_in in H; [left|right]; apply in_map_iff; exists (n, q'); split; [reflexivity|exact H|reflexivity|exact H]. }
    specialize (K _ I). apply existsb_exists in K. destruct K as (((q0 & (p & k)) & la) & J & H2). apply andb_true_iff in H2. destruct H2 as [E H2]. cbn in E. apply Nat.eqb_eq in E. subst q0. destruct (facts_hold _ J) as (d & L & V). unfold next_is in H2. destruct (nth_error the_grammar p) as [[m rr]|] eqn:G; [|discriminate]. destruct (nth_error rr k) as [y|] eqn:X; [|discriminate].
    exists d, p, k, la, m, rr. split; [exact L|]. split; [exact V|]. split; [exact G|]. rewrite X. destruct x, y; cbn in H2; try discriminate; apply Nat.eqb_eq in H2; subst; reflexivity.
  - intros (d & p & k & la & m & r & L & V & G & X). pose proof (valid_fact _ _ _ V _ L) as I. pose proof trans_exist as K. rewrite forallb_forall in K. specialize (K _ I). unfold next_of in K. rewrite G, X in K. cbn [fst] in K. destruct (trans_of q x) as [q'|]; [exists q'; reflexivity|discriminate].
Qed.

(** ** The states: what is valid does not depend on how a state is reached *)
Definition may (d : list sym) (i : item) : Prop := exists la, valid the_grammar d i la.
Lemma none_start d i la : valid the_grammar d i la -> la = None -> fst i = 0.
Proof. intro V. induction V; intro E; [reflexivity|discriminate E|cbn in *; auto]. Qed.
(** Something can follow every symbol of a production. *)
Definition followed : bool := forallb (fun p => match nth_error the_grammar p with
  | Some (_, r) => forallb (fun k => match nth_error r k with
                                     | Some (N _) => let '(f, e) := first_of the_nl the_fs (skipn (S k) r) in match f with [] => e && negb (p =? 0) | _ => true end
                                     | _ => true end) (seq 0 (length r))
  | None => true end) (seq 0 (length the_grammar)).
Lemma followed_true : followed = true. Proof. vm_compute. reflexivity. Qed.
Lemma follows d p k la m r n : valid the_grammar d (p, k) la -> nth_error the_grammar p = Some (m, r) -> nth_error r k = Some (N n) -> exists t, starts the_grammar (skipn (S k) r ++ tail_of la) t.
Proof.
  intros V G X. pose proof followed_true as K. unfold followed in K. rewrite forallb_forall in K. specialize (K p). rewrite G in K. specialize (K ltac:(apply in_seq; split; [lia|apply nth_error_Some; rewrite G; discriminate])). rewrite forallb_forall in K. specialize (K k). rewrite X in K. specialize (K ltac:(apply in_seq; split; [lia|apply nth_error_Some; rewrite X; discriminate])).
  pose proof (nullables_sound the_grammar) as S1. rewrite nl_eq in S1. pose proof (firsts_sound the_grammar 12) as S2. rewrite fs_eq in S2. destruct (first_of the_nl the_fs (skipn (S k) r)) as [f e] eqn:F. destruct f as [|t f].
  - apply andb_true_iff in K. destruct K as [-> K]. destruct la as [t|].
    + exists t, []. cbn [tail_of]. apply (derives_ctx the_grammar [] _ [] [T t]). apply (F_null the_grammar the_nl the_fs _ S1). rewrite F. reflexivity.
    + pose proof (none_start _ _ _ V eq_refl) as E. cbn in E. subst p. discriminate K.
  - exists t. apply (F_sound the_grammar the_nl the_fs _ t S1 S2). rewrite F. left. reflexivity.
Qed.
Definition inner (i : item) : list item :=
  match nth_error the_grammar (fst i) with
  | Some (_, r) => match nth_error r (snd i) with
                   | Some (N n) => flat_map (fun p' => match nth_error the_grammar p' with Some (m, _) => if m =? n then [(p', 0)] else [] | None => [] end) (seq 0 (length the_grammar))
                   | _ => [] end
  | None => [] end.
Lemma inner_may d i : may d i -> Forall (may d) (inner i).
Proof.
  destruct i as [p k]. intros (la & V). unfold inner. cbn [fst snd]. destruct (nth_error the_grammar p) as [[m r]|] eqn:G; [|constructor]. destruct (nth_error r k) as [[n|n]|] eqn:X; try constructor. apply Forall_forall. intros i I. apply in_flat_map in I. destruct I as (p' & _ & I). destruct (nth_error the_grammar p') as [[m' r']|] eqn:G'; [|destruct I]. destruct (Nat.eqb_spec m' n) as [->|_]; [|destruct I]. destruct I as [<-|[]].
  destruct (follows _ _ _ _ _ _ _ V G X) as (t & S). exists (Some t). eapply valid_inner; eassumption.
Qed.
Fixpoint close (fuel : nat) (todo done : list item) : list item :=
  match todo with
  | [] => done
  | i :: r => match fuel with 0 => done | S fuel => if existsb (item_eqb i) done then close fuel r done else close fuel (inner i ++ r) (i :: done) end
  end.
Lemma close_may d fuel : forall todo done, Forall (may d) todo -> Forall (may d) done -> Forall (may d) (close fuel todo done).
Proof.
  induction fuel as [|fuel IH]; intros [|f r] done H1 H2; cbn [close]; try exact H2. inversion_clear H1 as [|? ? Hf Hr]. destruct (existsb (item_eqb f) done); apply IH; try assumption; [apply Forall_app; split; [apply inner_may, Hf|exact Hr]|constructor; assumption].
Qed.
Definition core (q : nat) : list item := flat_map (fun f => if fst (fst f) =? q then [snd (fst f)] else []) the_facts.
Lemma core_in q i : In i (core q) <-> exists la, In (q, i, la) the_facts.
Proof.
  unfold core. rewrite in_flat_map. split.
  - intros (((q' & i') & la) & I & H). cbn in H. destruct (Nat.eqb_spec q' q) as [->|_]; [|destruct H]. destruct H as [<-|[]]. exists la. exact I.
  - intros (la & I). exists (q, i, la). split; [exact I|]. cbn. rewrite Nat.eqb_refl. left. reflexivity.
Qed.
Definition cores : list (list item) := Eval vm_compute in map core (seq 0 (length the_tables)).
Lemma cores_made : map core (seq 0 (length the_tables)) = cores. Proof. vm_compute. reflexivity. Qed.
Definition subset (a b : list item) : bool := forallb (fun i => existsb (item_eqb i) b) a.
Lemma item_eqb_true a b : item_eqb a b = true <-> a = b.
Proof. destruct a, b. unfold item_eqb. cbn. rewrite andb_true_iff, !Nat.eqb_eq. split; [intros [-> ->]; reflexivity|intro H; injection H as -> ->; auto]. Qed.
Lemma subset_in a b : subset a b = true <-> forall i, In i a -> In i b.
Proof.
  unfold subset. rewrite forallb_forall. split; intros H i I; specialize (H i I).
  - apply existsb_exists in H. destruct H as (j & J & E). apply item_eqb_true in E. subst. exact J.
  - apply existsb_exists. exists i. split; [exact H|apply item_eqb_true; reflexivity].
Qed.
Definition advance (l : list item) (x : sym) : list item :=
  flat_map (fun i => match nth_error the_grammar (fst i) with Some (_, r) => match nth_error r (snd i) with Some y => if sym_eqb x y then [(fst i, S (snd i))] else [] | None => [] end | None => [] end) l.
Lemma sym_eqb_true a b : sym_eqb a b = true -> a = b.
Proof. destruct a, b; cbn; intro H; try discriminate; apply Nat.eqb_eq in H; subst; reflexivity. Qed.
Lemma advance_may d l x : Forall (may d) l -> Forall (may (d ++ [x])) (advance l x).
Proof.
  intro H. rewrite Forall_forall in *. intros i I. apply in_flat_map in I. destruct I as ((p & k) & I & J). cbn [fst snd] in J. destruct (nth_error the_grammar p) as [[m r]|] eqn:G; [|destruct J]. destruct (nth_error r k) as [y|] eqn:X; [|destruct J]. destruct (sym_eqb x y) eqn:E; [|destruct J]. apply sym_eqb_true in E. subst y. destruct J as [<-|[]]. destruct (H _ I) as (la & V). exists la. eapply valid_shift; eassumption.
Qed.
Lemma core_nth q : q < length the_tables -> nth q cores [] = core q.
Proof. intro H. rewrite <- cores_made. rewrite (nth_indep _ [] (core 0)) by (rewrite map_length, seq_length; exact H). rewrite map_nth, seq_nth by exact H. reflexivity. Qed.
Lemma core_start : subset (nth 0 cores []) (close 400 [(0, 0)] []) = true. Proof. vm_compute. reflexivity. Qed.
Lemma core_trans : forallb (fun q => match nth_error the_tables q with
  | Some r => forallb (fun x => match trans_of q x with Some q' => (q' <? length the_tables) && subset (nth q' cores []) (close 400 (advance (nth q cores []) x) []) | None => true end) (map (fun e => T (fst e)) (shifts r) ++ map (fun e => N (fst e)) (gotos r))
  | None => true end) (seq 0 (length the_tables)) = true.
Proof. vm_compute. reflexivity. Qed.
Lemma trans_step q x q' : trans_of q x = Some q' -> q < length the_tables /\ q' < length the_tables /\ subset (core q') (close 400 (advance (core q) x) []) = true.
Proof.
  intro H. pose proof core_trans as K. rewrite forallb_forall in K. pose proof H as H0. unfold trans_of in H0. destruct (nth_error the_tables q) as [r|] eqn:R; [|discriminate]. assert (Q : q < length the_tables) by (apply nth_error_Some; rewrite R; discriminate). specialize (K q ltac:(apply in_seq; lia)). rewrite R in K. rewrite forallb_forall in K.
  assert (I : In x (map (fun e => T (fst e)) (shifts r) ++ map (fun e => N (fst e)) (gotos r))). { apply in_or_app. destruct x as [n|n]; apply lookup_in in H0; [left|right]; apply in_map_iff; exists (n, q'); split; [reflexivity|exact H0|reflexivity|exact H0]. }
  specialize (K _ I). rewrite H in K. apply andb_true_iff in K. destruct K as [K1 K2]. apply Nat.ltb_lt in K1. rewrite !core_nth in K2 by assumption. auto.
Qed.
Lemma leads_core d : forall q, leads the_tables d q -> q < length the_tables /\ Forall (may d) (core q).
Proof.
  induction d as [|x d IH] using rev_ind; intros q L.
  - inversion L as [|d0 ? ? ? ? ? ? ? Q|d0 ? ? ? ? ? ? ? Q]; [|destruct d0; discriminate Q|destruct d0; discriminate Q]. assert (Z : 0 < length the_tables) by (apply Nat.ltb_lt; vm_compute; reflexivity). split; [exact Z|]. pose proof core_start as C. rewrite (core_nth 0 Z) in C. pose proof (proj1 (subset_in _ _) C) as S. apply Forall_forall. intros i I. specialize (S _ I). revert S. apply Forall_forall. apply close_may; [|constructor]. constructor; [exists None; constructor|constructor].
  - destruct (leads_snoc _ _ _ L) as (q0 & L0 & H). destruct (IH _ L0) as [_ M]. destruct (trans_step _ _ _ H) as (_ & Q & S). split; [exact Q|]. pose proof (proj1 (subset_in _ _) S) as S'. apply Forall_forall. intros i I. specialize (S' _ I). revert S'. apply Forall_forall. apply close_may; [|constructor]. apply advance_may, M.
Qed.
Lemma core_may d q i : leads the_tables d q -> (In i (core q) <-> may d i).
Proof.
  intro L. split.
  - destruct (leads_core _ _ L) as [_ H]. rewrite Forall_forall in H. apply H.
  - intros (la & V). apply core_in. exists la. exact (valid_fact _ _ _ V _ L).
Qed.
Lemma cores_differ : forallb (fun q => forallb (fun q' => (q =? q') || negb (subset (nth q cores []) (nth q' cores []) && subset (nth q' cores []) (nth q cores []))) (seq 0 (length the_tables))) (seq 0 (length the_tables)) = true.
Proof. vm_compute. reflexivity. Qed.
Lemma states_right d d' q q' : leads the_tables d q -> leads the_tables d' q' -> (q = q' <-> forall i, may d i <-> may d' i).
Proof.
  intros L L'. split.
  - intros <- i. rewrite <- (core_may _ _ i L). exact (core_may _ _ i L').
  - intro H. destruct (leads_core _ _ L) as [Q _], (leads_core _ _ L') as [Q' _]. pose proof cores_differ as K. rewrite forallb_forall in K. specialize (K q ltac:(apply in_seq; lia)). rewrite forallb_forall in K. specialize (K q' ltac:(apply in_seq; lia)). rewrite !core_nth in K by assumption. apply orb_true_iff in K. destruct K as [K|K]; [apply Nat.eqb_eq in K; exact K|]. apply negb_true_iff in K.
    assert (E : subset (core q) (core q') && subset (core q') (core q) = true). { apply andb_true_iff. split; apply subset_in; intros i I. - apply (core_may _ _ i L'), H, (core_may _ _ i L), I. - apply (core_may _ _ i L), H, (core_may _ _ i L'), I. } congruence.
Qed.
Lemma core_some : forallb (fun q => match nth q cores [] with [] => false | _ => true end) (seq 0 (length the_tables)) = true. Proof. vm_compute. reflexivity. Qed.
Lemma core_item q : q < length the_tables -> exists i, In i (core q).
Proof. intro Q. pose proof core_some as K. rewrite forallb_forall in K. specialize (K q ltac:(apply in_seq; lia)). rewrite core_nth in K by exact Q. destruct (core q) as [|i l]; [discriminate|]. exists i. left. reflexivity. Qed.
Lemma states_reached q : q < length the_tables <-> exists d, leads the_tables d q.
Proof.
  split.
  - intro Q. destruct (core_item _ Q) as (i & I). apply core_in in I. destruct I as (la & I). destruct (facts_hold _ I) as (d & L & _). exists d. exact L.
  - intros (d & L). exact (proj1 (leads_core _ _ L)).
Qed.
(** The tables lead along exactly the symbols that can be read. *)
Lemma prefixes_right d : (exists q, leads the_tables d q) <-> exists i, may d i.
Proof.
  split.
  - intros (q & L). destruct (leads_core _ _ L) as [Q H]. destruct (core_item _ Q) as (i & I). rewrite Forall_forall in H. exists i. apply H, I.
  - intros (i & la & V). induction V as [|d p k la m r n p' r' t V IH G X G' S|d p k la m r x V IH G X]; [exists 0; constructor|exact IH|].
    destruct IH as (q & L). destruct (proj2 (transitions_right q x)) as (q' & H); [exists d, p, k, la, m, r; auto|]. exists q'. exact (leads_trans _ _ _ _ L H).
Qed.
