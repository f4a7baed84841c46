(** P_LrTime.v - how many steps the parser takes. *)
From Coq Require Import ZArith.
From Verif Require Import Base Num Env Ast Lexer Parser Lalr LrParser LrHeap HeapSpec StackSpec Grammar P_Lex2 P_Lr P_LrHeap P_LrDepth.
Local Unset Implicit Arguments.

(** Every token on the stack pays for one reduction; some nonterminals have paid for one in advance or owe one. *)
Definition pay (x : sym) : Z :=
  match x with
  | T 0 => (-1)%Z | T _ => 1%Z
  | N n => if (n =? nInput) || (n =? nPageParts) || (n =? nDrawParts) || (n =? nTextParts) || (n =? nDimParts) then (-1)%Z else if (n =? nModel) || (n =? nPage) then 1%Z else 0%Z
  end.
Definition paid (q : nat) : Z := match symbol_of q with Some x => pay x | None => 0%Z end.
Lemma rules_pay : forallb (fun p => (1 + pay (N (lhs the_grammar p)) <=? sum (map pay (rhs the_grammar p)))%Z) (seq 1 34) = true.
Proof. vm_compute. reflexivity. Qed.
Lemma reds_range : forallb (fun q => (q =? final) || forallb (fun e => (0 <? fst e) && (fst e <? 35)) (reds (row_of q))) all_q = true.
Proof. vm_compute. reflexivity. Qed.
Lemma rule_pays q p ls : q <> final -> In (p, ls) (reds (row_of q)) -> (1 + pay (N (lhs the_grammar p)) <= sum (map pay (rhs the_grammar p)))%Z.
Proof.
  intros F I. pose proof reds_range as S. rewrite forallb_forall in S. assert (Q : In q all_q).
  { destruct (Nat.lt_ge_cases q (length the_tables)) as [K|K]; [apply in_seq; lia|]. unfold row_of in I. rewrite nth_overflow in I by exact K. destruct I. }
  specialize (S _ Q). apply orb_true_iff in S. destruct S as [S|S]; [apply Nat.eqb_eq in S; contradiction|]. rewrite forallb_forall in S. specialize (S _ I). apply andb_true_iff in S. destruct S as [S1 S2]. apply Nat.ltb_lt in S1. apply Nat.ltb_lt in S2. cbn in S1, S2.
  pose proof rules_pay as R. rewrite forallb_forall in R. apply Z.leb_le. apply R. apply in_seq. lia.
Qed.
(** The least that is paid on any way to a state. *)
Definition relax_low (l : list Z) : list Z :=
  fold_left (fun l r => fold_left (fun l e => let q := snd e in let v := (nth r l 0 + pay (fst e))%Z in if (v <? nth q l 0)%Z then firstn q l ++ v :: skipn (S q) l else l) (trans r) l) all_q l.
Definition lows : list Z := Eval vm_compute in iter 40 relax_low (0%Z :: repeat 100%Z (length the_tables - 1)).
Definition low (q : nat) : Z := nth q lows 0%Z.
Lemma lows_ok : forallb (fun r => forallb (fun e => (low (snd e) <=? low r + pay (fst e))%Z) (trans r)) all_q = true.
Proof. vm_compute. reflexivity. Qed.
Lemma lows_bottom : forallb (fun z => (-2 <=? z)%Z) lows = true.
Proof. vm_compute. reflexivity. Qed.
Lemma low_ge q : (-2 <= low q)%Z.
Proof. unfold low. destruct (nth_in_or_default q lows 0%Z) as [I|D]; [|rewrite D; lia]. pose proof lows_bottom as H. rewrite forallb_forall in H. apply Z.leb_le. exact (H _ I). Qed.
Lemma low_step r x q : In (x, q) (trans r) -> (low q <= low r + paid q)%Z.
Proof.
  intros I. unfold paid. rewrite (trans_sym _ _ _ I). destruct (Nat.lt_ge_cases r (length the_tables)) as [L|L]; [|rewrite trans_big in I by exact L; destruct I].
  pose proof lows_ok as H. rewrite forallb_forall in H. specialize (H r ltac:(apply in_seq; lia)). rewrite forallb_forall in H. specialize (H _ I). apply Z.leb_le in H. exact H.
Qed.
Lemma linked_low : forall qs, linked qs -> (low (hd 0%nat qs) <= sum (map paid qs))%Z.
Proof.
  induction qs as [|q [|r qs] IH]; [intros []|intros ->; vm_compute; discriminate|]. intros [[x X] L]. specialize (IH L). pose proof (low_step _ _ _ X) as K. cbn [hd] in *. cbn [map] in *. unfold sum in *. cbn [fold_right] in *. lia.
Qed.
Lemma paid_syms : forall top xs, Forall2 (fun q x => symbol_of q = Some x) top xs -> sum (map paid top) = sum (map pay xs).
Proof. induction 1 as [|q x top xs H F IH]; [reflexivity|]. cbn [map]. unfold sum in *. cbn [fold_right]. rewrite IH. unfold paid. rewrite H. reflexivity. Qed.

Section Time.
  Context {A : Arith}.
  Variable file : bytes.
  Variable eof : nat.
  Notation step := (LrParser.step file eof).
  Notation reduce := (LrParser.reduce file).
  (** What is left to be paid with. *)
  Definition worth (stk : list (nat * sval)) (r : list ltok) : Z := (2 * Z.of_nat (length r) + sum (map paid (map fst stk)))%Z.
  Definition less (z : Z) (c : conf) : Prop := match c with Conf stk r _ => (worth stk r < z)%Z | Done _ _ => True end.
  Lemma less_reduce p q v stk r d ls : q <> final -> In (p, ls) (reds (row_of q)) -> linked (map fst ((q, v) :: stk)) -> less (worth ((q, v) :: stk) r) (reduce p ((q, v) :: stk) r d).
  Proof.
    intros F I L. unfold LrParser.reduce. set (n := length (rhs the_grammar p)).
    destruct (LrParser.act file p _ d) as [[w d']|]; [|exact Logic.I]. destruct (reduce_back_syms q p ls (map fst stk) L F I) as (top & rest & EQ & N & F2).
    assert (LT : length top = n) by (unfold n; rewrite <- (rev_length (rhs the_grammar p)); clear - F2; induction F2; cbn; congruence).
    assert (R : map fst (skipn n ((q, v) :: stk)) = rest) by (rewrite <- skipn_map; cbn [map fst]; rewrite EQ, <- LT, skipn_app, skipn_all, Nat.sub_diag; reflexivity).
    assert (SS : sum (map paid (map fst ((q, v) :: stk))) = (sum (map pay (rhs the_grammar p)) + sum (map paid rest))%Z).
    { change (map fst ((q, v) :: stk)) with (q :: map fst stk). rewrite EQ, map_app, sum_app, (paid_syms _ _ F2), map_rev, sum_rev. reflexivity. }
    destruct (skipn n ((q, v) :: stk)) as [|[q1 w1] t] eqn:K; [exact Logic.I|]. destruct (lookup (lhs the_grammar p) (gotos (row_of q1))) as [q'|] eqn:G; [|exact Logic.I].
    apply goto_trans in G. pose proof (rule_pays _ _ _ F I) as P. cbn [less]. unfold worth. rewrite SS. rewrite <- R. cbn [map fst]. unfold sum at 1. cbn [fold_right]. unfold paid at 1. rewrite (trans_sym _ _ _ G). unfold sum at 2. cbn [fold_right]. lia.
  Qed.
  Lemma less_step q v stk r d : linked (map fst ((q, v) :: stk)) -> less (worth ((q, v) :: stk) r) (step (Conf ((q, v) :: stk) r d)).
  Proof.
    intros L. cbn [LrParser.step]. destruct (q =? final) eqn:F; [exact Logic.I|]. apply Nat.eqb_neq in F.
    assert (SH : forall q' w, action (row_of q) (match r with [] => 0 | t :: _ => code (t_tok t) end) = Shift q' ->
      less (worth ((q, v) :: stk) r) (match r with [] => Conf ((q', w) :: (q, v) :: stk) [] d | t :: r => Conf ((q', VTok t) :: (q, v) :: stk) r d end)).
    { intros q' w K. apply shift_trans in K. destruct r as [|t r]; cbn [less]; unfold worth; cbn [map fst length]; unfold sum at 1; cbn [fold_right]; unfold paid at 1; rewrite (trans_sym _ _ _ K).
      - unfold sum. cbn [fold_right pay]. lia.
      - assert (PT : (pay (T (code (t_tok t))) <= 1)%Z) by (cbn [pay]; destruct (code (t_tok t)); lia). unfold sum. cbn [fold_right]. lia. }
    assert (RD : forall p, action (row_of q) (match r with [] => 0 | t :: _ => code (t_tok t) end) = Reduce p -> less (worth ((q, v) :: stk) r) (reduce p ((q, v) :: stk) r d)).
    { intros p K. apply action_in in K. destruct K as [ls K]. exact (less_reduce _ _ _ _ _ _ _ F K L). }
    assert (LK : less (worth ((q, v) :: stk) r) (match r with
            | LTok _ TThrow :: _ | LTok _ (TErr _) :: _ => Done d (Some (stop eof r))
            | _ => match action (row_of q) (match r with [] => 0 | t :: _ => code (t_tok t) end) with
                   | Shift q' => match r with [] => Conf ((q', VNone) :: (q, v) :: stk) [] d | t :: r => Conf ((q', VTok t) :: (q, v) :: stk) r d end
                   | Reduce p => reduce p ((q, v) :: stk) r d
                   | Error => Done d (Some (stop eof r))
                   end
            end)).
    { destruct r as [|[l k] r]; [|destruct k; try exact Logic.I]; match goal with |- less _ (match ?a with _ => _ end) => destruct a eqn:K end; try exact Logic.I; solve [exact (SH _ VNone eq_refl)|exact (RD _ eq_refl)]. }
    destruct (consistent (row_of q)); [|exact LK]. destruct (default (row_of q)) as [p|] eqn:D; [|exact LK].
    destruct (default_in _ _ D) as [ls K]. exact (less_reduce _ _ _ _ _ _ _ F K L).
  Qed.
  Lemma ends_in ts n : forall stk r d, inv ts (Conf stk r d) -> (worth stk r + 2 < Z.of_nat n)%Z -> exists d' e, iter n step (Conf stk r d) = Done d' e.
  Proof.
    induction n as [|n IH]; intros stk r d I W.
    - destruct I as [L _]. pose proof (linked_low _ L). pose proof (low_ge (hd 0%nat (map fst stk))). unfold worth in W. lia.
    - pose proof (inv_step file eof ts _ I) as I'. destruct stk as [|[q v] stk]; [destruct I as [[] _]|]. pose proof (less_step q v stk r d (proj1 I)) as LS. cbn [iter].
      destruct (step (Conf ((q, v) :: stk) r d)) as [stk' r' d'|d' e]; [|exists d', e; apply iter_done]. cbn [less] in LS. apply IH; [exact I'|lia].
  Qed.
  Lemma linear ts : exists d e, iter (2 * length ts + 3) step (Conf [(0, VNone)] ts (Doc [] [])) = Done d e.
  Proof.
    apply (ends_in ts); [split; [reflexivity|exists []; split; reflexivity]|]. unfold worth. change (sum (map paid (map fst [(0, VNone (A := A))]))) with 0%Z. lia.
  Qed.
End Time.
Section Script.
  Context {A : Arith} {E : Env}.
  Lemma toks_few l : forall ts, toks_of l = Ret ts -> length ts <= length l.
  Proof.
    induction l as [|x l IH]; cbn [toks_of]; intros ts H; [injection H as <-; reflexivity|]. destruct (tok_of x) as [t|]; [|discriminate H]. cbn [obind] in H. destruct (toks_of l) as [us|]; [|discriminate H]. cbn [obind] in H. injection H as <-.
    specialize (IH us eq_refl). destruct t; cbn [length]; lia.
  Qed.
  Lemma tokens_few s ts : tokens s = Ret ts -> length ts <= length s.
  Proof.
    unfold tokens. destruct (scan_all s) as [l|] eqn:S; [|discriminate]. intros H. apply toks_few in H. destruct (scanned_of _ _ S) as (F & N & _). rewrite <- F. apply Nat.le_trans with (1 := H). clear - N.
    induction N as [|x l [X _] N IH]; [reflexivity|]. cbn [flat_map]. rewrite app_length. destruct (lx_text x); [contradiction|]. cbn [length]. lia.
  Qed.
  Lemma linear_script f el c ts : tokens c = Ret ts -> exists d e, iter (2 * length c + 3) (LrParser.step f el) (Conf [(0, VNone)] ts (Doc [] [])) = Done d e.
  Proof.
    intros H. apply tokens_few in H. destruct (linear f el ts) as (d & e & D). exists d, e. replace (2 * length c + 3) with (2 * length ts + 3 + 2 * (length c - length ts)) by lia. rewrite iter_add, D. apply iter_done.
  Qed.
End Script.
