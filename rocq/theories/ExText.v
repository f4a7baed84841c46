(** ExText.v - an environment that keeps the rules for numbers as text, in
    doubles and in exact arithmetic; used only in Examples. *)
From Coq Require Import Reals ZArith NArith Nnat Lra Lia.
From Flocq Require Import Core IEEE754.BinarySingleNaN.
From Verif Require Import Base Num NumF64 NumReal Geo Stl StlRead Env Ast Lexer Parser Ps Draw Main LangSpec DocSpec StlSpec PsSpec DimSpec
  P_Base ExLang P_Text P_Text2 TextSpec.

Local Unset Implicit Arguments.
Local Open Scope R_scope.
Local Open Scope list_scope.

(** ** Reading *)
Fixpoint cut (c : ascii) (s : bytes) : bytes * option bytes :=
  match s with
  | [] => ([], None)
  | x :: t => if byte_eqb x c then ([], Some t) else let '(a, b) := cut c t in (x :: a, b)
  end.
Definition plain (w : bytes) : option (bytes * N * nat) :=
  let '(sg, ds) := match w with
                   | c :: t => if byte_eqb c "-" then (B "-", t) else if byte_eqb c "+" then (B "+", t) else ([], w)
                   | [] => ([], w)
                   end in
  let '(a, f) := match cut "." ds with (a, Some f) => (a, f) | (a, None) => (a, []) end in
  match a ++ f with
  | [] => None
  | _ => match dec_val (a ++ f) 0 with Some m => Some (sg, m, length f) | None => None end
  end.
Definition plain_val (p : bytes * N * nat) : R := let '(sg, m, k) := p in sign_of sg * IZR (Z.of_N m) * ten (- Z.of_nat k).
Lemma cut_some c s a f : cut c s = (a, Some f) -> s = a ++ c :: f.
Proof.
  revert a. induction s as [|x t IH]; intros a; cbn [cut]; [discriminate|]. destruct (byte_eqb x c) eqn:Q.
  - intro H. injection H as <- <-. apply byte_eqb_eq in Q. subst. reflexivity.
  - destruct (cut c t) as [b o] eqn:K. intro H. injection H as <- ->. rewrite (IH b eq_refl). reflexivity.
Qed.
Lemma cut_none c s a : cut c s = (a, None) -> s = a.
Proof.
  revert a. induction s as [|x t IH]; intros a; cbn [cut]; [intro H; injection H as <-; reflexivity|]. destruct (byte_eqb x c); [discriminate|].
  destruct (cut c t) as [b o] eqn:K. intro H. injection H as <- ->. rewrite (IH b eq_refl) at 1. reflexivity.
Qed.
Lemma cut_app c a r : ~ In c a -> cut c (a ++ r) = (a ++ fst (cut c r), snd (cut c r)).
Proof.
  induction a as [|x a IH]; intro N; [cbn [app]; destruct (cut c r); reflexivity|]. cbn [cut app]. destruct (byte_eqb x c) eqn:Q; [apply byte_eqb_eq in Q; subst; exfalso; apply N; left; reflexivity|].
  rewrite IH by (intro; apply N; right; assumption). reflexivity.
Qed.
Lemma plain_sound w p : plain w = Some p -> reads w (plain_val p).
Proof.
  unfold plain. set (sd := match w with [] => _ | _ => _ end). assert (SD : w = fst sd ++ snd sd /\ signed (fst sd)).
  { subst sd. destruct w as [|c t]; [split; [reflexivity|left; reflexivity]|]. destruct (byte_eqb c "-") eqn:Q; [apply byte_eqb_eq in Q; subst; split; [reflexivity|right; left; reflexivity]|].
    destruct (byte_eqb c "+") eqn:Q2; [apply byte_eqb_eq in Q2; subst; split; [reflexivity|right; right; reflexivity]|]. split; [reflexivity|left; reflexivity]. }
  clearbody sd. destruct sd as [sg ds]. cbn [fst snd] in SD. destruct SD as [-> S]. destruct (cut "." ds) as [a o] eqn:K.
  set (af := match o with Some f => (a, f) | None => (a, []) end). assert (AF : (ds = fst af ++ "."%char :: snd af \/ ds = fst af /\ snd af = [])).
  { subst af. destruct o as [f|]; [left; exact (cut_some _ _ _ _ K)|right; split; [exact (cut_none _ _ _ K)|reflexivity]]. }
  clearbody af. destruct af as [a' f]. cbn [fst snd] in AF. destruct (a' ++ f) as [|x y] eqn:NE; [discriminate|]. destruct (dec_val (x :: y) 0) as [m|] eqn:D; [|discriminate]. intro H. injection H as <-.
  cbn [plain_val]. apply reads_plain; [exact S|]. exists a', f. split; [exact AF|]. rewrite NE. split; [discriminate|auto].
Qed.
Lemma dec_digit s : forall acc m, dec_val s acc = Some m -> Forall digit s.
Proof.
  induction s as [|c s IH]; intros acc m H; cbn [dec_val] in H; [constructor|]. destruct (_ && _)%bool eqn:Q; [|discriminate]. apply andb_true_iff in Q. destruct Q as [Q1 Q2]. apply N.leb_le in Q1, Q2.
  constructor; [split; assumption|exact (IH _ _ H)].
Qed.
Lemma not_digit c s : Forall digit s -> ~ digit c -> ~ In c s.
Proof. intros F N I. rewrite Forall_forall in F. exact (N (F _ I)). Qed.
Lemma point_not_digit : ~ digit "."%char. Proof. intros [H _]. unfold ord in H. change (N_of_ascii ".") with 46%N in H. lia. Qed.
Lemma e_not_digit : ~ digit "e"%char. Proof. intros [_ H]. unfold ord in H. change (N_of_ascii "e") with 101%N in H. lia. Qed.
Lemma plain_complete sg ds m k : signed sg -> digits ds m k -> plain (sg ++ ds) = Some (sg, m, k).
Proof.
  intros S (a & f & AF & NE & D & ->). assert (FD := dec_digit _ _ _ D). apply Forall_app in FD. destruct FD as [FA FF].
  assert (C : cut "." ds = (a, match ds with _ => if list_eq_dec ascii_dec ds a then None else Some f end)).
  { assert (NA := not_digit _ _ FA point_not_digit). destruct AF as [->|[-> ->]].
    - rewrite cut_app by exact NA. cbn [cut fst snd]. change (byte_eqb "." ".") with true. cbn iota. cbn [fst snd]. rewrite app_nil_r. destruct (list_eq_dec ascii_dec _ a) as [Q|Q]; [|reflexivity].
      apply (f_equal (@length _)) in Q. rewrite app_length in Q. cbn in Q. lia.
    - rewrite <- (app_nil_r a) at 1. rewrite cut_app by exact NA. cbn [cut fst snd]. rewrite app_nil_r. destruct (list_eq_dec ascii_dec a a); [reflexivity|congruence]. }
  assert (K : match ds with _ => (let '(a0, f0) := match cut "." ds with (a0, Some f0) => (a0, f0) | (a0, None) => (a0, []) end in
     match a0 ++ f0 with [] => None | _ => match dec_val (a0 ++ f0) 0 with Some m0 => Some (sg, m0, length f0) | None => None end end) = Some (sg, m, length f) end).
  { rewrite C. destruct (list_eq_dec ascii_dec ds a) as [Q|Q].
    - assert (f = []) as -> by (destruct AF as [Q2|[_ Q2]]; [|exact Q2]; exfalso; rewrite Q2 in Q; apply (f_equal (@length _)) in Q; rewrite app_length in Q; cbn in Q; lia).
      destruct (a ++ []) eqn:Z; [congruence|]. rewrite D. reflexivity.
    - destruct (a ++ f) eqn:Z; [congruence|]. rewrite D. reflexivity. }
  unfold plain. destruct S as [-> | [-> | ->]]; [|exact K|exact K]. cbn [app]. destruct ds as [|c t]; [exact K|].
  assert (HC : c <> "-"%char /\ c <> "+"%char).
  { assert (HD : digit c \/ c = "."%char) by (destruct a as [|x a]; destruct AF as [AF|[AF _]]; [injection AF as ->; right; reflexivity|discriminate AF| |]; injection AF as -> _; left; exact (Forall_inv FA)).
    split; intros ->; (destruct HD as [[H1 _]|H1]; [unfold ord in H1|discriminate H1]); [change (N_of_ascii "-") with 45%N in H1|change (N_of_ascii "+") with 43%N in H1]; lia. }
  destruct (byte_eqb c "-") eqn:Q; [apply byte_eqb_eq in Q; tauto|]. destruct (byte_eqb c "+") eqn:Q2; [apply byte_eqb_eq in Q2; tauto|]. exact K.
Qed.
Lemma number_no_e w : number w -> ~ In "e"%char w.
Proof.
  intros (sg & a & r & S & -> & FA & H) I. apply in_app_or in I. destruct I as [I|I]; [destruct S as [-> | [-> | ->]]; [destruct I|destruct I as [I|[]]; discriminate I|destruct I as [I|[]]; discriminate I]|].
  apply in_app_or in I. destruct I as [I|I]; [exact (not_digit _ _ FA e_not_digit I)|].
  assert (K : r = [] \/ exists f, Forall digit f /\ r = "."%char :: f) by (destruct H as [[_ H]|[_ (f & _ & H1 & H2)]]; [exact H|eauto]).
  destruct K as [->|(f & F & ->)]; [destruct I|]. destruct I as [I|I]; [discriminate I|exact (not_digit _ _ F e_not_digit I)].
Qed.

(** ** Writing *)
Definition int_text (z : Z) : bytes := (if (z <? 0)%Z then B "-" else []) ++ dec_of_N (Z.to_N (Z.abs z)).
Definition exp_text (z e : Z) : bytes := int_text z ++ "e"%char :: int_text e.
Lemma int_sign z : sign_of (if (z <? 0)%Z then B "-" else []) * IZR (Z.abs z) = IZR z.
Proof. unfold sign_of. destruct (Z.ltb_spec z 0); (destruct (list_eq_dec _ _ _) as [Q|Q]; [|try congruence]); try discriminate Q; rewrite abs_IZR; [rewrite Rabs_left by (apply IZR_lt; lia); ring|rewrite Rabs_pos_eq by (apply IZR_le; lia); ring]. Qed.
Lemma int_signed z : signed (if (z <? 0)%Z then B "-" else []).
Proof. destruct (z <? 0)%Z; [right; left; reflexivity|left; reflexivity]. Qed.
Lemma exp_reads z e : reads (exp_text z e) (IZR z * ten e).
Proof.
  unfold exp_text, int_text. destruct (dec_of_N_val (Z.to_N (Z.abs z))) as [N1 D1]. destruct (dec_of_N_val (Z.to_N (Z.abs e))) as [N2 D2]. rewrite <- app_assoc.
  set (R := IZR z * ten e). pose proof (reads_exp (if (z <? 0)%Z then B "-" else []) (dec_of_N (Z.to_N (Z.abs z))) (Z.to_N (Z.abs z)) 0 (if (e <? 0)%Z then B "-" else []) (dec_of_N (Z.to_N (Z.abs e))) (Z.to_nat (Z.abs e)) (int_signed z)) as H.
  match type of H with _ -> _ -> _ -> reads _ ?v => replace R with v end.
  - apply H; [|apply int_signed|].
    + exists (dec_of_N (Z.to_N (Z.abs z))), []. rewrite app_nil_r. auto.
    + split; [exact N2|]. rewrite D2. f_equal. rewrite Z_nat_N. reflexivity.
  - subst R. rewrite Z2N.id by lia. rewrite int_sign. f_equal. f_equal. destruct (Z.ltb_spec e 0); (destruct (list_eq_dec _ _ _) as [Q|Q]; [|try congruence]); try discriminate Q; lia.
Qed.
(** Six figures: the nearest number of the decimal format with six digits. *)
Definition six (r : R) : R := round r10 (FLX_exp 6) ZnearestE r.
Definition six_text (r : R) : bytes := exp_text (Ztrunc (scaled_mantissa r10 (FLX_exp 6) (six r))) (cexp r10 (FLX_exp 6) (six r)).
#[local] Instance prec6 : Prec_gt_0 6. Proof. reflexivity. Qed.
Lemma figures_format n q : (0 < n)%nat -> figures n q <-> generic_format r10 (FLX_exp (Z.of_nat n)) q.
Proof.
  intro N. assert (P : Prec_gt_0 (Z.of_nat n)) by (red; lia). split.
  - intros (z & e & Z1 & ->). apply generic_format_FLX. exists (Float r10 z e); [unfold F2R; cbn [Fnum Fexp]; rewrite ten_bpow; reflexivity|exact Z1].
  - intro G. apply FLX_format_generic in G; [|exact P]. destruct G as [[z e] -> H]. exists z, e. split; [exact H|]. unfold F2R. cbn [Fnum Fexp]. rewrite ten_bpow. reflexivity.
Qed.
Lemma six_reads r : exists q, reads (six_text r) q /\ nearest (figures 6) r q.
Proof.
  exists (six r). assert (G : generic_format r10 (FLX_exp 6) (six r)) by (apply generic_format_round; typeclasses eauto). split.
  - unfold six_text. pose proof (exp_reads (Ztrunc (scaled_mantissa r10 (FLX_exp 6) (six r))) (cexp r10 (FLX_exp 6) (six r))) as H. rewrite ten_bpow in H. unfold generic_format, F2R in G. cbn [Fnum Fexp] in G. rewrite <- G in H. exact H.
  - split; [apply (figures_format 6); [lia|exact G]|]. intros q' H. apply (figures_format 6) in H; [|lia]. destruct (round_N_pt r10 (FLX_exp 6) (fun x => negb (Z.even x)) r) as [_ K]. exact (K q' H).
Qed.
(** n decimals *)
Fixpoint fixed_digits (n : nat) (z : N) : bytes := match n with O => [] | S k => fixed_digits k (z / 10) ++ [ascii_of_N (48 + z mod 10)] end.
Lemma dec_val_app a b acc : dec_val (a ++ b) acc = match dec_val a acc with Some m => dec_val b m | None => None end.
Proof. revert acc. induction a as [|c a IH]; intro acc; cbn [dec_val app]; [reflexivity|]. destruct (_ && _)%bool; [apply IH|reflexivity]. Qed.
Lemma fixed_digits_val n : forall z acc, length (fixed_digits n z) = n /\ dec_val (fixed_digits n z) acc = Some (acc * 10 ^ N.of_nat n + z mod 10 ^ N.of_nat n)%N.
Proof.
  induction n as [|n IH]; intros z acc; cbn [fixed_digits].
  - split; [reflexivity|]. cbn [dec_val]. f_equal. change (10 ^ N.of_nat 0)%N with 1%N. rewrite N.mod_1_r. lia.
  - destruct (IH (z / 10)%N acc) as [L D]. split; [rewrite app_length, L; cbn; lia|]. rewrite dec_val_app, D. cbn [dec_val].
    rewrite Nat2N.inj_succ, N.pow_succ_r'. rewrite N.mod_mul_r by (try apply N.pow_nonzero; discriminate).
    assert (M : (z mod 10 < 10)%N) by (apply N.mod_lt; discriminate). revert M. generalize (z mod 10)%N as u. generalize ((z / 10) mod 10 ^ N.of_nat n)%N as v. generalize (10 ^ N.of_nat n)%N as t. intros t v u M.
    rewrite N_ascii_embedding by lia. destruct (N.leb_spec 48 (48 + u)); [|lia]. destruct (N.leb_spec (48 + u) 57); [|lia]. cbn [andb]. f_equal. lia.
Qed.
Definition fixed_text (n : nat) (z : Z) : bytes :=
  (if (z <? 0)%Z then B "-" else []) ++ dec_of_N (Z.to_N (Z.abs z) / 10 ^ N.of_nat n) ++ (if (n =? 0)%nat then [] else "."%char :: fixed_digits n (Z.to_N (Z.abs z))).
Lemma fixed_reads n z : fixed n (fixed_text n z) (IZR z * ten (- Z.of_nat n)).
Proof.
  set (v := Z.to_N (Z.abs z)). destruct (dec_of_N_val (v / 10 ^ N.of_nat n)) as [N1 D1]. destruct (fixed_digits_val n v (v / 10 ^ N.of_nat n)) as [L D2].
  exists (if (z <? 0)%Z then B "-" else []), (dec_of_N (v / 10 ^ N.of_nat n)), (fixed_digits n v), v. split; [destruct (z <? 0)%Z; auto|]. split; [exact N1|]. split; [exact L|]. split; [reflexivity|]. split.
  - rewrite dec_val_app, D1, D2. f_equal. rewrite N.mul_comm. symmetry. apply N.div_mod. apply N.pow_nonzero. lia.
  - unfold v. rewrite Z2N.id by lia. rewrite int_sign. reflexivity.
Qed.
Definition places_text (n : nat) (r : R) : bytes := fixed_text n (ZnearestE (r * ten (Z.of_nat n))).
Lemma places_reads n r : exists q, fixed n (places_text n r) q /\ nearest (places n) r q.
Proof.
  exists (IZR (ZnearestE (r * ten (Z.of_nat n))) * ten (- Z.of_nat n)). split; [apply fixed_reads|]. split; [eexists; reflexivity|]. intros q' (z & ->).
  assert (S : forall y : Z, Rabs (IZR y * ten (- Z.of_nat n) - r) = Rabs (IZR y - r * ten (Z.of_nat n)) * ten (- Z.of_nat n)).
  { intro y. rewrite <- (Rabs_pos_eq (ten (- Z.of_nat n))) at 2 by (apply Rlt_le, ten_pos). rewrite <- Rabs_mult. f_equal. rewrite Rmult_minus_distr_r, Rmult_assoc, ten_inv. ring. }
  rewrite !S. apply Rmult_le_compat_r; [apply Rlt_le, ten_pos|].
  set (x := r * ten (Z.of_nat n)). pose proof (Znearest_half (fun x => negb (Z.even x)) x) as H. rewrite Rabs_minus_sym in H. destruct (Z.eq_dec z (ZnearestE x)) as [->|NE]; [apply Rle_refl|].
  assert (K : 1 <= Rabs (IZR z - IZR (ZnearestE x))) by (rewrite <- minus_IZR, <- abs_IZR; apply IZR_le; lia).
  assert (T : Rabs (IZR z - IZR (ZnearestE x)) <= Rabs (IZR z - x) + Rabs (IZR (ZnearestE x) - x)) by (rewrite (Rabs_minus_sym (IZR (ZnearestE x))); replace (IZR z - IZR (ZnearestE x)) with ((IZR z - x) + (x - IZR (ZnearestE x))) by ring; apply Rabs_triang).
  lra.
Qed.

(** ** Formats *)
Definition parse_format (fm : bytes) : option (bytes * nat * bytes) :=
  match cut "%" fm with
  | (a, Some (c :: r)) =>
      if byte_eqb c "." then
        match cut "f" r with
        | (p, Some b) => match p, dec_val p 0 with
                         | _ :: _, Some n => if (n <=? 100)%N && negb (existsb (byte_eqb "%") b) then Some (a, N.to_nat n, b) else None
                         | _, _ => None
                         end
        | _ => None
        end
      else None
  | _ => None
  end.
Lemma f_not_digit : ~ digit "f"%char. Proof. intros [_ H]. unfold ord in H. change (N_of_ascii "f") with 102%N in H. lia. Qed.
Lemma parse_format_ok a p n b : ~ In "%"%char a -> ~ In "%"%char b -> spells p n -> (n <= 100)%nat -> parse_format (a ++ (B "%." ++ p ++ B "f") ++ b) = Some (a, n, b).
Proof.
  intros NA NB [NE D] L. unfold parse_format. rewrite cut_app by exact NA. change ((B "%." ++ p ++ B "f") ++ b) with ("%"%char :: "."%char :: (p ++ B "f") ++ b). cbn [cut fst snd].
  change (byte_eqb "%" "%") with true. cbn iota. cbn [fst snd]. rewrite app_nil_r. change (byte_eqb "." ".") with true. cbn iota. rewrite <- app_assoc.
  rewrite cut_app by (exact (not_digit _ _ (dec_digit _ _ _ D) f_not_digit)). change (B "f" ++ b) with ("f"%char :: b). cbn [cut]. change (byte_eqb "f" "f") with true. cbn iota. cbn [fst snd]. rewrite app_nil_r.
  destruct p as [|x p]; [congruence|]. cbn iota. rewrite D. destruct (N.leb_spec (N.of_nat n) 100); [|lia]. assert (Q : existsb (byte_eqb "%") b = false).
  { destruct (existsb (byte_eqb "%") b) eqn:Q; [|reflexivity]. apply existsb_exists in Q. destruct Q as (y & I & Y). apply byte_eqb_eq in Y. subst. contradiction. }
  rewrite Q. cbn [negb andb]. rewrite Nat2N.id. reflexivity.
Qed.

(** ** The environment *)
Section TextEnv.
  Context {A : Arith} (val : num -> option R) (ms md : R -> num) (rs rd : R -> R).
  Definition in_range (e : Z) (m : N) (k : nat) : bool := (Z.of_N m <=? 2 ^ e * 10 ^ Z.of_nat k)%Z.
  Definition read_as (e : Z) (mk : R -> num) (w : bytes) : option num :=
    match plain w with Some (sg, m, k) => if in_range e m k then Some (mk (plain_val (sg, m, k))) else None | None => None end.
  Definition text_env (path : bytes) : Env := {|
    re2_double := read_as 1000 md; stof := read_as 127 ms;
    fmt_num := fun x => match val x with Some r => six_text r | None => B "nan" end;
    pf_ok := fun fm => match parse_format fm with Some _ => true | None => false end;
    pf_format := fun fm x => match parse_format fm, val x with Some (a, n, b), Some r => a ++ places_text n r ++ b | _, _ => [] end;
    now := B "now"; type_name := fun _ => B "T"; flag_name := B "name"; flag_timestamp := true; flag_number_pages := true; flag_load_path := path |}.
  Lemma range_ok e sg m k : (0 <= e)%Z -> signed sg -> (in_range e m k = true <-> Rabs (plain_val (sg, m, k)) <= bpow radix2 e).
  Proof.
    intros He S. unfold in_range. rewrite Z.leb_le. cbn [plain_val].
    assert (Q : Rabs (sign_of sg * IZR (Z.of_N m) * ten (- Z.of_nat k)) = IZR (Z.of_N m) * ten (- Z.of_nat k)).
    { rewrite !Rabs_mult. rewrite (Rabs_pos_eq (ten _)) by (apply Rlt_le, ten_pos). rewrite (Rabs_pos_eq (IZR _)) by (apply IZR_le; lia).
      replace (Rabs (sign_of sg)) with 1; [ring|]. unfold sign_of. destruct (list_eq_dec _ _ _); [rewrite Rabs_left by lra; lra|rewrite Rabs_R1; reflexivity]. }
    rewrite Q. rewrite <- (IZR_Zpower radix2 e He). change (Zpower radix2 e) with (2 ^ e)%Z. split; intro H.
    - apply IZR_le in H. rewrite mult_IZR in H. rewrite <- ten_Z in H by lia. apply (Rmult_le_compat_r (ten (- Z.of_nat k))) in H; [|apply Rlt_le, ten_pos]. rewrite Rmult_assoc, ten_inv, Rmult_1_r in H. exact H.
    - apply le_IZR. rewrite mult_IZR, <- ten_Z by lia. apply (Rmult_le_compat_r (ten (Z.of_nat k))) in H; [|apply Rlt_le, ten_pos]. rewrite Rmult_assoc, (Rmult_comm (ten _)), ten_inv, Rmult_1_r in H. exact H.
  Qed.
  Lemma plain_signed w sg m k : plain w = Some (sg, m, k) -> signed sg.
  Proof.
    unfold plain. destruct w as [|c t]; [cbn; discriminate|]. set (sd := if byte_eqb c "-" then _ else _). assert (S : signed (fst sd)).
    { subst sd. destruct (byte_eqb c "-"); [right; left; reflexivity|]. destruct (byte_eqb c "+"); [right; right; reflexivity|left; reflexivity]. }
    clearbody sd. destruct sd as [sg' ds]. cbn [fst] in S. destruct (match cut "." ds with (a, Some f) => (a, f) | (a, None) => (a, []) end) as [a f]. destruct (a ++ f); [discriminate|]. destruct (dec_val _ _); [|discriminate].
    intro H. injection H as <- _ _. exact S.
  Qed.
  Lemma read_as_reads e mk rr w x : (0 <= e)%Z -> (forall r, Rabs r <= bpow radix2 e -> val (mk r) = Some (rr r)) -> read_as e mk w = Some x -> exists r, reads w r /\ val x = Some (rr r).
  Proof.
    intros He M H. unfold read_as in H. destruct (plain w) as [[[sg m] k]|] eqn:P; [|discriminate]. destruct (in_range e m k) eqn:R1; [|discriminate]. injection H as <-.
    exists (plain_val (sg, m, k)). split; [exact (plain_sound _ _ P)|]. apply M. apply (range_ok e sg m k He (plain_signed _ _ _ _ P)). exact R1.
  Qed.
  Lemma text_env_std path : (forall r, Rabs r <= bpow radix2 127 -> val (ms r) = Some (rs r)) -> (forall r, Rabs r <= bpow radix2 1000 -> val (md r) = Some (rd r)) ->
    @text_std A (text_env path) val rs rd.
  Proof.
    intros M1 M2. split; cbn [stof re2_double fmt_num pf_ok pf_format text_env].
    - intros w x _ H. exact (read_as_reads 127 ms rs w x ltac:(lia) M1 H).
    - intros w r N R1 OR. unfold read_as. inversion R1 as [sg ds m k S D Q1 Q2|sg ds m k sx x n S D SX SP Q1 Q2].
      + rewrite (plain_complete _ _ _ _ S D). assert (IR : in_range 127 m k = true); [|rewrite IR; discriminate]. apply (range_ok 127 sg m k ltac:(lia) S). cbn [plain_val]. rewrite Q2.
        destruct OR as [->|[_ OR]]; [rewrite Rabs_R0; apply bpow_ge_0|]. eapply Rle_trans; [exact OR|]. rewrite bpow_powerRZ. apply Req_le. reflexivity.
      + exfalso. subst w. apply (number_no_e _ N). apply in_or_app. right. apply in_or_app. right. left. reflexivity.
    - intros w x _ H. exact (read_as_reads 1000 md rd w x ltac:(lia) M2 H).
    - intros x r V. rewrite V. apply six_reads.
    - intros p n x r S L V. pose proof (parse_format_ok [] p n [] (@in_nil _ _) (@in_nil _ _) S L) as P. cbn [app] in P. rewrite app_nil_r in P. rewrite P, V. split; [reflexivity|]. cbn [app]. rewrite app_nil_r. apply places_reads.
    - intros a b p n x r NA NB S L V. pose proof (parse_format_ok [] p n [] (@in_nil _ _) (@in_nil _ _) S L) as P. cbn [app] in P. rewrite app_nil_r in P.
      rewrite (parse_format_ok a p n b NA NB S L), P, V. split; [reflexivity|]. cbn [app]. rewrite app_nil_r. reflexivity.
  Qed.
End TextEnv.

(** In exact arithmetic. *)
Definition TextR : @Env XR := @text_env XR valR Fin Fin (B "lib").
Lemma textR_std : stdR TextR.
Proof. apply text_env_std; reflexivity. Qed.
(** In doubles. *)
Definition of_real (ex : Z -> Z) (r : R) : f64 :=
  let q := round radix2 ex ZnearestE r in norm64 (Ztrunc (scaled_mantissa radix2 ex q)) (cexp radix2 ex q).
Lemma of_real_val emin prec r : (-1074 <= emin <= 0)%Z -> (0 < prec <= 53)%Z -> Rabs r <= bpow radix2 1000 ->
  val64 (of_real (FLT_exp emin prec) r) = Some (round radix2 (FLT_exp emin prec) ZnearestE r).
Proof.
  intros HE HP HR. assert (P : Prec_gt_0 prec) by (red; lia). set (q := round _ _ _ r). assert (G : generic_format radix2 (FLT_exp emin prec) q) by (apply generic_format_round; typeclasses eauto).
  assert (Q : F2R (Float radix2 (Ztrunc (scaled_mantissa radix2 (FLT_exp emin prec) q)) (cexp radix2 (FLT_exp emin prec) q)) = q) by (symmetry; exact G).
  assert (BQ : Rabs q <= bpow radix2 1000).
  { unfold q. apply abs_round_le_generic; [typeclasses eauto|typeclasses eauto| |exact HR]. apply generic_format_bpow. unfold FLT_exp. lia. }
  assert (G64 : generic_format radix2 (FLT_exp (-1074) 53) q).
  { apply FLT_format_generic in G; [|exact P]. destruct G as [f F1 F2 F3]. apply generic_format_FLT. exists f; [exact F1| |lia]. eapply Z.lt_le_trans; [exact F2|]. apply Zpower_le. lia. }
  unfold of_real. fold q. cbv zeta. unfold norm64. set (m := Ztrunc _) in *. set (e := cexp _ _ _) in *.
  pose proof (binary_normalize_correct 53 1024 prec64 emax64 mode_NE m e false) as H. rewrite Q in H. change (SpecFloat.fexp 53 1024) with (FLT_exp (-1074) 53) in H. cbn [round_mode] in H.
  rewrite (round_generic _ _ _ q G64) in H. rewrite Rlt_bool_true in H by (eapply Rle_lt_trans; [exact BQ|apply bpow_lt; lia]).
  destruct H as (H1 & H2 & _). unfold val64. rewrite H2, H1. reflexivity.
Qed.
Definition Text64 (lm : libm) (asc : bool) : @Env (F64 lm asc) := @text_env (F64 lm asc) val64 (of_real (FLT_exp (-149) 24)) (of_real (FLT_exp (-1074) 53)) (B "lib").
Lemma text64_std lm asc : std64 lm asc (Text64 lm asc).
Proof.
  apply text_env_std; intros r H; apply of_real_val; try lia; [|exact H]. eapply Rle_trans; [exact H|]. apply bpow_le. lia.
Qed.
