(** P_Cut.v - what is read of a model file that was cut short. *)
From Verif Require Import Base Num NumF64 Geo Stl Regex Env StlRead StlSpec NumLaws EnvEx P_Base P_Order P_Part P_Index P_Hide P_Stl ExStl.

Local Unset Implicit Arguments.

(** The lines of the beginning of a text: lines of the text, the last one possibly cut. *)
Lemma cut_lines a b : (exists post, getlines (a ++ b) = getlines a ++ post) \/
  exists pre x y post, getlines a = pre ++ [x] /\ getlines (a ++ b) = pre ++ (x ++ y) :: post.
Proof.
  induction a as [|c a IH]; [left; exists (getlines b); reflexivity|]. cbn [app getlines]. destruct (byte_eqb c LF).
  - destruct IH as [(post & ->)|(pre & x & y & post & -> & ->)]; [left; exists post; reflexivity|right; exists ([] :: pre), x, y, post; split; reflexivity].
  - destruct IH as [(post & IH)|(pre & x & y & post & -> & ->)].
    + rewrite IH. destruct (getlines a) as [|h r]; cbn [app].
      * right. destruct post as [|h t]; [exists [], [c], [], []|exists [], [c], h, t]; split; reflexivity.
      * left. exists post. reflexivity.
    + right. destruct pre as [|h r]; cbn [app]; [exists [], (c :: x), y, post|exists ((c :: h) :: r), x, y, post]; split; reflexivity.
Qed.

Section Cut.
  Context {A : Arith} {E : Env}.
  Lemma read_app l1 : forall n s l2, read_lines n s (l1 ++ l2) =
    do! '(r, lg) <- read_lines n s l1;
    match r with None => Ret (None, lg) | Some s' => do! '(r', lg') <- read_lines (n + length l1) s' l2; Ret (r', lg ++ lg') end.
  Proof.
    induction l1 as [|l t IH]; intros n s l2.
    - cbn [app read_lines obind length]. rewrite Nat.add_0_r. destruct (read_lines n s l2) as [[r lg]|e]; reflexivity.
    - cbn [app read_lines length]. destruct (read_line n s l) as [[[s1|] lg]|e]; cbn [obind]; [|reflexivity|reflexivity].
      rewrite IH. replace (n + S (length t)) with (S n + length t) by lia. destruct (read_lines (S n) s1 t) as [[[s2|] lg2]|e]; cbn [obind]; [|reflexivity|reflexivity].
      destruct (read_lines (S n + length t) s2 l2) as [[r lg3]|e]; cbn [obind]; [|reflexivity]. rewrite app_assoc. reflexivity.
  Qed.
  Lemma step_grows n s e s' lg : step n s e = Ret (s', lg) -> exists more, rd_facets s' = rd_facets s ++ more.
  Proof.
    destruct e; cbn [step]; intro H; try (injection H as <- <-; exists []; symmetry; apply app_nil_r).
    destruct (zero_vec _); [injection H as <- <-; exists []; symmetry; apply app_nil_r|]. destruct (rd_pts s) as [|p0 [|p1 [|p2 r]]]; try discriminate. injection H as <- <-. eexists. reflexivity.
  Qed.
  Lemma read_grows ls : forall n s s' lg, read_lines n s ls = Ret (Some s', lg) -> exists more, rd_facets s' = rd_facets s ++ more.
  Proof.
    induction ls as [|l t IH]; intros n s s' lg H; cbn [read_lines] in H; [injection H as <- <-; exists []; symmetry; apply app_nil_r|].
    destruct (supported_dec l) as [(e & He)|N]; [|rewrite (read_unknown n s l N) in H; discriminate]. rewrite (read_says n s l e He) in H.
    destruct (step n s e) as [[s1 lg1]|] eqn:S1; cbn [obind] in H; [|discriminate]. apply obind_ret in H. destruct H as ([r' lg'] & H & E'). injection E' as -> _.
    destruct (step_grows _ _ _ _ _ S1) as [m1 H1]. destruct (IH _ _ _ _ H) as [m2 H2]. exists (m1 ++ m2). rewrite H2, H1, app_assoc. reflexivity.
  Qed.
  (** A line that begins with a line "endfacet" is one if it is supported. *)
  Lemma strip_app b c t y : blanks b -> c <> SP -> strip ((b ++ c :: t) ++ y) = c :: t ++ y.
  Proof. intros Hb N. rewrite <- app_assoc. cbn [app]. apply strip_kw; assumption. Qed.
  Lemma still_end x y e : endfacet_line x -> says (x ++ y) e -> e = EEnd.
  Proof.
    intros (b & r & Hb & Hr & ->) H. assert (K : starts ((b ++ B "endfacet" ++ r) ++ y) (B "endfacet")) by (exists (r ++ y); apply (strip_app b "e"%char (B "ndfacet" ++ r) y Hb); discriminate).
    revert H K. generalize ((b ++ B "endfacet" ++ r) ++ y). intros l H K. destruct H as [H|H|v H|v H|H]; try reflexivity; exfalso; kinds.
  Qed.
  Lemma cut_read a b s lg : read_lines 1 (Rd zero3 [] []) (getlines (a ++ b)) = Ret (Some s, lg) ->
    exists r lg', read_lines 1 (Rd zero3 [] []) (getlines a) = Ret (r, lg') /\
      match r with None => True | Some s' => (exists more, rd_facets s = rd_facets s' ++ more) /\ exists later, lg = lg' ++ later end.
  Proof.
    intro H. destruct (cut_lines a b) as [(post & Q)|(pre & x & y & post & Qa & Q)]; rewrite Q in H.
    - rewrite read_app in H. destruct (read_lines 1 _ (getlines a)) as [[[s1|] lg1]|]; cbn [obind] in H; [|discriminate|discriminate].
      apply obind_ret in H. destruct H as ([r' lg'] & H & E'). injection E' as -> <-. exists (Some s1), lg1. split; [reflexivity|]. split; [exact (read_grows _ _ _ _ _ H)|eauto].
    - rewrite Qa. rewrite read_app in H |- *. destruct (read_lines 1 _ pre) as [[[s1|] lg1]|]; cbn [obind] in H |- *; [|discriminate|discriminate].
      apply obind_ret in H. destruct H as ([r' lg'] & H & E'). injection E' as -> <-. cbn [read_lines] in H |- *. set (n := 1 + length pre) in *.
      destruct (supported_dec (x ++ y)) as [(e & He)|N]; [|rewrite (read_unknown _ _ _ N) in H; discriminate]. rewrite (read_says _ _ _ _ He) in H.
      destruct (step n s1 e) as [[s2 lg2]|] eqn:S2; cbn [obind] in H; [|discriminate]. apply obind_ret in H. destruct H as ([r2 lg3] & H & E'). injection E' as -> <-.
      destruct (step_grows _ _ _ _ _ S2) as [m1 G1]. destruct (read_grows _ _ _ _ _ H) as [m2 G2].
      destruct (supported_dec x) as [(e' & He')|N]; [|rewrite (read_unknown _ _ _ N); cbn [obind]; eexists None, _; split; [reflexivity|exact I]].
      rewrite (read_says _ _ _ _ He').
      assert (C : e' = EEnd \/ exists s', step n s1 e' = Ret (s', []) /\ rd_facets s' = rd_facets s1) by (destruct e'; [right|right|left; reflexivity|right]; eexists; (split; reflexivity)).
      destruct C as [->|(s' & C1 & C2)].
      + assert (e = EEnd) by (inversion He' as [| | | |K]; subst; exact (still_end x y e K He)). subst e. rewrite S2. cbn [obind]. eexists (Some s2), _. split; [reflexivity|]. split; [eauto|].
        exists lg3. rewrite app_nil_r, app_assoc. reflexivity.
      + rewrite C1. cbn [obind]. eexists (Some s'), _. split; [reflexivity|]. rewrite C2. split; [exists (m1 ++ m2); rewrite G2, G1, app_assoc; reflexivity|].
        exists (lg2 ++ lg3). rewrite app_nil_r. reflexivity.
  Qed.
  Context (O : ordered A) (NUM : forall w x, numeral w -> re2_double w = Some x -> ok x).
  Theorem cut_models a b m lg : stl_make (a ++ b) = Ret (Some m, lg) ->
    (exists lg', stl_make a = Ret (None, lg')) \/
    exists m' lg' more later, stl_make a = Ret (Some m', lg') /\ facets m = facets m' ++ more /\ lg = lg' ++ later.
  Proof.
    unfold stl_make. intro H. apply obind_ret in H. destruct H as ([[s|] lg0] & H & H'); [|discriminate]. apply obind_ret in H'. destruct H' as (m0 & HI & E'). injection E' as -> ->.
    destruct (cut_read a b s lg H) as (r & lg' & Ha & K). rewrite Ha. cbn [obind]. destruct r as [s'|]; [|left; eauto]. destruct K as ((more & K) & later & L). right.
    destruct (index_spec O (fs := rd_facets s')) as (m' & HI' & IX); [exact (proj2 (read_fine NUM _ 1 _ s' lg' fine_start Ha))|].
    rewrite HI'. cbn [obind]. exists m', lg', more, later. split; [reflexivity|]. rewrite (ix_facets IX), (proj1 (index_range _ HI)). split; [exact K|exact L].
  Qed.
End Cut.

(** The text of two blocks, cut after its first five lines. *)
Definition cut_at : nat := length (flat_map (fun l : bytes => l ++ [LF]) (firstn 5 two_blocks)).
Lemma cut_accepted : match @stl_make ExA ExE (firstn cut_at two_text) with Ret (Some m, []) => Nat.eqb (length (facets m)) 0 | _ => false end = true.
Proof. vm_compute. reflexivity. Qed.
Lemma whole_accepted : match @stl_make ExA ExE two_text with Ret (Some m, _) => Nat.eqb (length (facets m)) 1 | _ => false end = true.
Proof. vm_compute. reflexivity. Qed.
Lemma cut_unnoticed : exists (A : Arith) (E : Env) a b m lg m', b <> [] /\ stl_make (a ++ b) = Ret (Some m, lg) /\ stl_make a = Ret (Some m', []) /\ facets m' <> facets m.
Proof.
  exists ExA, ExE, (firstn cut_at two_text), (skipn cut_at two_text). rewrite firstn_skipn. pose proof cut_accepted as C. pose proof whole_accepted as W.
  destruct (@stl_make ExA ExE two_text) as [[[m|] lg]|]; try discriminate W. destruct (@stl_make ExA ExE (firstn cut_at two_text)) as [[[m'|] [|]]|]; try discriminate C.
  exists m, lg, m'. split; [vm_compute; discriminate|]. split; [reflexivity|]. split; [reflexivity|]. apply Nat.eqb_eq in W, C. intro Q. rewrite Q in C. congruence.
Qed.
