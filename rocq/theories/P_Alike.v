(** P_Alike.v - pages that say the same about the same models are drawn the same. *)
From Coq Require Import Permutation.
From Verif Require Import Base Num Geo Stl StlRead Env Ast Lexer Parser Ps Draw Main DocSpec ValidSpec Grammar ShuffleSpec AlikeSpec
  P_Base P_Meta P_Frame P_Dims P_Doc P_Script P_Script2 P_Script3 P_Script4 P_Value P_Valid P_Shuffle.

Local Unset Implicit Arguments.
Section Alike.
  Context {A : Arith} {E : Env}.
  Context (fs fs' : files) (d d' : document).
  Notation alikei := (alike_item fs d fs' d').

  (** ** Which documents are good *)
  Lemma reads_alike n n' f : loads_fine fs' d' -> same_model fs d n fs' d' n' -> NoDup (map mo_name (doc_models d)) -> reads_as fs d n f -> reads_as fs' d' n' f.
  Proof.
    intros _ (m & m' & t & I & Q & R & I' & Q' & R') ND (m0 & t0 & lg & I0 & Q0 & R0 & M).
    assert (m0 = m) as ->. { clear - ND I I0 Q Q0. revert ND I I0. induction (doc_models d) as [|x l IH]; [intros _ []|]. cbn [map]. intros ND I I0. inversion ND as [|? ? N1 N2]; subst.
      destruct I as [->|I], I0 as [->|I0]; [reflexivity|exfalso; apply N1; rewrite <- Q0; exact (in_map mo_name _ _ I0)|exfalso; apply N1; rewrite Q0; exact (in_map mo_name _ _ I)|exact (IH N2 I I0)]. }
    rewrite (resolves_fun R0 R) in M. exists m', t, lg. auto.
  Qed.
  Lemma good_alike : Forall2 (alike_page fs d fs' d') (doc_pages d) (doc_pages d') -> loads_fine fs' d' -> doc_good fs d -> doc_good fs' d'.
  Proof.
    intros F0 LF (N & M & F). split; [apply LF|]. split; [apply LF|].
    apply (forall2_moved (alike_page fs d fs' d') (page_good fs d)) with (l := doc_pages d); [|exact F0|exact F]. intros pg pg' [P F2] (T & (t & TI) & G). split; [exact (tidy_moved _ _ _ P T)|]. split; [exists t; exact (titled_moved _ _ _ P TI)|].
    apply (forall2_moved alikei (item_good fs d)) with (l := pg_draws pg); [|exact F2|exact G]. intros i i' [l l' n n' ml ml' ds ds' SM P1 F1|l l' t' ml ml' P1] GI.
    - destruct GI as (T1 & (a & b & SC) & f & r & p & ls & RA & V & RO & L & SO & Z & D). split; [exact (tidy_moved _ _ _ P1 T1)|]. split; [exists a, b; exact (asks_scale_moved _ _ _ _ P1 SC)|].
      exists f, r, p, ls. split; [exact (reads_alike _ _ _ LF SM N RA)|]. split; [exact (asks_view_moved _ _ _ P1 V)|]. split; [exact RO|]. split; [exact L|]. split; [exact SO|].
      split; [destruct Z as [->|Z]; [left; inversion F1; reflexivity|right; exact Z]|]. exact (forall2_moved shuffled_dim _ _ (fun x y => dim_good_moved _ _ x y) _ _ F1 D).
    - exact (tidy_moved _ _ _ P1 GI).
  Qed.

  (** ** What they draw *)
  Context (st st' : stl_map).
  Definition same_models : Prop := forall n n', same_model fs d n fs' d' n' -> model_of st n = model_of st' n'.
  Lemma item_alike i i' : same_models -> alikei i i' -> forall s s1 s2 t1 t2,
    visit_drawable st i s = Ret (s1, t1, true) -> visit_drawable st' i' s = Ret (s2, t2, true) -> s1 = s2.
  Proof.
    intros M S s s1 s2 t1 t2 H1 H2. destruct S as [l l' n n' ml ml' ds ds' SM P F|l l' t ml ml' P]; cbn [visit_drawable] in H1, H2; rewrite obind_ret in H1, H2.
    - destruct H1 as ([[u1 x1] o1] & A1 & H1). destruct H2 as ([[u2 x2] o2] & A2 & H2). injection H1 as <- _ ->. injection H2 as <- _ ->.
      destruct (visit_draw_spec _ _ _ _ _ _ A1) as (O1 & _). destruct (visit_draw_spec _ _ _ _ _ _ A2) as (O2 & _).
      destruct (proj1 O1 eq_refl) as [ab f r pl p ls N1 K1 Q1 Q2 Q3 Q4 Q5 Q6 _ Q7]. destruct (proj1 O2 eq_refl) as [ab' f' r' pl' p' ls' N1' K1' Q1' Q2' Q3' Q4' Q5' Q6' _ Q7'].
      rewrite (scale_moved _ _ P N1), Q1 in Q1'. injection Q1' as <-. rewrite <- (M _ _ SM), Q2 in Q2'. injection Q2' as <-. rewrite (view_moved _ _ P N1), Q3 in Q3'. injection Q3' as <-.
      rewrite (proj1 (place_moved _ _ P N1)), Q4 in Q4'. injection Q4' as <-. rewrite Q5 in Q5'. injection Q5' as <-. rewrite Q6 in Q6'. injection Q6' as <-.
      exact (dims_moved _ _ F _ _ _ _ _ Q7 Q7').
    - refine (item_moved st' st' (DText l t ml) (DText l' t ml') (fun n => eq_refl) (SI_text l l' t ml ml' P) s s1 s2 t1 t2 _ _); cbn [visit_drawable]; rewrite obind_ret; assumption.
  Qed.
  Lemma items_alike is is' : same_models -> Forall2 alikei is is' -> forall s s1 s2 t1 t2,
    visit_drawables st is s = Ret (s1, t1, true) -> visit_drawables st' is' s = Ret (s2, t2, true) -> s1 = s2.
  Proof.
    intros M F. induction F as [|i i' is is' S F IH]; intros s s1 s2 t1 t2 H1 H2; cbn [visit_drawables] in H1, H2; [congruence|]. rewrite obind_ret in H1, H2.
    destruct H1 as ([[u1 x1] o1] & A1 & H1). destruct H2 as ([[u2 x2] o2] & A2 & H2). rewrite obind_ret in H1, H2.
    destruct H1 as ([[w1 y1] q1] & B1 & H1), H2 as ([[w2 y2] q2] & B2 & H2). injection H1 as -> _ H1. injection H2 as -> _ H2. apply andb_true_iff in H1, H2. destruct H1 as [-> ->], H2 as [-> ->].
    pose proof (item_alike _ _ M S _ _ _ _ _ A1 A2) as <-. exact (IH _ _ _ _ _ B1 B2).
  Qed.
  (** Pages, in whatever state and with whatever number. *)
  Lemma page_alike pg pg' : same_models -> alike_page fs d fs' d' pg pg' -> forall n n' s s' s1 s2 t1 t2,
    gen_page st n pg s = Ret (s1, t1, true) -> gen_page st' n' pg' s' = Ret (s2, t2, true) -> v_page s1 = v_page s2.
  Proof.
    intros M [P F] n n' s s' s1 s2 t1 t2 H1 H2. destruct (page_success _ _ _ _ _ _ H1) as (a & u & ds & Q1 & N1 & V1 & ->). destruct (page_success _ _ _ _ _ _ H2) as (a' & u' & ds' & Q2 & N2 & V2 & ->).
    cbn [v_page set_page]. assert (a = a') as <-.
    { pose proof (arg_moved "name" _ _ P N1) as X. unfold as_str in *. destruct (arg "name" (pg_meta pg)) as [x|], (arg "name" (pg_meta pg')) as [x'|]; try contradiction; [|congruence].
      destruct (m_val x), (m_val x'); try discriminate X; try discriminate Q1; try discriminate Q2. cbn in X. congruence. }
    f_equal. destruct (drawables_indep st (pg_draws pg)) as [[e He]|(rs & _ & H)]; [rewrite He in V1; discriminate V1|].
    destruct (H (set_page opage_empty s)) as (w & W1 & W2 & _). rewrite W1 in V1. injection V1 as <- _ OK.
    destruct (H (set_page opage_empty s')) as (w' & W1' & W2' & _). rewrite OK in W1'.
    pose proof (items_alike _ _ M F _ _ _ _ _ W1' V2) as <-. rewrite W2, W2'. reflexivity.
  Qed.
  (** The page drawn at each place. *)
  Lemma gen_pages_at (st0 : stl_map) : forall pgs n s s1 t os, gen_pages st0 n pgs s = Ret (s1, t, os, true) -> length os = length pgs /\
    forall i pg, nth_error pgs i = Some pg -> exists s0 s2 t2, gen_page st0 (n + i) pg s0 = Ret (s2, t2, true) /\ nth_error os i = Some (v_page s2).
  Proof.
    induction pgs as [|p pgs IH]; intros n s s1 t os H; cbn [gen_pages] in H.
    - injection H as _ _ <-. split; [reflexivity|]. intros [|i] pg Q; discriminate Q.
    - rewrite obind_ret in H. destruct H as ([[u1 x1] o1] & A1 & H). rewrite obind_ret in H. destruct H as ([[[w1 y1] z1] q1] & B1 & H). injection H as _ _ <- H. apply andb_true_iff in H. destruct H as [-> ->].
      destruct (IH _ _ _ _ _ B1) as [L G]. split; [cbn [length]; congruence|]. intros [|i] pg Q.
      + cbn in Q. injection Q as <-. rewrite Nat.add_0_r. exists s, u1, x1. split; [exact A1|reflexivity].
      + destruct (G i pg Q) as (s0 & s2 & t2 & G1 & G2). exists s0, s2, t2. rewrite Nat.add_succ_r. split; [exact G1|exact G2].
  Qed.
End Alike.

Section Whole.
  Context {A : Arith} {E : Env}.
  Lemma alike_convert fs fs' src src' c c' d d' : parses src c d -> parses src' c' d' -> Forall2 (alike_page fs d fs' d') (doc_pages d) (doc_pages d') ->
    loads_fine fs' d' -> converts fs src c -> converts fs' src' c'.
  Proof.
    intros HP HP' F LF C. apply convertible in C. destruct C as (d0 & H0 & G). rewrite <- (parses_fun HP H0) in *. apply convertible. exists d'. split; [exact HP'|]. exact (good_alike _ _ _ _ F LF G).
  Qed.
  Lemma loaded_alike fs fs' d d' st st' lg lg' : load_files fs (doc_models d) [] = Ret (st, lg, true) -> load_files fs' (doc_models d') [] = Ret (st', lg', true) -> same_models fs fs' d d' st st'.
  Proof.
    intros L L' n n' (m & m' & t & I & Q & R & I' & Q' & R').
    destruct (load_files_nil_ok _ _ L) as (_ & _ & _ & M1). destruct (load_files_nil_ok _ _ L') as (_ & _ & _ & M2).
    destruct (M1 _ I) as (c1 & f1 & lg1 & R1 & K1 & H1). destruct (M2 _ I') as (c2 & f2 & lg2 & R2 & K2 & H2).
    rewrite (resolves_fun R1 R) in K1. rewrite (resolves_fun R2 R') in K2. rewrite K1 in K2. injection K2 as <- _. rewrite Q in H1. rewrite Q' in H2. congruence.
  Qed.
  Definition head (k n : nat) : bytes := page_header k n.
  Lemma head_announces k n : announces (head k n) k n.
  Proof.
    unfold head, page_header. exists (dec_of_nat k), (dec_of_nat n). eexists. split; [apply dec_of_nat_spells|]. split; [apply dec_of_nat_spells|].
    match goal with |- B ?s ++ _ = _ => change (B s) with ([LF] ++ B "%%%%%%%%% Start of page ") end. rewrite <- !app_assoc. f_equal. f_equal. f_equal. f_equal. f_equal.
    match goal with |- B ?s ++ _ = [LF] ++ _ => change (B s) with ([LF] ++ tl (B s)) end. rewrite <- app_assoc. reflexivity.
  Qed.
  Definition body (p : opage) : bytes := text_to_ps (o_text p) ++ arcs_to_ps (o_arcs p) ++ lines_to_ps (o_lines p) ++ page_footer.
  Lemma render_blocks total : forall os n, exists bs, render_from total n os = concat bs /\ length bs = length os /\
    forall i p, nth_error os i = Some p -> nth_error bs i = Some (head (S (n + i)) total ++ body p).
  Proof.
    induction os as [|p os IH]; intro n; [exists []; repeat split; intros [|i] q H; discriminate H|].
    destruct (IH (S n)) as (bs & H1 & H2 & H3). exists (render_page total (S n) p :: bs). cbn [render_from concat length]. rewrite H1. split; [reflexivity|]. split; [congruence|].
    intros [|i] q H; [injection H as <-; rewrite Nat.add_0_r; reflexivity|]. cbn [nth_error] in H |- *. rewrite (H3 _ _ H). rewrite Nat.add_succ_r. reflexivity.
  Qed.
  Theorem pages_alone : exists hd : nat -> nat -> bytes, (forall k n, announces (hd k n) k n) /\
    forall fs fs' src src' c c' d d' r r', parses src c d -> parses src' c' d' ->
      script_to_ps fs src c = Ret r -> r_ok r = true -> script_to_ps fs' src' c' = Ret r' -> r_ok r' = true ->
      exists bs bs', r_out r = document_header src ++ concat bs /\ r_out r' = document_header src' ++ concat bs' /\
        length bs = length (doc_pages d) /\ length bs' = length (doc_pages d') /\
        forall i j pg pg', nth_error (doc_pages d) i = Some pg -> nth_error (doc_pages d') j = Some pg' -> alike_page fs d fs' d' pg pg' ->
          exists b, nth_error bs i = Some (hd (S i) (length bs) ++ b) /\ nth_error bs' j = Some (hd (S j) (length bs') ++ b).
  Proof.
    exists head. split; [exact head_announces|]. intros fs fs' src src' c c' d d' r r' HP HP' H K H' K'.
    destruct (script_ok _ _ _ H K) as (d0 & r0 & H0 & (st & l1 & os & dd & l2 & L & G & ->) & Q & _). destruct (script_ok _ _ _ H' K') as (d0' & r0' & H0' & (st' & l1' & os' & dd' & l2' & L' & G' & ->) & Q' & _).
    rewrite <- (parses_fun HP H0) in *. rewrite <- (parses_fun HP' H0') in *. rewrite Q, Q'. cbn [r_out]. unfold render_pages.
    unfold generate_pages in G, G'. rewrite obind_ret in G, G'. destruct G as ([[[a1 a2] a3] a4] & G & X), G' as ([[[b1 b2] b3] b4] & G' & Y). injection X as <- _ _ ->. injection Y as <- _ _ ->.
    destruct (gen_pages_at _ _ _ _ _ _ _ G) as [LG PG]. destruct (gen_pages_at _ _ _ _ _ _ _ G') as [LG' PG'].
    destruct (render_blocks (length a3) a3 0) as (bs & B1 & B2 & B3). destruct (render_blocks (length b3) b3 0) as (bs' & B1' & B2' & B3').
    exists bs, bs'. rewrite B1, B1'. split; [reflexivity|]. split; [reflexivity|]. split; [congruence|]. split; [congruence|].
    intros i j pg pg' Ni Nj AL. destruct (PG _ _ Ni) as (s0 & s2 & t2 & P1 & P2). destruct (PG' _ _ Nj) as (s0' & s2' & t2' & P1' & P2').
    exists (body (v_page s2)). rewrite (B3 _ _ P2), (B3' _ _ P2'), B2, B2'. split; [reflexivity|].
    rewrite (page_alike fs fs' d d' st st' pg pg' (loaded_alike _ _ _ _ _ _ _ _ L L') AL _ _ _ _ _ _ _ _ P1 P1'). reflexivity.
  Qed.
  Theorem alike_scripts fs fs' src c c' d d' : parses src c d -> parses src c' d' -> Forall2 (alike_page fs d fs' d') (doc_pages d) (doc_pages d') ->
    (converts fs src c -> loads_fine fs' d' -> converts fs' src c') /\
    forall r r', script_to_ps fs src c = Ret r -> r_ok r = true -> script_to_ps fs' src c' = Ret r' -> r_ok r' = true -> r_out r = r_out r'.
  Proof.
    intros HP HP' F. split; [intros C LF; exact (alike_convert _ _ _ _ _ _ _ _ HP HP' F LF C)|]. intros r r' H K H' K'.
    destruct pages_alone as (hd & _ & PA). destruct (PA _ _ _ _ _ _ _ _ _ _ HP HP' H K H' K') as (bs & bs' & Q & Q' & L & L' & G). rewrite Q, Q'. f_equal. f_equal.
    assert (LL : length (doc_pages d) = length (doc_pages d')) by (clear - F; induction F; cbn; congruence). assert (LB : length bs = length bs') by congruence. rewrite LB in G.
    apply nth_ext with (d := []) (d' := []); [exact LB|]. intros i Hi.
    destruct (nth_error (doc_pages d) i) as [pg|] eqn:N1; [|apply nth_error_None in N1; lia]. destruct (nth_error (doc_pages d') i) as [pg'|] eqn:N2; [|apply nth_error_None in N2; lia].
    assert (AL : alike_page fs d fs' d' pg pg').
    { clear - F N1 N2. revert i N1 N2. induction F as [|x y l l' H F IH]; intros [|i] N1 N2; try discriminate N1; cbn in N1, N2; [congruence|eauto]. }
    destruct (G i i pg pg' N1 N2 AL) as (b & G1 & G2). rewrite (nth_error_nth _ _ _ G1), (nth_error_nth _ _ _ G2). reflexivity.
  Qed.
End Whole.
