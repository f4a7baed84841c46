(** P_Shuffle.v - the order of loads and properties does not matter. *)
From Coq Require Import Permutation.
From Verif Require Import Base Num Geo Stl StlRead Env Ast Lexer Parser Ps Draw Main DocSpec ValidSpec Grammar LangSpec PrintSpec ShuffleSpec
  P_Base P_Meta P_Frame P_Dims P_Doc P_Script P_Script2 P_Script3 P_Script4 P_Dead P_Lang P_Value P_Mark P_Layout P_Lang2 P_Valid.

Local Unset Implicit Arguments.
Local Open Scope string_scope.
Local Open Scope list_scope.

Section Shuffle.
  Context {A : Arith} {E : Env}.
  (** ** Symmetry *)
  Lemma metas_sym ml ml' : shuffled_metas ml ml' -> shuffled_metas ml' ml. Proof. apply Permutation_sym. Qed.
  Lemma flip2 {X} (R : X -> X -> Prop) : (forall x y, R x y -> R y x) -> forall l l', Forall2 R l l' -> Forall2 R l' l.
  Proof. intros S l l' H. induction H; constructor; auto. Qed.
  Lemma dim_sym d d' : shuffled_dim d d' -> shuffled_dim d' d. Proof. intros [K M]. split; [symmetry; exact K|apply metas_sym, M]. Qed.
  Lemma item_sym d d' : shuffled_item d d' -> shuffled_item d' d.
  Proof. intros [l l' n ml ml' ds ds' M F|l l' t ml ml' M]; constructor; try (apply metas_sym, M). exact (flip2 _ dim_sym _ _ F). Qed.
  Lemma page_sym d d' : shuffled_page d d' -> shuffled_page d' d.
  Proof. intros [M F]. split; [apply metas_sym, M|exact (flip2 _ item_sym _ _ F)]. Qed.
  Lemma doc_sym d d' : shuffled d d' -> shuffled d' d.
  Proof. intros [M F]. split; [apply Permutation_sym, M|exact (flip2 _ page_sym _ _ F)]. Qed.

  (** ** Properties *)
  Lemma moved ml ml' x : shuffled_metas ml ml' -> In x ml -> exists x', In x' ml' /\ erase_meta x = erase_meta x'.
  Proof.
    intros P I. apply (in_map erase_meta) in I. apply (Permutation_in _ P) in I. apply in_map_iff in I. destruct I as (x' & Q & I). eauto.
  Qed.
  Lemma names_perm ml ml' : shuffled_metas ml ml' -> Permutation (map m_name ml) (map m_name ml').
  Proof. intro P. apply (Permutation_map m_name) in P. rewrite !map_map in P. exact P. Qed.
  Lemma has_moved ml ml' n : shuffled_metas ml ml' -> has ml n <-> has ml' n.
  Proof. intro P. unfold has. split; apply Permutation_in; [|apply Permutation_sym]; apply names_perm, P. Qed.
  Lemma nodup_moved ml ml' : shuffled_metas ml ml' -> NoDup (names ml) -> NoDup (names ml').
  Proof. intros P. apply Permutation_NoDup, names_perm, P. Qed.
  Lemma tidy_moved k ml ml' : shuffled_metas ml ml' -> tidy k ml -> tidy k ml'.
  Proof.
    intros P [N O]. split; [exact (Permutation_NoDup (names_perm _ _ P) N)|]. intros n I. apply O. apply (Permutation_in n (Permutation_sym (names_perm _ _ P)) I).
  Qed.
  Lemma name_moved x x' : erase_meta x = erase_meta x' -> m_name x' = m_name x. Proof. intro H. apply (f_equal m_name) in H. symmetry. exact H. Qed.
  Lemma val_moved x x' : erase_meta x = erase_meta x' -> erase_mval (m_val x) = erase_mval (m_val x'). Proof. intro H. apply (f_equal m_val) in H. exact H. Qed.
  Lemma arg_moved n ml ml' : shuffled_metas ml ml' -> NoDup (names ml) ->
    match arg n ml, arg n ml' with Some x, Some x' => erase_mval (m_val x) = erase_mval (m_val x') | None, None => True | _, _ => False end.
  Proof.
    intros P N. destruct (arg n ml) as [x|] eqn:G.
    - destruct (arg_in _ _ G) as [I Q]. destruct (moved _ _ _ P I) as (x' & I' & X). rewrite (arg_unique n ml' x' (nodup_moved _ _ P N) I'); [exact (val_moved _ _ X)|]. rewrite (name_moved _ _ X). exact Q.
    - apply arg_none in G. rewrite (has_moved _ _ n P) in G. apply arg_none in G. rewrite G. exact I.
  Qed.
  Ltac by_arg n P N := let H := fresh in pose proof (arg_moved n _ _ P N) as H; destruct (arg n _) as [?x|], (arg n _) as [?x|]; try contradiction; [|reflexivity];
    match type of H with erase_mval ?a = erase_mval ?b => destruct a, b; try discriminate H; cbn in H; try (injection H; intros; subst); try reflexivity end.
  Lemma scale_moved ml ml' : shuffled_metas ml ml' -> NoDup (names ml) -> scale_of ml' = scale_of ml.
  Proof. intros P N. unfold scale_of, as_scale. by_arg "scale" P N. Qed.
  Lemma view_moved ml ml' : shuffled_metas ml ml' -> NoDup (names ml) -> view_of ml' = view_of ml.
  Proof. intros P N. unfold view_of, as_loc, as_str. by_arg "view" P N. Qed.
  Lemma place_moved ml ml' : shuffled_metas ml ml' -> NoDup (names ml) -> place_of ml' = place_of ml /\ text_place_of ml' = text_place_of ml.
  Proof. intros P N. unfold place_of, text_place_of, as_loc. split; by_arg "@" P N. Qed.

  (** ** Points *)
  Lemma invoke_erase ps p : snd (invoke ps (erase_point p)) = snd (invoke ps p).
  Proof.
    induction p as [v l|n q IH l]; [reflexivity|]. cbn [erase_point invoke]. destruct (bytes_eqb n (B "near")).
    - destruct ps as [|p0 ps]; [reflexivity|]. destruct (invoke _ (erase_point q)) as [l1 o1], (invoke _ q) as [l2 o2]. cbn [snd] in IH. subst o2. destruct o1; reflexivity.
    - destruct (bytes_eqb n (B "center")); [|reflexivity]. destruct (Nat.ltb (List.length ps) 3); [reflexivity|]. destruct (invoke _ (erase_point q)) as [l1 o1], (invoke _ q) as [l2 o2]. cbn [snd] in IH. subst o2.
      destruct o1; [|reflexivity]. destruct (fit_circle _ _) as [[]|]; reflexivity.
  Qed.
  Lemma rotate_erase r p : erase_point (point_rotate r p) = point_rotate r (erase_point p).
  Proof. induction p as [v l|n q IH l]; [reflexivity|]. cbn [point_rotate erase_point]. rewrite IH. reflexivity. Qed.
  Lemma evaluates_moved ps r ml ml' n v : shuffled_metas ml ml' -> evaluates ps r ml n v -> evaluates ps r ml' n v.
  Proof.
    intros P (x & p & p' & I & Q & V & M & H). destruct (moved _ _ _ P I) as (x' & I' & X). pose proof (val_moved _ _ X) as Y. rewrite V in Y. destruct (m_val x') as [|q| | |] eqn:V'; try discriminate Y. cbn in Y. injection Y as Y.
    exists x', q, (point_rotate r q). split; [exact I'|]. split; [rewrite (name_moved _ _ X); exact Q|]. split; [exact V'|]. split; [apply point_rotate_spec|].
    rewrite <- invoke_erase, rotate_erase, <- Y, <- rotate_erase, invoke_erase, <- (multiplied_eq _ _ _ M). exact H.
  Qed.
  Lemma format_moved dflt ml ml' fm : shuffled_metas ml ml' -> format_used ml dflt fm -> format_used ml' dflt fm.
  Proof.
    intros P [(x & I & Q & V & O)|[H ->]].
    - left. destruct (moved _ _ _ P I) as (x' & I' & X). pose proof (val_moved _ _ X) as Y. rewrite V in Y. exists x'. split; [exact I'|]. split; [rewrite (name_moved _ _ X); exact Q|]. split; [|exact O].
      destruct (m_val x'); try discriminate Y. symmetry. exact Y.
    - right. rewrite <- (has_moved _ _ "fmt" P). auto.
  Qed.
  Lemma side_moved ps r ml ml' kd kp p f : shuffled_metas ml ml' -> side_used ps r ml kd kp p f -> side_used ps r ml' kd kp p f.
  Proof. intros P [(v & H & ->)|(v & H & ->)]; [left|right]; exists v; split; try reflexivity; exact (evaluates_moved _ _ _ _ _ _ P H). Qed.
  Lemma one_side_moved ps r ml ml' kd kp p f : shuffled_metas ml ml' -> one_side ps r ml kd kp p f -> one_side ps r ml' kd kp p f.
  Proof. intros P [S N]. split; [exact (side_moved _ _ _ _ _ _ _ _ P S)|]. rewrite <- !(has_moved _ _ _ P). exact N. Qed.
  Ltac move_all := repeat match goal with |- _ /\ _ => split; [first [assumption|eapply format_moved; eassumption|eapply evaluates_moved; eassumption|eapply one_side_moved; eassumption]|] end; try assumption.
  Lemma dim_good_moved ps r d d' : shuffled_dim d d' -> dim_good ps r d -> dim_good ps r d'.
  Proof.
    intros [K P] [T G]. split; [rewrite <- K; exact (tidy_moved _ _ _ P T)|]. rewrite <- K.
    destruct (d_kind d).
    - destruct G as (fm & a & p & f & t & G1 & G2 & G3 & G4 & G5 & G6). exists fm, a, p, f, t. move_all.
    - destruct G as (fm & a & dd & c & ce & rr & G1 & G2 & G3 & G4 & G5). exists fm, a, dd, c, ce, rr. move_all.
    - destruct G as (fm & a & dd & f & t & G1 & G2 & G3 & G4 & G5 & G6). exists fm, a, dd, f, t. move_all.
    - destruct G as (fm & a & dd & c & ce & rr & G1 & G2 & G3 & G4 & G5). exists fm, a, dd, c, ce, rr. move_all.
  Qed.
  Lemma asks_scale_moved ml ml' a b : shuffled_metas ml ml' -> asks_scale ml a b -> asks_scale ml' a b.
  Proof.
    intros P [H|x a' b' I Q V]; [apply AS_default; rewrite <- (has_moved _ _ _ P); exact H|].
    destruct (moved _ _ _ P I) as (x' & I' & X). pose proof (val_moved _ _ X) as Y. rewrite V in Y. eapply AS_given; [exact I'|rewrite (name_moved _ _ X); exact Q|]. destruct (m_val x'); try discriminate Y. symmetry. exact Y.
  Qed.
  Lemma asks_view_moved ml ml' r : shuffled_metas ml ml' -> asks_view ml r -> asks_view ml' r.
  Proof.
    intros P [H|x a I Q V|x n r' I Q V C]; [apply AV_default; rewrite <- (has_moved _ _ _ P); exact H| |].
    - destruct (moved _ _ _ P I) as (x' & I' & X). pose proof (val_moved _ _ X) as Y. rewrite V in Y. eapply AV_angles; [exact I'|rewrite (name_moved _ _ X); exact Q|]. destruct (m_val x'); try discriminate Y. symmetry. exact Y.
    - destruct (moved _ _ _ P I) as (x' & I' & X). pose proof (val_moved _ _ X) as Y. rewrite V in Y. eapply AV_name; [exact I'|rewrite (name_moved _ _ X); exact Q| |exact C]. destruct (m_val x'); try discriminate Y. symmetry. exact Y.
  Qed.
  Lemma titled_moved pg pg' t : shuffled_metas (pg_meta pg) (pg_meta pg') -> titled pg t -> titled pg' t.
  Proof.
    intros P [H|x t' I Q V]; [apply T_none; rewrite <- (has_moved _ _ _ P); exact H|].
    destruct (moved _ _ _ P I) as (x' & I' & X). pose proof (val_moved _ _ X) as Y. rewrite V in Y. eapply T_some; [exact I'|rewrite (name_moved _ _ X); exact Q|]. destruct (m_val x'); try discriminate Y. symmetry. exact Y.
  Qed.

  (** ** Which documents are good *)
  Lemma reads_moved fs d d' n f : shuffled d d' -> reads_as fs d n f -> reads_as fs d' n f.
  Proof.
    intros [P _] (m & t & lg & I & Q & R & M). apply (in_map erase_model) in I. apply (Permutation_in _ P) in I. apply in_map_iff in I. destruct I as (m' & X & I').
    exists m', t, lg. split; [exact I'|]. injection X as X1 X2. rewrite X1, X2. auto.
  Qed.
  Lemma forall2_moved {X} (R : X -> X -> Prop) (P Q : X -> Prop) : (forall x y, R x y -> P x -> Q y) -> forall l l', Forall2 R l l' -> Forall P l -> Forall Q l'.
  Proof. intros H l l' F. induction F; intro G; [constructor|]. inversion G; subst. constructor; eauto. Qed.
  Lemma good_moved fs d d' : shuffled d d' -> doc_good fs d -> doc_good fs d'.
  Proof.
    intros S (N & M & F). split; [|split].
    - destruct S as [P _]. apply (Permutation_map mo_name) in P. rewrite !map_map in P. exact (Permutation_NoDup P N).
    - intros m' I'. destruct S as [P F2]. pose proof I' as I. apply (in_map erase_model) in I. apply (Permutation_in _ (Permutation_sym P)) in I. apply in_map_iff in I. destruct I as (m & X & I).
      destruct (M m I) as (f & R). exists f. injection X as X1 X2. rewrite <- X1. exact (reads_moved _ _ _ _ _ (conj P F2) R).
    - apply (forall2_moved shuffled_page (page_good fs d)) with (l := doc_pages d); [|exact (proj2 S)|exact F]. intros pg pg' [P F2] (T & (t & TI) & G). split; [exact (tidy_moved _ _ _ P T)|]. split; [exists t; exact (titled_moved _ _ _ P TI)|].
      apply (forall2_moved shuffled_item (item_good fs d)) with (l := pg_draws pg); [|exact F2|exact G]. intros i i' [l l' n ml ml' ds ds' P1 F1|l l' t' ml ml' P1] GI.
      + destruct GI as (T1 & (a & b & SC) & f & r & p & ls & RA & V & RO & L & SO & Z & D). split; [exact (tidy_moved _ _ _ P1 T1)|]. split; [exists a, b; exact (asks_scale_moved _ _ _ _ P1 SC)|].
        exists f, r, p, ls. split; [exact (reads_moved _ _ _ _ _ S RA)|]. split; [exact (asks_view_moved _ _ _ P1 V)|]. split; [exact RO|]. split; [exact L|]. split; [exact SO|].
        split; [destruct Z as [->|Z]; [left; inversion F1; reflexivity|right; exact Z]|]. exact (forall2_moved shuffled_dim _ _ (fun x y => dim_good_moved _ _ x y) _ _ F1 D).
      + exact (tidy_moved _ _ _ P1 GI).
  Qed.
  Lemma converts_moved fs src c c' d d' : parses src c d -> parses src c' d' -> shuffled d d' -> converts fs src c -> converts fs src c'.
  Proof.
    intros HP HP' S C. apply convertible in C. destruct C as (d0 & H0 & G). rewrite <- (parses_fun HP H0) in *. apply convertible. exists d'. split; [exact HP'|]. exact (good_moved _ _ _ S G).
  Qed.

  (** ** What they draw *)
  Lemma uses_moved s d d' s1 : shuffled_dim d d' -> uses_once s d s1 -> uses_once s d' s1.
  Proof.
    intros [K P] U. unfold uses_once in *. cbv zeta in *. rewrite <- K. destruct (d_kind d).
    - destruct U as (fm & a & p & f & t & G1 & G2 & G3 & G4 & G5 & G6). exists fm, a, p, f, t.
      split; [eauto using format_moved|]. split; [eauto using evaluates_moved|]. split; [eauto using evaluates_moved|]. split; [eauto using side_moved|]. split; [eauto using side_moved|].
      unfold draw_angle in G6 |- *. destruct (_ =? _)%num; [discriminate G6|exact G6].
    - destruct U as (fm & a & dd & c & ce & rr & G1 & G2 & G3 & G4 & G5 & G6). exists fm, a, dd, c, ce, rr. move_all.
    - destruct U as (fm & a & dd & f & t & G1 & G2 & G3 & G4 & G5 & G6). exists fm, a, dd, f, t. move_all.
    - destruct U as (fm & a & dd & c & ce & rr & G1 & G2 & G3 & G4 & G5 & G6). exists fm, a, dd, c, ce, rr. move_all.
  Qed.
  Lemma format_fun dflt ml f1 f2 : NoDup (names ml) -> format_used ml dflt f1 -> format_used ml dflt f2 -> f1 = f2.
  Proof.
    intros N [(x & I & Q & V & _)|[H1 ->]] [(y & J & Q' & V' & _)|[H2 ->]]; try reflexivity.
    - pose proof (arg_unique "fmt" ml x N I Q) as X. rewrite (arg_unique "fmt" ml y N J Q') in X. congruence.
    - exfalso. apply H2. unfold has. rewrite <- Q. apply in_map, I.
    - exfalso. apply H1. unfold has. rewrite <- Q'. apply in_map, J.
  Qed.
  Lemma evaluates_fun ps r ml n v1 v2 : NoDup (names ml) -> evaluates ps r ml n v1 -> evaluates ps r ml n v2 -> v1 = v2.
  Proof. intros N H1 H2. pose proof (evaluates_arg _ _ _ _ _ N H1). pose proof (evaluates_arg _ _ _ _ _ N H2). congruence. Qed.
  Lemma side_fun ps r ml kd kp p f1 f2 : NoDup (names ml) -> ~ (has ml kd /\ has ml kp) -> side_used ps r ml kd kp p f1 -> side_used ps r ml kd kp p f2 -> f1 = f2.
  Proof.
    intros N B S1 S2. assert (H1 : side_arg ps r kd kp ml p = Some f1) by (apply side_iff; [exact N|split; assumption]).
    assert (H2 : side_arg ps r kd kp ml p = Some f2) by (apply side_iff; [exact N|split; assumption]). congruence.
  Qed.
  Ltac same N := repeat match goal with
    | H : format_used ?ml ?d ?a, H' : format_used ?ml ?d ?b |- _ => pose proof (format_fun _ _ _ _ N H H'); subst; clear H'
    | H : evaluates _ _ ?ml ?n ?a, H' : evaluates _ _ ?ml ?n ?b |- _ => pose proof (evaluates_fun _ _ _ _ _ _ N H H'); subst; clear H'
    end.
  Lemma uses_fun s d s1 s2 : dim_good (v_points s) (v_rot s) d -> uses_once s d s1 -> uses_once s d s2 -> s1 = s2.
  Proof.
    intros [[N _] G] U1 U2. unfold uses_once in *. cbv zeta in *. destruct (d_kind d).
    - destruct G as (_ & _ & p0 & f0 & t0 & _ & _ & _ & [_ N1] & [_ N2] & _).
      destruct U1 as (fm & a & p & f & t & G1 & G2 & G3 & G4 & G5 & G6), U2 as (fm' & a' & p' & f' & t' & H1 & H2 & H3 & H4 & H5 & H6). same N.
      pose proof (side_fun _ _ _ _ _ _ _ _ N N1 G4 H4). pose proof (side_fun _ _ _ _ _ _ _ _ N N2 G5 H5). subst. congruence.
    - destruct U1 as (fm & a & dd & c & ce & rr & G1 & G2 & G3 & G4 & G5 & G6), U2 as (fm' & a' & dd' & c' & ce' & rr' & H1 & H2 & H3 & H4 & H5 & H6). same N. congruence.
    - destruct U1 as (fm & a & dd & f & t & G1 & G2 & G3 & G4 & G5 & G6), U2 as (fm' & a' & dd' & f' & t' & H1 & H2 & H3 & H4 & H5 & H6). same N. congruence.
    - destruct U1 as (fm & a & dd & c & ce & rr & G1 & G2 & G3 & G4 & G5 & G6), U2 as (fm' & a' & dd' & c' & ce' & rr' & H1 & H2 & H3 & H4 & H5 & H6). same N. congruence.
  Qed.
  Lemma dims_moved ds ds' : Forall2 shuffled_dim ds ds' -> forall s s1 s2 t1 t2, visit_dims ds s = Ret (s1, t1, true) -> visit_dims ds' s = Ret (s2, t2, true) -> s1 = s2.
  Proof.
    induction 1 as [|d d' ds ds' S F IH]; intros s s1 s2 t1 t2 H1 H2.
    - cbn in H1, H2. congruence.
    - destruct (visit_dims_spec _ _ H2) as (_ & _ & OK2 & _). destruct (proj1 OK2 eq_refl) as [_ V2]. inversion V2 as [|? ? V _]; subst.
      cbn [visit_dims] in H1, H2. rewrite obind_ret in H1, H2. destruct H1 as ([[u1 x1] o1] & A1 & H1). destruct H2 as ([[u2 x2] o2] & A2 & H2). rewrite obind_ret in H1, H2.
      destruct H1 as ([[w1 y1] q1] & B1 & H1), H2 as ([[w2 y2] q2] & B2 & H2). injection H1 as -> _ H1. injection H2 as -> _ H2. apply andb_true_iff in H1, H2. destruct H1 as [-> ->], H2 as [-> ->].
      assert (u1 = u2) as <-; [|exact (IH _ _ _ _ _ B1 B2)]. apply (uses_fun s d'); [apply dim_iff; exact V| |exact (used_once _ _ A2)]. exact (uses_moved _ _ _ _ S (used_once _ _ A1)).
  Qed.
  Lemma item_moved st st' i i' : (forall n, model_of st n = model_of st' n) -> shuffled_item i i' -> forall s s1 s2 t1 t2,
    visit_drawable st i s = Ret (s1, t1, true) -> visit_drawable st' i' s = Ret (s2, t2, true) -> s1 = s2.
  Proof.
    intros M S s s1 s2 t1 t2 H1 H2. destruct S as [l l' n ml ml' ds ds' P F|l l' t ml ml' P]; cbn [visit_drawable] in H1, H2; rewrite obind_ret in H1, H2.
    - destruct H1 as ([[u1 x1] o1] & A1 & H1). destruct H2 as ([[u2 x2] o2] & A2 & H2). injection H1 as <- _ ->. injection H2 as <- _ ->.
      destruct (visit_draw_spec _ _ _ _ _ _ A1) as (O1 & _). destruct (visit_draw_spec _ _ _ _ _ _ A2) as (O2 & _).
      destruct (proj1 O1 eq_refl) as [ab f r pl p ls N1 K1 Q1 Q2 Q3 Q4 Q5 Q6 _ Q7]. destruct (proj1 O2 eq_refl) as [ab' f' r' pl' p' ls' N1' K1' Q1' Q2' Q3' Q4' Q5' Q6' _ Q7'].
      rewrite (scale_moved _ _ P N1), Q1 in Q1'. injection Q1' as <-. rewrite <- M, Q2 in Q2'. injection Q2' as <-. rewrite (view_moved _ _ P N1), Q3 in Q3'. injection Q3' as <-.
      rewrite (proj1 (place_moved _ _ P N1)), Q4 in Q4'. injection Q4' as <-. rewrite Q5 in Q5'. injection Q5' as <-. rewrite Q6 in Q6'. injection Q6' as <-.
      exact (dims_moved _ _ F _ _ _ _ _ Q7 Q7').
    - destruct H1 as ([u1 o1] & A1 & H1). destruct H2 as ([u2 o2] & A2 & H2). injection H1 as <- _ ->. injection H2 as <- _ ->.
      destruct (visit_text_spec _ _ _ _ A1) as (O1 & P1). destruct (visit_text_spec _ _ _ _ A2) as (O2 & P2). destruct (P1 eq_refl) as (pl & L1 & D1). destruct (P2 eq_refl) as (pl' & L2 & D2).
      rewrite (proj2 (place_moved _ _ P (proj1 (proj1 O1 eq_refl)))), L1 in L2. injection L2 as <-. unfold adds in *. congruence.
  Qed.
  Lemma items_moved st st' is is' : (forall n, model_of st n = model_of st' n) -> Forall2 shuffled_item is is' -> forall s s1 s2 t1 t2,
    visit_drawables st is s = Ret (s1, t1, true) -> visit_drawables st' is' s = Ret (s2, t2, true) -> s1 = s2.
  Proof.
    intros M F. induction F as [|i i' is is' S F IH]; intros s s1 s2 t1 t2 H1 H2; cbn [visit_drawables] in H1, H2; [congruence|]. rewrite obind_ret in H1, H2.
    destruct H1 as ([[u1 x1] o1] & A1 & H1). destruct H2 as ([[u2 x2] o2] & A2 & H2). rewrite obind_ret in H1, H2.
    destruct H1 as ([[w1 y1] q1] & B1 & H1), H2 as ([[w2 y2] q2] & B2 & H2). injection H1 as -> _ H1. injection H2 as -> _ H2. apply andb_true_iff in H1, H2. destruct H1 as [-> ->], H2 as [-> ->].
    pose proof (item_moved _ _ _ _ M S _ _ _ _ _ A1 A2) as <-. exact (IH _ _ _ _ _ B1 B2).
  Qed.
  (** A page that succeeds: its title, its items, its box. *)
  Lemma page_success st n pg s s' pg' : gen_page st n pg s = Ret (s', pg', true) ->
    exists t s1 ds, (match arg "name" (pg_meta pg) with None => t = [] | Some x => as_str x = Some t end) /\ NoDup (names (pg_meta pg)) /\
      visit_drawables st (pg_draws pg) (set_page opage_empty s) = Ret (s1, ds, true) /\ s' = set_page (add_header (v_page s1) t) s1.
  Proof.
    unfold gen_page. set (ml := pg_meta pg).
    destruct (flatten_spec "page" ml) as (m0 & HF & W & F). rewrite HF. clear HF.
    pose proof (nilb_nodup (B "page") ml) as ND.
    set (dd := dup_diags (B "page") [] ml) in *.
    assert (F0 : forall n, fnd m0 n = drop [] n (index_of n (names ml))) by exact F.
    destruct (@take_chain _ "name"%string _ m0 _ W F0 eq_refl) as (m1 & -> & W1 & F1).
    match goal with |- (let '(_, _) := ?x in _) = _ -> _ => destruct x as [[s1 nm] ok1] eqn:HN end.
    rewrite obind_ret. intros ([[s2 ds2] ok2] & H2 & H).
    match type of H with (let '(_, _) := ?x in _) = _ => destruct x as [s3 ok3] eqn:H3 end.
    injection H as <- _ K. rewrite !andb_true_iff in K. destruct K as [[[K0 K1] K2] K3]. subst ok1 ok2 ok3.
    assert (Hdd : dd = []) by (destruct dd; [reflexivity|discriminate K0]). rewrite Hdd, log_all_nil in HN.
    exists nm, s2, ds2. split; [|split; [apply ND; exact K0|]].
    - destruct (arg_prop "name" ml) as [(i & x & P & Nx & _ & AE)|[P AE]]; rewrite AE.
      + rewrite P, Nx in HN. destruct (as_str x); injection HN as _ <-; [reflexivity|discriminate].
      + rewrite P in HN. injection HN as _ <-. reflexivity.
    - assert (s1 = set_page opage_empty s) as <-.
      { destruct (arg_prop "name" ml) as [(i & x & P & Nx & _ & AE)|[P AE]].
        - rewrite P, Nx in HN. destruct (as_str x); [injection HN as -> _; reflexivity|discriminate HN].
        - rewrite P in HN. injection HN as -> _. reflexivity. }
      split; [exact H2|]. destruct m1; [|discriminate H3]. injection H3 as <-. reflexivity.
  Qed.
  Lemma page_moved st st' pg pg' : (forall n, model_of st n = model_of st' n) -> shuffled_page pg pg' -> forall n s s1 s2 t1 t2,
    gen_page st n pg s = Ret (s1, t1, true) -> gen_page st' n pg' s = Ret (s2, t2, true) -> s1 = s2.
  Proof.
    intros M [P F] n s s1 s2 t1 t2 H1 H2. destruct (page_success _ _ _ _ _ _ H1) as (a & u & ds & Q1 & N1 & V1 & ->). destruct (page_success _ _ _ _ _ _ H2) as (a' & u' & ds' & Q2 & N2 & V2 & ->).
    pose proof (items_moved _ _ _ _ M F _ _ _ _ _ V1 V2) as <-. assert (a = a') as <-; [|reflexivity].
    pose proof (arg_moved "name" _ _ P N1) as X. unfold as_str in *. destruct (arg "name" (pg_meta pg)) as [x|], (arg "name" (pg_meta pg')) as [x'|]; try contradiction; [|congruence].
    destruct (m_val x), (m_val x'); try discriminate X; try discriminate Q1; try discriminate Q2. cbn in X. congruence.
  Qed.
  Lemma pages_moved st st' ps ps' : (forall n, model_of st n = model_of st' n) -> Forall2 shuffled_page ps ps' -> forall n s s1 s2 t1 t2 o1 o2,
    gen_pages st n ps s = Ret (s1, t1, o1, true) -> gen_pages st' n ps' s = Ret (s2, t2, o2, true) -> o1 = o2.
  Proof.
    intros M F. induction F as [|p p' ps ps' S F IH]; intros n s s1 s2 t1 t2 os1 os2 H1 H2; cbn [gen_pages] in H1, H2; [congruence|]. rewrite obind_ret in H1, H2.
    destruct H1 as ([[u1 x1] o1] & A1 & H1). destruct H2 as ([[u2 x2] o2] & A2 & H2). rewrite obind_ret in H1, H2.
    destruct H1 as ([[[w1 y1] z1] q1] & B1 & H1), H2 as ([[[w2 y2] z2] q2] & B2 & H2). injection H1 as _ _ <- H1. injection H2 as _ _ <- H2. apply andb_true_iff in H1, H2. destruct H1 as [-> ->], H2 as [-> ->].
    pose proof (page_moved _ _ _ _ M S _ _ _ _ _ _ A1 A2) as <-. f_equal. exact (IH _ _ _ _ _ _ _ _ B1 B2).
  Qed.
  Lemma models_moved fs ms ms' st st' lg lg' : Permutation (map erase_model ms) (map erase_model ms') -> load_files fs ms [] = Ret (st, lg, true) -> load_files fs ms' [] = Ret (st', lg', true) ->
    forall n f, model_of st n = Some f -> model_of st' n = Some f.
  Proof.
    intros P L L' n f H. destruct (load_files_nil_ok _ _ L) as (_ & _ & M1 & _). destruct (load_files_nil_ok _ _ L') as (_ & _ & _ & M2).
    destruct (M1 _ _ H) as (m & c & lgm & I & Q & R & K). apply (in_map erase_model) in I. apply (Permutation_in _ P) in I. apply in_map_iff in I. destruct I as (m' & X & I'). injection X as X1 X2.
    destruct (M2 _ I') as (c' & f' & lgm' & R' & K' & H'). rewrite X2 in R'. rewrite (resolves_fun R R') in K. rewrite K in K'. injection K' as <- _. rewrite X1, Q in H'. exact H'.
  Qed.
  Theorem order_irrelevant fs src c c' d d' : parses src c d -> parses src c' d' -> shuffled d d' ->
    (converts fs src c <-> converts fs src c') /\
    forall r r', script_to_ps fs src c = Ret r -> script_to_ps fs src c' = Ret r' -> r_ok r = r_ok r' /\ r_out r = r_out r'.
  Proof.
    intros HP HP' S. assert (C : converts fs src c <-> converts fs src c') by (split; [exact (converts_moved _ _ _ _ _ _ HP HP' S)|exact (converts_moved _ _ _ _ _ _ HP' HP (doc_sym _ _ S))]).
    split; [exact C|]. intros r r' H H'.
    assert (K : r_ok r = r_ok r').
    { destruct (r_ok r) eqn:K1, (r_ok r') eqn:K2; try reflexivity; exfalso.
      - destruct (proj1 C (ex_intro _ r (conj H K1))) as (r2 & H2 & K3). congruence.
      - destruct (proj2 C (ex_intro _ r' (conj H' K2))) as (r2 & H2 & K3). congruence. }
    split; [exact K|]. destruct (r_ok r) eqn:KK.
    - destruct (script_ok _ _ _ H KK) as (d0 & r0 & H0 & (st & l1 & os & dd & l2 & L & G & ->) & Q & _). destruct (script_ok _ _ _ H' (eq_sym K)) as (d0' & r0' & H0' & (st' & l1' & os' & dd' & l2' & L' & G' & ->) & Q' & _).
      rewrite <- (parses_fun HP H0) in *. rewrite <- (parses_fun HP' H0') in *. rewrite Q, Q'. cbn [r_out]. f_equal. destruct S as [P F].
      unfold generate_pages in G, G'. rewrite obind_ret in G, G'. destruct G as ([[[a1 a2] a3] a4] & G & X), G' as ([[[b1 b2] b3] b4] & G' & Y). injection X as <- _ _ ->. injection Y as <- _ _ ->.
      refine (pages_moved _ _ _ _ _ F _ _ _ _ _ _ _ _ G G'). intro n. destruct (model_of st n) as [f|] eqn:MO; [symmetry; exact (models_moved _ _ _ _ _ _ _ P L L' _ _ MO)|].
      destruct (model_of st' n) as [f|] eqn:MO'; [|reflexivity]. rewrite (models_moved _ _ _ _ _ _ _ (Permutation_sym P) L' L _ _ MO') in MO. discriminate MO.
    - rewrite (script_fail_silent _ _ _ H KK), (script_fail_silent _ _ _ H' (eq_sym K)). reflexivity.
  Qed.

  (** ** Layout *)
  Lemma map_forall2 {X Y} (f : X -> Y) (R : X -> X -> Prop) : (forall x y, f x = f y -> R x y) -> forall l l', map f l = map f l' -> Forall2 R l l'.
  Proof.
    intro H. induction l as [|x l IH]; intros [|y l'] Q; try discriminate Q; constructor; cbn [map] in Q; injection Q as Q1 Q2; auto.
  Qed.
  Lemma erased_item i i' : erase_drawable i = erase_drawable i' -> shuffled_item i i'.
  Proof.
    destruct i as [l n ml ds|l t ml], i' as [l' n' ml' ds'|l' t' ml']; cbn [erase_drawable]; intro H; try discriminate H; injection H; intros; subst.
    - apply SI_draw; [unfold shuffled_metas; rewrite H1; apply Permutation_refl|]. apply (map_forall2 erase_dim); [|assumption]. intros x y Q. injection Q as Q1 Q2. split; [exact Q1|unfold shuffled_metas; rewrite Q2; apply Permutation_refl].
    - apply SI_text. unfold shuffled_metas. rewrite H0. apply Permutation_refl.
  Qed.
  Lemma erased_shuffled d d' : erase d = erase d' -> shuffled d d'.
  Proof.
    intro H. injection H as H1 H2. split; [rewrite H1; apply Permutation_refl|]. apply (map_forall2 erase_page); [|exact H2]. intros x y Q. injection Q as Q1 Q2. split; [unfold shuffled_metas; rewrite Q1; apply Permutation_refl|].
    exact (map_forall2 erase_drawable _ erased_item _ _ Q2).
  Qed.
  Theorem layout_output fs src ws s s' : arranged ws s -> arranged ws s' ->
    (converts fs src s <-> converts fs src s') /\
    forall r r', script_to_ps fs src s = Ret r -> script_to_ps fs src s' = Ret r' -> r_ok r = r_ok r' /\ r_out r = r_out r'.
  Proof.
    intros H H'. pose proof (same_layout src src _ _ _ H H') as Q.
    destruct (parse src s) as [[[rc d] lg]|e] eqn:P, (parse src s') as [[[rc' d'] lg']|e'] eqn:P'; try discriminate Q.
    - cbn [erase_answer] in Q. injection Q as <- Q1 Q2 Q3. destruct rc as [|rc].
      + apply (order_irrelevant fs src s s' d d'); [exists lg; exact P|exists lg'; exact P'|]. apply erased_shuffled. unfold erase. congruence.
      + assert (N : forall c dd l, parse src c = Ret (S rc, dd, l) -> forall r, script_to_ps fs src c = Ret r -> r = Res false [] (l ++ [DLog (B "Parse failed with rc=" ++ dec_of_nat (S rc))])).
        { intros c dd l PP r HR. unfold script_to_ps in HR. rewrite PP in HR. cbn [obind Nat.eqb] in HR. injection HR as <-. reflexivity. }
        split; [split; intros (r & HR & K); exfalso; [rewrite (N _ _ _ P _ HR) in K|rewrite (N _ _ _ P' _ HR) in K]; discriminate K|].
        intros r r' HR HR'. rewrite (N _ _ _ P _ HR), (N _ _ _ P' _ HR'). split; reflexivity.
    - assert (N : forall c x, parse src c = Abort x -> script_to_ps fs src c = Abort x) by (intros c x PP; unfold script_to_ps; rewrite PP; reflexivity).
      split; [split; intros (r & HR & K); exfalso; [rewrite (N _ _ P) in HR|rewrite (N _ _ P') in HR]; discriminate HR|].
      intros r r' HR. rewrite (N _ _ P) in HR. discriminate HR.
  Qed.
End Shuffle.
