(** P_Bazel.v - the models of a target are found, and its output does not depend on the roots. *)
From Verif Require Import Base Num Geo Stl StlRead Env Ast Lexer Parser Ps Draw Main DocSpec Bazel BazelSpec P_Base P_Doc P_Script P_Script2.
From Coq Require Import List Bool.
Import ListNotations.
Local Unset Implicit Arguments.

Lemma args_output t : flag_value "output" (tg_args t) = b_path (tg_ps t). Proof. reflexivity. Qed.
Lemma args_load t : flag_value "load_path" (tg_args t) = join (B ",") (tg_roots t). Proof. reflexivity. Qed.
Lemma args_script t : flag_value "script" (tg_args t) = b_path (tg_script t). Proof. reflexivity. Qed.
Lemma args_name t : flag_value "name" (tg_args t) = tg_name t. Proof. reflexivity. Qed.

Lemma dict_keys_in x l : In x (dict_keys l) <-> In x l.
Proof.
  induction l as [|y l IH]; [reflexivity|]. cbn [dict_keys In]. rewrite filter_In, IH, negb_true_iff. split; [tauto|].
  intros [->|H]; [auto|]. destruct (bytes_eqb x y) eqn:Q; [apply bytes_eqb_eq in Q; auto|auto].
Qed.
Lemma roots_in r t : In r (tg_roots t) <-> r <> [] /\ exists g, In g (tg_inputs t) /\ b_root g = r.
Proof.
  unfold tg_roots. rewrite dict_keys_in, filter_In, in_map_iff. split.
  - intros [(g & H & I) N]. split; [intros ->; discriminate N|eauto].
  - intros [N (g & I & H)]. split; [eauto|]. destruct r; [congruence|reflexivity].
Qed.

Lemma first_of_all fs ps c : (forall p, In p ps -> fs p = None \/ fs p = Some c) -> (exists p, In p ps /\ fs p = Some c) -> first_of fs ps c.
Proof.
  induction ps as [|p ps IH]; intros H (q & I & S); [destruct I|].
  destruct (H p (or_introl eq_refl)) as [N|N]; [|apply FO_here; exact N]. apply FO_next; [exact N|]. apply IH; [intros x X; apply H; right; exact X|].
  destruct I as [->|I]; [congruence|eauto].
Qed.

Section Find.
  Context {A : Arith} (E : Env).
  Variables (t : target) (fs : files).
  Hypotheses (SB : sandbox t fs) (TD : tidy t).
  Notation fs1 := (fs_set (b_path (tg_ps t)) [] fs).
  Notation ET n := (with_flags E n (join (B ",") (tg_roots t))).

  Lemma set_other p : p <> b_path (tg_ps t) -> fs1 p = fs p.
  Proof. intro H. unfold fs_set. destruct (bytes_eqb p _) eqn:Q; [apply bytes_eqb_eq in Q; congruence|reflexivity]. Qed.
  Lemma dot_not_ps q : B "./" ++ q <> b_path (tg_ps t).
  Proof. intro H. destruct (TD (tg_ps t) (or_introl eq_refl)) as (_ & D & _). apply D. exists q. symmetry. exact H. Qed.
  Lemma dot_same q : ~ abs_path q -> fs1 (B "./" ++ q) = fs q.
  Proof. intro H. rewrite set_other by apply dot_not_ps. apply (proj1 SB). exact H. Qed.
  (** A readable place of f's path below a root is f itself. *)
  Lemma below_same f g c : In f (tg_inputs t) -> In g (tg_inputs t) -> apart t f -> fs (b_path f) = Some c -> b_root g <> [] ->
    fs1 (b_root g ++ B "/" ++ b_below f) = None \/ fs1 (b_root g ++ B "/" ++ b_below f) = Some c.
  Proof.
    intros If Ig [AP1 AP2] F N. set (q := b_root g ++ B "/" ++ b_below f).
    assert (Q : q = b_path (BFile (b_root g) (b_below f))) by (unfold q, b_path; cbn [b_root b_below]; destruct (b_root g); [congruence|reflexivity]).
    destruct (TD g (or_intror Ig)) as (T1 & T2 & _). assert (PG : b_path g = b_root g ++ B "/" ++ b_below g) by (unfold b_path; destruct (b_root g); [congruence|reflexivity]).
    assert (NA : ~ abs_path q).
    { intros [x X]. apply T1. rewrite PG. unfold q in X. destruct (b_root g) as [|y r]; [congruence|]. injection X as -> _. eexists. reflexivity. }
    assert (ND : ~ dotted q).
    { intros [x X]. apply T2. rewrite PG. unfold q in X. destruct (b_root g) as [|y r]; [congruence|]. destruct r as [|z r].
      - injection X as -> _. eexists. reflexivity.
      - injection X as -> -> _. eexists. reflexivity. }
    assert (NP : q <> b_path (tg_ps t)). { intro H. apply AP1. apply (AP2 g (tg_ps t) Ig (or_introl eq_refl)). left. rewrite <- Q. symmetry. exact H. }
    rewrite (set_other _ NP). destruct (fs q) as [c'|] eqn:S; [|left; reflexivity]. right.
    destruct (proj2 SB q c' NA ND S) as (h & Ih & HQ). assert (HF : b_path h = b_path f) by (apply (AP2 g h Ig (or_intror Ih)); left; rewrite <- Q; symmetry; exact HQ).
    rewrite HQ, HF in S. congruence.
  Qed.
  Lemma dep_found n f c : In f (tg_inputs t) -> apart t f -> fs (b_path f) = Some c -> @resolves A (ET n) fs1 (b_below f) c.
  Proof.
    intros If AP F. destruct (TD f (or_intror If)) as (T1 & T2 & T3 & T4 & T5 & T6). right. split; [exact T3|]. cbn [flag_load_path with_flags].
    destruct (b_root f) as [|y r] eqn:RF.
    - exists (split_on "," (join (B ",") (tg_roots t))). split; [apply entry_list_iff; reflexivity|]. cbn [map]. apply FO_here.
      change (B "." ++ B "/" ++ b_below f) with (B "./" ++ b_below f). rewrite (dot_same _ T3). unfold b_path in F. rewrite RF in F. exact F.
    - assert (IR : In (b_root f) (tg_roots t)) by (apply roots_in; split; [rewrite RF; discriminate|eauto]).
      assert (NE : tg_roots t <> []) by (intro H; rewrite H in IR; destruct IR).
      exists (tg_roots t). split.
      { split; [reflexivity|]. split; [|exact NE]. apply Forall_forall. intros x X. apply roots_in in X. destruct X as [_ (g & Ig & <-)]. apply (TD g (or_intror Ig)). }
      apply first_of_all.
      + intros p [<-|I].
        * change (B "." ++ B "/" ++ b_below f) with (B "./" ++ b_below f). rewrite (dot_same _ T3). destruct (fs (b_below f)) as [c'|] eqn:S; [|left; reflexivity]. right.
          destruct (proj2 SB _ _ T3 T4 S) as (h & Ih & HQ). assert (HF : b_path h = b_path f) by (apply (proj2 AP f h If (or_intror Ih)); right; symmetry; exact HQ).
          rewrite HQ, HF in S. congruence.
        * apply in_map_iff in I. destruct I as (x & <- & X). apply roots_in in X. destruct X as [N (g & Ig & <-)]. apply (below_same f g c If Ig AP F N).
      + exists (b_root f ++ B "/" ++ b_below f). split; [right; apply in_map_iff; eauto|].
        assert (Q : b_root f ++ B "/" ++ b_below f = b_path f) by (unfold b_path; rewrite RF; reflexivity). rewrite Q, set_other; [exact F|]. intro H. apply (proj1 AP). symmetry. exact H.
  Qed.
End Find.

(** The load path is looked at only when models are loaded. *)
Section Path.
  Context {A : Arith} (E : Env).
  Lemma parse_path n p src c : @parse A (with_flags E n p) src c = @parse A E src c. Proof. reflexivity. Qed.
  Lemma gen_path n p st d : @generate_pages A (with_flags E n p) st d = @generate_pages A E st d. Proof. reflexivity. Qed.
  Lemma render_path n p q src os : @render_pages A (with_flags E n p) src os = @render_pages A (with_flags E n q) src os. Proof. reflexivity. Qed.
  Lemma make_path n p c : @stl_make A (with_flags E n p) c = @stl_make A E c. Proof. reflexivity. Qed.
  Lemma load_path_same n p q fs1 fs2 ms : (forall m, In m ms -> first_open fs1 (@candidates A (with_flags E n p) (mo_source m)) = first_open fs2 (@candidates A (with_flags E n q) (mo_source m))) ->
    forall st, @load_files A (with_flags E n p) fs1 ms st = @load_files A (with_flags E n q) fs2 ms st.
  Proof.
    induction ms as [|m ms IH]; intros H st; [reflexivity|]. cbn [load_files].
    assert (L : @load_one A (with_flags E n p) fs1 m st = @load_one A (with_flags E n q) fs2 m st).
    { unfold load_one. rewrite (H m (or_introl eq_refl)). destruct (smap_find _ _ _); [reflexivity|]. destruct (first_open _ _); [|reflexivity]. reflexivity. }
    rewrite L. destruct (@load_one A (with_flags E n q) fs2 m st) as [[[st1 lg1] ok1]|]; [|reflexivity]. cbn [obind]. rewrite (IH (fun x X => H x (or_intror X)) st1). reflexivity.
  Qed.
  Lemma script_path n p q fs1 fs2 src c : (forall d m, @parses A E src c d -> In m (doc_models d) ->
      first_open fs1 (@candidates A (with_flags E n p) (mo_source m)) = first_open fs2 (@candidates A (with_flags E n q) (mo_source m))) ->
    @script_to_ps A (with_flags E n p) fs1 src c = @script_to_ps A (with_flags E n q) fs2 src c.
  Proof.
    intro H. unfold script_to_ps. rewrite !parse_path. destruct (@parse A E src c) as [[[rc d] lg]|] eqn:P; [|reflexivity]. cbn [obind]. destruct rc as [|rc]; [|reflexivity]. cbn [Nat.eqb].
    assert (L : @doc_to_ps A (with_flags E n p) fs1 src d = @doc_to_ps A (with_flags E n q) fs2 src d); [|rewrite L; reflexivity].
    unfold doc_to_ps. rewrite (load_path_same n p q fs1 fs2); [|intros m I; apply (H d m); [exists lg; exact P|exact I]]. reflexivity.
  Qed.
End Path.

Section Same.
  Context {A : Arith} (E : Env).
  (** The script and the files it loads are among the inputs. *)
  Lemma roots_do_not_matter t1 t2 fs1 fs2 w1 w2 c :
    sandbox t1 fs1 -> sandbox t2 fs2 -> tidy t1 -> tidy t2 -> tg_name t1 = tg_name t2 -> b_path (tg_script t1) = b_path (tg_script t2) ->
    w1 (b_path (tg_ps t1)) = true -> w2 (b_path (tg_ps t2)) = true ->
    apart t1 (tg_script t1) -> apart t2 (tg_script t2) -> fs1 (b_path (tg_script t1)) = Some c -> fs2 (b_path (tg_script t2)) = Some c ->
    (forall d m, @parses A E (b_path (tg_script t1)) c d -> In m (doc_models d) ->
       exists f1 f2 x, In f1 (tg_inputs t1) /\ In f2 (tg_inputs t2) /\ apart t1 f1 /\ apart t2 f2 /\ b_below f1 = mo_source m /\ b_below f2 = mo_source m /\
         fs1 (b_path f1) = Some x /\ fs2 (b_path f2) = Some x) ->
    fst (run_action E t1 w1 fs1) = fst (run_action E t2 w2 fs2) /\
    snd (run_action E t1 w1 fs1) (b_path (tg_ps t1)) = snd (run_action E t2 w2 fs2) (b_path (tg_ps t2)).
  Proof.
    intros S1 S2 T1 T2 NM SC W1 W2 A1 A2 C1 C2 H. unfold run_action. rewrite !args_name, !args_load, !args_script, !args_output, NM.
    assert (K : @script_to_ps A (with_flags E (tg_name t2) (join (B ",") (tg_roots t1))) (fs_set (b_path (tg_ps t1)) [] fs1) (b_path (tg_script t1)) c =
                @script_to_ps A (with_flags E (tg_name t2) (join (B ",") (tg_roots t2))) (fs_set (b_path (tg_ps t2)) [] fs2) (b_path (tg_script t1)) c).
    { apply script_path. intros d m P I. destruct (H d m P I) as (f1 & f2 & x & I1 & I2 & P1 & P2 & B1 & B2 & X1 & X2).
      pose proof (dep_found E t1 fs1 S1 T1 (tg_name t2) f1 x I1 P1 X1) as R1. pose proof (dep_found E t2 fs2 S2 T2 (tg_name t2) f2 x I2 P2 X2) as R2.
      rewrite B1 in R1. rewrite B2 in R2. apply resolves_iff in R1, R2. rewrite R1, R2. reflexivity. }
    pose proof (set_other t1 fs1 (b_path (tg_script t1)) (fun e => proj1 A1 (eq_sym e))) as G1. pose proof (set_other t2 fs2 (b_path (tg_script t2)) (fun e => proj1 A2 (eq_sym e))) as G2.
    rewrite C1 in G1. rewrite C2 in G2. unfold main. cbv zeta. rewrite G1, G2, W1, W2. cbn [negb].
    destruct (T1 (tg_ps t1) (or_introl eq_refl)) as (_ & _ & _ & _ & O1 & _). destruct (T2 (tg_ps t2) (or_introl eq_refl)) as (_ & _ & _ & _ & O2 & _).
    assert (SI : In (tg_script t1) (tg_inputs t1)) by (apply in_or_app; right; left; reflexivity). destruct (T1 _ (or_intror SI)) as (_ & _ & _ & _ & O3 & _).
    rewrite <- SC, K. clear K G1 G2. destruct (b_path (tg_script t1)) as [|y s]; [congruence|]. destruct (b_path (tg_ps t1)) as [|y1 o1] eqn:Q1; [congruence|]. destruct (b_path (tg_ps t2)) as [|y2 o2] eqn:Q2; [congruence|].
    destruct (@script_to_ps A _ _ _ _) as [r|e]; cbn [fst snd]; (split; [reflexivity|]); unfold fs_set; rewrite !bytes_eqb_refl; reflexivity.
  Qed.
End Same.
Lemma only_output_written (A : Arith) (E : Env) t w fs p : p <> b_path (tg_ps t) -> snd (@run_action A E t w fs) p = fs p.
Proof.
  intro N. unfold run_action. rewrite !args_name, !args_load, !args_script, !args_output. unfold main. destruct (b_path (tg_script t)) as [|y s]; [reflexivity|].
  destruct (b_path (tg_ps t)) as [|z o] eqn:Q; [reflexivity|]. destruct (negb (w (z :: o))); [reflexivity|]. cbv zeta.
  assert (S : forall c g, fs_set (z :: o) c g p = g p) by (intros c g; unfold fs_set; destruct (bytes_eqb p (z :: o)) eqn:B; [apply bytes_eqb_eq in B; congruence|reflexivity]).
  destruct (fs_set (z :: o) [] fs (y :: s)); [|apply S]. destruct (@script_to_ps A _ _ _ _) as [r|e]; cbn [snd]; rewrite ?S; reflexivity.
Qed.
