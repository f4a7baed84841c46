(** P_Msg.v - the messages about dimensions are true. *)
From Coq Require Import Sorting.Sorted.
From Verif Require Import Base Num Geo Stl StlRead Env Ast Lexer Parser Ps Draw Main DocSpec ValidSpec MsgSpec
  P_Base P_Meta P_Frame P_Dims P_Doc P_Script P_Script2 P_Mark P_Valid.

Local Unset Implicit Arguments.
Local Open Scope string_scope.
Local Open Scope list_scope.
Section Msg.
  Context {A : Arith} {E : Env}.
  Implicit Types P : loc -> bytes -> Prop.
  Definition okd (P : loc -> bytes -> Prop) (d : diag) : Prop := match d with DSym l m => P l m | _ => False end.
  Definition says (P : loc -> bytes -> Prop) (s s' : vst) (b : bool) : Prop :=
    exists dl, v_log s' = v_log s ++ dl /\ Forall (okd P) dl /\ (b = true -> dl = []).
  Lemma says_log P dl s b : Forall (okd P) dl -> (b = true -> dl = []) -> says P s (log_all dl s) b.
  Proof. intros H1 H2. exists dl. auto. Qed.
  Lemma says_same P s s' b : v_log s' = v_log s -> says P s s' b.
  Proof. intro H. exists []. rewrite app_nil_r. auto. Qed.
  Lemma says_app P a b c x y : says P a b x -> says P b c y -> says P a c (x && y).
  Proof.
    intros (d1 & H1 & K1 & N1) (d2 & H2 & K2 & N2). exists (d1 ++ d2). rewrite H2, H1, app_assoc. split; [reflexivity|].
    split; [apply Forall_app; auto|]. intro H. apply andb_true_iff in H. destruct H as [X Y]. rewrite (N1 X), (N2 Y). reflexivity.
  Qed.
  Lemma says_imp (P Q : loc -> bytes -> Prop) s s' b : (forall l m, P l m -> Q l m) -> says P s s' b -> says Q s s' b.
  Proof. intros H (dl & H1 & H2 & H3). exists dl. split; [exact H1|]. split; [|exact H3]. revert H2. apply Forall_impl. intros [] ; simpl; auto. Qed.

  Lemma dup_in w ml : forall pre, Forall (fun d => exists a y c, ml = a ++ y :: c /\ In (m_name y) (pre ++ names a) /\ d = DSym (m_loc y) (B "Duplicate " ++ w ++ B " property '" ++ m_name y ++ B "'"))
    (dup_diags w pre ml).
  Proof.
    induction ml as [|x t IH]; intro pre; cbn [dup_diags]; [constructor|]. apply Forall_app. split.
    - destruct (existsb _ pre) eqn:X; constructor; [|constructor]. apply existsb_in in X. exists [], x, t. rewrite app_nil_r. auto.
    - specialize (IH (pre ++ [m_name x])). revert IH. apply Forall_impl. intros d (a & y & c & -> & I & ->).
      exists (x :: a), y, c. rewrite <- app_assoc in I. auto.
  Qed.
  Lemma dup_repeats w ml P : (forall y, repeats ml y -> P (m_loc y) (says_duplicate w y)) -> Forall (okd P) (dup_diags (B w) [] ml).
  Proof.
    intro H. generalize (dup_in (B w) ml []). apply Forall_impl. intros d (a & y & c & -> & I & ->). cbn [okd]. apply H.
    cbn in I. unfold names in I. apply in_map_iff in I. destruct I as (x & Hx & I). apply in_split in I. destruct I as (u & v & ->).
    exists u, x, v, c. rewrite <- app_assoc. auto.
  Qed.
  Lemma left_unknown ks m ml kv : wfs m -> (forall n, fnd m n = drop ks n (index_of n (names ml))) -> In kv m ->
    exists x, nth_error ml (snd kv) = Some x /\ ~ In (m_name x) (map B ks).
  Proof.
    intros W F I. destruct kv as [k i]. assert (FK : fnd m k = Some i) by (apply (find_in bytes_swo (wfs_P m) W); exact I).
    rewrite F in FK. unfold drop in FK. destruct (existsb _ ks) eqn:X; [discriminate|]. apply index_of_some in FK.
    unfold names in FK. rewrite nth_error_map in FK. cbn [snd]. destruct (nth_error ml i) as [x|]; [|discriminate]. injection FK as <-.
    exists x. split; [reflexivity|]. intro HI. apply in_map_iff in HI. destruct HI as (s & Hs & HI).
    assert (T : existsb (fun k => bytes_eqb (m_name x) (B k)) ks = true) by (apply existsb_exists; exists s; split; [exact HI|rewrite Hs; apply bytes_eqb_refl]).
    congruence.
  Qed.
  Lemma unknown_says k ks m ml P : wfs m -> (forall n, fnd m n = drop ks n (index_of n (names ml))) ->
    (forall s, In s (documented k) -> In s ks) ->
    (forall x, unknown_in k ml x -> P (m_loc x) (m_name x)) -> Forall (okd P) (list_unknown ml m).
  Proof.
    intros W F D H. unfold list_unknown. rewrite Forall_flat_map. apply Forall_forall. intros kv I.
    destruct (left_unknown ks m ml kv W F I) as (x & Hx & N). rewrite Hx. constructor; [|constructor]. cbn [okd]. apply H.
    split; [exact (nth_error_In _ _ Hx)|]. intro HI; apply N; apply in_map_iff in HI; destruct HI as (s & <- & HI); apply in_map, D, HI.
  Qed.
  Lemma some_unknown k ks x0 m ml : wfs (x0 :: m) -> (forall n, fnd (x0 :: m) n = drop ks n (index_of n (names ml))) ->
    (forall s, In s (documented k) -> In s ks) -> exists x, unknown_in k ml x.
  Proof.
    intros W F D. destruct (left_unknown ks (x0 :: m) ml x0 W F (or_introl eq_refl)) as (x & Hx & N). exists x.
    split; [exact (nth_error_In _ _ Hx)|]. intro HI; apply N; apply in_map_iff in HI; destruct HI as (s & <- & HI); apply in_map, D, HI.
  Qed.
  Lemma unexpected_says k ks x0 m l ml P s b : wfs (x0 :: m) -> (forall n, fnd (x0 :: m) n = drop ks n (index_of n (names ml))) ->
    (forall s, In s (documented k) -> In s ks) -> k <> BPage -> (forall l' m', true_of_names k l ml l' m' -> P l' m') -> b = false ->
    says P s (unexpected (word k) l ml (x0 :: m) s) b.
  Proof.
    intros W F D K H ->. apply says_log; [|discriminate]. constructor.
    - destruct (some_unknown k ks x0 m ml W F D) as (x & U). apply H. eapply TN_some_unknown; eauto.
    - apply (unknown_says k ks); auto. intros x U. apply H. apply TN_unknown, U.
  Qed.
  Lemma dups_says k l ml P : (forall l' m', true_of_names k l ml l' m' -> P l' m') -> Forall (okd P) (dup_diags (B (word k)) [] ml).
  Proof. intro H. apply dup_repeats. intros y R. apply H. apply TN_duplicate, R. Qed.

  (** ** Arguments *)
  Lemma invoke_says ps P p : forall lg o, invoke ps p = (lg, o) -> (forall n l, In (n, l) (funcs p) -> n <> B "near" -> n <> B "center" -> P l (B "Unknown function '" ++ n ++ B "'")) ->
    Forall (okd P) lg.
  Proof.
    induction p as [v l|n q IH l]; intros lg o; cbn [invoke funcs]; [intros H _; injection H as <- _; constructor|].
    intros H HP. assert (HQ : forall n l, In (n, l) (funcs q) -> n <> B "near" -> n <> B "center" -> P l (B "Unknown function '" ++ n ++ B "'")) by (intros n' l' I; apply HP; right; exact I).
    destruct (bytes_eqb n (B "near")) eqn:N1.
    { destruct ps; [injection H as <- _; constructor|]. destruct (invoke _ q) as [lg' [t|]]; injection H as <- _; exact (IH _ _ eq_refl HQ). }
    destruct (bytes_eqb n (B "center")) eqn:N2.
    { destruct (_ <? _)%nat; [injection H as <- _; constructor|].
      destruct (invoke _ q) as [lg' [t|]]; [destruct (fit_circle _ _) as [[? ?]|]|]; injection H as <- _; exact (IH _ _ eq_refl HQ). }
    injection H as <- _. constructor; [|constructor]. apply HP; [left; reflexivity| |]; apply bytes_eqb_neq; assumption.
  Qed.
  Lemma rotate_funcs r p : funcs (point_rotate r p) = funcs p.
  Proof. induction p; simpl; congruence. Qed.
  Lemma ev_says ps r P dm x : (forall l m, true_of_dim ps r dm l m -> P l m) -> In x (d_meta dm) -> In (m_name x) (map B (point_names (d_kind dm))) ->
    Forall (okd P) (ev_log ps r x).
  Proof.
    intros H I N. unfold ev_log, as_point. destruct (m_val x) eqn:V.
    all: try (constructor; [|constructor]; apply H; rewrite <- V; apply TD_no_point; [exact I|exact N|intro q; rewrite V; discriminate]).
    destruct (invoke ps (point_rotate r p)) as [lg o] eqn:IV. cbn [fst]. apply (invoke_says _ _ _ _ _ IV). intros n l HI. rewrite rotate_funcs in HI.
    intros N1 N2. apply H. eapply TD_function; eauto.
  Qed.
  Lemma fmt_says P ps r dm dflt s R : (forall l m, true_of_dim ps r dm l m -> P l m) ->
    exists dl, get_fmt (word (BDim (d_kind dm))) dflt (prop "fmt" (d_meta dm)) (s, rot_at r R (d_meta dm)) = (log_all dl s, fmt_arg dflt (d_meta dm)) /\
      Forall (okd P) dl /\ (fmt_arg dflt (d_meta dm) <> None -> dl = []).
  Proof.
    intro H. unfold get_fmt, fmt_arg. set (ml := d_meta dm) in *.
    destruct (arg_prop "fmt" ml) as [(i & x & -> & HN & Q & ->)|[-> ->]].
    - rewrite nth_rot_at, HN. cbn [option_map]. pose proof (nth_error_In _ _ HN) as I.
      assert (HS : as_str (if memb i R then rot_meta r x else x) = as_str x) by (destruct (memb i R); [apply rot_meta_str|reflexivity]).
      assert (HL : m_loc (if memb i R then rot_meta r x else x) = m_loc x) by (destruct (memb i R); [apply rot_meta_loc|reflexivity]).
      rewrite HS, HL. destruct (as_str x) as [f|] eqn:AS.
      + destruct (pf_ok f) eqn:PF; [exists []; rewrite log_all_nil; auto|]. eexists [_]. split; [reflexivity|]. split; [|congruence].
        constructor; [|constructor]. apply H. unfold as_str in AS. destruct (m_val x) eqn:V; try discriminate. injection AS as ->. eapply TD_format; eauto.
      + eexists [_]. split; [reflexivity|]. split; [|congruence]. constructor; [|constructor]. apply H. eapply TD_format_type; eauto.
        intros f V. unfold as_str in AS. rewrite V in AS. discriminate.
    - exists []. rewrite log_all_nil. auto.
  Qed.
  Lemma prop_has n ml : is_some (prop n ml) = false -> ~ has ml n.
  Proof. unfold prop. destruct (index_of _ _) eqn:I; [discriminate|]. intros _. apply index_of_none in I. exact I. Qed.
  Lemma need_says P l n msg ml : (~ has ml n -> P l (B msg)) -> Forall (okd P) (if is_some (prop n ml) then [] else [DSym l (B msg)]).
  Proof. intro H. destruct (is_some _) eqn:X; constructor; [|constructor]. apply H, prop_has, X. Qed.
End Msg.
