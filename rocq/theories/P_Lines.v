(** P_Lines.v - line generation edge by edge. *)
From Coq Require Import Permutation Sorted.
From Verif Require Import Base Num Geo Stl NumLaws P_Base P_Order P_Part P_Index P_Hide.

Local Unset Implicit Arguments.
Section Lines.
  Context {A : Arith}.
  (** The spans in the order of their starts, if they can be ordered. *)
  Definition sort_spans (p : edge) (hs : list edge) : list edge := match sort_hides p hs with Ret r => r | Abort _ => [] end.
  Lemma sort_hides_ret p hs r : sort_hides p hs = Ret r -> r = sort_spans p hs.
  Proof. intro H. unfold sort_spans. rewrite H. reflexivity. Qed.
  Lemma sort_spans_in p hs h : In h (sort_spans p hs) -> In h hs.
  Proof.
    unfold sort_spans. destruct (sort_hides p hs) as [r|e] eqn:H; [|intros []]. intro HI. destruct (std_sort_ret H) as (P & _). exact (Permutation_in _ P HI).
  Qed.
  (** The spans of edge v hidden by each facet, in facet order. *)
  Definition spans_of (s : stl) (hb : list (nat * v3)) (v : nat) (ev : edge) (l : list (option edge)) : Prop :=
    omap (fun ff => face_hides (fst ff) (snd ff) v ev hb) (combine (facets s) (face_edge s)) = Ret l.
  Lemma to_lines_parts s ls : to_lines s = Ret ls ->
    exists hbe lss, edge_crosses (edges s) (unseen s) = Ret hbe /\ ls = concat lss /\ length lss = unseen s /\
      forall v ps, nth_error lss v = Some ps -> exists ev hb l, nth_error (edges s) v = Some ev /\ nth_error hbe v = Some hb /\
        spans_of s hb v ev l /\ gen_edge kMinLineLen ev (sort_spans ev (collect_some l)) = Ret ps.
  Proof.
    unfold to_lines. intro H. apply obind_ret in H. destruct H as (hbe & HC & H). apply obind_ret in H. destruct H as (hides & HH & H).
    unfold generate_lines in H. apply obind_ret in H. destruct H as (lss & HL & H). injection H as <-.
    exists hbe, lss. split; [exact HC|]. split; [reflexivity|]. split; [rewrite (omap_length _ _ HL), seq_length; reflexivity|].
    intros v ps Nv. assert (Lv : v < unseen s) by (rewrite <- (seq_length (unseen s) 0), <- (omap_length _ _ HL); apply nth_error_Some; congruence).
    assert (NS : nth_error (seq 0 (unseen s)) v = Some v) by (rewrite (nth_error_nth' _ 0) by (rewrite seq_length; exact Lv); rewrite seq_nth by exact Lv; reflexivity).
    edestruct @omap_nth as (y & Hy & HY); [exact HL|exact NS|]. rewrite Nv in Hy. injection Hy as <-. cbv beta in HY.
    edestruct @omap_nth as (z & Hz & HZ); [exact HH|exact NS|]. cbv beta in HZ.
    destruct (nth_error (edges s) v) as [ev|] eqn:Ne; [|discriminate]. apply obind_ret in HZ. destruct HZ as (hs & HE & HZ). apply obind_ret in HZ. destruct HZ as (hs' & HS & HZ). injection HZ as <-. apply sort_hides_ret in HS. subst hs'.
    unfold edge_hides in HE. rewrite Ne in HE. destruct (nth_error hbe v) as [hb|] eqn:Nb; [|discriminate].
    destruct (_ <? _); [discriminate|]. apply obind_ret in HE. destruct HE as (l & HE & E). injection E as <-.
    exists ev, hb, l. split; [reflexivity|]. split; [reflexivity|]. split; [exact HE|].
    assert (KS : map fst hides = seq 0 (unseen s)).
    { apply omap_ret in HH. clear - HH. induction HH as [|x y l l' H HH IH]; simpl; [reflexivity|]. f_equal; [|exact IH].
      destruct (nth_error (edges s) x); [|discriminate]. apply obind_ret in H. destruct H as (h & _ & H). apply obind_ret in H. destruct H as (h2 & _ & H). injection H as <-. reflexivity. }
    assert (SS : ssorted Nat.ltb (map fst hides)).
    { rewrite KS. clear. generalize 0. induction (unseen s) as [|n IH]; intro k; simpl; [constructor|]. constructor; [apply IH|].
      rewrite Forall_forall. intros x Hx. apply in_seq in Hx. apply Nat.ltb_lt. lia. }
    assert (F : imap_find v hides = Some (sort_spans ev (collect_some l))) by (apply (imap_in _ _ _ SS); eapply nth_error_In; exact Hz).
    rewrite F in HY. exact HY.
  Qed.
  Lemma collect_in {T} (l : list (option T)) x : In x (collect_some l) <-> In (Some x) l.
  Proof.
    induction l as [|[y|] l IH]; simpl; [tauto| |].
    - rewrite IH. split; intros [H|H]; auto; left; congruence.
    - rewrite IH. split; [auto|]. intros [H|H]; [discriminate|exact H].
  Qed.
  (** Each span comes from a facet with its own three edge indices. *)
  Lemma spans_in s hb v ev l h : spans_of s hb v ev l -> In h (collect_some l) ->
    exists n f fe, nth_error (facets s) n = Some f /\ nth_error (face_edge s) n = Some fe /\ face_hides f fe v ev hb = Ret (Some h).
  Proof.
    unfold spans_of. intros H HI. apply collect_in, In_nth_error in HI. destruct HI as [n HI].
    assert (L : length (combine (facets s) (face_edge s)) = length l) by (rewrite (omap_length _ _ H); reflexivity).
    assert (LT : n < length (combine (facets s) (face_edge s))) by (rewrite L; apply nth_error_Some; congruence).
    destruct (nth_error (combine (facets s) (face_edge s)) n) as [[f fe]|] eqn:N; [|apply nth_error_None in N; lia].
    edestruct @omap_nth as (y & Hy & HY); [exact H|exact N|]. rewrite HI in Hy. injection Hy as <-. cbn [fst snd] in HY.
    rewrite nth_error_combine in N. destruct (nth_error (facets s) n) as [f'|] eqn:N1; [|discriminate]. destruct (nth_error (face_edge s) n) as [fe'|] eqn:N2; [|discriminate].
    injection N as -> ->. exists n, f, fe. auto.
  Qed.
  Lemma spans_all s hb v ev l n f fe : spans_of s hb v ev l -> nth_error (facets s) n = Some f -> nth_error (face_edge s) n = Some fe ->
    exists r, face_hides f fe v ev hb = Ret r /\ forall h, r = Some h -> In h (collect_some l).
  Proof.
    intros H N1 N2. edestruct @omap_nth as (y & Hy & HY); [exact H| |].
    { rewrite nth_error_combine, N1, N2. reflexivity. }
    cbn [fst snd] in HY. exists y. split; [exact HY|]. intros h ->. apply collect_in. eapply nth_error_In. exact Hy.
  Qed.
End Lines.
