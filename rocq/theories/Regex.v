(** Regex.v - regular expressions as used by lexer.l (flex) and stl.cc (RE2),
    with a derivative matcher and its denotational meaning. *)
From Verif Require Import Base.

Inductive re :=
| RNone                        (* matches nothing *)
| REps                         (* matches the empty string *)
| RChr (p : ascii -> bool)     (* one byte in a class *)
| RCat (a b : re)
| RAlt (a b : re)
| RStar (a : re).

Definition ROpt r := RAlt r REps.
Definition RPlus r := RCat r (RStar r).
Definition RC (c : ascii) := RChr (byte_eqb c).
Fixpoint RLit (s : bytes) : re :=
  match s with [] => REps | c :: t => RCat (RC c) (RLit t) end.

(** ** Meaning: the language of an expression. *)
Inductive lang : re -> bytes -> Prop :=
| L_eps : lang REps []
| L_chr p c : p c = true -> lang (RChr p) [c]
| L_cat a b s t : lang a s -> lang b t -> lang (RCat a b) (s ++ t)
| L_altl a b s : lang a s -> lang (RAlt a b) s
| L_altr a b s : lang b s -> lang (RAlt a b) s
| L_star0 a : lang (RStar a) []
| L_star a s t : lang a s -> lang (RStar a) t -> lang (RStar a) (s ++ t).

(** ** Matching by derivatives. *)
Fixpoint nullable (r : re) : bool :=
  match r with
  | RNone => false
  | REps => true
  | RChr _ => false
  | RCat a b => nullable a && nullable b
  | RAlt a b => nullable a || nullable b
  | RStar _ => true
  end.

(** Smart constructors keep derivatives small. *)
Definition mkcat (a b : re) : re :=
  match a, b with
  | RNone, _ => RNone
  | _, RNone => RNone
  | REps, _ => b
  | _, _ => RCat a b
  end.
Definition mkalt (a b : re) : re :=
  match a, b with
  | RNone, _ => b
  | _, RNone => a
  | _, _ => RAlt a b
  end.

Fixpoint deriv (c : ascii) (r : re) : re :=
  match r with
  | RNone => RNone
  | REps => RNone
  | RChr p => if p c then REps else RNone
  | RCat a b =>
      if nullable a then mkalt (mkcat (deriv c a) b) (deriv c b)
      else mkcat (deriv c a) b
  | RAlt a b => mkalt (deriv c a) (deriv c b)
  | RStar a => mkcat (deriv c a) (RStar a)
  end.

(** Whole string match (RE2::FullMatch). *)
Fixpoint rmatch (r : re) (s : bytes) : bool :=
  match s with
  | [] => nullable r
  | c :: t => rmatch (deriv c r) t
  end.

(** Length of the longest prefix in the language (flex: longest match). *)
Fixpoint longest (r : re) (s : bytes) : option nat :=
  match s with
  | [] => if nullable r then Some 0 else None
  | c :: t =>
      match longest (deriv c r) t with
      | Some n => Some (S n)
      | None => if nullable r then Some 0 else None
      end
  end.

(** ** The matcher decides the language. *)
Lemma lang_none s : ~ lang RNone s.
Proof. inversion 1. Qed.

Lemma lang_eps_inv s : lang REps s -> s = [].
Proof. inversion 1; auto. Qed.

Lemma lang_chr_inv p s : lang (RChr p) s -> exists c, s = [c] /\ p c = true.
Proof. inversion 1; subst; eauto. Qed.

Lemma lang_cat_inv a b s : lang (RCat a b) s -> exists u v, s = u ++ v /\ lang a u /\ lang b v.
Proof. inversion 1; subst; eauto. Qed.

Lemma lang_alt_inv a b s : lang (RAlt a b) s -> lang a s \/ lang b s.
Proof. inversion 1; subst; eauto. Qed.

Lemma lang_mkcat a b s : lang (mkcat a b) s <-> lang (RCat a b) s.
Proof.
  destruct a, b; simpl; split; intro H; try exact H;
    try (exfalso; exact (lang_none H));
    try (apply lang_cat_inv in H; destruct H as (u & v & -> & Hu & Hv);
         try (exfalso; exact (lang_none Hu)); try (exfalso; exact (lang_none Hv));
         apply lang_eps_inv in Hu; subst; exact Hv);
    match goal with
    | |- lang (RCat REps _) _ => rewrite <- (app_nil_l s); constructor; [constructor|exact H]
    end.
Qed.

Lemma lang_mkalt a b s : lang (mkalt a b) s <-> lang (RAlt a b) s.
Proof.
  destruct a, b; simpl; split; intro H; try exact H;
    try (apply lang_alt_inv in H; destruct H as [H|H]; try exact H; exfalso; exact (lang_none H));
    try (apply L_altl; exact H); try (apply L_altr; exact H).
Qed.

Lemma lang_star_ind (a : re) (P : bytes -> Prop) :
  P [] -> (forall s t, lang a s -> lang (RStar a) t -> P t -> P (s ++ t)) ->
  forall s, lang (RStar a) s -> P s.
Proof.
  intros H0 H1 s H. remember (RStar a) as r eqn:Er. revert Er.
  induction H; intro Er; try discriminate.
  - exact H0.
  - injection Er as ->. apply H1; auto.
Qed.

Lemma lang_star_nonempty a c t : lang (RStar a) (c :: t) ->
  exists s u, t = s ++ u /\ lang a (c :: s) /\ lang (RStar a) u.
Proof.
  intro H. remember (c :: t) as w eqn:Ew. revert Ew.
  pattern w. revert w H. apply (@lang_star_ind a); [discriminate|].
  intros s u Hs Hu IH Ew. destruct s as [|c' s].
  - simpl in Ew. apply IH; exact Ew.
  - simpl in Ew. injection Ew as -> <-. eauto.
Qed.

Lemma nullable_spec r : nullable r = true <-> lang r [].
Proof.
  induction r as [| |p|a IHa b IHb|a IHa b IHb|a IHa]; simpl.
  - split; [discriminate|intro H; exfalso; exact (lang_none H)].
  - split; [constructor|reflexivity].
  - split; [discriminate|intro H; apply lang_chr_inv in H; destruct H as (c & H & _); discriminate].
  - rewrite andb_true_iff, IHa, IHb. split.
    + intros [H1 H2]. change (lang (RCat a b) ([] ++ [])). constructor; auto.
    + intro H. apply lang_cat_inv in H. destruct H as (u & v & E & Hu & Hv).
      symmetry in E. apply app_eq_nil in E. destruct E; subst; auto.
  - rewrite orb_true_iff, IHa, IHb. split.
    + intros [H|H]; [apply L_altl|apply L_altr]; exact H.
    + apply lang_alt_inv.
  - split; [constructor|reflexivity].
Qed.

Lemma deriv_spec r : forall c s, lang (deriv c r) s <-> lang r (c :: s).
Proof.
  induction r as [| |p|a IHa b IHb|a IHa b IHb|a IHa]; intros c s; cbn [deriv].
  - split; intro H; exfalso; exact (lang_none H).
  - split; intro H; [exfalso; exact (lang_none H)|apply lang_eps_inv in H; discriminate].
  - split; intro H.
    + destruct (p c) eqn:E; [|exfalso; exact (lang_none H)].
      apply lang_eps_inv in H; subst. constructor; exact E.
    + apply lang_chr_inv in H. destruct H as (c' & E & Hp). injection E as -> ->.
      rewrite Hp. constructor.
  - assert (Hcat : lang (mkcat (deriv c a) b) s <->
                   exists u v, s = u ++ v /\ lang a (c :: u) /\ lang b v).
    { rewrite lang_mkcat. split.
      - intro H. apply lang_cat_inv in H. destruct H as (u & v & -> & Hu & Hv).
        apply IHa in Hu. eauto.
      - intros (u & v & -> & Hu & Hv). constructor; [apply IHa; exact Hu|exact Hv]. }
    split.
    + intro H. destruct (nullable a) eqn:N.
      * apply lang_mkalt, lang_alt_inv in H. destruct H as [H|H].
        -- apply Hcat in H. destruct H as (u & v & -> & Hu & Hv).
           change (c :: u ++ v) with ((c :: u) ++ v). constructor; auto.
        -- apply IHb in H. apply nullable_spec in N.
           rewrite <- (app_nil_l (c :: s)). constructor; auto.
      * apply Hcat in H. destruct H as (u & v & -> & Hu & Hv).
        change (c :: u ++ v) with ((c :: u) ++ v). constructor; auto.
    + intro H. apply lang_cat_inv in H. destruct H as (u & v & E & Hu & Hv).
      destruct u as [|c' u].
      * simpl in E. subst v. apply nullable_spec in Hu. rewrite Hu.
        apply lang_mkalt, L_altr, IHb. exact Hv.
      * simpl in E. injection E as -> ->.
        assert (Hm : lang (mkcat (deriv c' a) b) (u ++ v)) by (apply Hcat; eauto).
        destruct (nullable a); [apply lang_mkalt, L_altl|]; exact Hm.
  - rewrite lang_mkalt. split.
    + intro H. apply lang_alt_inv in H. destruct H as [H|H].
      * apply L_altl, IHa, H.
      * apply L_altr, IHb, H.
    + intro H. apply lang_alt_inv in H. destruct H as [H|H].
      * apply L_altl, IHa, H.
      * apply L_altr, IHb, H.
  - rewrite lang_mkcat. split.
    + intro H. apply lang_cat_inv in H. destruct H as (u & v & -> & Hu & Hv).
      apply IHa in Hu. change (c :: u ++ v) with ((c :: u) ++ v). constructor; auto.
    + intro H. apply lang_star_nonempty in H. destruct H as (u & v & -> & Hu & Hv).
      constructor; [apply IHa; exact Hu|exact Hv].
Qed.

Theorem rmatch_spec r s : rmatch r s = true <-> lang r s.
Proof.
  revert r; induction s as [|c t IH]; intro r; simpl.
  - apply nullable_spec.
  - rewrite IH. apply deriv_spec.
Qed.

(** [longest] is the length of the longest prefix in the language. *)
Theorem longest_some r s n : longest r s = Some n ->
  n <= length s /\ lang r (firstn n s) /\
  forall k, n < k -> k <= length s -> ~ lang r (firstn k s).
Proof.
  revert r n; induction s as [|c t IH]; intros r n; simpl.
  - destruct (nullable r) eqn:N; [|discriminate]. intro E; injection E as <-.
    split; [lia|]. split; [apply nullable_spec; exact N|]. intros k H1 H2; lia.
  - destruct (longest (deriv c r) t) as [m|] eqn:L.
    + intro E; injection E as <-. destruct (IH _ _ L) as (H1 & H2 & H3).
      split; [lia|]. split.
      * simpl. apply deriv_spec. exact H2.
      * intros k Hk Hl. destruct k as [|k]; [lia|]. simpl. intro HL.
        apply deriv_spec in HL. apply (H3 k); [lia|lia|exact HL].
    + destruct (nullable r) eqn:N; [|discriminate]. intro E; injection E as <-.
      split; [lia|]. split; [apply nullable_spec; exact N|].
      intros k Hk Hl. destruct k as [|k]; [lia|]. simpl. intro HL.
      apply deriv_spec in HL.
      enough (Hn : longest (deriv c r) t <> None) by (apply Hn; exact L).
      clear - HL. revert k HL. generalize (deriv c r) as q; clear.
      induction t as [|d t IH]; intros q k HL; simpl.
      * rewrite firstn_nil in HL. apply nullable_spec in HL. rewrite HL. discriminate.
      * destruct k as [|k].
        -- simpl in HL. apply nullable_spec in HL. rewrite HL.
           destruct (longest (deriv d q) t); discriminate.
        -- simpl in HL. apply deriv_spec in HL. apply IH in HL.
           destruct (longest (deriv d q) t); [discriminate|congruence].
Qed.

Theorem longest_none r s : longest r s = None -> forall k, ~ lang r (firstn k s).
Proof.
  revert r; induction s as [|c t IH]; intros r; simpl.
  - destruct (nullable r) eqn:N; [discriminate|]. intros _ k HL.
    rewrite firstn_nil in HL. apply nullable_spec in HL. congruence.
  - destruct (longest (deriv c r) t) as [m|] eqn:L; [discriminate|].
    destruct (nullable r) eqn:N; [discriminate|]. intros _ [|k] HL; simpl in HL.
    + apply nullable_spec in HL. congruence.
    + apply deriv_spec in HL. exact (IH _ L k HL).
Qed.
