(** P_Lookup3.v - the checks of DrawLk.v are that every lookup is ordered. *)
From Coq Require Import List Bool Lia.
From Verif Require Import Base Num Geo Stl StlRead Env Ast Lexer Parser Ps Draw Main DrawLk GeoSpec DocSpec LookSpec P_Base P_Geo1.
Import ListNotations.

Local Unset Implicit Arguments.

Lemma strict_swo {K} (P : K -> Prop) lt : strict_weak_order P lt -> swo P lt.
Proof.
  intros (I & AS & TR & EQ). constructor; [exact I|exact TR|]. intros x y z Px Py Pz H. destruct (lt x y) eqn:C1; [left; reflexivity|]. destruct (lt y z) eqn:C2; [right; reflexivity|]. exfalso.
  destruct (lt y x) eqn:C3; [rewrite (TR y x z Py Px Pz C3 H) in C2; discriminate|]. destruct (lt z y) eqn:C4; [rewrite (TR x z y Px Pz Py H C4) in C1; discriminate|].
  destruct (EQ x y z Px Py Pz C1 C3 C2 C4) as [Q _]. congruence.
Qed.
Lemma strict_weak_cons {K} (lt : K -> K -> bool) d l : strict_weak lt (d :: l) = true <-> strict_weak_order (fun x => x = d \/ In x l) lt.
Proof.
  rewrite strict_weak_iff. split.
  - intro H. apply swo_strict. revert H. apply swo_weak. intros x [->|I]; cbn; auto.
  - intro H. apply strict_swo in H. revert H. apply swo_weak. intros x [->|I]; cbn; auto.
Qed.
Section Look.
  Context {A : Arith} {E : Env}.
  Lemma inserts_checked to ps : forall c, closest_ok 3 to c ps = true <->
    forall before p after, ps = before ++ p :: after -> let c' := fold_left (closest_step 3 to) before c in let d := sqn2 (sub2 p to) in
      (exists k, last_key c' = Some k /\ ngt d k = true) \/ strict_weak_order (fun x => x = d \/ In x (map fst c')) nlt.
  Proof.
    induction ps as [|p ps IH]; intro c; cbn [closest_ok].
    - split; [|reflexivity]. intros _ [|b bs] q after H; discriminate H.
    - cbv zeta. rewrite andb_true_iff, orb_true_iff, IH, strict_weak_cons. split.
      + intros [H1 H2] [|b bs] q after H; injection H as <- H.
        * cbn [fold_left]. destruct H1 as [H1|H1]; [left|right; exact H1]. destruct (last_key c) as [k|]; [|discriminate H1]. eauto.
        * cbn [fold_left]. exact (H2 bs q after H).
      + intro H. split.
        * destruct (H [] p ps eq_refl) as [(k & K1 & K2)|K]; [left|right; exact K]. cbn [fold_left] in K1. rewrite K1. exact K2.
        * intros bs q after Q. exact (H (p :: bs) q after (f_equal (cons p) Q)).
  Qed.
  Theorem lookups_checked ps p : lookups_ok ps p = true <-> ordered_lookups ps p.
  Proof.
    induction p as [v l|n q IH l]; cbn [lookups_ok ordered_lookups]; [tauto|]. destruct (bytes_eqb n (B "near")) eqn:N.
    - apply bytes_eqb_eq in N. destruct ps as [|a ps0] eqn:Q.
      + split; [|reflexivity]. intros _ [[_ C]|[_ C]]; [congruence|cbn in C; lia].
      + rewrite <- Q in *. assert (NE : ps <> []) by (rewrite Q; discriminate). clear Q. rewrite andb_true_iff, IH. split.
        * intros [H1 H2] _. split; [exact H1|]. intros t T. rewrite T in H2. split; [intros _; apply strict_weak_cons; exact H2|]. intro C. rewrite N in C. discriminate C.
        * intro H. destruct (H (or_introl (conj N NE))) as [H1 H2]. split; [exact H1|]. destruct (snd (invoke ps q)) as [t|]; [|reflexivity]. apply strict_weak_cons. exact (proj1 (H2 t eq_refl) N).
    - destruct (bytes_eqb n (B "center")) eqn:C.
      + apply bytes_eqb_eq in C. destruct (length ps <? 3)%nat eqn:L.
        * apply Nat.ltb_lt in L. split; [|reflexivity]. intros _ [[K _]|[_ K]]; [rewrite K in C; discriminate C|lia].
        * apply Nat.ltb_ge in L. rewrite andb_true_iff, IH. split.
          -- intros [H1 H2] _. split; [exact H1|]. intros t T. rewrite T in H2. split; [intro K; rewrite K in C; discriminate C|]. intros _. exact (proj1 (inserts_checked _ _ _) H2).
          -- intro H. destruct (H (or_intror (conj C L))) as [H1 H2]. split; [exact H1|]. destruct (snd (invoke ps q)) as [t|]; [|reflexivity]. apply inserts_checked. exact (proj2 (H2 t eq_refl) C).
      + split; [|reflexivity]. intros _ [[K _]|[K _]]; rewrite K in *; [rewrite bytes_eqb_refl in N; discriminate N|rewrite bytes_eqb_refl in C; discriminate C].
  Qed.
  Theorem fits_checked ps t : fit_ck ps t = Ret (fit_circle ps t) /\ ordered_inserts t (map xy ps) \/ fit_ck ps t = Abort bad_lookup /\ ~ ordered_inserts t (map xy ps).
  Proof.
    unfold fit_ck. pose proof (inserts_checked t (map xy ps) []) as H. destruct (closest_ok 3 t [] (map xy ps)); [left|right]; (split; [reflexivity|]); [exact (proj1 H eq_refl)|]. intro K. discriminate (proj2 H K).
  Qed.
End Look.
