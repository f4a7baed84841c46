(** P_Syntax.v - the parser stops exactly at the first token that cannot
    continue a sentence. *)
From Coq Require Import Lia.
From Verif Require Import Base Num Env Ast Lexer Parser Grammar P_Base SyntaxSpec.

Local Unset Implicit Arguments.
Local Open Scope lang_scope.
Section Comb.
  Context {A : Arith}.
  Variable el : nat.
  Definition hk (ts : list ltok) : option kind := hd_error (kinds ts).
  Definition gd {X} (n : nat) (L : lang) (p : nat -> list ltok -> pres X) (fu : nat) (ts : list ltok) : Prop := length ts < fu + n ->
    match p fu ts with
    | POk x rest => exists u, ts = u ++ rest /\ L (kinds u) /\
        forall fu' rest', length (u ++ rest') < fu' + n -> hd_error rest' = hd_error rest -> p fu' (u ++ rest') = POk x rest'
    | PFail (PSyntax l m) => exists pre, (exists k, L (kinds pre ++ k)) /\
        ((ts = pre /\ stop el [] = PSyntax l m) \/
         exists t post, ts = pre ++ t :: post /\ stop el [t] = PSyntax l m /\
           forall fu' post', length (pre ++ t :: post') < fu' + n -> p fu' (pre ++ t :: post') = PFail (PSyntax l m))
    | PFail (PDead _) => True
    end.
  Definition good {X} (n : nat) (L : lang) (p : nat -> list ltok -> pres X) : Prop := forall fu ts, gd n L p fu ts.
  Definition comp {X} (n : nat) (F : option kind -> Prop) (L : lang) (p : nat -> list ltok -> pres X) : Prop :=
    forall fu u rest, length (u ++ rest) < fu + n -> L (kinds u) -> F (hk rest) ->
    match p fu (u ++ rest) with POk _ r => r = rest | PFail (PDead _) => True | PFail (PSyntax _ _) => False end.
  Definition bnd {X Y} (p : nat -> list ltok -> pres X) (q : X -> nat -> list ltok -> pres Y) : nat -> list ltok -> pres Y :=
    fun fu ts => pbind (p fu ts) (fun x t => q x fu t).
  Definition ret {X} (x : X) : nat -> list ltok -> pres X := fun _ ts => POk x ts.
  Definition any : option kind -> Prop := fun _ => True.
  Definition solid (L : lang) : Prop := ~ L [].
  Definition inhab (L : lang) : Prop := exists w, L w.

  Lemma kinds_app a b : kinds (a ++ b) = kinds a ++ kinds b.
  Proof. apply map_app. Qed.
  Lemma kinds_split : forall u a b, kinds u = a ++ b -> exists x y, u = x ++ y /\ kinds x = a /\ kinds y = b.
  Proof. intros u a b H. apply map_eq_app in H. destruct H as (x & y & -> & <- & <-). exists x, y. repeat split. Qed.
  Lemma hk_app a b : hk (a ++ b) = match a with [] => hk b | t :: _ => Some (kind_of t) end.
  Proof. destruct a; reflexivity. Qed.
  Lemma hd_app {T} (a b c : list T) : hd_error b = hd_error c -> hd_error (a ++ b) = hd_error (a ++ c).
  Proof. destruct a; [auto|reflexivity]. Qed.
  Lemma hd_hk a b : hd_error a = hd_error b -> hk a = hk b.
  Proof. destruct a, b; unfold hk; simpl; congruence. Qed.
  Lemma solid_len L u : solid L -> L (kinds u) -> 0 < length u.
  Proof. intros S H. destruct u; [contradiction|simpl; lia]. Qed.

  Lemma good_ext {X} n L (p q : nat -> list ltok -> pres X) : (forall fu ts, length ts < fu + n -> p fu ts = q fu ts) -> good n L q -> good n L p.
  Proof.
    intros H G fu ts D. specialize (G fu ts D). rewrite (H _ _ D). destruct (q fu ts) as [x rest|[l m|a]]; auto.
    - destruct G as (u & -> & K & G). exists u. split; [reflexivity|]. split; [exact K|]. intros fu' rest' D' HD. rewrite (H _ _ D'). apply G; assumption.
    - destruct G as (pre & V & G). exists pre. split; [exact V|]. destruct G as [G|(t & post & -> & S & G)]; [left; exact G|].
      right. exists t, post. split; [reflexivity|]. split; [exact S|]. intros fu' post' D'. rewrite (H _ _ D'). apply G; assumption.
  Qed.
  Lemma good_sub {X} n (L M : lang) (p : nat -> list ltok -> pres X) : (forall w, L w -> M w) -> good n L p -> good n M p.
  Proof.
    intros I G fu ts D. specialize (G fu ts D). destruct (p fu ts) as [x rest|[l m|a]]; auto.
    - destruct G as (u & E & K & G). exists u. auto.
    - destruct G as (pre & (k & V) & G). exists pre. split; [exists k; auto|exact G].
  Qed.
  Lemma good_less {X} n m L (p : nat -> list ltok -> pres X) : n <= m -> good m L p -> good n L p.
  Proof.
    intros I G fu ts D. assert (D2 : length ts < fu + m) by lia. specialize (G fu ts D2). destruct (p fu ts) as [x rest|[l ms|a]]; auto.
    - destruct G as (u & E & K & G). exists u. split; [exact E|]. split; [exact K|]. intros fu' rest' D' HD. apply G; [lia|exact HD].
    - destruct G as (pre & V & G). exists pre. split; [exact V|]. destruct G as [G|(t & post & E & S & G)]; [left; exact G|].
      right. exists t, post. split; [exact E|]. split; [exact S|]. intros fu' post' D'. apply G. lia.
  Qed.
  Lemma good_ret {X} n (x : X) : good n (just []) (ret x).
  Proof. intros fu ts D. exists []. split; [reflexivity|]. split; [reflexivity|]. intros. reflexivity. Qed.
  Lemma gd_bind {X Y} n k L M (p : nat -> list ltok -> pres X) (q : X -> nat -> list ltok -> pres Y) fu ts :
    (n <= k \/ solid L /\ n <= S k) -> inhab M -> gd n L p fu ts -> (forall x u rest, p fu ts = POk x rest -> ts = u ++ rest -> L (kinds u) -> gd k M (q x) fu rest) -> gd n (L <+> M) (bnd p q) fu ts.
  Proof.
    intros NK [km IM] GP GQ D. unfold bnd. pose proof (GP D) as G. destruct (p fu ts) as [x rest|[l m|a]] eqn:PE; cbn [pbind]; auto.
    - destruct G as (u & -> & K & G).
      assert (LE : forall r f, length (u ++ r) < f + n -> length r < f + k).
      { intros r f Q. rewrite app_length in Q. destruct NK as [NK|[S NK]]; [lia|]. pose proof (solid_len _ _ S K). lia. }
      pose proof (GQ x u rest eq_refl eq_refl K (LE _ _ D)) as H. destruct (q x fu rest) as [y rest2|[l m|a]] eqn:QE; auto.
      + destruct H as (v & -> & KV & H). exists (u ++ v). split; [apply app_assoc|]. split; [exists (kinds u), (kinds v); rewrite kinds_app; auto|].
        intros fu' rest' D' HD. rewrite <- app_assoc in *. rewrite (G fu' (v ++ rest') D'); [|apply hd_app; exact HD]. cbn [pbind]. apply H; [apply LE; exact D'|exact HD].
      + destruct H as (pre & (kk & V) & H). exists (u ++ pre). split; [exists kk; rewrite kinds_app, <- app_assoc; exists (kinds u), (kinds pre ++ kk); auto|].
        destruct H as [[-> H]|(t & post & -> & S & H)]; [left; split; [reflexivity|exact H]|].
        right. exists t, post. split; [rewrite <- app_assoc; reflexivity|]. split; [exact S|]. intros fu' post' D'. rewrite <- app_assoc in *.
        rewrite (G fu' _ D'); [|destruct pre; reflexivity]. cbn [pbind]. apply H. apply LE. exact D'.
    - destruct G as (pre & (kk & V) & G). exists pre. split; [exists (kk ++ km); rewrite app_assoc; exists (kinds pre ++ kk), km; auto|].
      destruct G as [G|(t & post & -> & S & G)]; [left; exact G|]. right. exists t, post. split; [reflexivity|]. split; [exact S|].
      intros fu' post' D'. rewrite (G fu' post' D'). reflexivity.
  Qed.
  Lemma good_bind {X Y} n k L M (p : nat -> list ltok -> pres X) (q : X -> nat -> list ltok -> pres Y) :
    (n <= k \/ solid L /\ n <= S k) -> inhab M -> good n L p -> (forall x, good k M (q x)) -> good n (L <+> M) (bnd p q).
  Proof. intros NK IM GP GQ fu ts. apply (gd_bind n k); auto. intros. apply GQ. Qed.
  Lemma good_tok {X} n (L : lang) k (f : ltok -> option X) (p : nat -> list ltok -> pres X) :
    (forall fu, p fu [] = PFail (stop el [])) -> (forall fu t r, p fu (t :: r) = match f t with Some x => POk x r | None => PFail (stop el [t]) end) ->
    L [k] -> (forall t x, f t = Some x -> L [kind_of t]) -> good n L p.
  Proof.
    intros P0 P1 LK FK fu ts D. destruct ts as [|t r].
    - rewrite P0. destruct (stop el []) eqn:S; auto. exists []. split; [exists [k]; exact LK|]. left. auto.
    - rewrite P1. destruct (f t) as [x|] eqn:FT.
      + exists [t]. split; [reflexivity|]. split; [exact (FK _ _ FT)|]. intros. simpl. rewrite P1, FT. reflexivity.
      + destruct (stop el [t]) eqn:S; auto. exists []. split; [exists [k]; exact LK|]. right. exists t, r. split; [reflexivity|]. split; [exact S|].
        intros. simpl. rewrite P1, FT, S. reflexivity.
  Qed.
  Lemma gd_or {X} n L M (sel : option kind -> bool) (p q r : nat -> list ltok -> pres X) fu ts :
    (forall fu ts, length ts < fu + n -> r fu ts = if sel (hk ts) then p fu ts else q fu ts) -> (sel (hk ts) = true -> gd n L p fu ts) -> gd n M q fu ts -> gd n (L <|> M) r fu ts.
  Proof.
    intros R GP GQ D. rewrite (R _ _ D).
    assert (SAME : forall a b, hd_error a = hd_error b -> sel (hk a) = sel (hk b)) by (intros a b H; rewrite (hd_hk _ _ H); reflexivity).
    destruct (sel (hk ts)) eqn:SE.
    - specialize (GP eq_refl D). destruct (p fu ts) as [x rest|[l m|a]]; auto.
      + destruct GP as (u & -> & K & G). exists u. split; [reflexivity|]. split; [left; exact K|]. intros fu' rest' D' HD. rewrite (R _ _ D').
        rewrite (SAME (u ++ rest') (u ++ rest)), SE by (apply hd_app; exact HD). apply G; assumption.
      + destruct GP as (pre & (k & V) & G). exists pre. split; [exists k; left; exact V|]. destruct G as [G|(t & post & -> & S & G)]; [left; exact G|].
        right. exists t, post. split; [reflexivity|]. split; [exact S|]. intros fu' post' D'. rewrite (R _ _ D').
        rewrite (SAME (pre ++ t :: post') (pre ++ t :: post)), SE by (apply hd_app; reflexivity). apply G; assumption.
    - specialize (GQ D). destruct (q fu ts) as [x rest|[l m|a]]; auto.
      + destruct GQ as (u & -> & K & G). exists u. split; [reflexivity|]. split; [right; exact K|]. intros fu' rest' D' HD. rewrite (R _ _ D').
        rewrite (SAME (u ++ rest') (u ++ rest)), SE by (apply hd_app; exact HD). apply G; assumption.
      + destruct GQ as (pre & (k & V) & G). exists pre. split; [exists k; right; exact V|]. destruct G as [G|(t & post & -> & S & G)]; [left; exact G|].
        right. exists t, post. split; [reflexivity|]. split; [exact S|]. intros fu' post' D'. rewrite (R _ _ D').
        rewrite (SAME (pre ++ t :: post') (pre ++ t :: post)), SE by (apply hd_app; reflexivity). apply G; assumption.
  Qed.
  Lemma good_or {X} n L M (sel : option kind -> bool) (p q r : nat -> list ltok -> pres X) :
    (forall fu ts, length ts < fu + n -> r fu ts = if sel (hk ts) then p fu ts else q fu ts) -> good n L p -> good n M q -> good n (L <|> M) r.
  Proof. intros R GP GQ fu ts. apply (gd_or n L M sel p q r); auto. Qed.
  Lemma good_loop {S Y X} n L T (sel : option kind -> bool) (part : nat -> list ltok -> pres Y) (upd : S -> Y -> S) (fin : S -> nat -> list ltok -> pres X) (p : S -> nat -> list ltok -> pres X) :
    (forall s fu ts, length ts < fu + n -> p s fu ts = if sel (hk ts) then bnd part (fun y => p (upd s y)) (pred fu) ts else fin s (pred fu) ts) ->
    solid L -> inhab T -> good (1 + n) L part -> (forall s, good (1 + n) T (fin s)) -> forall s, good n (many L <+> T) (p s).
  Proof.
    intros EQ SL [kt IT] GP GF s fu ts. revert s fu. induction ts as [ts IH] using (well_founded_induction (well_founded_ltof _ (@length ltok))); intros s fu D.
    assert (SAME : forall a b, hd_error a = hd_error b -> sel (hk a) = sel (hk b)) by (intros a b H; rewrite (hd_hk _ _ H); reflexivity).
    rewrite (EQ _ _ _ D). destruct (sel (hk ts)) eqn:SE.
    - unfold bnd. assert (D1 : length ts < pred fu + (1 + n)) by lia. pose proof (GP _ _ D1) as G. destruct (part (pred fu) ts) as [y rest|[l m|a]] eqn:PE; cbn [pbind]; auto.
      + destruct G as (u & -> & K & G). pose proof (solid_len _ _ SL K) as LU.
        assert (LE : forall r f, length (u ++ r) < f + n -> length r < pred f + n) by (intros r f Q; rewrite app_length in Q; lia).
        assert (LT : ltof (list ltok) (length (A := ltok)) rest (u ++ rest)) by (unfold ltof; rewrite app_length; lia).
        pose proof (IH rest LT (upd s y) (pred fu) (LE _ _ D)) as H. destruct (p (upd s y) (pred fu) rest) as [x rest2|[l m|a]] eqn:QE; auto.
        * destruct H as (v & -> & (va & vb & KE & KA & KB) & H). exists (u ++ v). split; [apply app_assoc|].
          split; [exists (kinds u ++ va), vb; rewrite kinds_app, KE, app_assoc; split; [reflexivity|]; split; [constructor; assumption|exact KB]|].
          intros fu' rest' D' HD. rewrite <- app_assoc in *. rewrite (EQ _ _ _ D'). rewrite (SAME (u ++ v ++ rest') (u ++ v ++ rest2)), SE by (do 2 apply hd_app; exact HD).
          unfold bnd. rewrite G; [|lia|apply hd_app; exact HD]. cbn [pbind]. apply H; [apply LE; exact D'|exact HD].
        * destruct H as (pre & (kk & (va & vb & KE & KA & KB)) & H). exists (u ++ pre).
          split; [exists kk; rewrite kinds_app, <- app_assoc, KE; exists (kinds u ++ va), vb; rewrite app_assoc; split; [reflexivity|]; split; [constructor; assumption|exact KB]|].
          destruct H as [[-> H]|(t & post & -> & S1 & H)]; [left; split; [reflexivity|exact H]|].
          right. exists t, post. split; [rewrite <- app_assoc; reflexivity|]. split; [exact S1|]. intros fu' post' D'. rewrite <- app_assoc in *.
          rewrite (EQ _ _ _ D'). rewrite (SAME (u ++ pre ++ t :: post') (u ++ pre ++ t :: post)), SE by (do 2 apply hd_app; reflexivity).
          unfold bnd. rewrite G; [|lia|apply hd_app; reflexivity]. cbn [pbind]. apply H. apply LE. exact D'.
      + destruct G as (pre & (kk & V) & G). exists pre. split.
        { exists (kk ++ kt). rewrite app_assoc. exists (kinds pre ++ kk), kt. split; [reflexivity|]. split; [|exact IT]. rewrite <- (app_nil_r (kinds pre ++ kk)). constructor; [exact V|constructor]. }
        destruct G as [G|(t & post & -> & S1 & G)]; [left; exact G|]. right. exists t, post. split; [reflexivity|]. split; [exact S1|].
        intros fu' post' D'. rewrite (EQ _ _ _ D'). rewrite (SAME (pre ++ t :: post') (pre ++ t :: post)), SE by (apply hd_app; reflexivity).
        unfold bnd. rewrite G; [reflexivity|lia].
    - assert (D1 : length ts < pred fu + (1 + n)) by lia. pose proof (GF s _ _ D1) as G. destruct (fin s (pred fu) ts) as [x rest|[l m|a]]; auto.
      + destruct G as (u & -> & K & G). exists u. split; [reflexivity|]. split; [exists [], (kinds u); split; [reflexivity|]; split; [constructor|exact K]|].
        intros fu' rest' D' HD. rewrite (EQ _ _ _ D'). rewrite (SAME (u ++ rest') (u ++ rest)), SE by (apply hd_app; exact HD). apply G; [lia|exact HD].
      + destruct G as (pre & (k & V) & G). exists pre. split; [exists k; exists [], (kinds pre ++ k); split; [reflexivity|]; split; [constructor|exact V]|].
        destruct G as [G|(t & post & -> & S1 & G)]; [left; exact G|]. right. exists t, post. split; [reflexivity|]. split; [exact S1|].
        intros fu' post' D'. rewrite (EQ _ _ _ D'). rewrite (SAME (pre ++ t :: post') (pre ++ t :: post)), SE by (apply hd_app; reflexivity). apply G. lia.
  Qed.

  (** ** Completeness *)
  Lemma comp_ext {X} n F L (p q : nat -> list ltok -> pres X) : (forall fu ts, length ts < fu + n -> p fu ts = q fu ts) -> comp n F L q -> comp n F L p.
  Proof. intros H C fu u rest D K FR. rewrite (H _ _ D). apply C; assumption. Qed.
  Lemma comp_sub {X} n (F G : option kind -> Prop) (L M : lang) (p : nat -> list ltok -> pres X) : (forall w, M w -> L w) -> (forall o, G o -> F o) -> comp n F L p -> comp n G M p.
  Proof. intros H HF C fu u rest D K FR. apply C; auto. Qed.
  Lemma comp_less {X} n m F L (p : nat -> list ltok -> pres X) : n <= m -> comp m F L p -> comp n F L p.
  Proof. intros H C fu u rest D K FR. apply C; auto. lia. Qed.
  Lemma comp_ret {X} n F (x : X) : comp n F (just []) (ret x).
  Proof. intros fu u rest D K FR. destruct u; [reflexivity|discriminate]. Qed.
  Lemma comp_bind {X Y} n k (F G : option kind -> Prop) (L M : lang) (p : nat -> list ltok -> pres X) (q : X -> nat -> list ltok -> pres Y) :
    (n <= k \/ solid L /\ n <= S k) -> (forall v rest, M (kinds v) -> G (hk rest) -> F (hk (v ++ rest))) ->
    comp n F L p -> (forall x, comp k G M (q x)) -> comp n G (L <+> M) (bnd p q).
  Proof.
    intros NK FG CP CQ fu u rest D (a & b & E & KA & KB) FR. apply kinds_split in E. destruct E as (x & y & -> & <- & <-).
    rewrite <- app_assoc in *. unfold bnd. pose proof (CP fu x (y ++ rest) D KA (FG _ _ KB FR)) as H.
    destruct (p fu (x ++ y ++ rest)) as [v r|[l m|w]]; cbn [pbind]; auto. subst r. apply CQ; auto.
    rewrite app_length in D. destruct NK as [NK|[S NK]]; [lia|]. pose proof (solid_len _ _ S KA). lia.
  Qed.
  Lemma comp_tok {X} n F (L : lang) (f : ltok -> option X) (p : nat -> list ltok -> pres X) :
    (forall fu t r, p fu (t :: r) = match f t with Some x => POk x r | None => PFail (stop el [t]) end) ->
    (forall w, L w -> length w = 1) -> (forall t, L [kind_of t] -> f t = None -> exists a, stop el [t] = PDead a) -> comp n F L p.
  Proof.
    intros P1 L1 FK fu u rest D K FR. pose proof (L1 _ K) as LE. unfold kinds in LE. rewrite map_length in LE. destruct u as [|t [|? ?]]; try discriminate LE. simpl. rewrite P1. destruct (f t) eqn:FT; [reflexivity|].
    destruct (FK t K FT) as (a & ->). exact I.
  Qed.
  Lemma comp_or {X} n (F : option kind -> Prop) (L M : lang) (sel : option kind -> bool) (p q r : nat -> list ltok -> pres X) :
    (forall fu ts, length ts < fu + n -> r fu ts = if sel (hk ts) then p fu ts else q fu ts) ->
    (forall u rest, L (kinds u) -> F (hk rest) -> sel (hk (u ++ rest)) = true) -> (forall u rest, M (kinds u) -> F (hk rest) -> sel (hk (u ++ rest)) = false) ->
    comp n F L p -> comp n F M q -> comp n F (L <|> M) r.
  Proof.
    intros R SL SM CP CQ fu u rest D K FR. rewrite (R _ _ D). destruct K as [K|K].
    - rewrite (SL u rest K FR). apply CP; assumption.
    - rewrite (SM u rest K FR). apply CQ; assumption.
  Qed.
  Lemma comp_loop {S Y X} n (F G : option kind -> Prop) (L T : lang) (sel : option kind -> bool) (part : nat -> list ltok -> pres Y) (upd : S -> Y -> S) (fin : S -> nat -> list ltok -> pres X) (p : S -> nat -> list ltok -> pres X) :
    (forall s fu ts, length ts < fu + n -> p s fu ts = if sel (hk ts) then bnd part (fun y => p (upd s y)) (pred fu) ts else fin s (pred fu) ts) ->
    solid L -> (forall u rest, L (kinds u) -> sel (hk (u ++ rest)) = true) -> (forall u rest, T (kinds u) -> G (hk rest) -> sel (hk (u ++ rest)) = false) ->
    (forall u rest, L (kinds u) -> F (hk (u ++ rest))) -> (forall u rest, T (kinds u) -> G (hk rest) -> F (hk (u ++ rest))) ->
    comp (1 + n) F L part -> (forall s, comp (1 + n) G T (fin s)) -> forall s, comp n G (many L <+> T) (p s).
  Proof.
    intros EQ SL S1 S0 F1 F0 CP CF s fu u rest D (a & b & E & KA & KB) FR. revert s fu u D E. induction KA as [|a1 a2 K1 KM IH]; intros s fu u D E.
    - simpl in E. subst b. rewrite (EQ _ _ _ D), (S0 u rest KB FR). apply CF; auto. lia.
    - rewrite <- app_assoc in E. apply kinds_split in E. destruct E as (x & y & -> & <- & E). rewrite <- app_assoc in *. rewrite (EQ _ _ _ D), (S1 _ _ K1). unfold bnd.
      assert (FN : F (hk (y ++ rest))).
      { destruct KM as [|c d KC KD].
        - simpl in E. subst b. apply F0; assumption.
        - rewrite <- app_assoc in E. apply kinds_split in E. destruct E as (y1 & y2 & -> & <- & E). rewrite <- app_assoc. apply F1. exact KC. }
      pose proof (CP (pred fu) x (y ++ rest) ltac:(lia) K1 FN) as H. destruct (part (pred fu) (x ++ y ++ rest)) as [v r|[l m|w]]; cbn [pbind]; auto. subst r.
      apply IH; [|exact E]. pose proof (solid_len _ _ SL K1). rewrite app_length in D. lia.
  Qed.
End Comb.
