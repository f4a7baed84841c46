(** P_Syntax2.v - the functions of Parser.v one by one. *)
From Coq Require Import Lia.
From Verif Require Import Base Num Geo Stl StlRead Env Ast Lexer Parser Grammar Ps Draw Main P_Base LangSpec P_Lex2 SyntaxSpec P_Syntax.

Local Unset Implicit Arguments.
Local Open Scope lang_scope.
Definition starts (P : kind -> Prop) (L : lang) : Prop := forall w, L w -> exists k v, w = k :: v /\ P k.
Lemma starts_solid P L : starts P L -> solid L.
Proof. intros S H. destruct (S _ H) as (k & v & E & _). discriminate. Qed.
Lemma starts_then P L M : starts P L -> starts P (L <+> M).
Proof. intros S w (a & b & -> & H & _). destruct (S _ H) as (k & v & -> & Q). exists k, (v ++ b). auto. Qed.
Lemma starts_or (P : kind -> Prop) L M : starts P L -> starts P M -> starts P (L <|> M).
Proof. intros S S' w [H|H]; auto. Qed.
Lemma starts_just (P : kind -> Prop) k v : P k -> starts P (just (k :: v)).
Proof. intros H w ->. exists k, v. auto. Qed.
Lemma starts_hk {A : Arith} P L u rest : starts P L -> L (kinds u) -> exists k, hk (u ++ rest) = Some k /\ P k.
Proof. intros S H. destruct (S _ H) as (k & v & E & Q). destruct u as [|t u]; [discriminate|]. injection E as E _. exists k. subst k. split; [reflexivity|exact Q]. Qed.
Lemma starts_weak (P Q : kind -> Prop) L : (forall k, P k -> Q k) -> starts P L -> starts Q L.
Proof. intros PQ S w H. destruct (S _ H) as (k & v & E & H'). exists k, v. auto. Qed.
Lemma inhab_then L M : inhab L -> inhab M -> inhab (L <+> M).
Proof. intros [a Ha] [b Hb]. exists (a ++ b), a, b. auto. Qed.
Lemma inhab_or L M : inhab L -> inhab (L <|> M).
Proof. intros [a Ha]. exists a. left. exact Ha. Qed.
Lemma inhab_or_r L M : inhab M -> inhab (L <|> M).
Proof. intros [a Ha]. exists a. right. exact Ha. Qed.
Lemma inhab_just w : inhab (just w).
Proof. exists w. reflexivity. Qed.
Lemma inhab_many L : inhab (many L).
Proof. exists []. constructor. Qed.
Lemma then_nil L w : (L <+> just []) w <-> L w.
Proof. split; [intros (a & b & -> & H & ->); rewrite app_nil_r; exact H|]. intro H. exists w, []. rewrite app_nil_r. repeat split; auto. Qed.
Lemma then_imp (L L' M M' : lang) : (forall w, L w -> L' w) -> (forall w, M w -> M' w) -> forall w, (L <+> M) w -> (L' <+> M') w.
Proof. intros H K w (a & b & -> & Ha & Hb). exists a, b. auto. Qed.
Lemma or_imp (L L' M M' : lang) : (forall w, L w -> L' w) -> (forall w, M w -> M' w) -> forall w, (L <|> M) w -> (L' <|> M') w.
Proof. intros H K w [Hw|Hw]; [left|right]; auto. Qed.
Lemma many_imp (L L' : lang) : (forall w, L w -> L' w) -> forall w, many L w -> many L' w.
Proof. intros H w M. induction M; constructor; auto. Qed.
Lemma then_assoc L M N w : ((L <+> M) <+> N) w <-> (L <+> (M <+> N)) w.
Proof.
  split.
  - intros (x & c & -> & (a & b & -> & Ha & Hb) & Hc). exists a, (b ++ c). rewrite app_assoc. split; [reflexivity|]. split; [exact Ha|]. exists b, c. auto.
  - intros (a & y & -> & Ha & (b & c & -> & Hb & Hc)). exists (a ++ b), c. rewrite app_assoc. split; [reflexivity|]. split; [|exact Hc]. exists a, b. auto.
Qed.

Ltac lsub := let w := fresh "w" in intro w; repeat match goal with |- context [then_ _ (just []) _] => idtac end; auto.

Section Inst.
  Context {A : Arith}.
  Variable file : bytes.
  Variable el : nat.
  Notation good := (good el).
  (** *** Single tokens *)
  Definition tP (c : ascii) : nat -> list ltok -> pres nat := fun _ ts => punct el c ts.
  Definition tN : nat -> list ltok -> pres num := fun _ ts => pnum el ts.
  Definition tI : nat -> list ltok -> pres (nat * bytes) := fun _ ts => match ts with LTok l (TId n) :: r => POk (l, n) r | _ => fail el ts end.
  Definition tS : nat -> list ltok -> pres bytes := fun _ ts => match ts with LTok _ (TStr s) :: r => POk s r | _ => fail el ts end.
  Definition tK (k : nat) : nat -> list ltok -> pres nat := fun _ ts => match ts with LTok l (TKw n) :: r => if n =? k then POk l r else fail el ts | _ => fail el ts end.
  Definition tD : nat -> list ltok -> pres (nat * dkind) := fun _ ts =>
    match ts with LTok l (TKw n) :: r => match dkind_of_kw n with Some k => POk (l, k) r | None => fail el ts end | _ => fail el ts end.
  Lemma tP_good n c : good n (ch c) (tP c).
  Proof.
    apply (good_tok el n (ch c) (KP c) (fun t => match t_tok t with TP d => if byte_eqb c d then Some (t_line t) else None | _ => None end)).
    - reflexivity.
    - intros fu [l k] r. unfold tP. destruct k as [d| | | | | |]; simpl; try reflexivity. destruct (byte_eqb c d); reflexivity.
    - reflexivity.
    - intros [l k] x H. destruct k as [d| | | | | |]; try discriminate. simpl in H. destruct (byte_eqb c d) eqn:Q; [|discriminate]. apply byte_eqb_eq in Q. subst d. reflexivity.
  Qed.
  Lemma tP_comp n c F : comp n F (ch c) (tP c).
  Proof.
    apply (comp_tok el n F (ch c) (fun t => match t_tok t with TP d => if byte_eqb c d then Some (t_line t) else None | _ => None end)).
    - intros fu [l k] r. unfold tP. destruct k as [d| | | | | |]; simpl; try reflexivity. destruct (byte_eqb c d); reflexivity.
    - intros w ->. reflexivity.
    - intros [l k] H Q. destruct k as [d| | | | | |]; try discriminate H. injection H as ->. simpl in Q. rewrite (proj2 (byte_eqb_eq _ _) eq_refl) in Q. discriminate.
  Qed.
  Lemma tN_good n : good n num_ tN.
  Proof.
    apply (good_tok el n num_ KNumber (fun t => match t_tok t with TNum x => Some x | _ => None end)); try reflexivity.
    - intros fu [l k] r. destruct k; reflexivity.
    - intros [l k] x H. destruct k; try discriminate. reflexivity.
  Qed.
  Lemma tN_comp n F : comp n F num_ tN.
  Proof.
    apply (comp_tok el n F num_ (fun t => match t_tok t with TNum x => Some x | _ => None end)).
    - intros fu [l k] r. destruct k; reflexivity.
    - intros w ->. reflexivity.
    - intros [l k] H Q. destruct k; try discriminate H; try discriminate Q. eexists. reflexivity.
  Qed.
  Lemma tI_good n : good n id_ tI.
  Proof.
    apply (good_tok el n id_ KIdent (fun t => match t_tok t with TId x => Some (t_line t, x) | _ => None end)); try reflexivity.
    - intros fu [l k] r. destruct k; reflexivity.
    - intros [l k] x H. destruct k; try discriminate. reflexivity.
  Qed.
  Lemma tI_comp n F : comp n F id_ tI.
  Proof.
    apply (comp_tok el n F id_ (fun t => match t_tok t with TId x => Some (t_line t, x) | _ => None end)).
    - intros fu [l k] r. destruct k; reflexivity.
    - intros w ->. reflexivity.
    - intros [l k] H Q. destruct k; try discriminate H; discriminate Q.
  Qed.
  Lemma tS_good n : good n str_ tS.
  Proof.
    apply (good_tok el n str_ KString (fun t => match t_tok t with TStr x => Some x | _ => None end)); try reflexivity.
    - intros fu [l k] r. destruct k; reflexivity.
    - intros [l k] x H. destruct k; try discriminate. reflexivity.
  Qed.
  Lemma tS_comp n F : comp n F str_ tS.
  Proof.
    apply (comp_tok el n F str_ (fun t => match t_tok t with TStr x => Some x | _ => None end)).
    - intros fu [l k] r. destruct k; reflexivity.
    - intros w ->. reflexivity.
    - intros [l k] H Q. destruct k; try discriminate H; discriminate Q.
  Qed.
  Lemma tK_good n m : good n (kw m) (tK m).
  Proof.
    apply (good_tok el n (kw m) (KWord m) (fun t => match t_tok t with TKw x => if x =? m then Some (t_line t) else None | _ => None end)); try reflexivity.
    - intros fu [l k] r. destruct k as [|x| | | | |]; simpl; try reflexivity. destruct (x =? m); reflexivity.
    - intros [l k] x H. destruct k as [|y| | | | |]; try discriminate. simpl in H. destruct (y =? m) eqn:Q; [|discriminate]. apply Nat.eqb_eq in Q. subst. reflexivity.
  Qed.
  Lemma tK_comp n m F : comp n F (kw m) (tK m).
  Proof.
    apply (comp_tok el n F (kw m) (fun t => match t_tok t with TKw x => if x =? m then Some (t_line t) else None | _ => None end)).
    - intros fu [l k] r. destruct k as [|x| | | | |]; simpl; try reflexivity. destruct (x =? m); reflexivity.
    - intros w ->. reflexivity.
    - intros [l k] H Q. destruct k; try discriminate H. injection H as ->. simpl in Q. rewrite Nat.eqb_refl in Q. discriminate.
  Qed.
  Definition dim_words : lang := kw 0 <|> kw 1 <|> kw 2 <|> kw 6.
  Definition dsel (t : ltok) : option (nat * dkind) := match t_tok t with TKw x => match dkind_of_kw x with Some k => Some (t_line t, k) | None => None end | _ => None end.
  Lemma dkw m : dim_words [KWord m] <-> dkind_of_kw m <> None.
  Proof.
    split.
    - intros [H|[H|[H|H]]]; injection H as ->; discriminate.
    - intro H. destruct m as [|[|[|[|[|[|[|m]]]]]]]; try (exfalso; apply H; reflexivity); [left|right; left|right; right; left|right; right; right]; reflexivity.
  Qed.
  Lemma tD_eq fu t r : tD fu (t :: r) = match dsel t with Some x => POk x r | None => PFail (stop el [t]) end.
  Proof. destruct t as [l k]. destruct k as [|x| | | | |]; try reflexivity. unfold tD, dsel. simpl. destruct (dkind_of_kw x); reflexivity. Qed.
  Lemma tD_good n : good n dim_words tD.
  Proof.
    apply (good_tok el n dim_words (KWord 0) dsel); [reflexivity|apply tD_eq|left; reflexivity|].
    intros [l k] x H. destruct k as [|y| | | | |]; try discriminate. apply dkw. unfold dsel in H. simpl in H. destruct (dkind_of_kw y); discriminate.
  Qed.
  Lemma tD_comp n F : comp n F dim_words tD.
  Proof.
    apply (comp_tok el n F dim_words dsel); [apply tD_eq| |].
    - intros w [->|[->|[->| ->]]]; reflexivity.
    - intros [l k] H Q. destruct k as [|y| | | | |]; try (destruct H as [H|[H|[H|H]]]; discriminate H). apply dkw in H. unfold dsel in Q. simpl in Q. destruct (dkind_of_kw y); [discriminate|contradiction].
  Qed.

  Hint Resolve tP_good tP_comp tN_good tN_comp tI_good tI_comp tS_good tS_comp tK_good tK_comp tD_good tD_comp good_ret comp_ret : syn.
  Hint Resolve inhab_just inhab_then inhab_many : syn.
  Lemma s_ch c n (P : kind -> Prop) : P (KP c) -> starts P (ch c) /\ n <= S n.
  Proof. intro H. split; [apply starts_just; exact H|lia]. Qed.

  (** sequencing with the same fuel *)
  Lemma gb {X Y} n L M (p : nat -> list ltok -> pres X) (q : X -> nat -> list ltok -> pres Y) :
    good n L p -> inhab M -> (forall x, good n M (q x)) -> good n (L <+> M) (bnd p q).
  Proof. intros. apply (good_bind el n n); auto. Qed.
  Lemma cb {X Y} n (G : option kind -> Prop) (L M : lang) (p : nat -> list ltok -> pres X) (q : X -> nat -> list ltok -> pres Y) :
    comp n any L p -> (forall x, comp n G M (q x)) -> comp n G (L <+> M) (bnd p q).
  Proof. intros. apply (comp_bind n n any G); auto. intros. exact I. Qed.

  Ltac gseq := repeat first [apply good_ret | apply tP_good | apply tN_good | apply tI_good | apply tS_good | apply tK_good | apply tD_good
    | apply gb; [ | solve [repeat first [apply inhab_then | apply inhab_just | apply inhab_many | apply inhab_or]] | intro ] ].
  Ltac cseq := repeat first [apply comp_ret | apply tP_comp | apply tN_comp | apply tI_comp | apply tS_comp | apply tK_comp | apply tD_comp | apply cb; [ | intro ] ].

  (** *** Locations and points *)
  Definition locp : nat -> list ltok -> pres v2 :=
    bnd (tP "[") (fun _ => bnd tN (fun x => bnd (tP ",") (fun _ => bnd tN (fun y => bnd (tP "]") (fun _ => ret (V2 x y)))))).
  Lemma location_is fu ts : parse_location el ts = locp fu ts.
  Proof. reflexivity. Qed.
  Definition loc_l : lang := ch "[" <+> num_ <+> ch "," <+> num_ <+> ch "]" <+> just [].
  Lemma loc_same w : loc_l w <-> a_location w.
  Proof. split; (repeat (apply then_imp; [auto|])); intro; apply then_nil. Qed.
  Lemma location_good n : good n a_location (fun _ => parse_location el).
  Proof. apply (good_sub el n loc_l); [intro; apply loc_same|]. apply (good_ext el n loc_l _ locp); [intros; apply location_is|]. unfold locp, loc_l. gseq. Qed.
  Lemma location_comp n F : comp n F a_location (fun _ => parse_location el).
  Proof.
    apply (comp_sub n F F loc_l); [intro; apply loc_same|auto|]. apply (comp_ext n F loc_l _ locp); [intros; apply location_is|]. unfold locp, loc_l. cseq.
  Qed.
  Definition trip : nat -> list ltok -> pres point := fun _ ts =>
    match ts with
    | LTok l (TP c) :: r =>
        if byte_eqb c "[" then
          pbind (pnum el r) (fun x t1 => pbind (punct el "," t1) (fun _ t2 =>
          pbind (pnum el t2) (fun y t3 => pbind (punct el "," t3) (fun _ t4 =>
          pbind (pnum el t4) (fun z t5 => pbind (punct el "]" t5) (fun _ t6 =>
          POk (PVal (V3 x y z) (mkloc file l)) t6))))))
        else fail el ts
    | _ => fail el ts
    end.
  Definition tripp : nat -> list ltok -> pres point :=
    bnd (tP "[") (fun l => bnd tN (fun x => bnd (tP ",") (fun _ => bnd tN (fun y => bnd (tP ",") (fun _ => bnd tN (fun z => bnd (tP "]") (fun _ => ret (PVal (V3 x y z) (mkloc file l))))))))).
  Definition trip_l : lang := ch "[" <+> num_ <+> ch "," <+> num_ <+> ch "," <+> num_ <+> ch "]" <+> just [].
  Lemma trip_same w : trip_l w <-> a_triple w.
  Proof. split; (repeat (apply then_imp; [auto|])); intro; apply then_nil. Qed.
  Lemma byte_eqb_sym a b : byte_eqb a b = byte_eqb b a.
  Proof.
    destruct (byte_eqb a b) eqn:Q; symmetry.
    - apply byte_eqb_eq in Q. apply byte_eqb_eq. auto.
    - destruct (byte_eqb b a) eqn:R; [|reflexivity]. apply byte_eqb_eq in R. subst. rewrite (proj2 (byte_eqb_eq _ _) eq_refl) in Q. discriminate.
  Qed.
  Lemma trip_is fu ts : trip fu ts = tripp fu ts.
  Proof.
    destruct ts as [|[l k] r]; [reflexivity|]. destruct k as [c| | | | | |]; try reflexivity. unfold trip, tripp, bnd, tP.
    cbn [punct]. rewrite (byte_eqb_sym "[" c). destruct (byte_eqb c "["); reflexivity.
  Qed.
  Lemma trip_good n : good n a_triple trip.
  Proof. apply (good_sub el n trip_l); [intro; apply trip_same|]. apply (good_ext el n trip_l _ tripp); [intros; apply trip_is|]. unfold tripp, trip_l. gseq. Qed.
  Lemma trip_comp n F : comp n F a_triple trip.
  Proof.
    apply (comp_sub n F F trip_l); [intro; apply trip_same|auto|]. apply (comp_ext n F trip_l _ tripp); [intros; apply trip_is|]. unfold tripp, trip_l. cseq.
  Qed.
  Definition is_id (o : option kind) : bool := match o with Some KIdent => true | _ => false end.
  Definition funp : nat -> list ltok -> pres point :=
    bnd tI (fun ln => bnd (tP "(") (fun _ => bnd (fun _ => parse_point file el) (fun p => bnd (tP ")") (fun _ => ret (PFunc (snd ln) p (mkloc file (fst ln))))))).
  Lemma point_is fu ts : parse_point file el ts = if is_id (hk ts) then funp fu ts else trip fu ts.
  Proof.
    destruct ts as [|[l k] r]; [reflexivity|]. destruct k as [c| |n| | | |]; try reflexivity.
    cbn [hk kinds map hd_error kind_of t_tok is_id]. unfold funp, bnd, tI, tP. cbn [pbind].
    destruct r as [|[l2 k2] r]; [reflexivity|]. destruct k2 as [c| | | | | |]; try reflexivity. cbn [parse_point punct]. rewrite (byte_eqb_sym "(" c). destruct (byte_eqb c "("); [|reflexivity]. cbn [pbind].
    reflexivity.
  Qed.
  Definition fun_l : lang := id_ <+> ch "(" <+> a_point <+> ch ")" <+> just [].
  Lemma fun_in w : fun_l w -> a_point w.
  Proof. intros (a & b & -> & -> & (c & d & -> & -> & (e & f & -> & Hp & (g & h & -> & -> & ->)))). exact (ap_func e Hp). Qed.
  Lemma a_triple_in : inhab a_triple.
  Proof. unfold a_triple. repeat (apply inhab_then; [apply inhab_just|]). apply inhab_just. Qed.
  Lemma a_point_in : inhab a_point.
  Proof. destruct a_triple_in as [w H]. exists w. apply ap_val. exact H. Qed.
  Lemma point_good n : good n a_point (fun _ => parse_point file el).
  Proof.
    intros fu ts. revert fu. induction ts as [ts IH] using (well_founded_induction (well_founded_ltof _ (@length ltok))). intro fu.
    assert (G : gd el n (fun_l <|> a_triple) (fun _ => parse_point file el) fu ts).
    { apply (gd_or el n fun_l a_triple is_id funp trip); [intros; apply point_is| |apply trip_good].
      intros _. unfold funp, fun_l. assert (I2 : inhab (ch ")" <+> just [])) by (apply inhab_then; apply inhab_just).
      assert (I1 : inhab (a_point <+> ch ")" <+> just [])) by (apply inhab_then; [apply a_point_in|exact I2]).
      apply (gd_bind el n n); [left; lia|apply inhab_then; [apply inhab_just|exact I1]|apply tI_good|]. intros x u rest _ -> K1.
      apply (gd_bind el n n); [left; lia|exact I1|apply tP_good|]. intros _ v rest2 _ -> K2.
      apply (gd_bind el n n); [left; lia|exact I2| |].
      - apply IH. unfold ltof. rewrite !app_length. destruct u; [discriminate K1|]. simpl. lia.
      - intros. gseq. }
    intro D. specialize (G D). destruct (parse_point file el ts) as [x rest|[l m|a]]; auto.
    - destruct G as (u & E & K & G). exists u. split; [exact E|]. split; [|exact G]. destruct K as [K|K]; [apply fun_in; exact K|apply ap_val; exact K].
    - destruct G as (pre & (k & K) & G). exists pre. split; [|exact G]. exists k. destruct K as [K|K]; [apply fun_in; exact K|apply ap_val; exact K].
  Qed.
  Lemma starts_triple : starts (fun k => k = KP "[") a_triple.
  Proof. apply starts_then. apply starts_just. reflexivity. Qed.
  Lemma starts_point : starts (fun k => k = KP "[" \/ k = KIdent) a_point.
  Proof. intros w H. destruct H as [w H|w H]; [|exists KIdent; eexists; split; [reflexivity|auto]]. destruct (starts_triple _ H) as (k & v & -> & ->). exists (KP "["), v. auto. Qed.
  Lemma point_comp0 n : comp n any a_point (fun _ => parse_point file el).
  Proof.
    intros fu u rest D K FR. remember (kinds u) as w eqn:E. revert fu u rest D E FR. induction K as [w H|w H IH]; intros fu u rest D E FR.
    - subst w. rewrite (point_is fu). destruct (starts_hk _ _ u rest starts_triple H) as (k & -> & ->). simpl. apply (trip_comp n any fu u rest D H FR).
    - destruct u as [|[l1 k1] [|[l2 k2] u]]; try discriminate E. injection E as E1 E2 E3. symmetry in E3. apply kinds_split in E3. destruct E3 as (y & z & -> & E3 & E4).
      destruct k1; try discriminate E1. destruct k2 as [c| | | | | |]; try discriminate E2. injection E2 as <-. destruct z as [|[l3 k3] [|? ?]]; try discriminate E4. injection E4 as E4.
      destruct k3 as [c| | | | | |]; try discriminate E4. injection E4 as ->. simpl in D |- *. rewrite <- app_assoc in *.
      assert (D2 : length (y ++ [LTok l3 (TP ")")] ++ rest) < fu + n) by lia.
      specialize (IH fu y ([LTok l3 (TP ")")] ++ rest) D2 (eq_sym E3) I).
      destruct (parse_point file el (y ++ [LTok l3 (TP ")")] ++ rest)) as [p r|[? ?|?]]; cbn [pbind]; auto. subst r. reflexivity.
  Qed.
  Lemma point_comp n F : comp n F a_point (fun _ => parse_point file el).
  Proof. apply (comp_sub n any F a_point); [auto|intros; exact I|apply point_comp0]. Qed.
  (** *** Strings *)
  Definition is_str (o : option kind) : bool := match o with Some KString => true | _ => false end.
  Definition more (s : bytes) : nat -> list ltok -> pres bytes := fun _ ts => let '(w, r) := parse_more_str s ts in POk w r.
  Lemma more_is n s fu ts : length ts < fu + n -> more s fu ts = if is_str (hk ts) then bnd tS (fun y => more (s ++ y)) (pred fu) ts else ret s (pred fu) ts.
  Proof. intros _. destruct ts as [|[l k] r]; [reflexivity|]. destruct k; reflexivity. Qed.
  Lemma solid_str : solid str_.
  Proof. discriminate. Qed.
  Lemma more_good n s : good n (many str_ <+> just []) (more s).
  Proof. apply (good_loop el n str_ (just []) is_str tS (@app ascii) ret more); [intros; apply (more_is n); assumption|apply solid_str|apply inhab_just|apply tS_good|intro; apply good_ret]. Qed.
  Definition no_str (o : option kind) : Prop := o <> Some KString.
  Lemma more_comp n s : comp n no_str (many str_ <+> just []) (more s).
  Proof.
    apply (comp_loop n any no_str str_ (just []) is_str tS (@app ascii) ret more); [intros; apply (more_is n); assumption|apply solid_str| | | | |apply tS_comp|intro; apply comp_ret].
    - intros u rest H. destruct u as [|t u]; [discriminate|]. injection H as H _. unfold hk. simpl. rewrite H. reflexivity.
    - intros u rest H Q. destruct u; [|discriminate]. simpl. unfold is_str, no_str in *. destruct (hk rest) as [[]|]; try reflexivity. congruence.
    - intros. exact I.
    - intros. exact I.
  Qed.
  Definition strp : nat -> list ltok -> pres bytes := bnd tS more.
  Lemma string_is fu ts : parse_string_lit el ts = strp fu ts.
  Proof. destruct ts as [|[l k] r]; [reflexivity|]. destruct k; reflexivity. Qed.
  Definition str_l : lang := str_ <+> many str_ <+> just [].
  Lemma str_same w : str_l w <-> a_string w.
  Proof. split; (apply then_imp; [auto|]); intro; apply then_nil. Qed.
  Lemma string_good n : good n a_string (fun _ => parse_string_lit el).
  Proof.
    apply (good_sub el n str_l); [intro; apply str_same|]. apply (good_ext el n str_l _ strp); [intros; apply string_is|]. unfold strp, str_l.
    apply gb; [apply tS_good|apply inhab_then; [apply inhab_many|apply inhab_just]|intro; apply more_good].
  Qed.
  Lemma string_comp n : comp n no_str a_string (fun _ => parse_string_lit el).
  Proof.
    apply (comp_sub n no_str no_str str_l); [intro; apply str_same|auto|]. apply (comp_ext n no_str str_l _ strp); [intros; apply string_is|]. unfold strp, str_l.
    apply cb; [apply tS_comp|intro; apply more_comp].
  Qed.
  (** *** Values *)
  Definition is_p (c : ascii) (o : option kind) : bool := match o with Some (KP d) => byte_eqb d c | _ => false end.
  Definition is_num (o : option kind) : bool := match o with Some KNumber => true | _ => false end.
  Definition scale_end (a b : num) : nat -> list ltok -> pres mval := fun _ t => match mk_scale a b with Ret v => POk v t | Abort e => PFail (PDead e) end.
  Lemma scale_good n a b : good n (just []) (scale_end a b).
  Proof. intros fu ts D. unfold scale_end. destruct (mk_scale a b); [|exact I]. exists []. repeat split. Qed.
  Lemma scale_comp n F a b : comp n F (just []) (scale_end a b).
  Proof. intros fu u rest D K FR. destruct u; [|discriminate]. unfold scale_end. destruct (mk_scale a b); [reflexivity|exact I]. Qed.
  Definition num_tail (a : num) : nat -> list ltok -> pres mval := fun fu ts =>
    if is_p ":" (hk ts) then bnd (tP ":") (fun _ => bnd tN (scale_end a)) fu ts else ret (MNum a) fu ts.
  Definition num_l : lang := num_ <+> (ch ":" <+> num_ <+> just [] <|> just []).
  Definition nump : nat -> list ltok -> pres mval := bnd tN num_tail.
  Definition no_colon (o : option kind) : Prop := o <> Some (KP ":").
  Lemma is_p_yes c L u rest : starts (fun k => k = KP c) L -> L (kinds u) -> is_p c (hk (u ++ rest)) = true.
  Proof. intros S H. destruct (starts_hk _ _ u rest S H) as (k & -> & ->). simpl. apply byte_eqb_eq. reflexivity. Qed.
  Lemma is_p_no c o : o <> Some (KP c) -> is_p c o = false.
  Proof. intro H. destruct o as [[d| | | | |]|]; try reflexivity. simpl. destruct (byte_eqb d c) eqn:Q; [|reflexivity]. apply byte_eqb_eq in Q. subst. congruence. Qed.
  Lemma num_good n : good n num_l nump.
  Proof.
    unfold nump, num_l. apply gb; [apply tN_good|apply inhab_or_r; apply inhab_just|]. intro a.
    apply (good_or el n _ _ (is_p ":") (bnd (tP ":") (fun _ => bnd tN (scale_end a))) (ret (MNum a))); [reflexivity| |apply good_ret]. gseq. apply scale_good.
  Qed.
  Lemma num_comp n : comp n no_colon num_l nump.
  Proof.
    unfold nump, num_l. apply cb; [apply tN_comp|]. intro a.
    apply (comp_or n _ _ _ (is_p ":") (bnd (tP ":") (fun _ => bnd tN (scale_end a))) (ret (MNum a))); [reflexivity| | | |apply comp_ret].
    - intros u rest H _. apply (is_p_yes ":" _ _ _ (starts_then _ _ _ (starts_just _ _ _ eq_refl)) H).
    - intros u rest H Q. destruct u; [|discriminate]. apply is_p_no. exact Q.
    - cseq. apply scale_comp.
  Qed.
  Definition brk_l : lang := ch "[" <+> num_ <+> ch "," <+> num_ <+> (ch "]" <+> just [] <|> ch "," <+> num_ <+> ch "]" <+> just []).
  Definition brk_tail (l : nat) (x y : num) : nat -> list ltok -> pres mval := fun fu ts =>
    if is_p "]" (hk ts) then bnd (tP "]") (fun _ => ret (MLoc (V2 x y))) fu ts
    else bnd (tP ",") (fun _ => bnd tN (fun z => bnd (tP "]") (fun _ => ret (MPoint (PVal (V3 x y z) (mkloc file l)))))) fu ts.
  Definition brkp : nat -> list ltok -> pres mval :=
    bnd (tP "[") (fun l => bnd tN (fun x => bnd (tP ",") (fun _ => bnd tN (brk_tail l x)))).
  Lemma brk_good n : good n brk_l brkp.
  Proof.
    unfold brkp, brk_l. gseq. intros fu ts. 
    match goal with |- gd _ _ _ (brk_tail ?l ?x ?y) _ _ => apply (good_or el n _ _ (is_p "]") (bnd (tP "]") (fun _ => ret (MLoc (V2 x y)))) (bnd (tP ",") (fun _ => bnd tN (fun z => bnd (tP "]") (fun _ => ret (MPoint (PVal (V3 x y z) (mkloc file l)))))))); [reflexivity|gseq|gseq] end.
  Qed.
  Lemma brk_comp n F : comp n F brk_l brkp.
  Proof.
    unfold brkp, brk_l. cseq.
    match goal with |- comp _ _ _ (brk_tail ?l ?x ?y) => apply (comp_or n _ _ _ (is_p "]") (bnd (tP "]") (fun _ => ret (MLoc (V2 x y)))) (bnd (tP ",") (fun _ => bnd tN (fun z => bnd (tP "]") (fun _ => ret (MPoint (PVal (V3 x y z) (mkloc file l)))))))); [reflexivity| | |cseq|cseq] end.
    - intros u rest H _. apply (is_p_yes "]" _ _ _ (starts_then _ _ _ (starts_just _ _ _ eq_refl)) H).
    - intros u rest H _. destruct (starts_hk (fun k => k = KP ",") _ u rest (starts_then _ _ _ (starts_just _ _ _ eq_refl)) H) as (k & -> & ->). reflexivity.
  Qed.
  Lemma value_is fu ts : parse_value file el ts =
    if is_str (hk ts) then bnd (fun _ => parse_string_lit el) (fun s => ret (MStr s)) fu ts
    else if is_id (hk ts) then bnd (fun _ => parse_point file el) (fun p => ret (MPoint p)) fu ts
    else if is_num (hk ts) then nump fu ts else brkp fu ts.
  Proof.
    destruct ts as [|[l k] r]; [reflexivity|]. destruct k as [c| | |a| | |]; try reflexivity.
    - unfold hk. cbn [kinds map hd_error kind_of t_tok is_str is_id is_num]. unfold brkp, bnd, tP, tN. cbn [parse_value punct]. rewrite (byte_eqb_sym "[" c). destruct (byte_eqb c "["); [|reflexivity]. cbn [pbind].
      destruct (pnum el r) as [x t1|e]; [|reflexivity]. cbn [pbind]. destruct (punct el "," t1) as [? t2|e]; [|reflexivity]. cbn [pbind]. destruct (pnum el t2) as [y t3|e]; [|reflexivity]. cbn [pbind].
      unfold brk_tail, bnd, tP, tN, ret. destruct t3 as [|[l3 k3] t4]; [reflexivity|]. destruct k3 as [d| | | | | |]; try reflexivity.
      unfold hk. cbn [kinds map hd_error kind_of t_tok is_p punct]. rewrite (byte_eqb_sym "]" d), (byte_eqb_sym "," d). destruct (byte_eqb d "]"); [reflexivity|]. destruct (byte_eqb d ","); reflexivity.
    - unfold hk. cbn [kinds map hd_error kind_of t_tok is_str is_id is_num]. unfold nump, bnd, tN. cbn [parse_value pnum pbind]. unfold num_tail.
      destruct r as [|[l2 k2] r]; [reflexivity|]. destruct k2 as [c| | | | | |]; try reflexivity. unfold hk. cbn [kinds map hd_error kind_of t_tok is_p]. destruct (byte_eqb c ":") eqn:Q; [|reflexivity].
      apply byte_eqb_eq in Q. subst c. reflexivity.
  Qed.
  Definition val_l : lang := a_string <+> just [] <|> a_point <+> just [] <|> num_l <|> brk_l.
  (** the part of val_l parsed by each branch: points that start with a name *)
  Definition vfun_l : lang := fun w => a_point w /\ starts (fun k => k = KIdent) (just w).
  Definition val_f : lang := a_string <+> just [] <|> vfun_l <|> num_l <|> brk_l.
  Lemma val_in w : val_l w -> a_value w.
  Proof.
    intros [H|[H|[H|H]]].
    - left. apply then_nil. exact H.
    - right. left. apply then_nil. exact H.
    - destruct H as (a & b & -> & -> & [H|H]).
      + right. right. right. right. exists [KNumber], b. split; [reflexivity|]. split; [reflexivity|]. revert H. apply then_imp; [auto|]. intro. apply then_nil.
      + right. right. left. rewrite H. reflexivity.
    - destruct H as (a & b & -> & -> & (c & d & -> & -> & (e & f & -> & -> & (g & h & -> & -> & [H|H])))).
      + right. right. right. left. destruct H as (x & y & -> & -> & ->). do 4 (eexists [_], _; split; [reflexivity|]; split; [reflexivity|]). reflexivity.
      + right. left. apply ap_val. destruct H as (x & y & -> & -> & (x2 & y2 & -> & -> & (x3 & y3 & -> & -> & ->))). do 6 (eexists [_], _; split; [reflexivity|]; split; [reflexivity|]). reflexivity.
  Qed.
  Lemma val_out w : a_value w -> val_f w.
  Proof.
    intros [H|[H|[H|[H|H]]]].
    - left. apply then_nil. exact H.
    - destruct H as [w H|w H].
      + right. right. right. destruct H as (a & b & -> & -> & (c & d & -> & -> & (e & f & -> & -> & (g & h & -> & -> & H)))).
        do 4 (eexists [_], _; split; [reflexivity|]; split; [reflexivity|]). right. revert H. do 2 (apply then_imp; [auto|]). intro. apply then_nil.
      + right. left. split; [apply ap_func; exact H|]. apply starts_just. reflexivity.
    - rewrite H. right. right. left. exists [KNumber], []. split; [reflexivity|]. split; [reflexivity|]. right. reflexivity.
    - right. right. right. revert H. do 4 (apply then_imp; [auto|]). intros v ->. left. apply then_nil. reflexivity.
    - right. right. left. revert H. apply then_imp; [auto|]. intros v H. left. revert H. apply then_imp; [auto|]. intro. apply then_nil.
  Qed.
  Definition val_rest1 : nat -> list ltok -> pres mval := fun fu ts => if is_num (hk ts) then nump fu ts else brkp fu ts.
  Definition val_rest2 : nat -> list ltok -> pres mval := fun fu ts => if is_id (hk ts) then bnd (fun _ => parse_point file el) (fun p => ret (MPoint p)) fu ts else val_rest1 fu ts.
  Lemma value_good n : good n a_value (fun _ => parse_value file el).
  Proof.
    apply (good_sub el n val_l); [apply val_in|]. unfold val_l.
    apply (good_or el n _ _ is_str (bnd (fun _ => parse_string_lit el) (fun s => ret (MStr s))) val_rest2); [intros; apply value_is| |].
    - apply gb; [apply string_good|apply inhab_just|intro; apply good_ret].
    - apply (good_or el n _ _ is_id (bnd (fun _ => parse_point file el) (fun p => ret (MPoint p))) val_rest1); [reflexivity| |].
      + apply gb; [apply point_good|apply inhab_just|intro; apply good_ret].
      + apply (good_or el n _ _ is_num nump brkp); [reflexivity|apply num_good|apply brk_good].
  Qed.
  Definition after_value (o : option kind) : Prop := no_str o /\ no_colon o.
  Lemma starts_str : starts (fun k => k = KString) a_string.
  Proof. apply starts_then, starts_just. reflexivity. Qed.
  Lemma starts_num : starts (fun k => k = KNumber) num_l.
  Proof. apply starts_then, starts_just. reflexivity. Qed.
  Lemma starts_brk : starts (fun k => k = KP "[") brk_l.
  Proof. apply starts_then, starts_just. reflexivity. Qed.
  Lemma starts_vfun : starts (fun k => k = KIdent) vfun_l.
  Proof. intros w [_ H]. apply H. reflexivity. Qed.
  Ltac head := match goal with
    | H : (a_string <+> just []) (kinds ?u) |- context [hk (?u ++ ?r)] => destruct (starts_hk _ _ u r (starts_then _ _ _ starts_str) H) as (? & -> & ->); reflexivity
    | H : num_l (kinds ?u) |- context [hk (?u ++ ?r)] => destruct (starts_hk _ _ u r starts_num H) as (? & -> & ->); reflexivity
    | H : brk_l (kinds ?u) |- context [hk (?u ++ ?r)] => destruct (starts_hk _ _ u r starts_brk H) as (? & -> & ->); reflexivity
    | H : vfun_l (kinds ?u) |- context [hk (?u ++ ?r)] => destruct (starts_hk _ _ u r starts_vfun H) as (? & -> & ->); reflexivity
    end.
  Lemma value_comp n : comp n after_value a_value (fun _ => parse_value file el).
  Proof.
    apply (comp_sub n after_value after_value val_f); [apply val_out|auto|]. unfold val_f.
    apply (comp_or n _ _ _ is_str (bnd (fun _ => parse_string_lit el) (fun s => ret (MStr s))) val_rest2); [intros; apply value_is| | | |].
    - intros u rest H _. head.
    - intros u rest [H|[H|H]] _; head.
    - apply (comp_bind n n no_str); [left; lia| |apply string_comp|intro; apply comp_ret]. intros v rest H [Q _]. destruct v; [exact Q|discriminate].
    - apply (comp_or n _ _ _ is_id (bnd (fun _ => parse_point file el) (fun p => ret (MPoint p))) val_rest1); [reflexivity| | | |].
      + intros u rest H _. head.
      + intros u rest [H|H] _; head.
      + apply (comp_sub n after_value after_value (a_point <+> just [])); [intros w [H _]; apply then_nil; exact H|auto|]. apply cb; [apply point_comp|intro; apply comp_ret].
      + apply (comp_or n _ _ _ is_num nump brkp); [reflexivity| | | |].
        * intros u rest H _. head.
        * intros u rest H _. head.
        * apply (comp_sub n no_colon after_value num_l); [auto|intros o [_ H]; exact H|apply num_comp].
        * apply brk_comp.
  Qed.
  (** *** Arguments *)
  Definition argp : nat -> list ltok -> pres meta := bnd tI (fun ln => bnd (tP "=") (fun _ => bnd (fun _ => parse_value file el) (fun v => ret (Meta (snd ln) v (mkloc file (fst ln)))))).
  Definition atp : nat -> list ltok -> pres meta := bnd (tP "@") (fun l => bnd (fun _ => parse_location el) (fun v => ret (Meta (B "@") (MLoc v) (mkloc file l)))).
  Lemma arg_is fu ts : parse_arg file el ts = if is_id (hk ts) then argp fu ts else atp fu ts.
  Proof.
    destruct ts as [|[l k] r]; [reflexivity|]. destruct k as [c| | | | | |]; try reflexivity. unfold hk, atp, bnd, tP. cbn [kinds map hd_error kind_of t_tok is_id parse_arg punct].
    rewrite (byte_eqb_sym "@" c). destruct (byte_eqb c "@"); reflexivity.
  Qed.
  Definition arg_l : lang := id_ <+> ch "=" <+> a_value <+> just [] <|> ch "@" <+> a_location <+> just [].
  Lemma arg_same w : arg_l w <-> an_arg w.
  Proof. split; (apply or_imp; [do 2 (apply then_imp; [auto|])|apply then_imp; [auto|]]); intro; apply then_nil. Qed.
  Lemma a_location_in : inhab a_location.
  Proof. unfold a_location. repeat (apply inhab_then; [apply inhab_just|]). apply inhab_just. Qed.
  Lemma a_value_in : inhab a_value.
  Proof. apply inhab_or. unfold a_string. apply inhab_then; [apply inhab_just|apply inhab_many]. Qed.
  Lemma an_arg_in : inhab an_arg.
  Proof. apply inhab_or_r. apply inhab_then; [apply inhab_just|apply a_location_in]. Qed.
  Lemma arg_good n : good n an_arg (fun _ => parse_arg file el).
  Proof.
    apply (good_sub el n arg_l); [intro; apply arg_same|]. unfold arg_l. apply (good_or el n _ _ is_id argp atp); [intros; apply arg_is| |].
    - apply gb; [apply tI_good|repeat (apply inhab_then; try apply inhab_just; try apply a_value_in)|]. intro ln. apply gb; [apply tP_good|apply inhab_then; [apply a_value_in|apply inhab_just]|]. intro.
      apply gb; [apply value_good|apply inhab_just|]. intro. apply good_ret.
    - apply gb; [apply tP_good|apply inhab_then; [apply a_location_in|apply inhab_just]|]. intro. apply gb; [apply location_good|apply inhab_just|]. intro. apply good_ret.
  Qed.
  Lemma starts_arg : starts (fun k => k = KIdent \/ k = KP "@") an_arg.
  Proof. apply starts_or; apply starts_then, starts_just; auto. Qed.
  Lemma arg_comp n : comp n after_value an_arg (fun _ => parse_arg file el).
  Proof.
    apply (comp_sub n after_value after_value arg_l); [intro; apply arg_same|auto|]. unfold arg_l. apply (comp_or n _ _ _ is_id argp atp); [intros; apply arg_is| | | |].
    - intros u rest H _. destruct (starts_hk (fun k => k = KIdent) _ u rest (starts_then _ _ _ (starts_just _ _ _ eq_refl)) H) as (k & -> & ->). reflexivity.
    - intros u rest H _. destruct (starts_hk (fun k => k = KP "@") _ u rest (starts_then _ _ _ (starts_just _ _ _ eq_refl)) H) as (k & -> & ->). reflexivity.
    - apply cb; [apply tI_comp|]. intro. apply cb; [apply tP_comp|]. intro. apply (comp_bind n n after_value); [left; lia| |apply value_comp|intro; apply comp_ret].
      intros v rest H Q. destruct v; [exact Q|discriminate].
    - apply cb; [apply tP_comp|]. intro. apply cb; [apply location_comp|]. intro. apply comp_ret.
  Qed.
  Lemma solid_arg : solid an_arg.
  Proof. apply (starts_solid _ _ starts_arg). Qed.
  (** arg ';' *)
  Definition semip : nat -> list ltok -> pres meta := bnd (fun _ => parse_arg file el) (fun a => bnd (tP ";") (fun _ => ret a)).
  Definition semi_l : lang := an_arg <+> ch ";" <+> just [].
  Lemma semi_same w : semi_l w <-> (an_arg <+> ch ";") w.
  Proof. split; (apply then_imp; [auto|]); intro; apply then_nil. Qed.
  Lemma semi_good n : good n (an_arg <+> ch ";") (fun _ => parse_arg_semi file el).
  Proof.
    apply (good_sub el n semi_l); [intro; apply semi_same|]. apply (good_ext el n semi_l _ semip); [reflexivity|]. unfold semip, semi_l.
    apply gb; [apply arg_good|apply inhab_then; apply inhab_just|]. intro. gseq.
  Qed.
  Lemma after_p c : c <> ":"%char -> after_value (Some (KP c)).
  Proof. intro H. split; unfold no_str, no_colon; congruence. Qed.
  Lemma semi_comp n F : comp n F (an_arg <+> ch ";") (fun _ => parse_arg_semi file el).
  Proof.
    apply (comp_sub n F F semi_l); [intro; apply semi_same|auto|]. apply (comp_ext n F semi_l _ semip); [reflexivity|]. unfold semip, semi_l.
    apply (comp_bind n n after_value); [left; lia| |apply arg_comp|intro; cseq].
    intros v rest H _. destruct (starts_hk (fun k => k = KP ";") _ v rest (starts_then _ _ _ (starts_just _ _ _ eq_refl)) H) as (k & -> & ->). apply after_p. discriminate.
  Qed.
  (** *** Dimensions *)
  Definition commap : nat -> list ltok -> pres meta := bnd (tP ",") (fun _ _ => parse_arg file el).
  Definition snoc {T} (l : list T) (x : T) : list T := l ++ [x].
  Definition margs (acc : list meta) : nat -> list ltok -> pres (list meta) := fun fu ts => parse_more_args file el fu acc ts.
  Lemma margs_is acc fu ts : length ts < fu + 0 -> margs acc fu ts = if is_p "," (hk ts) then bnd commap (fun a => margs (snoc acc a)) (pred fu) ts else ret acc (pred fu) ts.
  Proof.
    intro D. destruct fu as [|fu]; [lia|]. unfold margs. cbn [parse_more_args pred]. destruct ts as [|[l k] r]; [reflexivity|]. destruct k as [c| | | | | |]; try reflexivity.
    unfold hk. cbn [kinds map hd_error kind_of t_tok is_p]. destruct (byte_eqb c ",") eqn:Q; [|reflexivity]. apply byte_eqb_eq in Q. subst c.
    unfold bnd, commap, bnd, tP. cbn [punct]. change (byte_eqb "," ",") with true. cbn iota. cbn [pbind]. reflexivity.
  Qed.
  Definition comma_l : lang := ch "," <+> an_arg.
  Lemma solid_comma : solid comma_l.
  Proof. apply (starts_solid (fun k => k = KP ",")). apply starts_then, starts_just. reflexivity. Qed.
  Lemma margs_good acc : good 0 (many comma_l <+> just []) (margs acc).
  Proof.
    apply (good_loop el 0 comma_l (just []) (is_p ",") commap snoc ret margs); [apply margs_is|apply solid_comma|apply inhab_just| |intro; apply good_ret].
    apply gb; [apply tP_good|apply an_arg_in|intro; apply arg_good].
  Qed.
  Definition after_args (o : option kind) : Prop := after_value o /\ o <> Some (KP ",").
  Lemma margs_comp acc : comp 0 after_args (many comma_l <+> just []) (margs acc).
  Proof.
    assert (S : starts (fun k => k = KP ",") comma_l) by (apply starts_then, starts_just; reflexivity).
    apply (comp_loop 0 after_value after_args comma_l (just []) (is_p ",") commap snoc ret margs); [apply margs_is|apply solid_comma| | | | | |intro; apply comp_ret].
    - intros u rest H. apply (is_p_yes "," _ _ _ S H).
    - intros u rest H [_ Q]. destruct u; [|discriminate]. apply is_p_no. exact Q.
    - intros u rest H. destruct (starts_hk _ _ u rest S H) as (k & -> & ->). apply after_p. discriminate.
    - intros u rest H [Q _]. destruct u; [exact Q|discriminate].
    - apply cb; [apply tP_comp|intro; apply arg_comp].
  Qed.
  Definition closep (m : list meta) : nat -> list ltok -> pres (list meta) := bnd (tP ")") (fun _ => bnd (tP ";") (fun _ => ret m)).
  Definition close_l : lang := ch ")" <+> ch ";" <+> just [].
  Lemma close_good n m : good n close_l (closep m).
  Proof. unfold closep, close_l. gseq. Qed.
  Lemma close_comp n F m : comp n F close_l (closep m).
  Proof. unfold closep, close_l. cseq. Qed.
  Lemma close_in : inhab close_l.
  Proof. unfold close_l. repeat (apply inhab_then; [apply inhab_just|]). apply inhab_just. Qed.
  Definition dargs1 : nat -> list ltok -> pres (list meta) := bnd (fun _ => parse_arg file el) (fun a => bnd (margs [a]) closep).
  Definition dargs : nat -> list ltok -> pres (list meta) := fun fu ts => if is_p ")" (hk ts) then closep [] fu ts else dargs1 fu ts.
  Lemma dim_args_is fu ts : parse_dim_args file el fu ts = bnd (tP "(") (fun _ => dargs) fu ts.
  Proof.
    unfold parse_dim_args, bnd, tP. destruct (punct el "(" ts) as [l t|e]; [|reflexivity]. cbn [pbind]. unfold dargs. destruct t as [|[l2 k2] t]; [reflexivity|]. destruct k2 as [c| | | | | |]; reflexivity.
  Qed.
  Definition dargs_l : lang := ch "(" <+> (close_l <|> an_arg <+> (many comma_l <+> just []) <+> close_l).
  Lemma dargs_same w : dargs_l w <-> (ch "(" <+> the_args <+> ch ")" <+> ch ";") w.
  Proof.
    assert (C : forall v, close_l v <-> (ch ")" <+> ch ";") v) by (intro v; split; (apply then_imp; [auto|]); intro; apply then_nil).
    split; (apply then_imp; [auto|]); intro v.
    - intros [H|(a & b & -> & Ha & (c & d & -> & Hc & Hd))].
      + exists [], v. split; [reflexivity|]. split; [left; reflexivity|apply C; exact H].
      + exists (a ++ c), d. rewrite app_assoc. split; [reflexivity|]. split; [|apply C; exact Hd]. right. exists a, c. split; [reflexivity|]. split; [exact Ha|]. apply then_nil. exact Hc.
    - intros (a & b & -> & [->|(c & d & -> & Hc & Hd)] & Hb).
      + left. apply C. exact Hb.
      + right. rewrite <- app_assoc. exists c, (d ++ b). split; [reflexivity|]. split; [exact Hc|]. exists d, b. split; [reflexivity|]. split; [apply then_nil; exact Hd|apply C; exact Hb].
  Qed.
  Lemma margs_in : inhab (many comma_l <+> just []).
  Proof. apply inhab_then; [apply inhab_many|apply inhab_just]. Qed.
  Lemma dim_args_good : good 1 (ch "(" <+> the_args <+> ch ")" <+> ch ";") (fun fu => parse_dim_args file el fu).
  Proof.
    apply (good_sub el 1 dargs_l); [intro; apply dargs_same|]. apply (good_ext el 1 dargs_l _ (bnd (tP "(") (fun _ => dargs))); [intros; apply dim_args_is|]. unfold dargs_l.
    apply (good_bind el 1 0); [right; split; [discriminate|lia]|apply inhab_or; apply close_in|apply tP_good|]. intros _.
    apply (good_or el 0 _ _ (is_p ")") (closep []) dargs1); [reflexivity|apply close_good|].
    apply gb; [apply arg_good|apply inhab_then; [apply margs_in|apply close_in]|]. intro a. apply gb; [apply margs_good|apply close_in|]. intro. apply close_good.
  Qed.
  Lemma dim_args_comp F : comp 1 F (ch "(" <+> the_args <+> ch ")" <+> ch ";") (fun fu => parse_dim_args file el fu).
  Proof.
    assert (SC : starts (fun k => k = KP ")") close_l) by (apply starts_then, starts_just; reflexivity).
    apply (comp_sub 1 F F dargs_l); [intro; apply dargs_same|auto|]. apply (comp_ext 1 F dargs_l _ (bnd (tP "(") (fun _ => dargs))); [intros; apply dim_args_is|]. unfold dargs_l.
    apply (comp_bind 1 0 any); [right; split; [discriminate|lia]|intros; exact I|apply tP_comp|]. intros _.
    apply (comp_or 0 _ _ _ (is_p ")") (closep []) dargs1); [reflexivity| | |apply close_comp|].
    - intros u rest H _. apply (is_p_yes ")" _ _ _ SC H).
    - intros u rest H _. destruct (starts_hk _ _ u rest (starts_then _ _ _ starts_arg) H) as (k & -> & [->| ->]); reflexivity.
    - apply (comp_bind 0 0 after_value); [left; lia| |apply arg_comp|].
      + intros v rest (a & b & E & (c & d & -> & HM & ->) & HB) _. rewrite app_nil_r in E. apply kinds_split in E. destruct E as (x & y & -> & <- & <-). rewrite <- app_assoc.
        remember (kinds x) as kx eqn:EX. destruct HM as [|e f He Hf].
        * destruct x; [|discriminate]. cbn [app]. destruct (starts_hk _ _ y rest SC HB) as (k & -> & ->). apply after_p. discriminate.
        * symmetry in EX. apply kinds_split in EX. destruct EX as (x1 & x2 & -> & <- & _). rewrite <- app_assoc.
          destruct (starts_hk (fun k => k = KP ",") _ x1 (x2 ++ y ++ rest) (starts_then _ _ _ (starts_just _ _ _ eq_refl)) He) as (k & -> & ->). apply after_p. discriminate.
      + intro a. apply (comp_bind 0 0 after_args); [left; lia| |apply margs_comp|intro; apply close_comp].
        intros v rest H _. destruct (starts_hk _ _ v rest SC H) as (k & -> & ->). split; [apply after_p; discriminate|discriminate].
  Qed.
  (** *** The parts of drawings *)
  Definition is_kw (o : option kind) : bool := match o with Some (KWord _) => true | _ => false end.
  Definition dimp : nat -> list ltok -> pres (meta + dim) := bnd tD (fun lk => bnd (fun fu => parse_dim_args file el fu) (fun m => ret (inr (Dim (snd lk) (mkloc file (fst lk)) m)))).
  Definition dpart : nat -> list ltok -> pres (meta + dim) := fun fu ts => if is_kw (hk ts) then dimp fu ts else bnd (fun _ => parse_arg_semi file el) (fun a => ret (inl a)) fu ts.
  Definition dupd (s : list meta * list dim) (y : meta + dim) : list meta * list dim := match y with inl a => (fst s ++ [a], snd s) | inr d => (fst s, snd s ++ [d]) end.
  Definition not_brace (o : option kind) : bool := negb (is_p "}" o).
  Definition bracep {X} (x : X) : nat -> list ltok -> pres X := bnd (tP "}") (fun _ => ret x).
  Definition dparts (s : list meta * list dim) : nat -> list ltok -> pres (list meta * list dim) := fun fu ts => parse_draw_parts file el fu (fst s) (snd s) ts.
  Lemma dparts_is s fu ts : length ts < fu + 0 -> dparts s fu ts = if not_brace (hk ts) then bnd dpart (fun y => dparts (dupd s y)) (pred fu) ts else bracep s (pred fu) ts.
  Proof.
    intro D. destruct fu as [|fu]; [lia|]. destruct s as [ml ds]. unfold dparts, bracep, bnd, dpart, tP. cbn [parse_draw_parts pred fst snd]. destruct ts as [|[l k] r]; [reflexivity|]. destruct k as [c|n| | | | |]; try reflexivity.
    - unfold hk. cbn [kinds map hd_error kind_of t_tok]. unfold not_brace. cbn [is_p is_kw]. destruct (byte_eqb c "}") eqn:Q.
      + apply byte_eqb_eq in Q. subst c. reflexivity.
      + cbn [negb]. unfold bnd. destruct (parse_arg_semi file el (LTok l (TP c) :: r)); reflexivity.
    - unfold hk. cbn [kinds map hd_error kind_of t_tok]. unfold not_brace. cbn [is_p is_kw negb]. unfold dimp, bnd, tD. destruct (dkind_of_kw n) as [kd|]; [|reflexivity]. cbn [pbind fst snd].
      destruct (parse_dim_args file el fu r); reflexivity.
    - unfold hk. cbn [kinds map hd_error kind_of t_tok]. unfold not_brace. cbn [is_p is_kw negb]. unfold bnd. destruct (parse_arg_semi file el (LTok l (TId s) :: r)); reflexivity.
  Qed.
  Definition dpart_l : lang := dim_words <+> (ch "(" <+> the_args <+> ch ")" <+> ch ";") <+> just [] <|> (an_arg <+> ch ";") <+> just [].
  Lemma dpart_same w : dpart_l w <-> a_draw_part w.
  Proof.
    split; intros [H|H].
    - right. revert H. apply then_imp; [auto|]. intro. apply then_nil.
    - left. apply then_nil. exact H.
    - right. apply then_nil. exact H.
    - left. revert H. apply then_imp; [auto|]. intro. apply then_nil.
  Qed.
  Lemma dargs_in : inhab (ch "(" <+> the_args <+> ch ")" <+> ch ";").
  Proof. apply inhab_then; [apply inhab_just|]. apply inhab_then; [apply inhab_or, inhab_just|]. apply inhab_then; apply inhab_just. Qed.
  Lemma dpart_good : good 1 a_draw_part dpart.
  Proof.
    apply (good_sub el 1 dpart_l); [intro; apply dpart_same|]. unfold dpart_l. apply (good_or el 1 _ _ is_kw dimp (bnd (fun _ => parse_arg_semi file el) (fun a => ret (inl a)))); [reflexivity| |].
    - apply gb; [apply tD_good|apply inhab_then; [apply dargs_in|apply inhab_just]|]. intro. apply gb; [apply dim_args_good|apply inhab_just|]. intro. apply good_ret.
    - apply gb; [apply semi_good|apply inhab_just|]. intro. apply good_ret.
  Qed.
  Lemma starts_words : starts (fun k => exists n, k = KWord n) dim_words.
  Proof. repeat apply starts_or; apply starts_just; eexists; reflexivity. Qed.
  Lemma dpart_comp F : comp 1 F a_draw_part dpart.
  Proof.
    apply (comp_sub 1 F F dpart_l); [intro; apply dpart_same|auto|]. unfold dpart_l. apply (comp_or 1 _ _ _ is_kw dimp (bnd (fun _ => parse_arg_semi file el) (fun a => ret (inl a)))); [reflexivity| | | |].
    - intros u rest H _. destruct (starts_hk _ _ u rest (starts_then _ _ _ starts_words) H) as (k & -> & (? & ->)). reflexivity.
    - intros u rest H _. destruct (starts_hk _ _ u rest (starts_then _ _ _ (starts_then _ _ _ starts_arg)) H) as (k & -> & [->| ->]); reflexivity.
    - apply cb; [apply tD_comp|]. intro. apply cb; [apply dim_args_comp|]. intro. apply comp_ret.
    - apply cb; [apply semi_comp|]. intro. apply comp_ret.
  Qed.
  Lemma starts_draw_part : starts (fun k => k = KIdent \/ k = KP "@" \/ exists n, k = KWord n) a_draw_part.
  Proof.
    apply starts_or; apply starts_then.
    - apply (starts_weak _ _ _ (fun k H => match H with or_introl h => or_introl h | or_intror h => or_intror (or_introl h) end) starts_arg).
    - apply (starts_weak _ _ _ (fun k H => or_intror (or_intror H)) starts_words).
  Qed.
  Definition brace_l : lang := ch "}" <+> just [].
  Lemma brace_good {X} n (x : X) : good n brace_l (bracep x).
  Proof. unfold bracep, brace_l. gseq. Qed.
  Lemma brace_comp {X} n F (x : X) : comp n F brace_l (bracep x).
  Proof. unfold bracep, brace_l. cseq. Qed.
  Lemma brace_in : inhab brace_l.
  Proof. apply inhab_then; apply inhab_just. Qed.
  Lemma not_brace_part (P : kind -> Prop) L u rest : starts P L -> (forall k, P k -> k <> KP "}") -> L (kinds u) -> not_brace (hk (u ++ rest)) = true.
  Proof. intros S N H. destruct (starts_hk _ _ u rest S H) as (k & -> & Q). unfold not_brace. rewrite is_p_no; [reflexivity|]. intro E. injection E as ->. exact (N _ Q eq_refl). Qed.
  Lemma brace_fin u rest : brace_l (kinds u) -> not_brace (hk (u ++ rest)) = false.
  Proof. intro H. unfold not_brace. rewrite (is_p_yes "}" brace_l u rest (starts_then _ _ _ (starts_just _ _ _ eq_refl)) H). reflexivity. Qed.
  Lemma dparts_good s : good 0 (many a_draw_part <+> brace_l) (dparts s).
  Proof.
    apply (good_loop el 0 a_draw_part brace_l not_brace dpart dupd bracep dparts); [apply dparts_is|apply (starts_solid _ _ starts_draw_part)|apply brace_in|apply dpart_good|intro; apply brace_good].
  Qed.
  Lemma dparts_comp F s : comp 0 F (many a_draw_part <+> brace_l) (dparts s).
  Proof.
    apply (comp_loop 0 any F a_draw_part brace_l not_brace dpart dupd bracep dparts); [apply dparts_is|apply (starts_solid _ _ starts_draw_part)| | |intros; exact I|intros; exact I|apply dpart_comp|intro; apply brace_comp].
    - intros u rest H. apply (not_brace_part _ _ u rest starts_draw_part); [intros k [->|[->|(? & ->)]]; discriminate|exact H].
    - intros u rest H _. apply brace_fin. exact H.
  Qed.
  (** *** Texts *)
  Definition tparts (s : list meta) : nat -> list ltok -> pres (list meta) := fun fu ts => parse_text_parts file el fu s ts.
  Definition sempart : nat -> list ltok -> pres meta := fun _ => parse_arg_semi file el.
  Lemma tparts_is s fu ts : length ts < fu + 0 -> tparts s fu ts = if not_brace (hk ts) then bnd sempart (fun y => tparts (snoc s y)) (pred fu) ts else bracep s (pred fu) ts.
  Proof.
    intro D. destruct fu as [|fu]; [lia|]. unfold tparts, bracep, bnd, sempart, tP. cbn [parse_text_parts pred]. destruct ts as [|[l k] r]; [reflexivity|]. destruct k as [c|n| | | | |]; try reflexivity.
    unfold hk. cbn [kinds map hd_error kind_of t_tok]. unfold not_brace. cbn [is_p]. destruct (byte_eqb c "}") eqn:Q; [|reflexivity]. apply byte_eqb_eq in Q. subst c. reflexivity.
  Qed.
  Lemma starts_semi : starts (fun k => k = KIdent \/ k = KP "@") (an_arg <+> ch ";").
  Proof. apply starts_then, starts_arg. Qed.
  Lemma tparts_good s : good 0 (many (an_arg <+> ch ";") <+> brace_l) (tparts s).
  Proof.
    apply (good_loop el 0 (an_arg <+> ch ";") brace_l not_brace sempart snoc bracep tparts); [apply tparts_is|apply (starts_solid _ _ starts_semi)|apply brace_in|apply semi_good|intro; apply brace_good].
  Qed.
  Lemma tparts_comp F s : comp 0 F (many (an_arg <+> ch ";") <+> brace_l) (tparts s).
  Proof.
    apply (comp_loop 0 any F (an_arg <+> ch ";") brace_l not_brace sempart snoc bracep tparts); [apply tparts_is|apply (starts_solid _ _ starts_semi)| | |intros; exact I|intros; exact I|apply semi_comp|intro; apply brace_comp].
    - intros u rest H. apply (not_brace_part _ _ u rest starts_semi); [intros k [->| ->]; discriminate|exact H].
    - intros u rest H _. apply brace_fin. exact H.
  Qed.
  (** *** Pages *)
  Definition is_kwn (n : nat) (o : option kind) : bool := match o with Some (KWord m) => m =? n | _ => false end.
  Definition drawp : nat -> list ltok -> pres (meta + drawable) :=
    bnd (tK 3) (fun _ => bnd tI (fun ln => bnd (tP "{") (fun _ => bnd (dparts ([], [])) (fun md => ret (inr (DDraw (mkloc file (fst ln)) (snd ln) (fst md) (snd md))))))).
  Definition textp : nat -> list ltok -> pres (meta + drawable) :=
    bnd (tK 7) (fun l => bnd (tP "[") (fun _ => bnd (fun _ => parse_string_lit el) (fun s => bnd (tP "]") (fun _ => bnd (tP "{") (fun _ => bnd (tparts []) (fun m => ret (inr (DText (mkloc file l) s m)))))))).
  Definition ppart2 : nat -> list ltok -> pres (meta + drawable) := fun fu ts => if is_kwn 7 (hk ts) then textp fu ts else bnd (fun _ => parse_arg_semi file el) (fun a => ret (inl a)) fu ts.
  Definition ppart : nat -> list ltok -> pres (meta + drawable) := fun fu ts => if is_kwn 3 (hk ts) then drawp fu ts else ppart2 fu ts.
  Definition pupd (s : list meta * list drawable) (y : meta + drawable) : list meta * list drawable := match y with inl a => (fst s ++ [a], snd s) | inr d => (fst s, snd s ++ [d]) end.
  Definition pparts (s : list meta * list drawable) : nat -> list ltok -> pres (list meta * list drawable) := fun fu ts => parse_page_parts file el fu (fst s) (snd s) ts.
  Lemma pparts_is s fu ts : length ts < fu + 0 -> pparts s fu ts = if not_brace (hk ts) then bnd ppart (fun y => pparts (pupd s y)) (pred fu) ts else bracep s (pred fu) ts.
  Proof.
    intro D. destruct fu as [|fu]; [lia|]. destruct s as [ml ds]. unfold pparts, bracep, bnd, ppart, ppart2, tP. cbn [parse_page_parts pred fst snd]. destruct ts as [|[l k] r]; [reflexivity|].
    unfold hk. cbn [kinds map hd_error kind_of t_tok]. unfold not_brace. destruct k as [c|n| | | | |]; cbn [kind_of t_tok is_p is_kwn negb]; try reflexivity.
    - destruct (byte_eqb c "}") eqn:Q.
      + apply byte_eqb_eq in Q. subst c. reflexivity.
      + cbn [negb]. unfold bnd. destruct (parse_arg_semi file el (LTok l (TP c) :: r)); reflexivity.
    - destruct n as [|[|[|[|[|[|[|[|n]]]]]]]]; try reflexivity.
      + (* draw *) cbn [Nat.eqb]. unfold drawp, bnd, tK, tI, tP, dparts. cbn [Nat.eqb pbind fst snd]. destruct r as [|[l2 k2] r]; [reflexivity|]. destruct k2; try reflexivity. cbn [pbind fst snd].
        destruct (punct el "{" r) as [? t1|e]; [|reflexivity]. cbn [pbind]. destruct (parse_draw_parts file el fu [] [] t1); reflexivity.
      + (* text *) cbn [Nat.eqb]. unfold textp, bnd, tK, tP, tparts. cbn [Nat.eqb pbind fst snd]. destruct (punct el "[" r) as [? t1|e]; [|reflexivity]. cbn [pbind]. destruct (parse_string_lit el t1) as [? t2|e]; [|reflexivity]. cbn [pbind].
        destruct (punct el "]" t2) as [? t3|e]; [|reflexivity]. cbn [pbind]. destruct (punct el "{" t3) as [? t4|e]; [|reflexivity]. cbn [pbind]. destruct (parse_text_parts file el fu [] t4); reflexivity.
    - unfold bnd. destruct (parse_arg_semi file el (LTok l (TId s) :: r)); reflexivity.
  Qed.
  Definition pdraw_l : lang := kw 3 <+> id_ <+> ch "{" <+> (many a_draw_part <+> brace_l) <+> just [].
  Definition ptext_l : lang := kw 7 <+> ch "[" <+> a_string <+> ch "]" <+> ch "{" <+> (many (an_arg <+> ch ";") <+> brace_l) <+> just [].
  Definition ppart_l : lang := pdraw_l <|> ptext_l <|> (an_arg <+> ch ";") <+> just [].
  Lemma braced L w : ((many L <+> brace_l) <+> just []) w <-> (many L <+> ch "}") w.
  Proof. split; intro H; [apply (proj1 (then_nil _ _)) in H|apply (proj2 (then_nil _ _))]; revert H; (apply then_imp; [auto|]); intro; apply then_nil. Qed.
  Lemma ppart_same w : ppart_l w <-> a_page_part w.
  Proof.
    split; intros [H|[H|H]].
    - right. left. revert H. do 3 (apply then_imp; [auto|]). intro. apply braced.
    - right. right. revert H. do 5 (apply then_imp; [auto|]). intro. apply braced.
    - left. apply then_nil. exact H.
    - right. right. apply then_nil. exact H.
    - left. revert H. do 3 (apply then_imp; [auto|]). intro. apply braced.
    - right. left. revert H. do 5 (apply then_imp; [auto|]). intro. apply braced.
  Qed.
  Lemma braced_in L : inhab ((many L <+> brace_l) <+> just []).
  Proof. apply inhab_then; [|apply inhab_just]. apply inhab_then; [apply inhab_many|apply brace_in]. Qed.
  Lemma a_string_in : inhab a_string.
  Proof. apply inhab_then; [apply inhab_just|apply inhab_many]. Qed.
  Lemma drawp_good : good 1 pdraw_l drawp.
  Proof.
    unfold drawp, pdraw_l. assert (I1 := braced_in a_draw_part). assert (I2 : inhab (ch "{" <+> (many a_draw_part <+> brace_l) <+> just [])) by (apply inhab_then; [apply inhab_just|exact I1]).
    apply (good_bind el 1 0); [right; split; [discriminate|lia]|apply inhab_then; [apply inhab_just|exact I2]|apply tK_good|]. intro. apply gb; [apply tI_good|exact I2|]. intro. apply gb; [apply tP_good|exact I1|]. intro.
    apply gb; [apply dparts_good|apply inhab_just|]. intro. apply good_ret.
  Qed.
  Lemma drawp_comp F : comp 1 F pdraw_l drawp.
  Proof.
    unfold drawp, pdraw_l. apply (comp_bind 1 0 any); [right; split; [discriminate|lia]|intros; exact I|apply tK_comp|]. intro. apply cb; [apply tI_comp|]. intro. apply cb; [apply tP_comp|]. intro.
    apply cb; [apply dparts_comp|]. intro. apply comp_ret.
  Qed.
  Lemma textp_good : good 1 ptext_l textp.
  Proof.
    unfold textp, ptext_l. assert (I1 := braced_in (an_arg <+> ch ";")). assert (I2 : inhab (ch "{" <+> (many (an_arg <+> ch ";") <+> brace_l) <+> just [])) by (apply inhab_then; [apply inhab_just|exact I1]).
    assert (I3 : inhab (ch "]" <+> ch "{" <+> (many (an_arg <+> ch ";") <+> brace_l) <+> just [])) by (apply inhab_then; [apply inhab_just|exact I2]).
    assert (I4 : inhab (a_string <+> ch "]" <+> ch "{" <+> (many (an_arg <+> ch ";") <+> brace_l) <+> just [])) by (apply inhab_then; [apply a_string_in|exact I3]).
    apply (good_bind el 1 0); [right; split; [discriminate|lia]|apply inhab_then; [apply inhab_just|exact I4]|apply tK_good|]. intro. apply gb; [apply tP_good|exact I4|]. intro. apply gb; [apply string_good|exact I3|]. intro.
    apply gb; [apply tP_good|exact I2|]. intro. apply gb; [apply tP_good|exact I1|]. intro. apply gb; [apply tparts_good|apply inhab_just|]. intro. apply good_ret.
  Qed.
  Lemma textp_comp F : comp 1 F ptext_l textp.
  Proof.
    unfold textp, ptext_l. apply (comp_bind 1 0 any); [right; split; [discriminate|lia]|intros; exact I|apply tK_comp|]. intro. apply cb; [apply tP_comp|]. intro.
    apply (comp_bind 0 0 no_str); [left; lia| |apply string_comp|].
    - intros v rest H _. destruct (starts_hk (fun k => k = KP "]") _ v rest (starts_then _ _ _ (starts_just _ _ _ eq_refl)) H) as (k & -> & ->). discriminate.
    - intro. apply cb; [apply tP_comp|]. intro. apply cb; [apply tP_comp|]. intro. apply cb; [apply tparts_comp|]. intro. apply comp_ret.
  Qed.
  Lemma ppart_good : good 1 a_page_part ppart.
  Proof.
    apply (good_sub el 1 ppart_l); [intro; apply ppart_same|]. unfold ppart_l. apply (good_or el 1 _ _ (is_kwn 3) drawp ppart2); [reflexivity|apply drawp_good|].
    apply (good_or el 1 _ _ (is_kwn 7) textp (bnd (fun _ => parse_arg_semi file el) (fun a => ret (inl a)))); [reflexivity|apply textp_good|]. apply gb; [apply semi_good|apply inhab_just|]. intro. apply good_ret.
  Qed.
  Lemma starts_pd : starts (fun k => k = KWord 3) pdraw_l.
  Proof. apply starts_then, starts_just. reflexivity. Qed.
  Lemma starts_pt : starts (fun k => k = KWord 7) ptext_l.
  Proof. apply starts_then, starts_just. reflexivity. Qed.
  Lemma ppart_comp F : comp 1 F a_page_part ppart.
  Proof.
    apply (comp_sub 1 F F ppart_l); [intro; apply ppart_same|auto|]. unfold ppart_l. apply (comp_or 1 _ _ _ (is_kwn 3) drawp ppart2); [reflexivity| | |apply drawp_comp|].
    - intros u rest H _. destruct (starts_hk _ _ u rest starts_pd H) as (k & -> & ->). reflexivity.
    - intros u rest [H|H] _; [destruct (starts_hk _ _ u rest starts_pt H) as (k & -> & ->); reflexivity|destruct (starts_hk _ _ u rest (starts_then _ _ _ starts_semi) H) as (k & -> & [->| ->]); reflexivity].
    - apply (comp_or 1 _ _ _ (is_kwn 7) textp (bnd (fun _ => parse_arg_semi file el) (fun a => ret (inl a)))); [reflexivity| | |apply textp_comp|].
      + intros u rest H _. destruct (starts_hk _ _ u rest starts_pt H) as (k & -> & ->). reflexivity.
      + intros u rest H _. destruct (starts_hk _ _ u rest (starts_then _ _ _ starts_semi) H) as (k & -> & [->| ->]); reflexivity.
      + apply cb; [apply semi_comp|]. intro. apply comp_ret.
  Qed.
  Lemma starts_page_part : starts (fun k => k = KIdent \/ k = KP "@" \/ exists n, k = KWord n) a_page_part.
  Proof.
    apply starts_or; [apply (starts_weak _ _ _ (fun k H => match H with or_introl h => or_introl h | or_intror h => or_intror (or_introl h) end) starts_semi)|].
    apply starts_or; apply starts_then, starts_just; right; right; eexists; reflexivity.
  Qed.
  Lemma pparts_good s : good 0 (many a_page_part <+> brace_l) (pparts s).
  Proof.
    apply (good_loop el 0 a_page_part brace_l not_brace ppart pupd bracep pparts); [apply pparts_is|apply (starts_solid _ _ starts_page_part)|apply brace_in|apply ppart_good|intro; apply brace_good].
  Qed.
  Lemma pparts_comp F s : comp 0 F (many a_page_part <+> brace_l) (pparts s).
  Proof.
    apply (comp_loop 0 any F a_page_part brace_l not_brace ppart pupd bracep pparts); [apply pparts_is|apply (starts_solid _ _ starts_page_part)| | |intros; exact I|intros; exact I|apply ppart_comp|intro; apply brace_comp].
    - intros u rest H. apply (not_brace_part _ _ u rest starts_page_part); [intros k [->|[->|(? & ->)]]; discriminate|exact H].
    - intros u rest H _. apply brace_fin. exact H.
  Qed.
  (** *** Items and scripts *)
  Definition pagep : nat -> list ltok -> pres (model + page) := bnd (tK 5) (fun l => bnd (tP "{") (fun _ => bnd (pparts ([], [])) (fun md => ret (inr (Page (mkloc file l) (fst md) (snd md)))))).
  Definition modelp : nat -> list ltok -> pres (model + page) :=
    bnd (tK 4) (fun l => bnd tI (fun ln => bnd (tP "=") (fun _ => bnd tS (fun s => bnd (tP ";") (fun _ => ret (inl (Model (snd ln) s (mkloc file l)))))))).
  Definition itemp : nat -> list ltok -> pres (model + page) := fun fu ts => if is_kwn 4 (hk ts) then modelp fu ts else pagep fu ts.
  Definition iupd (d : document) (y : model + page) : document := match y with inl m => Doc (doc_models d ++ [m]) (doc_pages d) | inr p => Doc (doc_models d) (doc_pages d ++ [p]) end.
  Definition some (o : option kind) : bool := match o with Some _ => true | None => false end.
  Definition inputp (d : document) : nat -> list ltok -> pres document := fun fu ts => match parse_input file el fu d ts with (d', None) => POk d' [] | (_, Some e) => PFail e end.
  Lemma inputp_is d fu ts : length ts < fu + 0 -> inputp d fu ts = if some (hk ts) then bnd itemp (fun y => inputp (iupd d y)) (pred fu) ts else ret d (pred fu) ts.
  Proof.
    intro D. destruct fu as [|fu]; [lia|]. unfold inputp, bnd, itemp. cbn [parse_input pred]. destruct ts as [|[l k] r]; [reflexivity|].
    unfold hk. cbn [kinds map hd_error kind_of t_tok some]. destruct k as [c|n| | | | |]; try reflexivity.
    destruct n as [|[|[|[|[|[|n]]]]]]; try reflexivity.
    - cbn [is_kwn Nat.eqb]. unfold modelp, bnd, tK, tI, tP, tS. cbn [Nat.eqb pbind]. cbn [parse_model]. destruct r as [|[l2 k2] r]; [reflexivity|]. destruct k2; try reflexivity. cbn [pbind fst snd].
      destruct (punct el "=" r) as [? t1|e]; [|reflexivity]. cbn [pbind]. destruct t1 as [|[l3 k3] t1]; [reflexivity|]. destruct k3; try reflexivity. cbn [pbind]. destruct (punct el ";" t1); reflexivity.
    - cbn [is_kwn Nat.eqb]. unfold pagep, bnd, tK, tP, pparts. cbn [Nat.eqb pbind]. cbn [parse_page fst snd]. destruct (punct el "{" r) as [? t1|e]; [|reflexivity]. cbn [pbind].
      destruct (parse_page_parts file el fu [] [] t1); reflexivity.
  Qed.
  Definition model_l : lang := kw 4 <+> id_ <+> ch "=" <+> str_ <+> ch ";" <+> just [].
  Definition page_l : lang := kw 5 <+> ch "{" <+> (many a_page_part <+> brace_l) <+> just [].
  Lemma item_same w : (model_l <|> page_l) w <-> an_item w.
  Proof.
    split; (apply or_imp; [do 4 (apply then_imp; [auto|]); intro; apply then_nil|do 2 (apply then_imp; [auto|]); intro; apply braced]).
  Qed.
  Lemma item_good : good 1 an_item itemp.
  Proof.
    apply (good_sub el 1 (model_l <|> page_l)); [intro; apply item_same|]. apply (good_or el 1 _ _ (is_kwn 4) modelp pagep); [reflexivity|unfold modelp, model_l; gseq|].
    unfold pagep, page_l. assert (I1 := braced_in a_page_part). apply (good_bind el 1 0); [right; split; [discriminate|lia]|apply inhab_then; [apply inhab_just|exact I1]|apply tK_good|]. intro.
    apply gb; [apply tP_good|exact I1|]. intro. apply gb; [apply pparts_good|apply inhab_just|]. intro. apply good_ret.
  Qed.
  Lemma item_comp F : comp 1 F an_item itemp.
  Proof.
    apply (comp_sub 1 F F (model_l <|> page_l)); [intro; apply item_same|auto|]. apply (comp_or 1 _ _ _ (is_kwn 4) modelp pagep); [reflexivity| | |unfold modelp, model_l; cseq|].
    - intros u rest H _. destruct (starts_hk (fun k => k = KWord 4) _ u rest (starts_then _ _ _ (starts_just _ _ _ eq_refl)) H) as (k & -> & ->). reflexivity.
    - intros u rest H _. destruct (starts_hk (fun k => k = KWord 5) _ u rest (starts_then _ _ _ (starts_just _ _ _ eq_refl)) H) as (k & -> & ->). reflexivity.
    - unfold pagep, page_l. apply (comp_bind 1 0 any); [right; split; [discriminate|lia]|intros; exact I|apply tK_comp|]. intro.
      apply cb; [apply tP_comp|]. intro. apply cb; [apply pparts_comp|]. intro. apply comp_ret.
  Qed.
  Lemma starts_item : starts (fun k => exists n, k = KWord n) an_item.
  Proof. apply starts_or; apply starts_then, starts_just; eexists; reflexivity. Qed.
  Lemma input_good d : good 0 sentence (inputp d).
  Proof.
    apply (good_sub el 0 (many an_item <+> just [])); [intro; apply then_nil|].
    apply (good_loop el 0 an_item (just []) some itemp iupd ret inputp); [apply inputp_is|apply (starts_solid _ _ starts_item)|apply inhab_just|apply item_good|intro; apply good_ret].
  Qed.
  Definition at_end (o : option kind) : Prop := o = None.
  Lemma input_comp d : comp 0 at_end sentence (inputp d).
  Proof.
    apply (comp_sub 0 at_end at_end (many an_item <+> just [])); [intro; apply then_nil|auto|].
    apply (comp_loop 0 any at_end an_item (just []) some itemp iupd ret inputp); [apply inputp_is|apply (starts_solid _ _ starts_item)| | |intros; exact I|intros; exact I|apply item_comp|intro; apply comp_ret].
    - intros u rest H. destruct (starts_hk _ _ u rest starts_item H) as (k & -> & _). reflexivity.
    - intros u rest H Q. destruct u; [|discriminate]. simpl. rewrite Q. reflexivity.
  Qed.
  (** A token of each kind. *)
  Definition tok_of_kind (k : kind) : ltok := LTok 0 (match k with KP c => TP c | KWord n => TKw n | KIdent => TId [] | KNumber => TNum nz | KString => TStr [] | KBad => TErr [] end).
  Lemma kinds_any v : kinds (map tok_of_kind v) = v.
  Proof. induction v as [|k v IH]; [reflexivity|]. simpl. rewrite IH. destruct k; reflexivity. Qed.
  Lemma stops_where d0 ts d l m : parse_input file el (S (length ts)) d0 ts = (d, Some (PSyntax l m)) ->
    exists pre, viable (kinds pre) /\
      ((ts = pre /\ stop el [] = PSyntax l m /\ ~ sentence (kinds pre)) \/
       exists t post, ts = pre ++ t :: post /\ stop el [t] = PSyntax l m /\ ~ viable (kinds (pre ++ [t]))).
  Proof.
    intro H. assert (D : length ts < S (length ts) + 0) by lia. pose proof (input_good d0 (S (length ts)) ts D) as G. unfold inputp in G at 1. rewrite H in G.
    destruct G as (pre & V & G). exists pre. split; [exact V|]. destruct G as [[-> ST]|(t & post & E & ST & G)].
    - left. split; [reflexivity|]. split; [exact ST|]. intro SE. assert (D2 : length (pre ++ []) < S (length pre) + 0) by (rewrite app_nil_r; lia).
      pose proof (input_comp d0 (S (length pre)) pre [] D2 SE eq_refl) as C. rewrite app_nil_r in C. unfold inputp in C. rewrite H in C. exact C.
    - right. exists t, post. split; [exact E|]. split; [exact ST|]. intros [v SE].
      pose (ps := map tok_of_kind v). assert (K : kinds ((pre ++ [t]) ++ ps) = kinds (pre ++ [t]) ++ v) by (rewrite kinds_app; unfold ps; rewrite kinds_any; reflexivity).
      rewrite <- K in SE. rewrite <- app_assoc in SE. cbn [app] in SE.
      assert (D2 : length (pre ++ t :: ps) < S (length (pre ++ t :: ps)) + 0) by lia.
      pose proof (G _ _ D2) as G'. assert (D3 : length ((pre ++ t :: ps) ++ []) < S (length (pre ++ t :: ps)) + 0) by (rewrite app_nil_r; exact D2).
      pose proof (input_comp d0 _ _ [] D3 SE eq_refl) as C. rewrite app_nil_r, G' in C. exact C.
  Qed.
  Lemma derives_sentence ts d : parse_input file el (S (length ts)) (Doc [] []) ts = (d, None) -> sentence (kinds ts).
  Proof.
    intro H. assert (D : length ts < S (length ts) + 0) by lia. pose proof (input_good (Doc [] []) (S (length ts)) ts D) as G. unfold inputp in G at 1. rewrite H in G.
    destruct G as (u & E & K & _). rewrite app_nil_r in E. subst u. exact K.
  Qed.
End Inst.

Section Top.
  Context {A : Arith} {E : Env}.
  Lemma syntax_error_place f c d lg : parse f c = Ret (1, d, lg) ->
    exists ts pre, tokens c = Ret ts /\ viable (kinds pre) /\
      ((ts = pre /\ ~ sentence (kinds ts) /\ lg = [DParse (Loc f (1 + count_lf c)) (B "syntax error")]) \/
       exists t post, ts = pre ++ t :: post /\ ~ viable (kinds (pre ++ [t])) /\ lg = [DParse (Loc f (t_line t)) (complaint t)]).
  Proof.
    unfold parse. intro H. apply obind_ret in H. destruct H as (ts & T & H). exists ts.
    destruct (parse_input f (1 + count_lf c) (S (length ts)) (Doc [] []) ts) as [d' [[l m|a]|]] eqn:P; try discriminate H. injection H as -> <-.
    destruct (stops_where f _ _ _ _ _ _ P) as (pre & V & K). exists pre. split; [exact T|]. split; [exact V|]. destruct K as [(-> & S & N)|(t & post & -> & S & N)].
    - left. split; [reflexivity|]. split; [exact N|]. simpl in S. injection S as <- <-. reflexivity.
    - right. exists t, post. split; [reflexivity|]. split; [exact N|]. destruct t as [lt k]. destruct k; try discriminate S; injection S as <- <-; reflexivity.
  Qed.
  Lemma parsed_sentence f c d lg : parse f c = Ret (0, d, lg) -> exists ts, tokens c = Ret ts /\ sentence (kinds ts).
  Proof.
    unfold parse. intro H. apply obind_ret in H. destruct H as (ts & T & H). exists ts. split; [exact T|].
    destruct (parse_input f (1 + count_lf c) (S (length ts)) (Doc [] []) ts) as [d' [[l m|a]|]] eqn:P; try discriminate H. exact (derives_sentence f _ _ _ P).
  Qed.
  Lemma parse_codes f c rc d lg : parse f c = Ret (rc, d, lg) -> rc = 0 \/ rc = 1.
  Proof.
    unfold parse. intro H. apply obind_ret in H. destruct H as (ts & T & H).
    destruct (parse_input f (1 + count_lf c) (S (length ts)) (Doc [] []) ts) as [d' [[l m|a]|]]; try discriminate H; injection H as <- _ _; auto.
  Qed.
  Lemma parse_verdict f c rc d lg : parse f c = Ret (rc, d, lg) ->
    exists ts, tokens c = Ret ts /\ (rc = 0 <-> sentence (kinds ts)) /\
      (rc <> 0 -> exists pre, viable (kinds pre) /\
         ((ts = pre /\ lg = [DParse (Loc f (1 + newlines c)) (B "syntax error")]) \/
          exists t post, ts = pre ++ t :: post /\ ~ viable (kinds (pre ++ [t])) /\ lg = [DParse (Loc f (t_line t)) (complaint t)])).
  Proof.
    intro H. destruct (parse_codes _ _ _ _ _ H) as [->| ->].
    - destruct (parsed_sentence _ _ _ _ H) as (ts & T & S). exists ts. split; [exact T|]. split; [tauto|congruence].
    - destruct (syntax_error_place _ _ _ _ H) as (ts & pre & T & V & K). exists ts. split; [exact T|].
      assert (NS : ~ sentence (kinds ts)).
      { destruct K as [(_ & N & _)|(t & post & -> & N & _)]; [exact N|]. intro S. apply N. exists (kinds post). rewrite <- kinds_app, <- app_assoc. exact S. }
      split; [split; [discriminate|contradiction]|]. intros _. exists pre. split; [exact V|]. destruct K as [(X & _ & Y)|K]; [left|right; exact K]. rewrite <- count_newlines. auto.
  Qed.
  Lemma bad_script fs src c r ts : script_to_ps fs src c = Ret r -> tokens c = Ret ts -> ~ sentence (kinds ts) ->
    r_ok r = false /\ r_out r = [] /\ exists pre l m, r_log r = [DParse (Loc src l) m; DLog (B "Parse failed with rc=1")] /\ viable (kinds pre) /\
      ((ts = pre /\ l = 1 + newlines c /\ m = B "syntax error") \/ exists t post, ts = pre ++ t :: post /\ ~ viable (kinds (pre ++ [t])) /\ l = t_line t /\ m = complaint t).
  Proof.
    unfold script_to_ps. intros H T N. apply obind_ret in H. destruct H as ([[rc d] lg] & P & H). destruct (parse_verdict _ _ _ _ _ P) as (ts' & T' & V & K).
    rewrite T in T'. injection T' as <-. assert (R : rc <> 0) by tauto. destruct (parse_codes _ _ _ _ _ P) as [->| ->]; [congruence|]. simpl in H. injection H as <-.
    split; [reflexivity|]. split; [reflexivity|]. destruct (K R) as (pre & VP & [(-> & ->)|(t & post & -> & NV & ->)]).
    - exists pre, (1 + newlines c), (B "syntax error"). split; [reflexivity|]. split; [exact VP|]. left. auto.
    - exists pre, (t_line t), (complaint t). split; [reflexivity|]. split; [exact VP|]. right. exists t, post. auto.
  Qed.
End Top.
