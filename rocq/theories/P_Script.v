(** P_Script.v - whole conversions: what makes them fail, what they write. *)
From Verif Require Import Base Num Geo Stl StlRead Env Ast Lexer Parser Ps Draw Main
  P_Base P_Meta P_Frame P_Dims P_Doc DocSpec.

(** ** Decimal numbers *)
Lemma dec_val_app s t : forall acc v, dec_val s acc = Some v -> dec_val (s ++ t) acc = dec_val t v.
Proof.
  induction s as [|c s IH]; intros acc v; cbn [dec_val app].
  - intro H; injection H as ->; reflexivity.
  - destruct (_ && _)%bool; [apply IH|discriminate].
Qed.
Lemma digit_val (k : N) : (k < 10)%N -> N_of_ascii (ascii_of_N (48 + k)) = (48 + k)%N.
Proof. intro H. apply N_ascii_embedding. lia. Qed.
Lemma digit_in (k : N) : (k < 10)%N -> ((48 <=? 48 + k) && (48 + k <=? 57))%N = true.
Proof. intro H. apply andb_true_iff; split; apply N.leb_le; lia. Qed.
Lemma dec_digits_spec : forall fuel n acc, (n < 2 ^ N.of_nat fuel)%N ->
  exists d, dec_digits fuel n acc = d ++ acc /\ (fuel <> 0 -> d <> []) /\ forall a, dec_val d a = Some (a * 10 ^ N.of_nat (length d) + n)%N.
Proof.
  induction fuel as [|f IH]; intros n acc Hn; cbn [dec_digits].
  - exists []. split; [reflexivity|]. split; [congruence|]. intro a. cbn. f_equal. change (2 ^ N.of_nat 0)%N with 1%N in Hn. lia.
  - assert (Hm : (n mod 10 < 10)%N) by (apply N.mod_lt; discriminate).
    assert (Hd : n = (10 * (n / 10) + n mod 10)%N) by (apply N.div_mod; discriminate).
    generalize dependent (n mod 10)%N. generalize dependent (n / 10)%N. intros q m Hm Hd.
    destruct (N.eqb_spec q 0) as [Z|Z].
    + exists [ascii_of_N (48 + m)]. split; [reflexivity|]. split; [discriminate|]. intro a.
      cbn [dec_val]. rewrite digit_val by exact Hm.
      rewrite (digit_in Hm).
      f_equal. cbn [length]. change (10 ^ N.of_nat 1)%N with 10%N. lia.
    + assert (HB : (q < 2 ^ N.of_nat f)%N).
      { rewrite Nnat.Nat2N.inj_succ, N.pow_succ_r' in Hn. lia. }
      destruct (IH q (ascii_of_N (48 + m) :: acc) HB) as (d & H1 & _ & H2).
      exists (d ++ [ascii_of_N (48 + m)]). rewrite H1, <- app_assoc. split; [reflexivity|]. split; [intros _ H; destruct d; discriminate|].
      intro a. rewrite (dec_val_app _ _ _ (H2 a)). cbn [dec_val]. rewrite digit_val by exact Hm.
      rewrite (digit_in Hm).
      f_equal. rewrite app_length. cbn [length]. rewrite Nat.add_1_r, Nnat.Nat2N.inj_succ, N.pow_succ_r'. lia.
Qed.
Lemma dec_of_nat_spells n : spells (dec_of_nat n) n.
Proof.
  unfold spells, dec_of_nat, dec_of_N.
  destruct (@dec_digits_spec (S (N.to_nat (N.log2 (N.of_nat n)))) (N.of_nat n) []) as (d & -> & Hd & H).
  - rewrite Nnat.Nat2N.inj_succ, Nnat.N2Nat.id. destruct (N.eq_dec (N.of_nat n) 0) as [->|Hn]; [reflexivity|].
    apply N.log2_spec. lia.
  - rewrite app_nil_r. split; [apply Hd; discriminate|]. rewrite H. reflexivity.
Qed.

Section Script.
  Context {A : Arith} {E : Env}.

  (** ** Failure *)
  Lemma script_fail_silent fs src c r : script_to_ps fs src c = Ret r -> r_ok r = false -> r_out r = [].
  Proof.
    unfold script_to_ps, doc_to_ps. rewrite obind_ret. intros ([[rc d] lg] & _ & H) F.
    destruct (rc =? 0); [|injection H as <-; reflexivity].
    rewrite obind_ret in H. destruct H as (r1 & H & H'). injection H' as <-. simpl in *.
    rewrite obind_ret in H. destruct H as ([[st lg1] ok1] & _ & H).
    destruct ok1; cbn [negb] in H; [|injection H as <-; reflexivity].
    rewrite obind_ret in H. destruct H as ([[[os d'] lg2] ok2] & _ & H).
    destruct ok2; cbn [negb] in H; injection H as <-; [discriminate F|reflexivity].
  Qed.

  Definition doc_run (fs : files) (src : bytes) (d : document) (r : result) : Prop :=
    exists st lg1 os d' lg2, load_files fs (doc_models d) [] = Ret (st, lg1, true) /\
      generate_pages st d = Ret (os, d', lg2, true) /\ r = Res true (render_pages src os) (lg1 ++ lg2).
  Lemma doc_to_ps_ok fs src d r : doc_to_ps fs src d = Ret r -> r_ok r = true -> doc_run fs src d r.
  Proof.
    unfold doc_to_ps. rewrite obind_ret. intros ([[st lg1] ok1] & HL & H) K.
    destruct ok1; cbn [negb] in H; [|injection H as <-; discriminate].
    rewrite obind_ret in H. destruct H as ([[[os d'] lg2] ok2] & HG & H).
    destruct ok2; cbn [negb] in H; injection H as <-; [|discriminate K].
    exists st, lg1, os, d', lg2. auto.
  Qed.
  Lemma script_ok fs src c r : script_to_ps fs src c = Ret r -> r_ok r = true ->
    exists d r', parses src c d /\ doc_run fs src d r' /\ r_out r = r_out r' /\ exists lg, r_log r = lg ++ r_log r'.
  Proof.
    unfold script_to_ps. rewrite obind_ret. intros ([[rc d] lg] & HP & H) K.
    destruct (Nat.eqb_spec rc 0) as [->|]; [|injection H as <-; discriminate].
    rewrite obind_ret in H. destruct H as (r1 & H1 & H). injection H as <-. simpl in *.
    exists d, r1. split; [exists lg; exact HP|]. split; [apply doc_to_ps_ok; assumption|]. split; [reflexivity|]. eauto.
  Qed.
  Lemma parses_fun src c d1 d2 : parses src c d1 -> parses src c d2 -> d1 = d2.
  Proof. intros [l1 H1] [l2 H2]. congruence. Qed.

  (** A converted document is acceptable. *)
  Lemma converts_doc_ok fs src c d : converts fs src c -> parses src c d ->
    exists st lg, load_files fs (doc_models d) [] = Ret (st, lg, true) /\ doc_ok st d.
  Proof.
    intros (r & H & K) HP. destruct (script_ok _ _ _ H K) as (d' & r' & HP' & HR & _ & _).
    rewrite (parses_fun HP HP') in *. destruct HR as (st & lg1 & os & d2 & lg2 & HL & HG & _).
    exists st, lg1. split; [exact HL|]. apply (generate_pages_spec _ _ HG). reflexivity.
  Qed.

  (** ** Properties of the blocks of an acceptable document *)
  Definition block_keys (k : bkind) : list string :=
    match k with BPage => page_keys | BDraw => draw_keys | BText => text_keys | BDim k => keys_of k end.
  Lemma draw_run_dims st n ml ds s s' ds' dm : draw_run st n ml ds s s' ds' -> In dm ds ->
    exists ps r, dim_valid ps r dm.
  Proof.
    intros [ab file rot pl proj ls _ _ _ _ _ _ _ _ _ HV] HI.
    destruct (visit_dims_spec _ _ HV) as (_ & _ & O & _). destruct (proj1 O eq_refl) as [_ F].
    rewrite Forall_forall in F. eauto.
  Qed.
  Lemma doc_ok_block st d k ml : doc_ok st d -> block d k ml ->
    NoDup (names ml) /\ only (block_keys k) ml /\
    match k with BDim k => exists ps r dm, dim_valid ps r dm /\ d_kind dm = k /\ d_meta dm = ml | _ => True end.
  Proof.
    unfold doc_ok. rewrite Forall_forall. intros H [pg Hp|pg l n ml' ds Hp Hi|pg l t ml' Hp Hi|pg l n ml' ds dm Hp Hi Hd].
    all: destruct (H _ Hp) as (N & O & _ & F).
    - auto.
    - rewrite Forall_forall in F. destruct (F _ Hi) as (s & s' & ds' & D). destruct D. auto.
    - rewrite Forall_forall in F. destruct (F _ Hi) as (D1 & D2 & _). auto.
    - rewrite Forall_forall in F. destruct (F _ Hi) as (s & s' & ds' & D).
      destruct (draw_run_dims _ D Hd) as (ps & r & V). pose proof V as (V1 & V2 & _). split; [exact V1|]. split; [exact V2|].
      exists ps, r, dm. auto.
  Qed.

  Lemma dup_rejected fs src c d k ml : parses src c d -> block d k ml -> ~ NoDup (map m_name ml) -> ~ converts fs src c.
  Proof.
    intros HP HB HN HC. destruct (converts_doc_ok HC HP) as (st & lg & _ & HD).
    apply HN. apply (doc_ok_block HD HB).
  Qed.
  Lemma keys_documented k s : In s (block_keys k) -> In s (documented k).
  Proof. destruct k as [| | |[]]; simpl; tauto. Qed.
  Lemma unknown_rejected fs src c d k ml n : parses src c d -> block d k ml ->
    In n (map m_name ml) -> ~ In n (map B (documented k)) -> ~ converts fs src c.
  Proof.
    intros HP HB HI HN HC. destruct (converts_doc_ok HC HP) as (st & lg & _ & HD).
    destruct (doc_ok_block HD HB) as (_ & O & _). destruct (O _ HI) as (s & Hs & ->).
    apply HN. apply in_map, keys_documented, Hs.
  Qed.

  Lemma arg_none n ml : arg n ml = None <-> ~ has ml n.
  Proof.
    unfold has. split.
    - intros H HI. unfold arg in H. destruct (prop n ml) as [i|] eqn:P.
      + destruct (prop_some _ _ P) as (x & Hx & _). congruence.
      + apply prop_none in P. exact (P HI).
    - intro H. destruct (arg n ml) as [x|] eqn:G; [|reflexivity]. exfalso. apply H.
      destruct (arg_in _ _ G) as [HI <-]. apply in_map. exact HI.
  Qed.
  Lemma has_dec n ml : has ml n \/ ~ has ml n.
  Proof. rewrite <- arg_none. destruct (arg n ml) eqn:G; [left|right; reflexivity].
    unfold has. destruct (arg_in _ _ G) as [HI <-]. apply in_map, HI. Qed.
  Lemma point_arg_has ps r n ml v : point_arg ps r n ml = Some v -> has ml n.
  Proof.
    unfold point_arg. destruct (arg n ml) as [x|] eqn:G; [|discriminate]. intros _.
    unfold has. destruct (arg_in _ _ G) as [HI <-]. apply in_map, HI.
  Qed.
  Lemma arg_has n ml x : arg n ml = Some x -> has ml n.
  Proof. intro G. unfold has. destruct (arg_in _ _ G) as [HI <-]. apply in_map, HI. Qed.
  Lemma side_arg_has ps r kd kp ml ap v : side_arg ps r kd kp ml ap = Some v ->
    has ml kd /\ ~ has ml kp \/ ~ has ml kd /\ has ml kp.
  Proof.
    unfold side_arg. destruct (arg kd ml) as [x|] eqn:G1, (arg kp ml) as [y|] eqn:G2; intro H; try discriminate.
    - left. split; [exact (arg_has _ _ G1)|apply arg_none; exact G2].
    - right. split; [apply arg_none; exact G1|exact (arg_has _ _ G2)].
  Qed.
  Lemma valid_complete ps r dm : dim_valid ps r dm -> complete (BDim (d_kind dm)) (d_meta dm).
  Proof.
    intros (_ & _ & H). unfold args_ok in H. unfold complete.
    destruct (d_kind dm).
    - unfold angle_args in H. destruct (point_arg ps r "at" (d_meta dm)) eqn:P1; [|congruence].
      destruct (point_arg ps r "apex" (d_meta dm)) eqn:P2; [|congruence].
      destruct (side_arg ps r "from_dir" _ _ _) eqn:S1; [|congruence].
      destruct (side_arg ps r "to_dir" _ _ _) eqn:S2; [|congruence].
      repeat split; first [eapply point_arg_has; eassumption|eapply side_arg_has; eassumption].
    - unfold circ_args in H. destruct (point_arg ps r "at" (d_meta dm)) eqn:P1; [|congruence].
      destruct (point_arg ps r "dir" (d_meta dm)) eqn:P2; [|congruence].
      destruct (point_arg ps r "center" (d_meta dm)) eqn:P3; [|congruence].
      repeat split; first [eapply point_arg_has; eassumption|eapply side_arg_has; eassumption].
    - unfold dim_args in H. destruct (point_arg ps r "at" (d_meta dm)) eqn:P1; [|congruence].
      destruct (point_arg ps r "dir" (d_meta dm)) eqn:P2; [|congruence].
      destruct (point_arg ps r "from" (d_meta dm)) eqn:P3; [|congruence].
      destruct (point_arg ps r "to" (d_meta dm)) eqn:P4; [|congruence].
      repeat split; first [eapply point_arg_has; eassumption|eapply side_arg_has; eassumption].
    - unfold circ_args in H. destruct (point_arg ps r "at" (d_meta dm)) eqn:P1; [|congruence].
      destruct (point_arg ps r "dir" (d_meta dm)) eqn:P2; [|congruence].
      destruct (point_arg ps r "center" (d_meta dm)) eqn:P3; [|congruence].
      repeat split; first [eapply point_arg_has; eassumption|eapply side_arg_has; eassumption].
  Qed.
  Lemma incomplete_rejected fs src c d k ml : parses src c d -> block d k ml -> ~ complete k ml -> ~ converts fs src c.
  Proof.
    intros HP HB HN HC. destruct (converts_doc_ok HC HP) as (st & lg & _ & HD).
    destruct (doc_ok_block HD HB) as (_ & _ & O). apply HN. destruct k as [| | |k]; try exact I.
    destruct O as (ps & r & dm & V & <- & <-). exact (valid_complete V).
  Qed.

  (** ** References *)
  Definition model_good (fs : files) (m : model) : Prop :=
    exists c f lg, first_open fs (candidates (mo_source m)) = Some c /\ stl_make c = Ret (Some f, lg).
  Lemma load_files_ok fs : forall ms st st' lg, ssorted bytes_ltb (map fst st) -> load_files fs ms st = Ret (st', lg, true) ->
    ssorted bytes_ltb (map fst st') /\
    Forall (model_good fs) ms /\ NoDup (map mo_name ms) /\
    (forall m, In m ms -> smap_find bytes_ltb (mo_name m) st = None) /\
    (forall n, smap_find bytes_ltb n st' =
       match smap_find bytes_ltb n st with Some v => Some v | None =>
         match find (fun m => bytes_eqb (mo_name m) n) ms with
         | Some m => match first_open fs (candidates (mo_source m)) with
                     | Some c => match stl_make c with Ret (o, _) => Some o | _ => None end
                     | None => None end
         | None => None end end).
  Proof.
    induction ms as [|m ms IH]; intros st st' lg Hs; cbn [load_files].
    - intro H; injection H as <- <-. split; [exact Hs|]. split; [constructor|]. split; [constructor|]. split; [simpl; tauto|].
      intro n. simpl. destruct (smap_find _ n st); reflexivity.
    - rewrite obind_ret. intros ([[st1 lg1] ok1] & H1 & H). rewrite obind_ret in H.
      destruct H as ([[st2 lg2] ok2] & H2 & H). injection H as <- <- HK. apply andb_true_iff in HK. destruct HK as [-> ->].
      unfold load_one in H1. destruct (smap_find bytes_ltb (mo_name m) st) eqn:F; [discriminate|].
      destruct (first_open fs (candidates (mo_source m))) as [c|] eqn:O; [|discriminate].
      rewrite obind_ret in H1. destruct H1 as ([rd lgm] & HM & H1).
      destruct rd as [f|]; [|discriminate]. injection H1 as <- <-.
      assert (Hs1 : ssorted bytes_ltb (map fst (smap_emplace bytes_ltb (mo_name m) (Some f) st)))
        by (apply (emplace_sorted bytes_swo); auto; apply Forall_true).
      destruct (IH _ _ _ Hs1 H2) as (S' & G & N & D & FD).
      assert (SF : forall n, smap_find bytes_ltb n (smap_emplace bytes_ltb (mo_name m) (Some f) st) =
                 if bytes_eqb (mo_name m) n then Some (Some f) else smap_find bytes_ltb n st).
      { intro n. destruct (bytes_eqb (mo_name m) n) eqn:Eq.
        - apply bytes_eqb_eq in Eq. subst n. apply (find_emplace_same bytes_swo); auto; apply Forall_true.
        - apply (find_emplace_other bytes_swo); auto; try apply Forall_true.
          intro Hv. apply bytes_eqv in Hv. subst n. rewrite bytes_eqb_refl in Eq. discriminate. }
      split; [exact S'|]. split; [constructor; [exists c, f, lgm; auto|exact G]|]. split.
      { simpl. constructor; [|exact N]. intro HI. apply in_map_iff in HI. destruct HI as (m' & Hn & HI).
        specialize (D m' HI). rewrite SF, <- Hn, bytes_eqb_refl in D. discriminate. }
      split.
      { intros m' [<-|HI]; [exact F|]. specialize (D m' HI). rewrite SF in D. destruct (bytes_eqb _ _); [discriminate|exact D]. }
      intro n. rewrite FD, SF. cbn [find]. destruct (bytes_eqb (mo_name m) n) eqn:Eq.
      + apply bytes_eqb_eq in Eq. subst n. rewrite F, O, HM. reflexivity.
      + reflexivity.
  Qed.
End Script.
