(** P_Size.v - the number of lines, arcs and texts of a page. *)
From Verif Require Import Base Num Geo Stl StlRead Env Ast Lexer Parser Ps Draw Main DocSpec LangSpec P_Base P_Order P_Meta P_Frame P_Dims P_Doc P_Part P_Hide P_Script4 SizeSpec.
From Coq Require Import List Bool Lia Arith Permutation.
Import ListNotations.
Local Unset Implicit Arguments.

Section Size.
  Context {A : Arith} {E : Env}.

  Lemma cull_len l : length (cull_facets l) <= length l.
  Proof.
    unfold cull_facets. enough (G : forall fuel i j l, length (cull_loop fuel i j l) <= j) by apply G.
    induction fuel as [|fuel IH]; intros i j k; cbn [cull_loop]; [rewrite firstn_length; lia|].
    destruct (i <? j); [|rewrite firstn_length; lia]. destruct (nth_error k i) as [f|]; [|rewrite firstn_length; lia].
    destruct (nle (z3 (fnorm f)) nz); [|apply IH]. eapply Nat.le_trans; [apply IH|lia].
  Qed.
  Lemma add_edge_most s e f : length (i_edges (add_edge s e f)) <= S (length (i_edges s)).
  Proof. unfold add_edge. destruct (smap_find _ _ _); cbn [i_edges]; rewrite ?app_length; cbn [length]; lia. Qed.
  Lemma collect_most fs : length (i_edges (collect_edges fs)) <= 3 * length fs.
  Proof.
    unfold collect_edges. enough (G : forall l s, length (i_edges (fold_left add_facet l s)) <= 3 * length l + length (i_edges s)).
    { eapply Nat.le_trans; [apply G|]. unfold enum. rewrite combine_length, seq_length, Nat.min_id. cbn [i_edges length]. lia. }
    induction l as [|[n f] l IH]; intro s; cbn [fold_left length]; [lia|]. eapply Nat.le_trans; [apply IH|]. unfold add_facet.
    pose proof (add_edge_most s (side f 0) n). pose proof (add_edge_most (add_edge s (side f 0) n) (side f 1) n). pose proof (add_edge_most (add_edge (add_edge s (side f 0) n) (side f 1) n) (side f 2) n). lia.
  Qed.
  Lemma hide_loop_len fs fuel : forall i j ef es, snd (hide_loop fs fuel i j ef es) <= j.
  Proof.
    induction fuel as [|fuel IH]; intros i j ef es; cbn [hide_loop]; [cbn; lia|]. destruct (i <? j); [|cbn; lia].
    destruct (nth_error ef i) as [p|]; [|cbn; lia]. destruct (smooth fs p); [|apply IH]. eapply Nat.le_trans; [apply IH|lia].
  Qed.
  Lemma index_unseen fs m : index fs = Ret m -> facets m = fs /\ unseen m <= 3 * length fs /\ length (face_edge m) = length fs.
  Proof.
    intro H. destruct (index_range _ H) as (F & _ & L). split; [exact F|]. split; [|exact L]. unfold index in H. destruct (strict_weak edge_order (map_keys fs)); [|discriminate].
    pose proof (hide_loop_len fs (length (i_edges (collect_edges fs))) 0 (length (i_edges (collect_edges fs))) (i_ef (collect_edges fs)) (i_edges (collect_edges fs))) as HL.
    destruct (hide_loop _ _ _ _ _ _) as [[ef es] un]. cbn [snd] in HL. apply obind_ret in H. destruct H as (fe & _ & H). injection H as <-. cbn [unseen]. pose proof (collect_most fs). lia.
  Qed.

  Lemma gen_fold p : forall hs st r, fold_left (gen_step p) hs st = Ret r -> exists s0, st = Ret s0 /\ length (snd r) <= length (snd s0) + length hs.
  Proof.
    induction hs as [|h hs IH]; intros st r H; cbn [fold_left] in H.
    - exists r. split; [exact H|cbn [length]; lia].
    - apply IH in H. destruct H as (s1 & H1 & L). unfold gen_step in H1. apply obind_ret in H1. destruct H1 as ([[from d] out] & -> & H1). exists (from, d, out). split; [reflexivity|].
      apply obind_ret in H1. destruct H1 as (x & _ & H1). injection H1 as <-. cbn [snd length] in *. destruct (nlt d _); rewrite ?app_length in L; cbn [length] in L; lia.
  Qed.
  Lemma gen_edge_most mn p hs ls : gen_edge mn p hs = Ret ls -> length ls <= length hs + 1.
  Proof.
    intro H. unfold gen_edge in H. apply obind_ret in H. destruct H as ([[from d] out] & H & Q). apply gen_fold in H. destruct H as (s0 & E0 & L). injection E0 as <-. cbn [snd length] in L.
    injection Q as <-. destruct (ngt _ _); rewrite ?app_length; cbn [length]; lia.
  Qed.
  Lemma collect_some_len {T} (l : list (option T)) : length (collect_some l) <= length l.
  Proof. induction l as [|[x|] l IH]; cbn [collect_some length]; lia. Qed.
  Lemma edge_hides_most s hbe v hs : edge_hides s hbe v = Ret hs -> length hs <= length (facets s).
  Proof.
    unfold edge_hides. destruct (nth_error (edges s) v) as [ev|]; [|discriminate]. destruct (nth_error hbe v) as [hb|]; [|discriminate]. destruct (_ <? _); [discriminate|]. intro H.
    apply obind_ret in H. destruct H as (l & H & Q). injection Q as <-. apply omap_length in H. rewrite combine_length in H. pose proof (collect_some_len l). lia.
  Qed.
  Lemma concat_most {X} (ls : list (list X)) k : Forall (fun l => length l <= k) ls -> length (concat ls) <= length ls * k.
  Proof. induction 1 as [|l ls H F IH]; cbn [concat length]; [lia|]. rewrite app_length. lia. Qed.
  Lemma imap_find_in {T} k (m : list (nat * T)) x : imap_find k m = Some x -> exists k', In (k', x) m.
  Proof.
    unfold imap_find. induction m as [|[k' y] m IH]; cbn [smap_find]; [discriminate|]. destruct (k' <? k).
    - intro H. destruct (IH H) as [q I]. exists q. right. exact I.
    - destruct (k <? k'); [discriminate|]. intro H. injection H as ->. exists k'. left. reflexivity.
  Qed.
  Lemma to_lines_most s ls : to_lines s = Ret ls -> length ls <= unseen s * (length (facets s) + 1).
  Proof.
    unfold to_lines. intro H. apply obind_ret in H. destruct H as (hbe & _ & H). apply obind_ret in H. destruct H as (hides & HH & H).
    assert (HM : forall v hs, In (v, hs) hides -> length hs <= length (facets s)).
    { clear H. apply omap_ret in HH. revert HH. generalize (seq 0 (unseen s)). intros l F. induction F as [|v [v' hs] l ys Hy F IH]; intros w hw I; [destruct I|].
      destruct I as [I|I]; [|exact (IH w hw I)]. injection I as <- <-. destruct (nth_error (edges s) v) as [p|]; [|discriminate]. apply obind_ret in Hy. destruct Hy as (h0 & H0 & Hy).
      apply obind_ret in Hy. destruct Hy as (h1 & H1 & Hy). injection Hy as <- <-. apply edge_hides_most in H0. unfold sort_hides in H1. apply std_sort_ret in H1. destruct H1 as [P _].
      apply Permutation_length in P. lia. }
    unfold generate_lines in H. apply obind_ret in H. destruct H as (lss & HL & Q). injection Q as <-.
    assert (L : length lss = unseen s) by (apply omap_length in HL; rewrite seq_length in HL; exact HL). rewrite <- L. apply concat_most.
    apply omap_ret in HL. clear L HH. revert HL. generalize (seq 0 (unseen s)). intros l HL. induction HL as [|i y l ys Hy F IH]; [constructor|]. constructor; [|exact IH]. destruct (nth_error (edges s) i) as [p|]; [|discriminate].
    apply gen_edge_most in Hy. destruct (imap_find i hides) as [h|] eqn:IF; [|cbn [length] in Hy; lia]. apply imap_find_in in IF. destruct IF as [k I]. specialize (HM _ _ I). lia.
  Qed.
  (** A view of a model. *)
  Lemma view_most s r p ls : rotate s r = Ret p -> to_lines (cull_back_face p) = Ret ls -> length ls <= most_lines (length (facets s)).
  Proof.
    intros R T. unfold rotate in R. apply index_unseen in R. destruct R as (F & U & _). apply to_lines_most in T. cbn [cull_back_face facets unseen] in T. pose proof (cull_len (facets p)) as C1.
    pose proof (cull_len (map (rotate_facet r) (facets s))) as C2. rewrite map_length in C2. rewrite F in C1, T. unfold most_lines.
    eapply Nat.le_trans; [exact T|]. apply Nat.mul_le_mono; [|lia]. lia.
  Qed.

  (** ** Items and pages *)
  Lemma add_dims_most f : forall ds s s' ds' ok rot, add_dims f ds rot s = Ret (s', ds', ok) ->
    exists p, v_page s' = plus_page (v_page s) p /\ at_most p (8 * length ds, length ds, length ds).
  Proof.
    intros ds s s' ds' ok rot H. unfold add_dims in H. destruct (strict_weak _ _); [|discriminate].
    enough (G : forall ds s s' ds' ok, visit_dims ds s = Ret (s', ds', ok) -> exists p, v_page s' = plus_page (v_page s) p /\ at_most p (8 * length ds, length ds, length ds)).
    { apply G in H. exact H. }
    clear. induction ds as [|d ds IH]; intros s s' ds' ok H; cbn [visit_dims] in H.
    - injection H as <- <- <-. exists opage_empty. split; [destruct (v_page s); unfold plus_page; cbn; rewrite !app_nil_r; reflexivity|]. repeat split; cbn; lia.
    - apply obind_ret in H. destruct H as ([[s1 d1] ok1] & H1 & H). apply obind_ret in H. destruct H as ([[s2 ds2] ok2] & H2 & H). injection H as <- _ _.
      destruct (IH _ _ _ _ H2) as (p2 & P2 & L2). destruct (dim_parts _ _ H1) as [Y N]. destruct ok1.
      + destruct (Y eq_refl) as (p1 & P1 & C1). exists (plus_page p1 p2). split.
        * rewrite P2, P1. unfold plus_page. cbn. rewrite !app_assoc. reflexivity.
        * unfold counts in C1. destruct L2 as (L2 & L3 & L4). cbn [fst snd] in *. unfold at_most, plus_page. cbn [o_lines o_arcs o_text fst snd length]. rewrite !app_length.
          destruct (d_kind d); cbn [parts] in C1; injection C1 as -> -> ->; lia.
      + rewrite (N eq_refl) in P2. exists p2. split; [exact P2|]. destruct L2 as (L2 & L3 & L4). cbn [fst snd] in *. unfold at_most. cbn [fst snd length]. lia.
  Qed.
  Lemma papp_nil p : plus_page p opage_empty = p.
  Proof. destruct p. unfold plus_page. cbn. rewrite !app_nil_r. reflexivity. Qed.
  Lemma page_get_scale ml p s : v_page (fst (get_scale ml p s)) = v_page s.
  Proof. unfold get_scale. destruct p as [i|]; [|reflexivity]. destruct (nth_error ml i) as [m|]; [|reflexivity]. destruct (as_scale m); reflexivity. Qed.
  Lemma page_get_view ml p s : v_page (fst (get_view ml p s)) = v_page s.
  Proof.
    unfold get_view. destruct p as [i|]; [|reflexivity]. destruct (nth_error ml i) as [m|]; [|reflexivity]. destruct (as_loc m); [reflexivity|]. destruct (as_str m) as [t|]; [|reflexivity].
    repeat (match goal with |- context [match ?x with _ => _ end] => destruct x end; try reflexivity).
  Qed.
  Lemma draw_most st l n ml ds s s' ds' ok : visit_draw st l n ml ds s = Ret (s', ds', ok) ->
    exists p, v_page s' = plus_page (v_page s) p /\ at_most p (item_most st (DDraw l n ml ds)).
  Proof.
    intro H. cbn [item_most]. unfold visit_draw in H. destruct (flatten "draw" ml) as [[ok0 m0] lg].
    assert (Z : forall s1 : vst, v_page s1 = v_page s -> exists p, v_page s1 = plus_page (v_page s) p /\
      at_most p (match model_of st n with Some s => most_lines (length (facets s)) | None => 0 end + 8 * length ds, length ds, length ds)).
    { intros s1 Q. exists opage_empty. rewrite papp_nil. split; [exact Q|]. repeat split; cbn; lia. }
    destruct (negb ok0); [injection H as <- _ _; apply Z; reflexivity|]. destruct (take "scale" m0) as [p_scale m1].
    pose proof (page_get_scale ml p_scale (log_all lg s)) as PS. destruct (get_scale ml p_scale (log_all lg s)) as [s1 sc]. cbn [fst] in PS. cbn [v_page log_all] in PS.
    destruct sc as [ab|]; [|injection H as <- _ _; apply Z; exact PS]. destruct (smap_find bytes_ltb n st) as [fo|] eqn:MF; [|injection H as <- _ _; apply Z; exact PS].
    destruct (take "view" m1) as [p_view m2].
    match type of H with context [get_view ml p_view ?x] => pose proof (page_get_view ml p_view x) as PV; destruct (get_view ml p_view x) as [s2 vw] end. cbn [fst v_page] in PV.
    destruct vw as [rot|]; [|injection H as <- _ _; apply Z; congruence]. destruct (take "@" m2) as [p_loc m3]. apply obind_ret in H. destruct H as (lc & _ & H).
    destruct fo as [file|]; [|discriminate]. apply obind_ret in H. destruct H as (proj0 & HR & H). cbv zeta in H. apply obind_ret in H. destruct H as (ls & HL & H).
    apply obind_ret in H. destruct H as ([[s3 ds3] ok3] & HD & H). apply add_dims_most in HD. destruct HD as (p & P & L). pose proof (view_most _ _ _ _ HR HL) as VM.
    assert (R : v_page s' = v_page s3).
    { destruct (negb ok3); [injection H as <- _ _; reflexivity|]. destruct m3; injection H as <- _ _; reflexivity. }
    rewrite R, P. unfold model_of. rewrite MF. cbn [add_lines set_page v_page]. rewrite PV, PS. eexists (OPage (map _ ls ++ o_lines p) (o_arcs p) (o_text p)). split.
    - unfold plus_page. cbn [o_lines o_arcs o_text]. rewrite <- app_assoc. reflexivity.
    - destruct L as (L1 & L2 & L3). cbn [fst snd] in *. unfold at_most. cbn [o_lines o_arcs o_text fst snd]. rewrite app_length, map_length. lia.
  Qed.
  Lemma text_lines_most at_ ls : length (text_lines at_ ls) <= length ls.
  Proof. revert at_. induction ls as [|w ls IH]; intro a; cbn [text_lines length]; [lia|]. rewrite app_length. specialize (IH (V2 (x2 a) (nsub (y2 a) (of_Z 12)))). destruct w; cbn [length]; lia. Qed.
  Lemma split_lf t : length (split_on LF t) = newlines t + 1.
  Proof.
    unfold newlines. induction t as [|c t IH]; [reflexivity|]. cbn [split_on count_occ]. destruct (byte_eqb_spec c LF) as [->|N].
    - cbn [length]. rewrite IH. destruct (Ascii.ascii_dec LF LF); [lia|congruence].
    - destruct (Ascii.ascii_dec c LF); [congruence|]. destruct (split_on LF t); cbn [length] in *; lia.
  Qed.
  Lemma item_within st d s s' d' ok : visit_drawable st d s = Ret (s', d', ok) -> exists p, v_page s' = plus_page (v_page s) p /\ at_most p (item_most st d).
  Proof.
    destruct d as [l n ml ds|l t ml]; cbn [visit_drawable]; intro H; apply obind_ret in H.
    - destruct H as ([[s1 ds1] ok1] & H & Q). injection Q as <- _ _. exact (draw_most _ _ _ _ _ _ _ _ _ H).
    - destruct H as ([s1 ok1] & H & Q). injection Q as <- _ _. unfold visit_text in H. destruct (flatten "draw" ml) as [[ok0 m0] lg].
      destruct (negb ok0). { injection H as <- _. exists opage_empty. rewrite papp_nil. split; [reflexivity|]. repeat split; cbn; lia. }
      destruct (take "@" m0) as [p_loc m1]. apply obind_ret in H. destruct H as (at0 & _ & H). cbv zeta in H.
      assert (R : v_page s1 = plus_page (v_page s) (OPage [] [] (text_lines (add2 at0 page_mid) (split_on LF t)))).
      { destruct m1; injection H as <- _; unfold plus_page; cbn; rewrite !app_nil_r; reflexivity. }
      eexists. split; [exact R|]. unfold at_most. cbn. pose proof (text_lines_most (add2 at0 page_mid) (split_on LF t)) as TL. rewrite split_lf in TL. lia.
  Qed.
  Lemma items_within st : forall ds s s' ds' ok, visit_drawables st ds s = Ret (s', ds', ok) ->
    exists p, v_page s' = plus_page (v_page s) p /\ at_most p (fold_right add_most (0, 0, 0) (map (item_most st) ds)).
  Proof.
    induction ds as [|d ds IH]; intros s s' ds' ok H; cbn [visit_drawables] in H.
    - injection H as <- _ _. exists opage_empty. rewrite papp_nil. split; [reflexivity|]. repeat split; cbn; lia.
    - apply obind_ret in H. destruct H as ([[s1 d1] ok1] & H1 & H). apply obind_ret in H. destruct H as ([[s2 ds2] ok2] & H2 & H). injection H as <- _ _.
      destruct (item_within _ _ _ _ _ _ H1) as (p1 & P1 & L1). destruct (IH _ _ _ _ H2) as (p2 & P2 & L2). exists (plus_page p1 p2). split.
      + rewrite P2, P1. unfold plus_page. cbn. rewrite !app_assoc. reflexivity.
      + cbn [map fold_right]. unfold at_most, add_most, plus_page in *. cbn [o_lines o_arcs o_text fst snd]. rewrite !app_length. lia.
  Qed.
  Lemma most_shift l a : fold_right add_most (add_most a (0, 0, 0)) l = add_most a (fold_right add_most (0, 0, 0) l).
  Proof.
    induction l as [|x l IH]; cbn [fold_right]; [reflexivity|]. rewrite IH. destruct a as [[a1 a2] a3], x as [[x1 x2] x3], (fold_right add_most _ l) as [[y1 y2] y3].
    unfold add_most. cbn [fst snd]. f_equal; [f_equal|]; lia.
  Qed.
  Lemma page_within st n pg s s' pg' ok : gen_page st n pg s = Ret (s', pg', ok) -> at_most (v_page s') (page_most st pg).
  Proof.
    unfold gen_page. destruct (flatten "page" (pg_meta pg)) as [[ok0 m0] lg]. destruct (take "name" m0) as [p_name m1]. cbv zeta.
    set (X := match p_name with None => _ | Some i => _ end). assert (PX : v_page (fst (fst X)) = opage_empty).
    { unfold X. destruct p_name as [i|]; [|reflexivity]. destruct (nth_error (pg_meta pg) i) as [m|]; [|reflexivity]. destruct (as_str m); reflexivity. }
    destruct X as [[s1 name] ok1]. cbn [fst] in PX. intro H. apply obind_ret in H. destruct H as ([[s2 ds2] ok2] & H & Q). apply items_within in H. destruct H as (p & P & L).
    set (Y := match m1 with [] => _ | _ :: _ => _ end) in Q. assert (PY : v_page (fst Y) = add_header (v_page s2) name) by (unfold Y; destruct m1; reflexivity).
    destruct Y as [s3 ok3]. injection Q as <- _ _. cbn [fst] in PY. rewrite PY, P, PX. unfold page_most.
    change (2, 0, 1) with (add_most (2, 0, 1) (0, 0, 0)). rewrite most_shift. unfold at_most, add_most, add_header, plus_page in *. cbn [o_lines o_arcs o_text fst snd opage_empty app]. rewrite !app_length. cbn [length]. lia.
  Qed.
  Lemma pages_within st d os d' lg ok : generate_pages st d = Ret (os, d', lg, ok) -> Forall2 (fun pg o => at_most o (page_most st pg)) (doc_pages d) os.
  Proof.
    intro H. unfold generate_pages in H. apply obind_ret in H. destruct H as ([[[s pgs] os1] ok1] & H & Q). injection Q as -> _ _ _. revert H. generalize 1. generalize vst_init.
    revert s pgs os ok1. induction (doc_pages d) as [|pg t IH]; intros s pgs os ok1 s0 n H; cbn [gen_pages] in H.
    - injection H as _ _ <- _. constructor.
    - apply obind_ret in H. destruct H as ([[s1 pg1] ok2] & H1 & H). apply obind_ret in H. destruct H as ([[[s2 t2] os2] ok3] & H2 & H). injection H as _ _ <- _.
      constructor; [exact (page_within _ _ _ _ _ _ _ H1)|exact (IH _ _ _ _ _ _ H2)].
  Qed.
  (** The output of a run. *)
  Lemma script_within fs src c r : script_to_ps fs src c = Ret r -> r_ok r = true ->
    exists d st lg os, parses src c d /\ load_files fs (doc_models d) [] = Ret (st, lg, true) /\ r_out r = render_pages src os /\ Forall2 (fun pg o => at_most o (page_most st pg)) (doc_pages d) os.
  Proof.
    intros H OK. unfold script_to_ps in H. apply obind_ret in H. destruct H as ([[rc d] lg0] & P & H). destruct (rc =? 0) eqn:R; [|injection H as <-; discriminate OK]. apply Nat.eqb_eq in R. subst rc.
    apply obind_ret in H. destruct H as (r0 & H & Q). injection Q as <-. cbn [r_ok r_out] in *. unfold doc_to_ps in H. apply obind_ret in H. destruct H as ([[st lg] ok] & L & H).
    destruct ok; cbn [negb] in H; [|injection H as <-; discriminate OK]. apply obind_ret in H. destruct H as ([[[os d'] lg'] ok] & G & H). destruct ok; cbn [negb] in H; [|injection H as <-; discriminate OK].
    injection H as <-. exists d, st, lg, os. split; [exists lg0; exact P|]. split; [exact L|]. split; [reflexivity|]. exact (pages_within _ _ _ _ _ _ G).
  Qed.
End Size.
