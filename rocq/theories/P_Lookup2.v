(** P_Lookup2.v - conversions that pass all checks of DrawLk.v: all of them in exact arithmetic, and in
    doubles those of moderate size that do not look for a point near the center of a circle. *)
From Coq Require Import Reals Lra List Bool Lia ZArith.
From Flocq Require Import Core.Raux IEEE754.BinarySingleNaN.
From Verif Require Import Base Num Geo Stl StlRead Env Ast Lexer Parser Ps Draw Main DrawLk NumF64 NumReal NumLaws
  P_Base P_Order P_Meta P_Frame P_Dims P_Doc DocSpec GeoSpec P_Script P_Script2 P_Hide P_Geo1 P_Part P_Index F64Spec P_Bound
  LangSpec EndSpec Grammar P_Parser3 P_Dead StlSpec P_Stl P_Lang P_Total LookSpec P_Lookup FiniteSpec P_Finite P_Finite2 RealSpec P_Real.
Import ListNotations.

Local Unset Implicit Arguments.

Section Gen.
  Context {A : Arith}.
  Lemma mm_insert_P (P : num -> Prop) d p c : P d -> Forall (fun kv => P (fst kv)) c -> Forall (fun kv => P (fst kv)) (mm_insert d p c).
  Proof.
    intros Hd. induction 1 as [|[k q] c Hk Hc IH]; cbn [mm_insert]; [constructor; [exact Hd|constructor]|].
    destruct (_ <? _)%num; constructor; auto. 
  Qed.
  Lemma In_firstn {X} (x : X) n l : In x (firstn n l) -> In x l.
  Proof. intro I. rewrite <- (firstn_skipn n l). apply in_or_app. left; exact I. Qed.
  (** Distances of one kind can be compared. *)
  Lemma closest_fine (P : num -> Prop) to : (forall l, Forall P l -> strict_weak nlt l = true) -> forall ps count c,
    (forall p, In p ps -> P (sqn2 (sub2 p to))) -> Forall (fun kv => P (fst kv)) c -> closest_ok count to c ps = true.
  Proof.
    intros SW. induction ps as [|p ps IH]; intros count c HP HC; cbn [closest_ok]; [reflexivity|]. cbv zeta.
    assert (Hd : P (sqn2 (sub2 p to))) by (apply HP; left; reflexivity).
    rewrite (SW (sqn2 (sub2 p to) :: map fst c)), orb_true_r by (constructor; [exact Hd|]; apply Forall_map; exact HC). cbn [andb].
    apply IH; [intros q I; apply HP; right; exact I|]. unfold closest_step. cbv zeta. destruct (match last_key c with Some k => _ | None => _ end); [exact HC|].
    destruct (existsb _ _); [exact HC|]. apply Forall_forall. intros kv I. apply In_firstn in I.
    pose proof (mm_insert_P P (sqn2 (sub2 p to)) p c Hd HC) as F. rewrite Forall_forall in F. exact (F kv I).
  Qed.
  Lemma incomparable_fine (P : num -> Prop) : (forall x y, P x -> P y -> (x <? y)%num = false) -> forall l, Forall P l -> strict_weak nlt l = true.
  Proof.
    intros H l F. apply (strict_weak_ok (P := P)); [|exact F]. constructor.
    - intros x Hx. apply H; exact Hx.
    - intros x y z Hx Hy Hz L. rewrite (H x y Hx Hy) in L. discriminate L.
    - intros x y z Hx Hy Hz L. rewrite (H x z Hx Hz) in L. discriminate L.
  Qed.
  Lemma lookups_gen (O : ordered A) (G : point -> Prop) ps : Forall ok3 ps -> (forall t, closest_ok 3 t [] (map xy ps) = true) ->
    (forall n q l, G (PFunc n q l) -> G q) -> (forall q l v, G (PFunc (B "near") q l) -> snd (invoke ps q) = Some v -> ok3 v) ->
    forall p, G p -> lookups_ok ps p = true.
  Proof.
    intros OK CL GS GN. induction p as [v l|n q IH l]; intro HG; [reflexivity|]. specialize (IH (GS _ _ _ HG)). cbn [lookups_ok].
    destruct (bytes_eqb n (B "near")) eqn:N.
    - apply bytes_eqb_eq in N. subst n. destruct ps as [|x t] eqn:Q; [reflexivity|]. rewrite <- Q in *. rewrite IH. cbn [andb].
      destruct (snd (invoke ps q)) as [v|] eqn:V; [|reflexivity]. apply (strict_weak_ok (order_swo O)). constructor; [exact (GN _ _ _ HG V)|exact OK].
    - destruct (bytes_eqb n (B "center")); [|reflexivity]. destruct (_ <? _); [reflexivity|]. rewrite IH. cbn [andb].
      destruct (snd (invoke ps q)) as [v|]; [apply CL|reflexivity].
  Qed.
  Lemma set_nth_in {X} (x y : X) l i : In y (set_nth i x l) -> y = x \/ In y l.
  Proof.
    unfold set_nth. destruct (i <? length l); [|auto]. intro H. apply in_app_or in H. destruct H as [H|[H|H]]; [right; exact (In_firstn _ _ _ H)|auto|].
    right. rewrite <- (firstn_skipn (S i) l). apply in_or_app. right; exact H.
  Qed.
End Gen.

(** ** Exact arithmetic *)
Section Exact.
  #[local] Existing Instance XR.
  Context {E : @Env XR}.
  Local Open Scope R_scope.
  Lemma xok (x : xr) : x <> NaN -> @ok XR x.
  Proof. destruct x as [r| | |]; intro H; try reflexivity; [|congruence]. unfold ok. cbn. unfold reqb. destruct (Req_EM_T r r); [reflexivity|congruence]. Qed.
  Lemma known_ok v : known v -> ok3 v.
  Proof. intros [p ->]. repeat split; apply xok; discriminate. Qed.
  Lemma xdist_kind (to : @v2 XR) : (forall p, @ok XR (sqn2 (sub2 (xy (emb p)) to))) \/ (forall p, @sqn2 XR (sub2 (xy (emb p)) to) = NaN).
  Proof.
    destruct to as [a b]. destruct a as [a| | |], b as [b| | |]; ((left; intro p; apply xok; discriminate) || (right; intro p; reflexivity)).
  Qed.
  Lemma xclosest ps (t : @v2 XR) : @closest_ok XR 3 t [] (map xy (map emb ps)) = true.
  Proof.
    destruct (xdist_kind t) as [H|H].
    - apply (closest_fine (@ok XR)); [exact (fun l => strict_weak_ok (num_swo XR_ordered))| |constructor].
      intros p I. apply in_map_iff in I. destruct I as (v & <- & I). apply in_map_iff in I. destruct I as (q & <- & _). apply H.
    - apply (closest_fine (fun x : @num XR => x = NaN)); [apply incomparable_fine; intros x y -> ->; reflexivity| |constructor].
      intros p I. apply in_map_iff in I. destruct I as (v & <- & I). apply in_map_iff in I. destruct I as (q & <- & _). apply H.
  Qed.
  Lemma xlookups ps p : known (triple p) -> lookups_ok (map emb ps) p = true.
  Proof.
    apply (lookups_gen XR_ordered (fun p => known (triple p))).
    - apply Forall_forall. intros v I. apply in_map_iff in I. destruct I as (q & <- & _). apply known_ok. exists q. reflexivity.
    - apply xclosest.
    - intros n q l H. exact H.
    - intros q l v H V. apply known_ok. exact (invoke_known ps q H _ V).
  Qed.
  Definition xfine (ps : point_set) (r : m3) (n : nat) (ml : list meta) : Prop :=
    (exists qs, ps = map emb qs) /\ (exists m, r = embm m) /\ metas_nums real ml.
  Lemma triple_rotate r p : triple (point_rotate r p) = mulm (triple p) r.
  Proof. induction p as [v l|n q IH l]; [reflexivity|exact IH]. Qed.
  Lemma known_list (l : list (@v3 XR)) : Forall known l -> exists qs, l = map emb qs.
  Proof. induction 1 as [|v l [q ->] _ (qs & ->)]; [exists []; reflexivity|exists (q :: qs); reflexivity]. Qed.
  Lemma asked_known ml r : metas_nums real ml -> asks_view ml r -> exists m, r = embm m.
  Proof.
    intros M V. destruct V as [N|x a I Nx Vx|x n r I Nx Vx R].
    - destruct (named_rotation (B "Z+") (@mZP XR) eq_refl) as (m & -> & _). exists m. reflexivity.
    - specialize (M x I). rewrite Vx in M. apply known2_real in M. destruct M as [[a' b'] ->]. destruct (angle_rotation a' b') as (m & Q & _). exists m. exact Q.
    - apply matrix_by_name_iff in R. destruct (named_rotation _ _ R) as (m & -> & _). exists m. reflexivity.
  Qed.
  Lemma exact_checks fs src c : (forall w x, @re2_double XR E w = Some x -> real x) -> (forall w x, @stof XR E w = Some x -> real x) ->
    @script_to_ps_ck XR E fs src c = @script_to_ps XR E fs src c.
  Proof.
    intros RD SF. assert (S : sim False (@script_to_ps_ck XR E fs src c) (@script_to_ps XR E fs src c)); [|destruct S as [S|[_ []]]; exact S].
    apply (script_sim False xfine).
    - intros ps r n ml H. exact H.
    - intros ps r n ml i m p _ ((qs & ->) & (rm & ->) & M) N P. assert (K : known (triple (point_rotate (embm rm) p))).
      { rewrite triple_rotate. specialize (M m (nth_error_In _ _ N)). unfold as_point in P. destruct (m_val m) eqn:V; try discriminate P. injection P as ->.
        cbn in M. apply known_real in M. destruct M as [q ->]. eexists; apply mulm_emb. }
      split; [left; apply xlookups; exact K|]. split; [exists qs; reflexivity|]. split; [exists rm; reflexivity|].
      intros x I. apply set_nth_in in I. destruct I as [->|I]; [|exact (M x I)]. cbn. apply known_nums. exact K.
    - intros ps r n ml t ((qs & ->) & _). left. apply xclosest.
    - intros f r ds p d (dc & pg & l & nm & ml & m & t & lg & HP & Ipg & I & V & _ & _ & _ & M) RO Id.
      destruct (parsed_nums real (fun w x _ => SF w x) _ _ _ HP pg Ipg) as [_ DI]. destruct (DI _ I) as [M1 M2].
      destruct (asked_known ml r M1 V) as (rm & Er).
      split; [|split; [exists rm; exact Er|exact (M2 d Id)]]. subst r.
      rewrite (rotated_culled _ _ _ RO). unfold rotate in RO. destruct (index_range _ RO) as [F _].
      assert (K : Forall known (flat_map fverts (facets p))).
      { rewrite F. apply Forall_forall. intros v Iv. apply in_flat_map in Iv. destruct Iv as (g & Ig & Iv). apply cull_in in Ig. destruct Ig as [Ig _]. apply in_map_iff in Ig. destruct Ig as (g0 & <- & Ig).
        pose proof (model_known _ _ _ RD M) as MK. rewrite Forall_forall in MK. destruct (turned_known g0 rm (MK g0 Ig)) as (K0 & K1 & K2). unfold fverts in Iv. destruct Iv as [<-|[<-|[<-|[]]]]; assumption. }
      apply known_list. apply Forall_forall. intros v Iv. rewrite Forall_forall in K. apply K.
      refine (proj1 (points_exact XR_ordered p _) v Iv). apply Forall_forall. intros w Iw. apply known_ok. apply K. exact Iw.
  Qed.
End Exact.

(** ** Doubles *)
Section Doubles.
  Context (lm : libm) (asc : bool).
  #[local] Instance AF : Arith := F64 lm asc.
  Context {E : Env}.
  Lemma sq_sign x : is_nan x = false -> is_nan (fmul x x) = false /\ (is_finite (fmul x x) = true \/ fmul x x = B754_infinity false).
  Proof.
    destruct x as [sx|sx| |sx mx ex Hx]; intro N; try discriminate N.
    - split; [reflexivity|left; reflexivity].
    - split; [destruct sx; reflexivity|right; destruct sx; reflexivity].
    - pose proof (Bmult_correct 53 1024 prec64 emax64 mode_NE (B754_finite sx mx ex Hx) (B754_finite sx mx ex Hx)) as C.
      fold (fmul (B754_finite sx mx ex Hx) (B754_finite sx mx ex Hx)) in C. destruct (Rlt_bool _ _).
      + destruct C as (_ & C & _). change (is_finite (fmul (B754_finite sx mx ex Hx) (B754_finite sx mx ex Hx)) = true) in C. split; [apply fin_notnan; exact C|left; exact C].
      + assert (Q : fmul (B754_finite sx mx ex Hx) (B754_finite sx mx ex Hx) = B754_infinity false).
        { apply B2SF_inj. refine (eq_trans C _). cbn [Bsign]. rewrite xorb_nilpotent. reflexivity. }
        rewrite Q. split; [reflexivity|right; reflexivity].
  Qed.
  Lemma sub_notnan x y : fin x -> is_nan y = false -> is_nan (fsub x y) = false.
  Proof.
    intros F N. unfold fsub, Bminus. destruct x as [[]|[]| |sx mx ex Hx], y as [[]|[]| |sy my ey Hy]; try discriminate; try reflexivity.
    all: rewrite is_nan_binary_normalize; reflexivity.
  Qed.
  Lemma sum_notnan x y : is_nan x = false -> is_nan y = false -> (is_finite x = true \/ x = B754_infinity false) -> (is_finite y = true \/ y = B754_infinity false) ->
    is_nan (fadd x y) = false.
  Proof.
    intros N1 N2 [F1|F1] [F2|F2].
    - apply notnan_add; assumption.
    - rewrite notnan_sym. apply notnan_add; assumption.
    - apply notnan_add; assumption.
    - subst. reflexivity.
  Qed.
  Lemma nan_sub x y : is_nan y = true -> fsub x y = B754_nan.
  Proof. destruct y; try discriminate. destruct x as [[]|[]| |]; reflexivity. Qed.
  Lemma nan_add_l y : fadd B754_nan y = B754_nan. Proof. destruct y; reflexivity. Qed.
  Lemma nan_add_r y : fadd y B754_nan = B754_nan. Proof. destruct y as [[]|[]| |]; reflexivity. Qed.
  Lemma dist_kind (to : @v2 AF) : (forall p, fin3 lm asc p -> @ok AF (sqn2 (sub2 (xy p) to))) \/ (forall p : @v3 AF, @sqn2 AF (sub2 (xy p) to) = B754_nan).
  Proof.
    assert (S : forall p : @v3 AF, @sqn2 AF (sub2 (xy p) to) = fadd (fmul (fsub (x3 p) (x2 to)) (fsub (x3 p) (x2 to))) (fmul (fsub (y3 p) (y2 to)) (fsub (y3 p) (y2 to)))) by reflexivity.
    destruct (is_nan (x2 to : f64)) eqn:N1.
    { right. intro p. rewrite S, (nan_sub _ _ N1). apply nan_add_l. }
    destruct (is_nan (y2 to : f64)) eqn:N2.
    { right. intro p. rewrite S, (nan_sub _ _ N2). apply nan_add_r. }
    left. intros p (F1 & F2 & _). apply notnan_ok. rewrite S.
    destruct (sq_sign _ (sub_notnan _ _ F1 N1)) as [A1 A2]. destruct (sq_sign _ (sub_notnan _ _ F2 N2)) as [B1 B2]. exact (sum_notnan _ _ A1 B1 A2 B2).
  Qed.
  Lemma fclosest (ps : list (@v3 AF)) (t : @v2 AF) : Forall (fin3 lm asc) ps -> @closest_ok AF 3 t [] (map xy ps) = true.
  Proof.
    intro F. rewrite Forall_forall in F. destruct (dist_kind t) as [H|H].
    - apply (closest_fine (@ok AF)); [exact (fun l => strict_weak_ok (num_swo (F64_ordered lm asc)))| |constructor].
      intros p I. apply in_map_iff in I. destruct I as (v & <- & I). apply H, F, I.
    - apply (closest_fine (fun x : @num AF => x = B754_nan)); [apply incomparable_fine; intros x y -> ->; reflexivity| |constructor].
      intros p I. apply in_map_iff in I. destruct I as (v & <- & I). apply H.
  Qed.
  Lemma near_ok (ps : list (@v3 AF)) t : Forall ok3 ps -> ok3 t -> ok3 (near_of ps t).
  Proof.
    intros F H. unfold near_of. match goal with |- ok3 (if ?c then _ else _) => destruct c end; [exact H|].
    assert (G : forall u l st, Forall ok3 l -> ok3 (snd st) -> ok3 (snd (fold_left (near_step u) l st))).
    { intros u. induction l as [|p l IH]; intros [r0 ret] Fl K; [exact K|]. cbn [fold_left]. inversion Fl as [|? ? Hp Fl']; subst. apply IH; [exact Fl'|]. unfold near_step.
      match goal with |- ok3 (snd (if ?c then _ else _)) => destruct c end; [|exact K]. cbn [snd]. destruct Hp as (H1 & H2 & _). split; [exact H1|]. split; [exact H2|]. reflexivity. }
    apply G; [exact F|]. repeat split; reflexivity.
  Qed.
  Lemma no_centre_ok ps p : Forall ok3 ps -> ok3 (triple p) -> ~ has_centre p -> forall v, snd (invoke ps p) = Some v -> ok3 v.
  Proof.
    intro F. induction p as [v l|n q IH l]; intros K NC w H.
    - cbn in H. injection H as <-. exact K.
    - cbn [triple] in K. cbn [has_centre] in NC. specialize (IH K (fun X => NC (or_intror X))). cbn [invoke] in H. destruct (bytes_eqb n (B "near")) eqn:N.
      + destruct ps as [|x t] eqn:M; [discriminate H|]. rewrite <- M in *. destruct (invoke ps q) as [lg [u|]]; [|discriminate H]. cbn [snd] in *. injection H as <-.
        apply near_ok; [exact F|]. exact (IH u eq_refl).
      + destruct (bytes_eqb n (B "center")) eqn:C; [|discriminate H]. apply bytes_eqb_eq in C. exfalso. apply NC. left. exact C.
  Qed.
  Lemma flookups ps p : Forall (fin3 lm asc) ps -> ok3 (triple p) -> ~ near_centre p -> lookups_ok ps p = true.
  Proof.
    intros F K N. assert (FO : Forall ok3 ps).
    { eapply Forall_impl; [|exact F]. intros v (H1 & H2 & H3). split; [|split]; apply fin_ok; assumption. }
    apply (lookups_gen (F64_ordered lm asc) (fun p => ok3 (triple p) /\ ~ near_centre p)).
    - exact FO.
    - intro t. apply fclosest. exact F.
    - intros n q l [H1 H2]. split; [exact H1|]. intro X. apply H2. right; exact X.
    - intros q l v [H1 H2] V. refine (no_centre_ok ps q FO H1 _ v V). intro X. apply H2. left. split; [reflexivity|exact X].
    - split; assumption.
  Qed.
  Definition ffine (ps : point_set) (r : m3) (n : nat) (ml : list meta) : Prop :=
    Forall (fin3 lm asc) ps /\ unitm lm asc r /\ (n <= 4 -> forall x p, In x ml -> m_val x = MPoint p -> bnd3 lm asc (500 + 2 * Z.of_nat n) (triple p) /\ ~ near_centre p)%nat.
  Lemma has_centre_rotate r p : has_centre (point_rotate r p) <-> has_centre p.
  Proof. induction p as [v l|n q IH l]; [reflexivity|]. cbn [point_rotate has_centre]. tauto. Qed.
  Lemma near_centre_rotate r p : near_centre (point_rotate r p) <-> near_centre p.
  Proof. induction p as [v l|n q IH l]; [reflexivity|]. cbn [point_rotate near_centre]. rewrite has_centre_rotate. tauto. Qed.
  Lemma bnd3_mono j k p : (j <= k)%Z -> bnd3 lm asc j p -> bnd3 lm asc k p.
  Proof. intros L (H1 & H2 & H3). split; [|split]; eapply bnd_mono; eauto. Qed.
  Lemma moderate_checks fs src c : trig_bounded lm ->
    (forall d m t, parses src c d -> In m (doc_models d) -> resolves fs (mo_source m) t -> plain_model lm asc t) ->
    (forall d pg l n ml ds x a, parses src c d -> In pg (doc_pages d) -> In (DDraw l n ml ds) (pg_draws pg) -> In x ml -> m_name x = B "view" -> m_val x = MLoc a ->
       bnd 1000 (x2 a) /\ bnd 1000 (y2 a)) ->
    (forall d p, parses src c d -> says_point d p -> bnd3 lm asc 500 (triple p) /\ ~ near_centre p) ->
    script_to_ps_ck fs src c = script_to_ps fs src c.
  Proof.
    intros T MOD VW PT. assert (S : sim False (script_to_ps_ck fs src c) (script_to_ps fs src c)); [|destruct S as [S|[_ []]]; exact S].
    apply (script_sim False ffine).
    - intros ps r n ml (F & U & M). split; [exact F|]. split; [exact U|]. intros L x p I V. destruct (M ltac:(lia) x p I V) as [H1 H2]. split; [|exact H2]. eapply bnd3_mono; [|exact H1]. lia.
    - intros ps r n ml i m p L (F & U & M) N P. assert (V : m_val m = MPoint p) by (unfold as_point in P; destruct (m_val m); try discriminate P; injection P as ->; reflexivity).
      destruct (M ltac:(lia) m p (nth_error_In _ _ N) V) as [H1 H2].
      assert (K : bnd3 lm asc (500 + 2 * Z.of_nat (S n)) (triple (point_rotate r p))).
      { replace (triple (point_rotate r p)) with (mulm (triple p) r) by (clear; induction p as [v l|n q IH l]; [reflexivity|exact IH]).
        replace (500 + 2 * Z.of_nat (S n))%Z with ((500 + 2 * Z.of_nat n) + 0 + 2)%Z by lia. apply bnd_mulm; [lia|exact H1|exact U]. }
      split.
      + left. apply flookups; [exact F| |rewrite near_centre_rotate; exact H2]. destruct K as (K1 & K2 & K3). split; [|split]; eapply bnd_ok; eassumption.
      + split; [exact F|]. split; [exact U|]. intros _ x q I V'. apply set_nth_in in I. destruct I as [->|I].
        * cbn in V'. injection V' as <-. split; [exact K|]. rewrite near_centre_rotate. exact H2.
        * destruct (M ltac:(lia) x q I V') as [G1 G2]. split; [|exact G2]. eapply bnd3_mono; [|exact G1]. lia.
    - intros ps r n ml t (F & _). left. apply fclosest. exact F.
    - intros f r ds p d (dc & pg & l & nm & ml & m & t & lg & HP & Ipg & I & V & Im & _ & R & M) RO Id.
      assert (U : unitm lm asc r).
      { destruct V as [N|x a Ix Nx Vx|x n r Ix Nx Vx Rr].
        - apply (named_unit lm asc (B "Z+")). reflexivity.
        - destruct (VW _ _ _ _ _ _ _ _ HP Ipg I Ix Nx Vx) as [Ha Hb]. exact (angles_unit lm asc a T Ha Hb).
        - apply matrix_by_name_iff in Rr. exact (named_unit lm asc _ _ Rr). }
      split; [|split; [exact U|]].
      2:{ intros _ x q Ix Vx. apply (PT dc q HP). exists pg, l, nm, ml, ds, d, x. auto. }
      rewrite (rotated_culled _ _ _ RO). unfold rotate in RO. destruct (index_range _ RO) as [F _].
      destruct (MOD _ _ _ HP Im R) as [_ BD]. pose proof (make_keeps (bnd3 lm asc 500) t f lg BD M) as BM. rewrite Forall_forall in BM.
      assert (K : Forall (fin3 lm asc) (flat_map fverts (facets p))).
      { rewrite F. apply Forall_forall. intros v Iv. apply in_flat_map in Iv. destruct Iv as (g & Ig & Iv). apply cull_in in Ig. destruct Ig as [Ig _]. apply in_map_iff in Ig. destruct Ig as (g0 & <- & Ig).
        assert (W : forall w, bnd3 lm asc 500 w -> fin3 lm asc (mulm w r)).
        { intros w Hw. destruct (bnd_mulm lm asc 500 0 w r ltac:(lia) Hw U) as ((G1 & _) & (G2 & _) & (G3 & _)). split; [exact G1|split; [exact G2|exact G3]]. }
        destruct (BM g0 Ig) as (K0 & K1 & K2). unfold fverts in Iv. destruct Iv as [<-|[<-|[<-|[]]]]; apply W; assumption. }
      apply Forall_forall. intros v Iv. rewrite Forall_forall in K. apply K.
      refine (proj1 (points_exact (F64_ordered lm asc) p _) v Iv). apply Forall_forall. intros w Iw. destruct (K w Iw) as (K1 & K2 & K3). split; [|split]; apply fin_ok; assumption.
  Qed.
End Doubles.
