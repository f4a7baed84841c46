(** P_Lookup4.v - conversions in doubles pass all checks of DrawLk.v when the circles fitted to the points
    of their drawings have numbers for centres. *)
From Coq Require Import Reals Lra List Bool Lia ZArith.
From Flocq Require Import Core.Raux IEEE754.BinarySingleNaN.
From Verif Require Import Base Num Geo Stl StlRead Env Ast Lexer Parser Ps Draw Main DrawLk NumF64 NumReal NumLaws
  P_Base P_Order P_Meta P_Frame P_Dims P_Doc DocSpec GeoSpec P_Script P_Script2 P_Hide P_Geo1 P_Part P_Index F64Spec P_Bound
  LangSpec EndSpec Grammar P_Parser3 P_Dead StlSpec P_Stl P_Lang P_Total LookSpec P_Lookup P_Lookup2 FiniteSpec P_Finite P_Finite2 RealSpec P_Real.
Import ListNotations.

Local Unset Implicit Arguments.

Section Doubles.
  Context (lm : libm) (asc : bool).
  #[local] Instance AF : Arith := F64 lm asc.
  Context {E : Env}.
  Definition circles_known (ps : point_set) : Prop := forall t ce rad, fit_circle ps t = Some (ce, rad) -> is_nan (x2 ce : f64) = false /\ is_nan (y2 ce : f64) = false.
  Lemma circle_ok ps p : Forall ok3 ps -> circles_known ps -> ok3 (triple p) -> forall v, snd (invoke ps p) = Some v -> ok3 v.
  Proof.
    intros F CK. induction p as [v l|n q IH l]; intros K w H.
    - cbn in H. injection H as <-. exact K.
    - cbn [triple] in K. specialize (IH K). cbn [invoke] in H. destruct (bytes_eqb n (B "near")) eqn:N.
      + destruct ps as [|x t] eqn:M; [discriminate H|]. rewrite <- M in *. destruct (invoke ps q) as [lg [u|]]; [|discriminate H]. cbn [snd] in *. injection H as <-.
        apply (near_ok lm asc); [exact F|]. exact (IH u eq_refl).
      + destruct (bytes_eqb n (B "center")); [|discriminate H]. destruct (length ps <? 3); [discriminate H|]. destruct (invoke ps q) as [lg [u|]]; [|discriminate H].
        destruct (fit_circle ps (xy u)) as [[ce r]|] eqn:FC; [|discriminate H]. cbn [snd] in H. injection H as <-. destruct (CK _ _ _ FC) as [N1 N2]. split; [exact (notnan_ok _ N1)|]. split; [exact (notnan_ok _ N2)|]. reflexivity.
  Qed.
  Lemma clookups ps p : Forall (fin3 lm asc) ps -> circles_known ps -> ok3 (triple p) -> lookups_ok ps p = true.
  Proof.
    intros F CK K. assert (FO : Forall ok3 ps).
    { eapply Forall_impl; [|exact F]. intros v (H1 & H2 & H3). split; [|split]; apply fin_ok; assumption. }
    apply (lookups_gen (F64_ordered lm asc) (fun p => ok3 (triple p))).
    - exact FO.
    - intro t. apply (fclosest lm asc). exact F.
    - intros n q l H. exact H.
    - intros q l v H V. exact (circle_ok ps q FO CK H v V).
    - exact K.
  Qed.
  Definition cfine (ps : point_set) (r : m3) (n : nat) (ml : list meta) : Prop :=
    Forall (fin3 lm asc) ps /\ circles_known ps /\ unitm lm asc r /\ (n <= 4 -> forall x p, In x ml -> m_val x = MPoint p -> bnd3 lm asc (500 + 2 * Z.of_nat n) (triple p))%nat.
  Lemma circle_checks fs src c : trig_bounded lm ->
    (forall d m t ls l p, parses src c d -> In m (doc_models d) -> resolves fs (mo_source m) t -> lines_in t ls -> In l ls -> says l (EVertex p) -> bnd3 lm asc 500 p) ->
    (forall d pg l n ml ds x a, parses src c d -> In pg (doc_pages d) -> In (DDraw l n ml ds) (pg_draws pg) -> In x ml -> m_name x = B "view" -> m_val x = MLoc a ->
       bnd 1000 (x2 a) /\ bnd 1000 (y2 a)) ->
    (forall d p, parses src c d -> says_point d p -> bnd3 lm asc 500 (triple p)) ->
    (forall f r ds p t ce rad, draws_model fs src c f r ds -> rotate f r = Ret p -> fit_circle (points (cull_back_face p)) t = Some (ce, rad) -> is_nan (x2 ce : f64) = false /\ is_nan (y2 ce : f64) = false) ->
    script_to_ps_ck fs src c = script_to_ps fs src c.
  Proof.
    intros T MOD VW PT CN. assert (S : sim False (script_to_ps_ck fs src c) (script_to_ps fs src c)); [|destruct S as [S|[_ []]]; exact S].
    apply (script_sim False cfine).
    - intros ps r n ml (F & CP & U & M). split; [exact F|]. split; [exact CP|]. split; [exact U|]. intros L x p I V. eapply (bnd3_mono lm asc); [|exact (M ltac:(lia) x p I V)]. lia.
    - intros ps r n ml i m p L (F & CP & U & M) N P. assert (V : m_val m = MPoint p) by (unfold as_point in P; destruct (m_val m); try discriminate P; injection P as ->; reflexivity).
      pose proof (M ltac:(lia) m p (nth_error_In _ _ N) V) as H1.
      assert (K : bnd3 lm asc (500 + 2 * Z.of_nat (S n)) (triple (point_rotate r p))).
      { replace (triple (point_rotate r p)) with (mulm (triple p) r) by (clear; induction p as [v l|n q IH l]; [reflexivity|exact IH]).
        replace (500 + 2 * Z.of_nat (S n))%Z with ((500 + 2 * Z.of_nat n) + 0 + 2)%Z by lia. apply bnd_mulm; [lia|exact H1|exact U]. }
      split.
      + left. apply clookups; [exact F|exact CP|]. destruct K as (K1 & K2 & K3). split; [|split]; eapply bnd_ok; eassumption.
      + split; [exact F|]. split; [exact CP|]. split; [exact U|]. intros _ x q I V'. apply set_nth_in in I. destruct I as [->|I].
        * cbn in V'. injection V' as <-. exact K.
        * eapply (bnd3_mono lm asc); [|exact (M ltac:(lia) x q I V')]. lia.
    - intros ps r n ml t (F & _). left. apply (fclosest lm asc). exact F.
    - intros f r ds p d DM RO Id. pose proof (CN f r ds p) as CP. specialize (fun t ce rad => CP t ce rad DM RO). destruct DM as (dc & pg & l & nm & ml & m & t & lg & HP & Ipg & I & V & Im & _ & R & M).
      assert (U : unitm lm asc r).
      { destruct V as [N|x a Ix Nx Vx|x n r Ix Nx Vx Rr].
        - apply (named_unit lm asc (B "Z+")). reflexivity.
        - destruct (VW _ _ _ _ _ _ _ _ HP Ipg I Ix Nx Vx) as [Ha Hb]. exact (angles_unit lm asc a T Ha Hb).
        - apply matrix_by_name_iff in Rr. exact (named_unit lm asc _ _ Rr). }
      split; [|split; [exact CP|split; [exact U|]]].
      2:{ intros _ x q Ix Vx. apply (PT dc q HP). exists pg, l, nm, ml, ds, d, x. auto. }
      rewrite (rotated_culled _ _ _ RO). unfold rotate in RO. destruct (index_range _ RO) as [F _].
      pose proof (fun ls l p => MOD _ _ _ ls l p HP Im R) as BD. pose proof (make_keeps (bnd3 lm asc 500) t f lg BD M) as BM. rewrite Forall_forall in BM.
      assert (K : Forall (fin3 lm asc) (flat_map fverts (facets p))).
      { rewrite F. apply Forall_forall. intros v Iv. apply in_flat_map in Iv. destruct Iv as (g & Ig & Iv). apply cull_in in Ig. destruct Ig as [Ig _]. apply in_map_iff in Ig. destruct Ig as (g0 & <- & Ig).
        assert (W : forall w, bnd3 lm asc 500 w -> fin3 lm asc (mulm w r)).
        { intros w Hw. destruct (bnd_mulm lm asc 500 0 w r ltac:(lia) Hw U) as ((G1 & _) & (G2 & _) & (G3 & _)). split; [exact G1|split; [exact G2|exact G3]]. }
        destruct (BM g0 Ig) as (K0 & K1 & K2). unfold fverts in Iv. destruct Iv as [<-|[<-|[<-|[]]]]; apply W; assumption. }
      apply Forall_forall. intros v Iv. rewrite Forall_forall in K. apply K.
      refine (proj1 (points_exact (F64_ordered lm asc) p _) v Iv). apply Forall_forall. intros w Iw. destruct (K w Iw) as (K1 & K2 & K3). split; [|split]; apply fin_ok; assumption.
  Qed.
End Doubles.
