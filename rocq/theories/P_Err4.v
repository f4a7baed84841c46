(** P_Err4.v - the labels of dims in doubles. *)
From Coq Require Import Reals Lra ZArith Lia.
From Flocq Require Import Core IEEE754.BinarySingleNaN.
From Verif Require Import Base Num NumReal NumF64 NumLaws Geo Stl Env Ast Ps Draw F64Spec DocSpec P_Base P_Meta P_Dims P_Doc P_Script3 P_Script4 P_Bound P_Text P_Text2
  DimSpec TextSpec P_Real P_Value P_Mark P_Err P_Err2 P_Err3 ErrSpec RealSpec.

Local Unset Implicit Arguments.
Local Open Scope R_scope.

Section Gen.
  Context {A : Arith} {E : Env}.
  Lemma dim_visit_any d s s' d' : d_kind d = KDim -> visit_base_dim d s = Ret (s', d', true) -> NoDup (names (d_meta d)) /\
    exists fm a dd f t, dim_args (v_points s) (v_rot s) (d_meta d) = Some (fm, a, dd, f, t) /\ s' = draw_dim fm a (normalized3 dd) f t s.
  Proof.
    intros K H. destruct (eqm (v_rot s) zerom) eqn:Z.
    { destruct (base_dim_null _ _ Z H) as (Q & _). discriminate Q. }
    unfold visit_base_dim in H. rewrite K in H. apply obind_ret in H. destruct H as ([[s1 ml] ok] & H & HR). injection HR as -> _ ->.
    destruct (visit_dim_spec d s Z) as (s2 & ml2 & ok2 & H1 & H2 & _ & H4). rewrite H1 in H. injection H as -> _ ->.
    split; [apply H2; reflexivity|]. destruct (H4 eq_refl) as (_ & fm & a & dd & f & t & G & Q). exists fm, a, dd, f, t. auto.
  Qed.
  Lemma angle_visit_any d s s' d' : d_kind d = KAngle -> visit_base_dim d s = Ret (s', d', true) -> NoDup (names (d_meta d)) /\
    exists fm a p f t, angle_args (v_points s) (v_rot s) (d_meta d) = Some (fm, a, p, f, t) /\
      (s', true) = draw_angle (d_loc d) fm a p (fst f) (snd f) (fst t) (snd t) s.
  Proof.
    intros K H. destruct (eqm (v_rot s) zerom) eqn:Z.
    { destruct (base_dim_null _ _ Z H) as (Q & _). discriminate Q. }
    unfold visit_base_dim in H. rewrite K in H. apply obind_ret in H. destruct H as ([[s1 ml] ok] & H & HR). injection HR as -> _ ->.
    destruct (visit_angle_spec d s Z) as (s2 & ml2 & ok2 & H1 & H2 & _ & H4). rewrite H1 in H. injection H as -> _ ->.
    split; [apply H2; reflexivity|]. destruct (H4 eq_refl) as (_ & fm & a & dd & f & t & G & Q). exists fm, a, dd, f, t. auto.
  Qed.
  Lemma fmt_any ml dflt fm : fmt_arg dflt ml = Some fm -> (exists x, In x ml /\ m_name x = B "fmt" /\ m_val x = MStr fm) \/ (~ has ml "fmt" /\ fm = B dflt).
  Proof.
    unfold fmt_arg. destruct (arg "fmt" ml) as [x|] eqn:G.
    - destruct (arg_in _ _ G) as [I Q]. destruct (as_str x) as [f|] eqn:F; [|discriminate]. destruct (pf_ok f); [|discriminate]. intro H; injection H as ->.
      left. exists x. split; [exact I|]. split; [exact Q|]. unfold as_str in F. destruct (m_val x); congruence.
    - intro H; injection H as <-. right. split; [|reflexivity]. intro K. unfold has in K. apply in_map_iff in K. destruct K as (x & Q & I).
      destruct (arg_prop "fmt" ml) as [(i & y & P & NE & Q' & AE)|[P AE]]; [congruence|]. unfold prop in P. apply index_of_none in P. apply P. rewrite <- Q. unfold names. apply in_map, I.
  Qed.
  Lemma same_meta (ml : list meta) x y : NoDup (names ml) -> In x ml -> In y ml -> m_name x = m_name y -> x = y.
  Proof.
    unfold names. induction ml as [|z ml IH]; [intros _ []|]. cbn [map]. intros ND. inversion ND as [|? ? N1 N2]; subst. intros [->|HI] [->|HJ] Q; [reflexivity| | |exact (IH N2 HI HJ Q)].
    - exfalso. apply N1. rewrite Q. apply in_map, HJ.
    - exfalso. apply N1. rewrite <- Q. apply in_map, HI.
  Qed.
End Gen.

Section Label.
  Context (lm : libm) (asc : bool) (E : @Env (F64 lm asc)) (STD : std64 lm asc E).
  #[local] Instance AL : Arith := F64 lm asc.
  Lemma written_point s d n p : written lm asc d n p -> is_point lm asc s d n p.
  Proof.
    intros (x & l & I & Q & V). exists x, (PVal p l), (PVal (mulm p (v_rot s)) l). split; [exact I|]. split; [exact Q|]. split; [exact V|]. split; [repeat split|reflexivity].
  Qed.
  Lemma formatted64 ml dflt p0 n0 fm a n b (x : f64) e r : NoDup (names ml) -> B dflt = B "%." ++ p0 ++ B "f" -> spells p0 n0 -> (n0 <= 100)%nat -> fmt_arg dflt ml = Some fm -> format64 lm asc ml n0 a n b ->
    close e x r -> exists w, pf_format fm (x : @num AL) = a ++ w ++ b /\ decimal_within n e r w.
  Proof.
    intros ND D S0 L0 FA FD [FX CX].
    assert (V : val64 x = Some (B2R x)) by (unfold val64; unfold fin in FX; rewrite FX; reflexivity).
    assert (W : forall q n, nearest (places n) (B2R x) q -> Rabs (q - r) <= / 2 * ten (- Z.of_nat n) + e).
    { intros q n' N. pose proof (nearest_places _ _ _ N) as H. replace (q - r) with ((q - B2R x) + (B2R x - r)) by ring. eapply Rle_trans; [apply Rabs_triang|]. lra. }
    destruct (fmt_any _ _ _ FA) as [(y & I & Ny & Vy)|[AB ->]]; destruct FD as [(AB' & -> & -> & ->)|(z & p & I' & Nz & Vz & S & L & NA & NB)].
    - exfalso. apply AB'. unfold has. rewrite <- Ny. apply in_map, I.
    - assert (Q : y = z) by (apply (same_meta ml); congruence). subst z. rewrite Vy in Vz. injection Vz as ->.
      destruct (std_fmt _ _ _ STD p n x (B2R x) S L V) as (_ & q & R1 & N). destruct (std_text _ _ _ STD a b p n x (B2R x) NA NB S L V) as (_ & T).
      eexists. split; [exact T|]. exists q. split; [exact R1|apply W, N].
    - rewrite D. destruct (std_fmt _ _ _ STD p0 n0 x (B2R x) S0 L0 V) as (_ & q & R1 & N).
      eexists. rewrite app_nil_r. split; [reflexivity|]. exists q. split; [exact R1|apply W, N].
    - exfalso. apply AB. unfold has. rewrite <- Nz. apply in_map, I'.
  Qed.
  (** A power of two just above a vector. *)
  Lemma top_power u : bnd3 lm asc 200 u -> bp (-200) <= rlen (rv lm asc u) -> exists j, (-300 <= j <= 300)%Z /\ bnd3 lm asc j u /\ bp (j - 1) <= rlen (rv lm asc u).
  Proof.
    intros (B1 & B2 & B3) L. destruct (coord_len (rv lm asc u)) as (C1 & C2 & C3). cbn [rv rx ry rz] in C1, C2, C3.
    set (M := Rmax (Rabs (B2R (x3 u : f64))) (Rmax (Rabs (B2R (y3 u : f64))) (Rabs (B2R (z3 u : f64))))).
    assert (M1 : Rabs (B2R (x3 u : f64)) <= M) by apply Rmax_l. assert (M2 : Rabs (B2R (y3 u : f64)) <= M) by (eapply Rle_trans; [apply Rmax_l|apply Rmax_r]). assert (M3 : Rabs (B2R (z3 u : f64)) <= M) by (eapply Rle_trans; [apply Rmax_r|apply Rmax_r]).
    assert (ML : M <= rlen (rv lm asc u)) by (unfold M; repeat apply Rmax_lub; assumption).
    assert (MB : M <= bp 200) by (unfold M; repeat apply Rmax_lub; first [apply B1|apply B2|apply B3]).
    assert (MP : 0 <= M) by (eapply Rle_trans; [apply Rabs_pos|exact M1]).
    assert (LM : rlen (rv lm asc u) <= 2 * M) by (apply rlen_small; assumption).
    assert (B201 : bp (-200) = 2 * bp (-201)) by (rewrite <- bp_S; reflexivity). assert (MN : bp (-201) <= M) by lra. pose proof (bp_pos (-201)) as P201.
    assert (NZ : M <> 0) by lra. set (j := mag_val _ _ (mag radix2 M)). pose proof (bpow_mag_le radix2 M NZ) as G1. pose proof (bpow_mag_gt radix2 M) as G2. rewrite (Rabs_pos_eq M MP) in G1, G2.
    fold j in G1, G2. exists j. split.
    - split.
      + assert (-201 < j)%Z; [|lia]. apply (lt_bpow radix2). eapply Rle_lt_trans; [exact MN|exact G2].
      + assert (j - 1 <= 200)%Z; [|lia]. apply (le_bpow radix2). eapply Rle_trans; [exact G1|exact MB].
    - split; [|unfold bp; lra]. split; [|split]; (split; [first [apply B1|apply B2|apply B3]|unfold bp; lra]).
  Qed.
  Theorem dim_label64 d s s' d' k a u f t p n q : d_kind d = KDim -> trig_close lm -> a_view lm asc (v_rot s) -> (-300 <= k <= 300)%Z ->
    is_point lm asc s d "at" a -> is_point lm asc s d "dir" u -> is_point lm asc s d "from" f -> is_point lm asc s d "to" t ->
    bnd3 lm asc k a -> bnd3 lm asc k f -> bnd3 lm asc k t -> bnd3 lm asc 200 u -> bp (-200) <= sqrt (rdot (val3 lm asc u) (val3 lm asc u)) ->
    visit_base_dim d s = Ret (s', d', true) -> format64 lm asc (d_meta d) 3 p n q ->
    exists w pos, o_text (v_page s') = o_text (v_page s) ++ [Text pos (p ++ w ++ q) true false] /\ decimal_within n (bp (k - 33)) (along (val3 lm asc u) (val3 lm asc f) (val3 lm asc t)) w.
  Proof.
    intros K T VW LK Pa Pu Pf Pt Ba Bf Bt Bu LU H FD. destruct (dim_visit_any d s s' d' K H) as (N & fm & va & vd & vf & vt & G & ->). unfold dim_args in G.
    rewrite (evaluates_arg _ _ _ _ _ N Pa), (evaluates_arg _ _ _ _ _ N Pu), (evaluates_arg _ _ _ _ _ N Pf), (evaluates_arg _ _ _ _ _ N Pt) in G.
    destruct (fmt_arg "%.3f" (d_meta d)) as [fm'|] eqn:F; [|discriminate]. destruct (eq3 (mulm u (v_rot s)) zero3); [discriminate|]. injection G as -> <- <- <- <-.
    destruct (view_apx lm asc _ T VW) as (r & RR & M). destruct (top_power u Bu LU) as (j & LJ & Bj & Lj).
    pose proof (dim_err lm asc k j _ _ _ _ _ _ LK LJ RR M Ba Bf Bt Bj Lj) as C. cbv zeta in C.
    destruct (dim_text fm (mulm a (v_rot s)) (normalized3 (mulm u (v_rot s))) (mulm f (v_rot s)) (mulm t (v_rot s)) s) as (pos & TX).
    destruct (formatted64 _ "%.3f" (B "3") 3 fm p n q _ _ _ N eq_refl ltac:(split; [discriminate|reflexivity]) ltac:(lia) F FD C) as (w & Q & DW). exists w, pos. split; [|exact DW].
    rewrite TX. do 2 f_equal. f_equal. exact Q.
  Qed.
End Label.
