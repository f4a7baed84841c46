(** P_Paper2.v - the lines of drawings in the PostScript output, in doubles. *)
From Coq Require Import Reals Lra ZArith Lia List.
From Flocq Require Import Core IEEE754.BinarySingleNaN.
From Verif Require Import Base Num NumReal NumF64 NumLaws Geo Stl GeoSpec Env Ast Ps Draw Main LangSpec DocSpec StlSpec PsSpec TextSpec F64Spec P_Base P_Doc P_Text3 P_Paper ErrSpec ViewSpec FollowSpec PaperSpec RealSpec.
Import ListNotations.

Local Unset Implicit Arguments.
Local Open Scope R_scope.
Section Out.
  Context (lm : libm) (asc : bool).
  #[local] Instance AX : Arith := F64 lm asc.
  Lemma stands_near (x : f64) t e r : stands (A := AX) val64 x t -> close e x r -> exists w, t = PWord w /\ word_near e r w.
  Proof.
    intros H [F C]. assert (V : val64 x = Some (B2R x)) by (unfold val64; unfold fin in F; rewrite F; reflexivity). destruct (H _ V) as (w & -> & q & Q1 & Q2).
    exists w. split; [reflexivity|]. exists q. split; [exact Q1|].
    assert (N : Rabs (B2R x) <= Rabs r + e). { replace (B2R x) with (r + (B2R x - r)) by ring. eapply Rle_trans; [apply Rabs_triang|]. lra. }
    replace (q - r) with ((q - B2R x) + (B2R x - r)) by ring. eapply Rle_trans; [apply Rabs_triang|]. lra.
  Qed.
  Lemma tokens_follow e see f l p : line_tokens (A := AX) val64 l p -> follows lm asc e see f l -> stroke_follows lm asc e see f p.
  Proof.
    intros (x & y & u & v & -> & X & Y & U & V) (c & d & t & w & SD & Ht & Hw & [C1 C2] & [C3 C4]).
    destruct (stands_near _ _ _ _ X C1) as (w1 & -> & N1). destruct (stands_near _ _ _ _ Y C2) as (w2 & -> & N2). destruct (stands_near _ _ _ _ U C3) as (w3 & -> & N3). destruct (stands_near _ _ _ _ V C4) as (w4 & -> & N4).
    exists c, d, t, w, w1, w2, w3, w4. split; [exact SD|]. split; [exact Ht|]. split; [exact Hw|]. split; [reflexivity|]. split; split; assumption.
  Qed.
  Context (E : @Env AX).
  Lemma sum_has st its cs it : Forall2 (always_adds st) its cs -> Forall (fun c => c_ok c = true) cs -> In it its ->
    exists c before after, always_adds st it c /\ c_ok c = true /\ o_lines (sum_pages (map c_page cs)) = before ++ o_lines (c_page c) ++ after.
  Proof.
    induction 1 as [|i c its cs H HS IH]; intros OK I; [destruct I|]. inversion OK as [|? ? O1 O2]; subst. cbn [map sum_pages fold_right plus_page o_lines]. destruct I as [<-|I].
    - exists c, [], (o_lines (sum_pages (map c_page cs))). auto.
    - destruct (IH O2 I) as (c' & b & a & A1 & A2 & A3). exists c', (o_lines (c_page c) ++ b), a. split; [exact A1|]. split; [exact A2|]. unfold sum_pages in A3. rewrite A3, <- app_assoc. reflexivity.
  Qed.
  Lemma forall2_part (P : @line AX -> list ptok -> Prop) b l a ts : Forall2 P (b ++ l ++ a) ts -> exists t1 t2 t3, ts = t1 ++ t2 ++ t3 /\ Forall2 P l t2.
  Proof.
    intro H. apply Forall2_app_inv_l in H. destruct H as (t1 & t & _ & H & ->). apply Forall2_app_inv_l in H. destruct H as (t2 & t3 & H2 & _ & ->). eauto 6.
  Qed.
  Theorem page_strokes st pg p prog l n ml ds f m see k j M tx ty e : trig_close lm -> page_shows st pg p -> page_tokens (A := AX) val64 p prog -> In (DDraw l n ml ds) (pg_draws pg) ->
    plan lm asc st n ml f m see k j M tx ty -> accuracy k j M e ->
    exists p0 ls strokes before after, rotate f m = Ret p0 /\ to_lines p0 = Ret ls /\ length strokes = length ls /\ prog = before ++ concat strokes ++ after /\
      (strokes = [] \/ exists x0 x1 y0 y1, frames (seen_corner lm asc see m f p0) x0 x1 y0 y1 /\
        forall w, In w strokes -> exists g, drawn_facet lm asc m f p0 g /\ stroke_follows lm asc e (fun p => laid tx ty M x0 x1 y0 y1 (see p)) g w).
  Proof.
    intros T (cs & box & t & HC & HO & _ & _ & ->) (pre & ts & arcs & lines & -> & _ & _ & HL) I PL AC.
    destruct (sum_has st _ _ _ HC HO I) as (c & b & a & AA & OK & LS). specialize (AA vst_init). cbn [contributes] in AA. destruct AA as (s' & HV & HP & _). rewrite OK in HV.
    cbn [visit_drawable] in HV. destruct (visit_draw st l n ml ds vst_init) as [[[s1 ds1] ok]|ee] eqn:VD; [|discriminate HV]. cbn [obind] in HV. injection HV as -> _ ->.
    destruct (lines_placed lm asc E st l n ml ds vst_init s' ds1 f m see k j M tx ty e T VD PL AC) as (p0 & ls0 & ls & q & R & TL & LEN & PG & FO).
    assert (CP : o_lines (c_page c) = ls ++ o_lines q).
    { assert (X : o_lines (plus_page (v_page vst_init) (c_page c)) = o_lines (plus_page (v_page vst_init) (plus_page (OPage ls [] []) q))) by (rewrite <- HP, <- PG; reflexivity). exact X. }
    assert (X : o_lines (plus_page (sum_pages (map c_page cs)) box) = b ++ ls ++ (o_lines q ++ a ++ o_lines box)).
    { cbn [plus_page o_lines]. etransitivity; [exact (f_equal (fun z => z ++ o_lines box) LS)|]. etransitivity; [exact (f_equal (fun z => (b ++ z ++ a) ++ o_lines box) CP)|]. rewrite <- !app_assoc. reflexivity. }
    pose proof (eq_ind _ (fun z => Forall2 (line_tokens (A := AX) val64) z lines) HL _ X) as HL'.
    destruct (forall2_part _ _ _ _ _ HL') as (t1 & t2 & t3 & -> & H2).
    exists p0, ls0, t2, (pre ++ concat ts ++ concat arcs ++ concat t1), (concat t3 ++ [PWord (B "showpage")]). split; [exact R|]. split; [exact TL|].
    split; [rewrite <- LEN; clear - H2; induction H2; cbn [length]; congruence|]. split; [rewrite !concat_app, <- !app_assoc; reflexivity|].
    destruct FO as [->|(x0 & x1 & y0 & y1 & FR & FO)]; [left; inversion H2; reflexivity|]. right. exists x0, x1, y0, y1. split; [exact FR|].
    intros w IW. assert (Y : exists li, In li ls /\ line_tokens (A := AX) val64 li w).
    { clear - H2 IW. induction H2 as [|li w' ls ws H HS IH]; [destruct IW|]. destruct IW as [<-|IW]; [exists li; split; [left; reflexivity|exact H]|]. destruct (IH IW) as (x & X1 & X2). exists x. split; [right; exact X1|exact X2]. }
    destruct Y as (li & IL & LT). destruct (FO li IL) as (g & DG & FG). exists g. split; [exact DG|]. exact (tokens_follow _ _ _ _ _ LT FG).
  Qed.
  Theorem output_strokes : std64 lm asc E -> trig_close lm -> (forall x : @num AX, word_like (fmt_num x)) ->
    forall fs src c r, one_line flag_name -> one_line src -> one_line now -> script_to_ps fs src c = Ret r -> r_ok r = true ->
    exists d st lg ps, parses src c d /\ load_files fs (doc_models d) [] = Ret (st, lg, true) /\ Forall2 (page_shows st) (doc_pages d) ps /\
      (raw_ok ps -> exists progs, ps_read (r_out r) = Some (prolog ++ concat progs) /\ length progs = length (doc_pages d) /\
        forall i pg prog l n ml ds f m see k j M tx ty e, nth_error (doc_pages d) i = Some pg -> nth_error progs i = Some prog -> In (DDraw l n ml ds) (pg_draws pg) ->
        plan lm asc st n ml f m see k j M tx ty -> accuracy k j M e ->
        exists p0 ls strokes before after, rotate f m = Ret p0 /\ to_lines p0 = Ret ls /\ length strokes = length ls /\ prog = before ++ concat strokes ++ after /\
          (strokes = [] \/ exists x0 x1 y0 y1, frames (seen_corner lm asc see m f p0) x0 x1 y0 y1 /\
            forall w, In w strokes -> exists g, drawn_facet lm asc m f p0 g /\ stroke_follows lm asc e (fun p => laid tx ty M x0 x1 y0 y1 (see p)) g w)).
  Proof.
    intros STD T W fs src c r N1 N2 N3 H O. destruct (output_numbers _ _ _ STD W fs src c r N1 N2 N3 H O) as (d & st & lg & ps & HP & HL & HS & HR).
    exists d, st, lg, ps. split; [exact HP|]. split; [exact HL|]. split; [exact HS|]. intro RO. destruct (HR RO) as (progs & PR & PT). exists progs. split; [exact PR|].
    split. { clear - HS PT. revert progs PT. induction HS as [|pg p pgs ps H HS IH]; intros progs PT; inversion PT; subst; [reflexivity|]. cbn [length]. f_equal. apply IH. assumption. }
    intros i pg prog l n ml ds f m see k j M tx ty e I1 I2 ID PL AC.
    assert (X : exists p, page_shows st pg p /\ page_tokens (A := AX) val64 p prog).
    { clear - HS PT I1 I2. revert progs PT i I1 I2. induction HS as [|pg' p pgs ps H HS IH]; intros progs PT i I1 I2; [destruct i; discriminate|].
      inversion PT as [|? pr ? prs T1 T2]; subst. destruct i as [|i]; [injection I1 as <-; injection I2 as <-; exists p; split; assumption|]. exact (IH prs T2 i I1 I2). }
    destruct X as (p & P1 & P2). exact (page_strokes st pg p prog l n ml ds f m see k j M tx ty e T P1 P2 ID PL AC).
  Qed.
End Out.
