(** P_Text3.v - output numbers and labels as text. *)
From Coq Require Import Reals ZArith Lra Lia.
From Flocq Require Import Core IEEE754.BinarySingleNaN.
From Verif Require Import Base Num NumF64 NumReal Geo Stl StlRead Env Ast Lexer Parser Ps Draw Main
  P_Base P_Meta P_Frame P_Dims P_Doc DocSpec P_Script P_Script2 LangSpec StlSpec PsSpec P_Ps2
  RealSpec CircleSpec DimSpec P_Value P_Value2 P_Text TextSpec.

Local Unset Implicit Arguments.
Local Open Scope R_scope.

(** ** Output *)
Section Out.
  Context {A : Arith} {E : Env} (val : num -> option R) (rs rd : R -> R) (STD : text_std val rs rd).
  Lemma number_stands x : stands val x (nw x).
  Proof. intros r V. destruct (std_num _ _ _ STD x r V) as (q & R1 & N). exists (fmt_num x). split; [reflexivity|]. exists q. split; [exact R1|apply six_figures, N]. Qed.
  Lemma line_stands l : line_tokens val l (line_prog l).
  Proof. exists (nw (x2 (lo l))), (nw (y2 (lo l))), (nw (x2 (lt_ l))), (nw (y2 (lt_ l))). split; [reflexivity|]. repeat split; apply number_stands. Qed.
  Lemma arc_stands a : arc_tokens val a (arc_prog a).
  Proof. do 5 eexists. split; [reflexivity|]. repeat split; apply number_stands. Qed.
  Lemma text_stands t p : text_prog t p -> text_tokens val t p.
  Proof.
    intros (v & H & ->). exists (nw (x2 (t_at t))), (nw (y2 (t_at t))), v. split; [destruct (t_center t); reflexivity|]. split; [apply number_stands|]. split; [apply number_stands|].
    intro Q. rewrite Q in H. exact H.
  Qed.
  Lemma page_stands kk nn pg p : page_prog kk nn pg p -> page_tokens val pg p.
  Proof.
    intros (ts & F & ->). exists (frame_prog ++ stamp_prog kk nn), ts, (map arc_prog (o_arcs pg)), (map line_prog (o_lines pg)). split; [rewrite <- app_assoc; reflexivity|]. split; [|split].
    - clear - F STD. induction F; constructor; [apply text_stands; assumption|assumption].
    - induction (o_arcs pg); constructor; [apply arc_stands|assumption].
    - induction (o_lines pg); constructor; [apply line_stands|assumption].
  Qed.
  Lemma pages_stand nn ps : forall n progs, page_progs nn n ps progs -> Forall2 (page_tokens val) ps progs.
  Proof. induction ps as [|p ps IH]; intros n [|g progs] H; cbn in H; try contradiction; constructor; [destruct H as [(kk & _ & H) _]; exact (page_stands _ _ _ _ H)|exact (IH _ _ (proj2 H))]. Qed.
  Theorem output_numbers : (forall x : num, word_like (fmt_num x)) -> forall fs src c r, one_line flag_name -> one_line src -> one_line now -> script_to_ps fs src c = Ret r -> r_ok r = true ->
    exists d st lg ps, parses src c d /\ load_files fs (doc_models d) [] = Ret (st, lg, true) /\ Forall2 (page_shows st) (doc_pages d) ps /\
      (raw_ok ps -> exists progs, ps_read (r_out r) = Some (prolog ++ concat progs) /\ Forall2 (page_tokens val) ps progs).
  Proof.
    intros W fs src c r N1 N2 N3 H O. destruct (whole_program W fs src c r N1 N2 N3 H O) as (d & st & lg & ps & nn & HP & HL & HS & _ & HR).
    exists d, st, lg, ps. split; [exact HP|]. split; [exact HL|]. split; [exact HS|]. intro RO. destruct (HR RO) as (progs & P & Q). exists progs. split; [exact Q|exact (pages_stand _ _ _ _ P)].
  Qed.
End Out.

(** ** Labels, in exact arithmetic *)
Section Labels.
  Context (E : @Env XR) (STD : stdR E).
  #[local] Instance AXT : Arith := XR.
  Lemma nodup_of d s s' d' r : v_rot s = embm r -> rotation r -> visit_base_dim d s = Ret (s', d', true) -> NoDup (map m_name (d_meta d)).
  Proof.
    intros R0 RR H. destruct (base_dim_spec d s) as (s2 & d2 & k & Q & K & _); [rewrite R0; apply rotation_nonzero, RR|]. rewrite H in Q. injection Q as <- <- <-. destruct (proj1 K eq_refl) as [N _]. exact N.
  Qed.
  Lemma same_name ml (x y : @meta XR) : NoDup (map m_name ml) -> In x ml -> In y ml -> m_name x = m_name y -> x = y.
  Proof.
    induction ml as [|z ml IH]; [intros _ []|]. cbn [map]. intros ND. inversion ND as [|? ? N1 N2]; subst. intros [->|HI] [->|HJ] Q; [reflexivity| | |exact (IH N2 HI HJ Q)].
    - exfalso. apply N1. rewrite Q. apply in_map, HJ.
    - exfalso. apply N1. rewrite <- Q. apply in_map, HI.
  Qed.
  Lemma formatted ml dflt p0 n0 fm a n b v : NoDup (map m_name ml) -> B dflt = B "%." ++ p0 ++ B "f" -> spells p0 n0 -> (n0 <= 100)%nat -> format_of ml dflt fm -> format_digits ml n0 a n b ->
    exists w, pf_format fm (Fin v : @num XR) = a ++ w ++ b /\ decimal_for n v w.
  Proof.
    intros ND D S0 L0 [(x & I & Nx & Vx)|[AB ->]] [(AB' & -> & -> & ->)|(y & p & I' & Ny & Vy & S & L & NA & NB)].
    - exfalso. apply AB'. unfold has. rewrite <- Nx. apply in_map, I.
    - assert (Q : x = y) by (apply (same_name ml); congruence). subst y. rewrite Vx in Vy. injection Vy as ->.
      destruct (std_fmt _ _ _ STD p n (Fin v) v S L eq_refl) as (_ & q & R1 & N). destruct (std_text _ _ _ STD a b p n (Fin v) v NA NB S L eq_refl) as (_ & T).
      eexists. split; [exact T|]. exists q. split; [exact R1|apply nearest_places, N].
    - rewrite D. destruct (std_fmt _ _ _ STD p0 n0 (Fin v) v S0 L0 eq_refl) as (_ & q & R1 & N).
      eexists. rewrite app_nil_r. split; [reflexivity|]. exists q. split; [exact R1|apply nearest_places, N].
    - exfalso. apply AB. unfold has. rewrite <- Ny. apply in_map, I'.
  Qed.
  Theorem dim_label d s s' d' r a u f t p n q :
    d_kind d = KDim -> v_rot s = embm r -> rotation r ->
    coordinate (d_meta d) "at" a -> coordinate (d_meta d) "dir" u -> coordinate (d_meta d) "from" f -> coordinate (d_meta d) "to" t ->
    visit_base_dim d s = Ret (s', d', true) -> format_digits (d_meta d) 3 p n q ->
    exists w pos, o_text (v_page s') = o_text (v_page s) ++ [Text pos (p ++ w ++ q) true false] /\ decimal_for n (along u f t) w.
  Proof.
    intros K R0 RR Ca Cu Cf Ct H FD. pose proof (nodup_of _ _ _ _ _ R0 RR H) as ND. destruct (dim_value _ _ _ _ _ _ _ _ _ K R0 RR Ca Cu Cf Ct H) as (_ & fm & pos & FO & T).
    destruct (formatted _ "%.3f" (B "3") 3 fm p n q (along u f t) ND eq_refl ltac:(split; [discriminate|reflexivity]) ltac:(lia) FO FD) as (w & Q & DW). rewrite Q in T. eauto.
  Qed.
  Theorem angle_label d s s' d' r ap u v p n q :
    d_kind d = KAngle -> v_rot s = embm r -> rotation r -> coordinate (d_meta d) "apex" ap ->
    side_dir (d_meta d) "from_dir" "from_point" ap u -> side_dir (d_meta d) "to_dir" "to_point" ap v ->
    visit_base_dim d s = Ret (s', d', true) -> format_digits (d_meta d) 1 p n q ->
    exists w pos, o_text (v_page s') = o_text (v_page s) ++ [Text pos ((p ++ w ++ q) ++ B " deg") true false] /\ decimal_for n (degrees u v) w.
  Proof.
    intros K R0 RR Ca Cu Cv H FD. pose proof (nodup_of _ _ _ _ _ R0 RR H) as ND. destruct (angle_value _ _ _ _ _ _ _ _ K R0 RR Ca Cu Cv H) as (_ & fm & pos & FO & T).
    destruct (formatted _ "%.1f" (B "1") 1 fm p n q (degrees u v) ND eq_refl ltac:(split; [discriminate|reflexivity]) ltac:(lia) FO FD) as (w & Q & DW). rewrite Q in T. eauto.
  Qed.
  Theorem dia_label d s s' d' r ps c p n q :
    d_kind d = KDia -> v_rot s = embm r -> rotation r -> v_points s = map emb ps -> coordinate (d_meta d) "center" c ->
    visit_base_dim d s = Ret (s', d', true) -> format_digits (d_meta d) 3 p n q ->
    exists ce rho w pos, measured ps (flat2 (rmul c r)) ce rho /\ o_text (v_page s') = o_text (v_page s) ++ [Text pos (B "\351" ++ p ++ w ++ q) true true] /\ decimal_for n (2 * rho) w.
  Proof.
    intros K R0 RR PS Cc H FD. pose proof (nodup_of _ _ _ _ _ R0 RR H) as ND. destruct (dia_value _ _ _ _ _ _ _ K R0 RR PS Cc H) as (ce & rho & fm & pos & M & FO & T).
    destruct (formatted _ "%.3f" (B "3") 3 fm p n q (2 * rho) ND eq_refl ltac:(split; [discriminate|reflexivity]) ltac:(lia) FO FD) as (w & Q & DW). rewrite Q in T. eauto 8.
  Qed.
  Theorem rad_label d s s' d' r ps c p n q :
    d_kind d = KRad -> v_rot s = embm r -> rotation r -> v_points s = map emb ps -> coordinate (d_meta d) "center" c ->
    visit_base_dim d s = Ret (s', d', true) -> format_digits (d_meta d) 3 p n q ->
    exists ce rho w pos, measured ps (flat2 (rmul c r)) ce rho /\ o_text (v_page s') = o_text (v_page s) ++ [Text pos (B "R" ++ p ++ w ++ q) true false] /\ decimal_for n rho w.
  Proof.
    intros K R0 RR PS Cc H FD. pose proof (nodup_of _ _ _ _ _ R0 RR H) as ND. destruct (rad_value _ _ _ _ _ _ _ K R0 RR PS Cc H) as (ce & rho & fm & pos & M & FO & T).
    destruct (formatted _ "%.3f" (B "3") 3 fm p n q rho ND eq_refl ltac:(split; [discriminate|reflexivity]) ltac:(lia) FO FD) as (w & Q & DW). rewrite Q in T. eauto 8.
  Qed.
End Labels.
