(** P_Circle.v - the circle fit in exact arithmetic. *)
From Coq Require Import Reals Lra Nsatz.
From Verif Require Import Base Num NumReal Geo Stl RealSpec Env Ast P_Real CircleSpec.

Local Unset Implicit Arguments.
Local Open Scope R_scope.

(** ** Sums *)
Lemma total_cons f p l : total f (p :: l) = f p + total f l. Proof. reflexivity. Qed.
Lemma total_ext f g l : (forall p, In p l -> f p = g p) -> total f l = total g l.
Proof. induction l as [|p l IH]; intro H; [reflexivity|]. cbn. rewrite (H p (or_introl eq_refl)). f_equal. apply IH. intros q Hq. apply H. right; exact Hq. Qed.
Lemma total_add f g l : total (fun p => f p + g p) l = total f l + total g l.
Proof. induction l as [|p l IH]; cbn; [lra|]. unfold total in IH. rewrite IH. lra. Qed.
Lemma total_mul k f l : total (fun p => k * f p) l = k * total f l.
Proof. induction l as [|p l IH]; cbn; [lra|]. unfold total in IH. rewrite IH. lra. Qed.
Lemma total_nonneg f l : (forall p, 0 <= f p) -> 0 <= total f l.
Proof. intro H. induction l as [|p l IH]; cbn; [lra|]. unfold total in IH. specialize (H p). lra. Qed.
Lemma total_ge f l p : (forall q, 0 <= f q) -> In p l -> f p <= total f l.
Proof.
  intros H. induction l as [|q l IH]; [intros []|]. pose proof (total_nonneg f l H) as N. unfold total in N. intros [->|I]; cbn; [lra|].
  specialize (IH I). unfold total in IH. specialize (H q). lra.
Qed.

(** ** The matrix of the normal equations: its determinant is a sum of squares *)
Definition sxx l := total (fun p => fst p * fst p) l.
Definition sxy l := total (fun p => fst p * snd p) l.
Definition syy l := total (fun p => snd p * snd p) l.
Definition sxz l := total (fun p => fst p * / 2) l.
Definition syz l := total (fun p => snd p * / 2) l.
Definition szz l := total (fun _ => / 2 * / 2) l.
Definition det (l : list pt2) : R :=
  (syy l * szz l - syz l * syz l) * sxx l + (syz l * sxz l - szz l * sxy l) * sxy l + (sxy l * syz l - sxz l * syy l) * sxz l.
(** v G v and u adj(G) u *)
Definition qf (l : list pt2) (a b c : R) : R :=
  sxx l * a * a + syy l * b * b + szz l * c * c + 2 * sxy l * a * b + 2 * sxz l * a * c + 2 * syz l * b * c.
Definition qa (l : list pt2) (a b c : R) : R :=
  (syy l * szz l - syz l * syz l) * a * a + (sxx l * szz l - sxz l * sxz l) * b * b + (sxx l * syy l - sxy l * sxy l) * c * c
  + 2 * (syz l * sxz l - szz l * sxy l) * a * b + 2 * (sxy l * syz l - sxz l * syy l) * a * c + 2 * (sxy l * sxz l - sxx l * syz l) * b * c.
Lemma qf_cons p l a b c : qf (p :: l) a b c = qf l a b c + (fst p * a + snd p * b + / 2 * c) * (fst p * a + snd p * b + / 2 * c).
Proof. unfold qf, sxx, syy, szz, sxy, sxz, syz. rewrite !total_cons. cbv beta. field. Qed.
Lemma qf_ge p l a b c : In p l -> (fst p * a + snd p * b + / 2 * c) * (fst p * a + snd p * b + / 2 * c) <= qf l a b c.
Proof.
  assert (N : forall l, 0 <= qf l a b c).
  { clear. intro l. induction l as [|p l IH]; [unfold qf; cbn; lra|]. rewrite qf_cons. pose proof (Rle_0_sqr (fst p * a + snd p * b + / 2 * c)) as S. unfold Rsqr in S. lra. }
  induction l as [|q l IH]; [intros []|]. rewrite qf_cons. intros [->|I]; [specialize (N l); lra|]. specialize (IH I).
  pose proof (Rle_0_sqr (fst q * a + snd q * b + / 2 * c)) as S. unfold Rsqr in S. lra.
Qed.
Lemma qa_cons p l a b c : qa (p :: l) a b c = qa l a b c + qf l (b * / 2 - c * snd p) (c * fst p - a * / 2) (a * snd p - b * fst p).
Proof. unfold qa, qf, sxx, syy, szz, sxy, sxz, syz. rewrite !total_cons. cbv beta. field. Qed.
Lemma det_cons p l : det (p :: l) = det l + qa l (fst p) (snd p) (/ 2).
Proof. unfold det, qa, sxx, syy, szz, sxy, sxz, syz. rewrite !total_cons. cbv beta. field. Qed.
Lemma qf_nonneg l a b c : 0 <= qf l a b c.
Proof. induction l as [|p l IH]; [unfold qf; cbn; lra|]. rewrite qf_cons. pose proof (Rle_0_sqr (fst p * a + snd p * b + / 2 * c)) as S. unfold Rsqr in S. lra. Qed.
Lemma qa_nonneg l a b c : 0 <= qa l a b c.
Proof. induction l as [|p l IH]; [unfold qa; cbn; lra|]. rewrite qa_cons. pose proof (qf_nonneg l (b * / 2 - c * snd p) (c * fst p - a * / 2) (a * snd p - b * fst p)). lra. Qed.
Definition d3 (a b c : R) (p q : pt2) : R := (b * / 2 - c * snd p) * fst q + (c * fst p - a * / 2) * snd q + (a * snd p - b * fst p) * / 2.
Lemma qa_ge l a b c p q : In p l -> In q l -> d3 a b c p q * d3 a b c p q <= qa l a b c.
Proof.
  induction l as [|w l IH]; [intros []|]. rewrite qa_cons. pose proof (qf_nonneg l (b * / 2 - c * snd w) (c * fst w - a * / 2) (a * snd w - b * fst w)) as N. pose proof (qa_nonneg l a b c) as NA.
  intros [->|I] [->|J].
  - assert (Z : d3 a b c q q = 0) by (unfold d3; ring). rewrite Z. lra.
  - pose proof (qf_ge q l (b * / 2 - c * snd p) (c * fst p - a * / 2) (a * snd p - b * fst p) J) as G.
    replace (fst q * (b * / 2 - c * snd p) + snd q * (c * fst p - a * / 2) + / 2 * (a * snd p - b * fst p)) with (d3 a b c p q) in G by (unfold d3; ring). lra.
  - pose proof (qf_ge p l (b * / 2 - c * snd q) (c * fst q - a * / 2) (a * snd q - b * fst q) I) as G.
    replace (fst p * (b * / 2 - c * snd q) + snd p * (c * fst q - a * / 2) + / 2 * (a * snd q - b * fst q)) with (- d3 a b c p q) in G by (unfold d3; ring). lra.
  - specialize (IH I J). lra.
Qed.
Lemma det_nonneg l : 0 <= det l.
Proof. induction l as [|p l IH]; [unfold det; cbn; lra|]. rewrite det_cons. pose proof (qa_nonneg l (fst p) (snd p) (/ 2)). lra. Qed.
Lemma det_ge l p q r : In p l -> In q l -> In r l -> d3 (fst p) (snd p) (/ 2) q r * d3 (fst p) (snd p) (/ 2) q r <= det l.
Proof.
  set (D := fun p q r : pt2 => d3 (fst p) (snd p) (/ 2) q r). change (In p l -> In q l -> In r l -> D p q r * D p q r <= det l).
  assert (Z1 : forall p q, D p p q = 0) by (intros; unfold D, d3; ring).
  assert (Z2 : forall p q, D p q p = 0) by (intros; unfold D, d3; ring).
  assert (Z3 : forall p q, D p q q = 0) by (intros; unfold D, d3; ring).
  assert (S1 : forall p q r, D p q r * D p q r = D q p r * D q p r) by (intros; unfold D, d3; ring).
  assert (S2 : forall p q r, D p q r * D p q r = D r p q * D r p q) by (intros; unfold D, d3; ring).
  revert p q r. induction l as [|w l IH]; [intros ? ? ? []|]. intros p q r. rewrite det_cons. pose proof (qa_nonneg l (fst w) (snd w) (/ 2)) as N. pose proof (det_nonneg l) as NA.
  intros [->|Ip] [->|Iq] [->|Ir]; rewrite ?Z1, ?Z2, ?Z3; try lra.
  - pose proof (qa_ge l (fst p) (snd p) (/ 2) q r Iq Ir) as G. unfold D. lra.
  - rewrite S1. pose proof (qa_ge l (fst q) (snd q) (/ 2) p r Ip Ir) as G. unfold D. lra.
  - rewrite S2. pose proof (qa_ge l (fst r) (snd r) (/ 2) p q Ip Iq) as G. unfold D. lra.
  - specialize (IH _ _ _ Ip Iq Ir). lra.
Qed.
Lemma spread_det l : spread l -> det l <> 0.
Proof.
  intros (p & q & r & Ip & Iq & Ir & C) Z. pose proof (det_ge l p q r Ip Iq Ir) as G. rewrite Z in G. apply C.
  replace (d3 (fst p) (snd p) (/ 2) q r) with (/ 2 * ((fst q - fst p) * (snd r - snd p) - (snd q - snd p) * (fst r - fst p))) in G by (unfold d3; field).
  set (k := (fst q - fst p) * (snd r - snd p) - (snd q - snd p) * (fst r - fst p)) in *.
  assert (K : k * k <= 0) by lra. pose proof (Rle_0_sqr k) as K2. unfold Rsqr in K2. apply Rsqr_0_uniq. unfold Rsqr. lra.
Qed.
(** Conversely points on one line have determinant zero: decided by the first triple. *)
Lemma det_spread l : det l <> 0 -> spread l.
Proof.
  intro H. destruct (Classical_Prop.classic (spread l)) as [S|N]; [exact S|exfalso]. apply H. clear H.
  assert (C : forall p q r, In p l -> In q l -> In r l -> (fst q - fst p) * (snd r - snd p) - (snd q - snd p) * (fst r - fst p) = 0).
  { intros p q r Ip Iq Ir. destruct (Req_dec ((fst q - fst p) * (snd r - snd p) - (snd q - snd p) * (fst r - fst p)) 0) as [E|E]; [exact E|]. exfalso. apply N. exists p, q, r. auto. }
  clear N.
  assert (QF : forall l a b c, (forall p, In p l -> fst p * a + snd p * b + / 2 * c = 0) -> qf l a b c = 0).
  { clear. intro l. induction l as [|p l IH]; intros a b c H; [unfold qf; cbn; ring|]. rewrite qf_cons, IH; [rewrite (H p (or_introl eq_refl)); ring|]. intros q I. apply H. right; exact I. }
  assert (QA : forall l a b c, (forall p q, In p l -> In q l -> d3 a b c p q = 0) -> qa l a b c = 0).
  { intro k. induction k as [|p k IH]; intros a b c H; [unfold qa; cbn; ring|]. rewrite qa_cons, IH, QF; [ring| |].
    - intros q I. rewrite <- (H p q (or_introl eq_refl) (or_intror I)). unfold d3. ring.
    - intros q r I J. apply H; right; assumption. }
  induction l as [|p l IH]; [unfold det; cbn; ring|]. rewrite det_cons, IH, QA; [ring| |].
  - intros q r I J. specialize (C p q r (or_introl eq_refl) (or_intror I) (or_intror J)). unfold d3. rewrite <- (Rmult_0_r (/ 2)), <- C. field.
  - intros q r s I J K. apply C; right; assumption.
Qed.

(** ** The model's sums *)
Lemma fold_fin (f : pt2 -> xr) (g : pt2 -> R) l : (forall p, In p l -> f p = Fin (g p)) -> forall a, fold_left xadd (map f l) (Fin a) = Fin (a + total g l).
Proof.
  induction l as [|p l IH]; intros H a; cbn [map fold_left]; [cbn; rewrite Rplus_0_r; reflexivity|].
  rewrite (H p (or_introl eq_refl)). cbn [xadd]. rewrite IH by (intros q I; apply H; right; exact I). rewrite total_cons. f_equal. ring.
Qed.
Lemma nsum_fin (f : @v2 XR -> @num XR) (g : pt2 -> R) l : (forall p, In p l -> f (e2 p) = Fin (g p)) -> @nsum XR (map f (map e2 l)) = Fin (total g l).
Proof.
  intro H. rewrite map_map. unfold nsum. change (fold_left xadd (map (fun p => f (e2 p)) l) (Fin 0) = Fin (total g l)).
  rewrite (fold_fin _ g l H). f_equal. ring.
Qed.
Lemma half_dec : @of_dec XR 5 (-1) = Fin (/ 2).
Proof. change (Fin (5 * / (10 ^ 1)) = Fin (/ 2)). f_equal. rewrite pow_1. lra. Qed.
Definition gram (l : list pt2) : rmat := RM (P3 (sxx l) (sxy l) (sxz l)) (P3 (sxy l) (syy l) (syz l)) (P3 (sxz l) (syz l) (szz l)).
Lemma fc_row_fin p : @fc_row XR (e2 p) = emb (P3 (fst p) (snd p) (/ 2)).
Proof. unfold fc_row. rewrite half_dec. reflexivity. Qed.
Lemma gram_fin l : @fc_gram XR (map e2 l) = embm (gram l).
Proof.
  unfold fc_gram, embm, gram, emb. cbn [r0 r1 r2 rx ry rz].
  repeat match goal with |- context [@nsum XR (map ?f (map e2 l))] =>
    first [ rewrite (nsum_fin f (fun p => fst p * fst p) l) by (intros p _; rewrite !fc_row_fin; reflexivity)
          | rewrite (nsum_fin f (fun p => fst p * snd p) l) by (intros p _; rewrite !fc_row_fin; cbn; f_equal; ring)
          | rewrite (nsum_fin f (fun p => snd p * snd p) l) by (intros p _; rewrite !fc_row_fin; reflexivity)
          | rewrite (nsum_fin f (fun p => fst p * / 2) l) by (intros p _; rewrite !fc_row_fin; cbn; f_equal; ring)
          | rewrite (nsum_fin f (fun p => snd p * / 2) l) by (intros p _; rewrite !fc_row_fin; cbn; f_equal; ring)
          | rewrite (nsum_fin f (fun p => / 2 * / 2) l) by (intros p _; rewrite !fc_row_fin; cbn; f_equal; ring) ] end.
  reflexivity.
Qed.
Lemma fc_y_fin p : @fc_y XR (e2 p) = Fin ((fst p * fst p + snd p * snd p) / 2).
Proof. unfold fc_y, dot2. cbn. destruct (reqb_spec 2 0) as [H|H]; [lra|reflexivity]. Qed.

(** adj / det *)
Definition adj (l : list pt2) : rmat :=
  RM (P3 (syy l * szz l - syz l * syz l) (syz l * sxz l - szz l * sxy l) (sxy l * syz l - sxz l * syy l))
     (P3 (syz l * sxz l - sxy l * szz l) (szz l * sxx l - sxz l * sxz l) (sxz l * sxy l - sxx l * syz l))
     (P3 (sxy l * syz l - syy l * sxz l) (sxz l * sxy l - syz l * sxx l) (sxx l * syy l - sxy l * sxy l)).
Lemma inv_fin l : det l <> 0 -> @inv3 XR (embm (gram l)) =
  embm (RM (rscale (/ det l) (r0 (adj l))) (rscale (/ det l) (r1 (adj l))) (rscale (/ det l) (r2 (adj l)))).
Proof.
  intro D. unfold inv3, embm, gram, emb. cbn [r0 r1 r2 rx ry rz row0 row1 row2 x3 y3 z3].
  cbn [nmul nsub nadd ndiv sum3 n1 of_Z XR xmul xsub xadd xneg xdiv].
  match goal with |- context [reqb ?d 0] => assert (E : d = det l) by (unfold det; ring); rewrite E end.
  destruct (reqb_spec (det l) 0) as [Z|_]; [contradiction|]. cbn [xmul]. unfold adj, rscale. cbn [r0 r1 r2 rx ry rz].
  f_equal; f_equal; match goal with |- Fin ?u = Fin ?v => assert (K : u = v) by (field; exact D); rewrite K; reflexivity end.
Qed.
Definition yv (p : pt2) : R := (fst p * fst p + snd p * snd p) / 2.
Definition vx l := total (fun p => fst p * yv p) l.
Definition vy l := total (fun p => snd p * yv p) l.
Definition vz l := total (fun p => / 2 * yv p) l.
Definition sol (l : list pt2) (a : rpt) : R := / det l * (rx a * vx l + ry a * vy l + rz a * vz l).
Lemma comp_fin l k a : @nsum XR (map (fun p => @nmul XR (@dot3 XR (emb (rscale k a)) (fc_row p)) (fc_y p)) (map e2 l)) =
  Fin (k * (rx a * vx l + ry a * vy l + rz a * vz l)).
Proof.
  rewrite (nsum_fin _ (fun p => k * (rx a * (fst p * yv p) + ry a * (snd p * yv p) + rz a * (/ 2 * yv p)))).
  - f_equal. rewrite total_mul. f_equal. rewrite !total_add. unfold vx, vy, vz. rewrite !total_mul. reflexivity.
  - intros p _. rewrite fc_row_fin, fc_y_fin. unfold dot3. cbn. f_equal. unfold yv. field.
Qed.
Lemma res_fin l : det l <> 0 -> @fc_res XR (map e2 l) = emb (P3 (sol l (r0 (adj l))) (sol l (r1 (adj l))) (sol l (r2 (adj l)))).
Proof.
  intro D. unfold fc_res. rewrite gram_fin, (inv_fin l D). cbn [row0 row1 row2 embm r0 r1 r2].
  rewrite !comp_fin. reflexivity.
Qed.

(** ** The solution of the normal equations is the best circle *)
Lemma normal_eq l : det l <> 0 -> let a := sol l (r0 (adj l)) in let b := sol l (r1 (adj l)) in let c := sol l (r2 (adj l)) in
  sxx l * a + sxy l * b + sxz l * c = vx l /\ sxy l * a + syy l * b + syz l * c = vy l /\ sxz l * a + syz l * b + szz l * c = vz l.
Proof.
  intro D. assert (K : / det l * det l = 1) by (apply Rinv_l; exact D). unfold sol, adj. cbn [r0 r1 r2 rx ry rz]. generalize dependent (/ det l). intros k K.
  assert (F : forall v, k * (det l * v) = v) by (intro v; rewrite <- Rmult_assoc, K; ring).
  split; [|split]; (etransitivity; [|apply F]); unfold det; ring.
Qed.
Definition lin (p : pt2) (a b c : R) : R := fst p * a + snd p * b + / 2 * c.
Lemma total_lin l a b c (f : pt2 -> R) : total (fun p => f p * lin p a b c) l = a * total (fun p => f p * fst p) l + b * total (fun p => f p * snd p) l + c * total (fun p => f p * / 2) l.
Proof. induction l as [|p l IH]; [cbn; ring|]. rewrite !total_cons, IH. unfold lin. ring. Qed.
(** Pythagoras for the residuals *)
Lemma pythagoras l a b c a' b' c' :
  sxx l * a + sxy l * b + sxz l * c = vx l -> sxy l * a + syy l * b + syz l * c = vy l -> sxz l * a + syz l * b + szz l * c = vz l ->
  total (fun p => (yv p - lin p a' b' c') * (yv p - lin p a' b' c')) l =
  total (fun p => (yv p - lin p a b c) * (yv p - lin p a b c)) l + qf l (a' - a) (b' - b) (c' - c).
Proof.
  intros H1 H2 H3.
  assert (G : forall k, total (fun p => (yv p - lin p a' b' c') * (yv p - lin p a' b' c')) k =
    total (fun p => (yv p - lin p a b c) * (yv p - lin p a b c)) k + qf k (a' - a) (b' - b) (c' - c)
    - 2 * ((a' - a) * (vx k - (sxx k * a + sxy k * b + sxz k * c)) + (b' - b) * (vy k - (sxy k * a + syy k * b + syz k * c)) + (c' - c) * (vz k - (sxz k * a + syz k * b + szz k * c)))).
  { clear. intro k. induction k as [|p k IH]; [unfold qf, vx, vy, vz, sxx, syy, szz, sxy, sxz, syz; cbn; ring|].
    rewrite !total_cons, IH, qf_cons. unfold vx, vy, vz, sxx, syy, szz, sxy, sxz, syz. rewrite !total_cons. unfold lin. cbv beta. field. }
  rewrite G, H1, H2, H3. ring.
Qed.
Lemma misfit_lin l a b s : misfit l (a, b) s = 4 * total (fun p => (yv p - lin p a b (s - a * a - b * b)) * (yv p - lin p a b (s - a * a - b * b))) l.
Proof. unfold misfit. rewrite <- total_mul. apply total_ext. intros p _. unfold gap2, yv, lin. cbn. field. Qed.
Lemma qf_zero l a b c : det l <> 0 -> qf l a b c = 0 -> a = 0 /\ b = 0 /\ c = 0.
Proof.
  intros D Q. destruct (det_spread l D) as (p & q & r & Ip & Iq & Ir & C).
  assert (Z : forall p, In p l -> lin p a b c = 0).
  { intros w I. pose proof (qf_ge w l a b c I) as G. rewrite Q in G. fold (lin w a b c) in G. pose proof (Rle_0_sqr (lin w a b c)) as S. unfold Rsqr in S. apply Rsqr_0_uniq. unfold Rsqr. lra. }
  pose proof (Z p Ip) as Zp. pose proof (Z q Iq) as Zq. pose proof (Z r Ir) as Zr. unfold lin in *. unfold corner in C.
  assert (A0 : ((fst q - fst p) * (snd r - snd p) - (snd q - snd p) * (fst r - fst p)) * a = 0).
  { replace (((fst q - fst p) * (snd r - snd p) - (snd q - snd p) * (fst r - fst p)) * a) with
      ((snd r - snd p) * ((fst q * a + snd q * b + / 2 * c) - (fst p * a + snd p * b + / 2 * c)) - (snd q - snd p) * ((fst r * a + snd r * b + / 2 * c) - (fst p * a + snd p * b + / 2 * c))) by ring.
    rewrite Zp, Zq, Zr. ring. }
  assert (B0 : ((fst q - fst p) * (snd r - snd p) - (snd q - snd p) * (fst r - fst p)) * b = 0).
  { replace (((fst q - fst p) * (snd r - snd p) - (snd q - snd p) * (fst r - fst p)) * b) with
      ((fst q - fst p) * ((fst r * a + snd r * b + / 2 * c) - (fst p * a + snd p * b + / 2 * c)) - (fst r - fst p) * ((fst q * a + snd q * b + / 2 * c) - (fst p * a + snd p * b + / 2 * c))) by ring.
    rewrite Zp, Zq, Zr. ring. }
  apply Rmult_integral in A0. apply Rmult_integral in B0. destruct A0 as [A0|A0]; [contradiction|]. destruct B0 as [B0|B0]; [contradiction|]. subst a b.
  split; [reflexivity|]. split; [reflexivity|]. lra.
Qed.
Lemma det_nonempty l : det l <> 0 -> (3 <= length l)%nat.
Proof.
  intro D. destruct (det_spread l D) as (p & q & r & Ip & Iq & Ir & C). unfold corner in C.
  destruct l as [|u [|v [|w l]]]; cbn [length]; try lia.
  - destruct Ip.
  - destruct Ip as [<-|[]], Iq as [<-|[]], Ir as [<-|[]]. exfalso. apply C. ring.
  - destruct Ip as [<-|[<-|[]]], Iq as [<-|[<-|[]]], Ir as [<-|[<-|[]]]; exfalso; apply C; ring.
Qed.
(** The circle that is reported for points that are not on a line. *)
Lemma fit_best l : spread l -> exists c rho, @find_circle XR (map e2 l) = Some (e2 c, Fin rho : @num XR) /\ best_circle l c rho.
Proof.
  intro S. pose proof (spread_det l S) as D. pose proof (det_nonempty l D) as L. unfold find_circle. rewrite map_length.
  destruct (Nat.ltb_spec (length l) 3) as [LT|_]; [lia|]. rewrite (res_fin l D).
  destruct (normal_eq l D) as (N1 & N2 & N3). set (a := sol l (r0 (adj l))) in *. set (b := sol l (r1 (adj l))) in *. set (c := sol l (r2 (adj l))) in *. clearbody a b c.
  assert (P : 0 <= c + a * a + b * b).
  { (* the mean of the squared distances *)
    assert (Z : 0 < szz l).
    { unfold szz. assert (G : forall k, total (fun _ => / 2 * / 2) k = INR (length k) * (/ 2 * / 2)) by (intro k; induction k as [|p k IH]; [cbn; ring|]; rewrite total_cons, IH; cbn [length]; rewrite S_INR; ring).
      rewrite G. apply Rmult_lt_0_compat; [apply lt_0_INR; lia|lra]. }
    assert (M : total (fun p => / 4 * gap2 p (a, b)) l = szz l * (c + a * a + b * b)).
    { transitivity (vz l - (sxz l * a + syz l * b) + szz l * (a * a + b * b)).
      - unfold vz, sxz, syz, szz. clear. induction l as [|p l IH]; [cbn; ring|]. rewrite !total_cons, IH. unfold gap2, yv. cbn [fst snd]. field.
      - rewrite <- N3. ring. }
    assert (T : 0 <= total (fun p => / 4 * gap2 p (a, b)) l).
    { apply total_nonneg. intro p. unfold gap2. pose proof (Rle_0_sqr (fst p - fst (a, b))) as X. pose proof (Rle_0_sqr (snd p - snd (a, b))) as Y. unfold Rsqr in *. lra. }
    rewrite M in T. apply (Rmult_le_reg_l (szz l)); [exact Z|]. rewrite Rmult_0_r. exact T. }
  exists (a, b), (sqrt (c + a * a + b * b)). split.
  - cbn [x3 y3 z3 emb rx ry rz]. cbn [nmul nadd nsqrt XR xmul xadd xsqrt]. rewrite (proj2 (rltb_false _ _) P). reflexivity.
  - split; [apply sqrt_pos|]. intros [a' b'] s'. rewrite sqrt_sqrt by exact P. rewrite !misfit_lin.
    replace (c + a * a + b * b - a * a - b * b) with c by ring.
    rewrite (pythagoras l a b c a' b' (s' - a' * a' - b' * b') N1 N2 N3).
    pose proof (qf_nonneg l (a' - a) (b' - b) (s' - a' * a' - b' * b' - c)) as Q. split; [lra|].
    intro E. assert (Q0 : qf l (a' - a) (b' - b) (s' - a' * a' - b' * b' - c) = 0) by lra.
    destruct (qf_zero l _ _ _ D Q0) as (A0 & B0 & C0). assert (a' = a) by lra. assert (b' = b) by lra. subst a' b'. split; [reflexivity|]. lra.
Qed.
Lemma best_unique l c rho c' rho' : best_circle l c rho -> best_circle l c' rho' -> c' = c /\ rho' = rho.
Proof.
  intros [P H] [P' H']. destruct (H c' (rho' * rho')) as [L E]. destruct (H' c (rho * rho)) as [L' _].
  destruct E as [EC ER]; [lra|]. split; [exact EC|]. assert (Q : (rho' - rho) * (rho' + rho) = 0) by (replace ((rho' - rho) * (rho' + rho)) with (rho' * rho' - rho * rho) by ring; lra).
  apply Rmult_integral in Q. destruct Q as [Q|Q]; lra.
Qed.
(** Points on a circle: that circle fits without error. *)
Lemma circle_best l c rho : spread l -> 0 <= rho -> (forall p, In p l -> gap2 p c = rho * rho) -> best_circle l c rho.
Proof.
  intros S P H. assert (Z : misfit l c (rho * rho) = 0).
  { unfold misfit. rewrite (total_ext _ (fun _ => 0 * 0)) by (intros p I; rewrite (H p I); ring). rewrite (total_mul 0 (fun _ => 0)). ring. }
  split; [exact P|]. intros c' s'. rewrite Z. assert (N : 0 <= misfit l c' s').
  { apply total_nonneg. intro p. pose proof (Rle_0_sqr (gap2 p c' - s')) as X. unfold Rsqr in X. exact X. }
  split; [exact N|]. intro E. destruct c as [a b], c' as [a' b'].
  assert (D := spread_det l S). destruct (normal_eq l D) as (N1 & N2 & N3). rewrite misfit_lin in Z, E.
  rewrite (pythagoras l _ _ _ a b _ N1 N2 N3) in Z. rewrite (pythagoras l _ _ _ a' b' _ N1 N2 N3) in E.
  match type of Z with 4 * (?t + ?q) = 0 => assert (T : 0 <= t) by (apply total_nonneg; intro p; match goal with |- 0 <= ?x * ?x => pose proof (Rle_0_sqr x) as X; unfold Rsqr in X; exact X end); assert (Q : 0 <= q) by apply qf_nonneg; assert (Z0 : q = 0) by lra; assert (T0 : t = 0) by lra end.
  rewrite T0 in E. assert (E0 : qf l (a' - sol l (r0 (adj l))) (b' - sol l (r1 (adj l))) (s' - a' * a' - b' * b' - sol l (r2 (adj l))) = 0) by lra.
  destruct (qf_zero l _ _ _ D Z0) as (A1 & B1 & C1). destruct (qf_zero l _ _ _ D E0) as (A2 & B2 & C2).
  assert (a' = a) by lra. assert (b' = b) by lra. subst a' b'. split; [reflexivity|]. lra.
Qed.
