(** P_Ps4.v - the place of page titles in doubles. *)
From Coq Require Import Reals Lra.
From Flocq Require Import Core IEEE754.BinarySingleNaN.
From Verif Require Import Base Num NumF64 Geo Stl StlRead Env Ast Lexer Parser Ps Draw Main DocSpec P_Base PsSpec P_Ps P_Ps2 P_Ps3.

Local Unset Implicit Arguments.
Definition ta (n : nat) : f64 := f_to_f32 (fsub (fz_ 784) (fmul (fz_ (Z.of_nat n * 8)) (fdec 6 (-1)))).
Definition la (n : nat) : f64 := f_to_f32 (fsub (ta n) (fz_ 3)).
(** x times 2^60, if that is a positive integer *)
Definition up60 (x : f64) : option Z :=
  match x with
  | B754_finite false m e _ => if (0 <=? e + 60)%Z then Some (Zpos m * 2 ^ (e + 60))%Z else None
  | _ => None
  end.
Lemma up60_spec x z : up60 x = Some z -> is_finite x = true /\ (IZR z = B2R x * bpow radix2 60)%R.
Proof.
  destruct x as [s|s| |s m e h]; cbn [up60]; try discriminate. destruct s; [discriminate|]. destruct (Z.leb_spec 0 (e + 60)) as [L|]; [|discriminate].
  intro H. injection H as <-. split; [reflexivity|]. change (IZR (Zpos m * 2 ^ (e + 60)) = F2R (Float radix2 (Zpos m) e) * bpow radix2 60)%R. unfold F2R, Fnum, Fexp. rewrite Rmult_assoc, <- bpow_plus, mult_IZR. f_equal. rewrite <- (IZR_Zpower radix2) by exact L. reflexivity.
Qed.
Definition check_title (n : nat) : bool :=
  match up60 (ta n), up60 (la n) with
  | Some x, Some l => (5 * 2 ^ 60 <=? l)%Z && (l <? x)%Z && (10 * x + 48 * Z.of_nat n * 2 ^ 60 <=? 7870 * 2 ^ 60)%Z && (l <=? 787 * 2 ^ 60)%Z
  | _, _ => false
  end.
Lemma check_all : forallb check_title (seq 0 162) = true. Proof. vm_compute. reflexivity. Qed.
Lemma title_inside n : n <= 161 -> inside_border n (ta n) (la n).
Proof.
  intro L. pose proof check_all as C. rewrite forallb_forall in C. specialize (C n ltac:(apply in_seq; lia)). unfold check_title in C.
  destruct (up60 (ta n)) as [x|] eqn:X; [|discriminate]. destruct (up60 (la n)) as [l|] eqn:LL; [|discriminate].
  apply up60_spec in X. apply up60_spec in LL. destruct X as [X1 X2]. destruct LL as [L1 L2]. rewrite !andb_true_iff in C. destruct C as [[[C1 C2] C3] C4].
  apply Z.leb_le in C1. apply Z.ltb_lt in C2. apply Z.leb_le in C3. apply Z.leb_le in C4.
  apply IZR_le in C1. apply IZR_lt in C2. apply IZR_le in C3. apply IZR_le in C4. rewrite !plus_IZR, !mult_IZR in *. rewrite X2, L2 in *.
  change (IZR (2 ^ 60)) with (bpow radix2 60) in *. pose proof (bpow_gt_0 radix2 60) as P. rewrite <- INR_IZR_INZ in C3. unfold inside_border. set (k := bpow radix2 60) in *. clearbody k.
  repeat split; try assumption.
  - apply (Rmult_le_reg_r k); [exact P|]. lra.
  - apply (Rmult_lt_reg_r k); [exact P|]. lra.
  - apply (Rmult_le_reg_r (10 * k)); [lra|]. apply Rle_trans with (10 * (B2R (ta n) * k) + 48 * INR n * k)%R; [right; field|]. apply Rle_trans with (7870 * k)%R; [exact C3|right; ring].
  - apply (Rmult_le_reg_r k); [exact P|]. lra.
Qed.
(** The bound is sharp. *)
Lemma title_outside : ~ inside_border 162 (ta 162) (la 162).
Proof.
  assert (C : match up60 (la 162) with Some l => (l <? 5 * 2 ^ 60)%Z | None => false end = true) by (vm_compute; reflexivity).
  destruct (up60 (la 162)) as [l|] eqn:LL; [|discriminate C]. apply up60_spec in LL. destruct LL as [_ L2]. apply Z.ltb_lt, IZR_lt in C. rewrite mult_IZR, L2 in C.
  change (IZR (2 ^ 60)) with (bpow radix2 60) in C. pose proof (bpow_gt_0 radix2 60) as P. intros (_ & _ & (H & _) & _).
  assert (K : (5 * bpow radix2 60 <= B2R (la 162) * bpow radix2 60)%R) by (apply Rmult_le_compat_r; lra). lra.
Qed.
Section Title.
  Context (lm : libm) (asc : bool) (E : @Env (F64 lm asc)).
  #[local] Instance AF4 : Arith := F64 lm asc.
  #[local] Instance EF4 : @Env AF4 := E.
  Lemma titles st d os d' lg : generate_pages st d = Ret (os, d', lg, true) ->
    Forall2 (fun pg p => exists q t x l, titled pg t /\ p = plus_page q (title_box t x l) /\ (length t <= 161 -> inside_border (length t) x l)) (doc_pages d) os.
  Proof.
    unfold generate_pages. rewrite obind_ret. intros ([[[s pgs'] os'] ok'] & HG & HQ). injection HQ as <- _ _ ->.
    revert HG. generalize 1 at 1. generalize vst_init. revert s pgs' os'. generalize (doc_pages d). induction l as [|pg pgs IH]; intros s pgs' os' s0 n H; cbn [gen_pages] in H.
    - injection H as <- <- <-. constructor.
    - rewrite obind_ret in H. destruct H as ([[s1 d1] ok1] & H1 & H). rewrite obind_ret in H. destruct H as ([[[s2 t2] os2] ok2] & H2 & H).
      injection H as <- <- <- HK. apply andb_true_iff in HK. destruct HK as [-> ->]. constructor; [|eapply IH; exact H2].
      destruct (gen_page_title _ _ _ _ _ _ H1) as (p & t & T & Q). exists p, t, (text_at t), (to_f32 (nsub (text_at t) (of_Z 3))). split; [exact T|]. split; [exact Q|].
      intro L. exact (title_inside (length t) L).
  Qed.
End Title.
