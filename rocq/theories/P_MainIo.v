(** P_MainIo.v - what a failing device changes. *)
From Verif Require Import Base Num Geo Stl StlRead Env Ast Lexer Parser Ps Draw Main MainIo P_Base EnvEx ExDoc ExDoc2.

Local Unset Implicit Arguments.
Section Io.
  Context {A : Arith} {E : Env}.
  Lemma set_same p c fs : fs_set p c fs p = Some c.
  Proof. unfold fs_set. assert (T : bytes_eqb p p = true) by (apply bytes_eqb_eq; reflexivity). rewrite T. reflexivity. Qed.
  Lemma set_other p c fs q : q <> p -> fs_set p c fs q = fs q.
  Proof. intro N. unfold fs_set. destruct (bytes_eqb q p) eqn:Q; [apply bytes_eqb_eq in Q; contradiction|reflexivity]. Qed.
  (** The status and the messages are those of a run on a good device; the output is the
      beginning of what that run writes. *)
  Theorem device_only_cuts room script output cw fs :
    fst (main_on room script output cw fs) = fst (main script output cw fs) /\
    (forall p, p <> output -> snd (main_on room script output cw fs) p = fs p) /\
    (forall lg, fst (main script output cw fs) = Exit 0 lg -> exists full,
      snd (main script output cw fs) output = Some full /\ snd (main_on room script output cw fs) output = Some (firstn room full) /\
      (snd (main_on room script output cw fs) output = Some full <-> length full <= room)).
  Proof.
    unfold main_on, main. destruct script as [|s0 s1]; [split; [reflexivity|]; split; [reflexivity|discriminate]|]. destruct output as [|o0 o1]; [split; [reflexivity|]; split; [reflexivity|discriminate]|].
    destruct (cw (o0 :: o1)); cbn [negb]; [|split; [reflexivity|]; split; [reflexivity|discriminate]].
    destruct (fs_set (o0 :: o1) [] fs (s0 :: s1)) as [c|]; [|split; [reflexivity|]; split; [intros p N; apply set_other; exact N|discriminate]].
    destruct (script_to_ps _ _ c) as [r|e]; [|split; [reflexivity|]; split; [intros p N; apply set_other; exact N|discriminate]].
    cbn [fst snd]. split; [reflexivity|]. split; [intros p N; rewrite !set_other by exact N; reflexivity|].
    intros lg _. exists (r_out r). rewrite !set_same. split; [reflexivity|]. split; [reflexivity|]. split.
    - intro H. injection H as H. rewrite <- H. rewrite firstn_length. lia.
    - intro H. rewrite firstn_all2 by exact H. reflexivity.
  Qed.
End Io.
(** The example script on a device with room for 100 bytes. *)
Lemma success_but_cut : exists (A : Arith) (E : Env) room script output cw fs lg full,
  main script output cw fs = (Exit 0 lg, snd (main script output cw fs)) /\ snd (main script output cw fs) output = Some full /\
  fst (main_on room script output cw fs) = Exit 0 lg /\ snd (main_on room script output cw fs) output <> Some full.
Proof.
  exists ExA, ExE, 100, (B "s"), (B "o"), (fun _ => true), all_files.
  assert (H : match @main ExA ExE (B "s") (B "o") (fun _ => true) all_files with (Exit 0 _, f) => match f (B "o") with Some c => Nat.ltb 100 (length c) | None => false end | _ => false end = true) by (vm_compute; reflexivity).
  destruct (@device_only_cuts ExA ExE 100 (B "s") (B "o") (fun _ => true) all_files) as (H1 & _ & H3). rewrite H1.
  destruct (@main ExA ExE (B "s") (B "o") (fun _ => true) all_files) as [[[|n] lg|e] f]; try discriminate H. cbn [fst snd] in *.
  destruct (H3 lg eq_refl) as (full & F1 & F2 & F3). rewrite F1 in H. apply Nat.ltb_lt in H. exists lg, full. split; [reflexivity|]. split; [exact F1|]. split; [reflexivity|].
  intro Q. apply F3 in Q. lia.
Qed.
