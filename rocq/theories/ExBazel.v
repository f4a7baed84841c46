(** ExBazel.v - a target with a generated model, built below two roots. *)
From Verif Require Import Base Num NumF64 Geo Stl StlRead Env EnvEx Ast Lexer Parser Ps Draw Main DocSpec Bazel BazelSpec P_Base ExDoc ExDoc2.
From Coq Require Import List Bool.
Import ListNotations.
Local Unset Implicit Arguments.

Definition bz_target (root : string) : target :=
  Target (B "plan") (BFile [] (B "pkg/plan.txt")) [BFile (B root) (B "pkg/t.stl"); BFile [] (B "pkg/u.stl")] (BFile (B root) (B "pkg/plan.ps")).
Definition bz_script : bytes := B "load t = ""pkg/t.stl""; load u = ""pkg/u.stl""; page { draw t {} }".
Fixpoint undot (p : bytes) : bytes := match p with "."%char :: "/"%char :: q => undot q | _ => p end.
Definition bz_files (root : string) : files := fun p =>
  if bytes_eqb (undot p) (B "pkg/plan.txt") then Some bz_script
  else if bytes_eqb (undot p) (B root ++ B "/pkg/t.stl") then Some ex_stl
  else if bytes_eqb (undot p) (B "pkg/u.stl") then Some ex_stl else None.
Lemma undot_dotted p : ~ dotted p -> undot p = p.
Proof.
  destruct p as [|a [|b q]]; intro H; try reflexivity; [destruct a as [[] [] [] [] [] [] [] []]; reflexivity|].
  destruct (Ascii.eqb_spec a ".") as [->|N].
  - destruct (Ascii.eqb_spec b "/") as [->|M]; [exfalso; apply H; exists q; reflexivity|].
    destruct b as [[] [] [] [] [] [] [] []]; try reflexivity. congruence.
  - destruct a as [[] [] [] [] [] [] [] []]; try reflexivity. congruence.
Qed.
Lemma bz_sandbox root : root <> ""%string -> sandbox (bz_target root) (bz_files root).
Proof.
  intro NR. split; [intros p _; reflexivity|]. intros p c _ D. unfold bz_files. rewrite (undot_dotted p D). intro H.
  destruct (bytes_eqb p (B "pkg/plan.txt")) eqn:Q1; [apply bytes_eqb_eq in Q1; exists (tg_script (bz_target root)); split; [right; right; left; reflexivity|exact Q1]|].
  destruct (bytes_eqb p (B root ++ B "/pkg/t.stl")) eqn:Q2.
  { apply bytes_eqb_eq in Q2. exists (BFile (B root) (B "pkg/t.stl")). split; [left; reflexivity|]. unfold b_path. cbn [b_root b_below]. destruct root; [congruence|exact Q2]. }
  destruct (bytes_eqb p (B "pkg/u.stl")) eqn:Q3; [apply bytes_eqb_eq in Q3; exists (BFile [] (B "pkg/u.stl")); split; [right; left; reflexivity|exact Q3]|discriminate H].
Qed.
Definition bin1 := "bazel-out/k8-opt/bin"%string. Definition bin2 := "bazel-out/aarch64-dbg/bin"%string.
Lemma bz_tidy root : root = bin1 \/ root = bin2 -> tidy (bz_target root).
Proof.
  intros [->| ->] f I; cbn in I; repeat destruct I as [<-|I]; try contradiction;
    (split; [intros [x X]; discriminate X|]; split; [intros [x X]; discriminate X|]; split; [intros [x X]; discriminate X|]; split; [intros [x X]; discriminate X|]; split; [discriminate|];
     vm_compute; intro X; repeat destruct X as [X|X]; try discriminate X; contradiction).
Qed.
Lemma bz_apart root f : root = bin1 \/ root = bin2 -> In f (tg_inputs (bz_target root)) -> apart (bz_target root) f.
Proof.
  intros [->| ->] I; cbn in I; repeat destruct I as [<-|I]; try contradiction; (split; [discriminate|]); intros g h Ig Ih; cbn in Ig, Ih;
    repeat destruct Ig as [<-|Ig]; try contradiction; repeat destruct Ih as [<-|Ih]; try contradiction; intros [H|H]; first [discriminate H|reflexivity|exact H].
Qed.
Lemma bz_loads d m : @parses ExA ExE (b_path (tg_script (bz_target bin1))) bz_script d -> In m (doc_models d) -> mo_source m = B "pkg/t.stl" \/ mo_source m = B "pkg/u.stl".
Proof.
  intros [lg P] I.
  assert (K : match @parse ExA ExE (b_path (tg_script (bz_target bin1))) bz_script with Ret (0, d, _) => forallb (fun m => bytes_eqb (mo_source m) (B "pkg/t.stl") || bytes_eqb (mo_source m) (B "pkg/u.stl")) (doc_models d) | _ => false end = true) by (vm_compute; reflexivity).
  rewrite P in K. rewrite forallb_forall in K. specialize (K m I). apply orb_prop in K. destruct K as [K|K]; apply bytes_eqb_eq in K; auto.
Qed.
Lemma bz_all d m : @parses ExA ExE (b_path (tg_script (bz_target bin1))) bz_script d -> In m (doc_models d) ->
  exists f1 f2 x, In f1 (tg_inputs (bz_target bin1)) /\ In f2 (tg_inputs (bz_target bin2)) /\ apart (bz_target bin1) f1 /\ apart (bz_target bin2) f2 /\ b_below f1 = mo_source m /\ b_below f2 = mo_source m /\
    bz_files bin1 (b_path f1) = Some x /\ bz_files bin2 (b_path f2) = Some x.
Proof.
  intros P I. destruct (bz_loads d m P I) as [-> | ->].
  - exists (BFile (B bin1) (B "pkg/t.stl")), (BFile (B bin2) (B "pkg/t.stl")), ex_stl. assert (I1 : In (BFile (B bin1) (B "pkg/t.stl")) (tg_inputs (bz_target bin1))) by (left; reflexivity).
    assert (I2 : In (BFile (B bin2) (B "pkg/t.stl")) (tg_inputs (bz_target bin2))) by (left; reflexivity).
    split; [exact I1|]. split; [exact I2|]. split; [apply bz_apart; auto|]. split; [apply bz_apart; auto|]. repeat split.
  - exists (BFile [] (B "pkg/u.stl")), (BFile [] (B "pkg/u.stl")), ex_stl. assert (I1 : forall r, In (BFile [] (B "pkg/u.stl")) (tg_inputs (bz_target r))) by (intro; right; left; reflexivity).
    split; [apply I1|]. split; [apply I1|]. split; [apply bz_apart; auto|]. split; [apply bz_apart; auto|]. repeat split.
Qed.
Lemma bz_runs : fst (@run_action ExA ExE (bz_target bin1) (fun _ => true) (bz_files bin1)) = Exit 0 [].
Proof.
  assert (K : match fst (@run_action ExA ExE (bz_target bin1) (fun _ => true) (bz_files bin1)) with Exit 0 [] => true | _ => false end = true) by (vm_compute; reflexivity).
  destruct (fst _) as [[|n] [|x l]|a]; try discriminate K. reflexivity.
Qed.
