(** ExMore.v - scripts that differ in the order of loads and properties. *)
From Coq Require Import Permutation.
From Coq Require Import Reals.
From Verif Require Import Base Num NumReal Geo Stl StlRead Env Ast Lexer Parser Ps Draw Main Grammar DocSpec ShuffleSpec P_Base P_Script ExFin.

Local Unset Implicit Arguments.
(** The loads swapped. *)
Definition ex_one_order : bytes := B "load t = ""t.stl"";
load u = ""t.stl"";
page { name = ""p""; draw t { view = ""Top""; } text[""a""] { } draw u { view = ""Left""; } }
".
Definition ex_other_order : bytes := B "load u = ""t.stl"";

load t = ""t.stl"";
page { draw t { view = ""Top""; } text[""a""] { } draw u { view = ""Left""; } name = ""p""; }
".
Section Two.
  Context {A : Arith} {E : Env}.
  Lemma two_orders : ex_one_order <> ex_other_order /\
    exists d d', parses (B "s") ex_one_order d /\ parses (B "s") ex_other_order d' /\ shuffled d d'.
  Proof.
    split; [discriminate|]. eexists. eexists.
    split; [eexists; vm_compute; reflexivity|]. split; [eexists; vm_compute; reflexivity|].
    split; [apply perm_swap|]. constructor; [|constructor].
    split; [apply Permutation_refl|]. repeat constructor.
  Qed.
End Two.
(** The properties of fin_script swapped. *)
Definition fin_other : bytes := B "load t = ""t.stl"";
page {
  draw t { dim(dir=[1,0,0], from=[0,0,0], to=[4,0,0], at=[0,4,0]); @[1, 3]; } // the model
  text[""one""] { @[0,1]; }
  name = ""first"";
}".
Section Read.
  Variable g : bytes -> R.
  #[local] Existing Instance XR.
  #[local] Instance RdE : @Env XR := ReadE g.
  Definition at_line (k : nat) (m : @meta XR) : @meta XR := Meta (m_name m) match m_val m with MPoint (PVal v _) => MPoint (PVal v (Loc (B "s") k)) | x => x end (Loc (B "s") k).
  Lemma other_parses : exists l1 l2, parse (B "s") fin_other = Ret (0%nat, Doc [Model (B "t") (B "t.stl") l1] [Page (Loc (B "s") 2) [Meta (B "name") (MStr (B "first")) (Loc (B "s") 5)]
     [DDraw (Loc (B "s") 3) (B "t") [at_line 3 (fin_place g "1" "3")] [Dim KDim (Loc (B "s") 3) (map (at_line 3) [fat g "dir" "1" "0" "0"; fat g "from" "0" "0" "0"; fat g "to" "4" "0" "0"; fat g "at" "0" "4" "0"])];
      DText (Loc (B "s") 4) (B "one") [at_line 4 (fin_place g "0" "1")]]], l2).
  Proof. eexists. eexists. vm_compute. reflexivity. Qed.
  Lemma other_order : fin_script <> fin_other /\
    exists d d', parses (B "s") fin_script d /\ parses (B "s") fin_other d' /\ shuffled d d'.
  Proof.
    split; [discriminate|]. destruct (fin_parses g) as (l1 & l2 & H). destruct other_parses as (k1 & k2 & K). eexists. eexists.
    split; [exists l2; exact H|]. split; [exists k2; exact K|].
    split; [apply Permutation_refl|]. constructor; [|constructor].
    split; [apply Permutation_refl|]. constructor; [|constructor; [|constructor]].
    - apply SI_draw; [apply Permutation_refl|]. constructor; [|constructor]. split; [reflexivity|].
      unfold shuffled_metas. cbn [d_meta map]. 
      apply (Permutation_cons_append [erase_meta (fat g "dir" "1" "0" "0"); erase_meta (fat g "from" "0" "0" "0"); erase_meta (fat g "to" "4" "0" "0")]).
    - apply SI_text. apply Permutation_refl.
  Qed.
End Read.
