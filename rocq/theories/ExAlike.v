(** ExAlike.v - scripts that name their models differently. *)
From Coq Require Import Permutation.
From Verif Require Import Base Num NumF64 Geo Stl StlRead Env Ast Lexer Parser Ps Draw Main Grammar DocSpec ValidSpec ShuffleSpec AlikeSpec P_Base P_Script P_Valid EnvEx.

Local Unset Implicit Arguments.
Definition al_files : files := fun p => if bytes_eqb p (B "lib/t.stl") then Some ex_stl else if bytes_eqb p (B "./parts/cube.stl") then Some ex_stl else None.
(** One model, two pages. *)
Definition al_one : bytes := B "load t = ""t.stl"";
page { text[""a""] { } }
page { name = ""p""; draw t { view = ""X+""; } text[""b""] { } }
".
(** Another name, another file, an unused load, another first page. *)
Definition al_other : bytes := B "load spare = ""t.stl"";
load cube = ""parts/cube.stl"";
page { text[""c""] { } }
page { draw cube { view = ""X+""; } text[""b""] { } name = ""p""; }
page { }
".
(** As al_one, with the names of al_other. *)
Definition al_same : bytes := B "load spare = ""t.stl"";
load cube = ""parts/cube.stl"";
page { text[""a""] { } }
page { draw cube { view = ""X+""; } text[""b""] { } name = ""p""; }
".
Section Al.
  Context {A : Arith}.
  Definition pg_of (n t : string) (k : nat) : page :=
    let ml := [Meta (B "name") (MStr (B "p")) (Loc (B "s") k)] in
    Page (Loc (B "s") k) ml [DDraw (Loc (B "s") k) (B n) [Meta (B "view") (MStr (B "X+")) (Loc (B "s") k)] []; DText (Loc (B "s") k) (B t) []].
  Definition txt_of (t : string) (k : nat) : page := Page (Loc (B "s") k) [] [DText (Loc (B "s") k) (B t) []].
  Definition mod_of (n f : string) (k : nat) : model := Model (B n) (B f) (Loc (B "s") k).
  Definition d_one : document := Doc [mod_of "t" "t.stl" 1] [txt_of "a" 2; pg_of "t" "b" 3].
  Definition d_other : document := Doc [mod_of "spare" "t.stl" 1; mod_of "cube" "parts/cube.stl" 2] [txt_of "c" 3; pg_of "cube" "b" 4; Page (Loc (B "s") 5) [] []].
  Definition d_same : document := Doc [mod_of "spare" "t.stl" 1; mod_of "cube" "parts/cube.stl" 2] [txt_of "a" 3; pg_of "cube" "b" 4].
  Context {E : Env}.
  Lemma one_parses : parses (B "s") al_one d_one.
  Proof. eexists. vm_compute. reflexivity. Qed.
  Lemma other_parses : parses (B "s") al_other d_other.
  Proof. eexists. vm_compute. reflexivity. Qed.
  Lemma same_parses : parses (B "s") al_same d_same.
  Proof. eexists. vm_compute. reflexivity. Qed.
End Al.
Lemma lib_t : resolves al_files (B "t.stl") ex_stl.
Proof.
  right. split; [intros [t H]; discriminate H|]. exists [B "lib"]. split; [split; [reflexivity|split; [repeat constructor; intro I; repeat (destruct I as [I|I]; [discriminate I|]); exact I|discriminate]]|].
  apply FO_next; [reflexivity|]. apply FO_here. reflexivity.
Qed.
Lemma parts_cube : resolves al_files (B "parts/cube.stl") ex_stl.
Proof.
  right. split; [intros [t H]; discriminate H|]. exists [B "lib"]. split; [split; [reflexivity|split; [repeat constructor; intro I; repeat (destruct I as [I|I]; [discriminate I|]); exact I|discriminate]]|].
  apply FO_here. reflexivity.
Qed.
Lemma alike_second (d' : document) : In (mod_of "cube" "parts/cube.stl" 2) (doc_models d') -> alike_page al_files d_one al_files d' (pg_of "t" "b" 3) (pg_of "cube" "b" 4).
Proof.
  intro I. split; [apply Permutation_refl|]. constructor; [|constructor; [apply AI_text; apply Permutation_refl|constructor]].
  apply AI_draw; [|apply Permutation_refl|constructor]. exists (mod_of "t" "t.stl" 1), (mod_of "cube" "parts/cube.stl" 2), ex_stl.
  split; [left; reflexivity|]. split; [reflexivity|]. split; [exact lib_t|]. split; [exact I|]. split; [reflexivity|exact parts_cube].
Qed.
Lemma al_converts c : match script_to_ps al_files (B "s") c with Ret r => r_ok r | _ => false end = true -> converts al_files (B "s") c.
Proof. unfold converts. destruct (script_to_ps al_files (B "s") c) as [r|]; [|discriminate]. intro H. exists r. auto. Qed.
Lemma al_pages : converts al_files (B "s") al_one /\ converts al_files (B "s") al_other /\ parses (B "s") al_one d_one /\ parses (B "s") al_other d_other /\
  nth_error (doc_pages d_one) 1 = Some (pg_of "t" "b" 3) /\ nth_error (doc_pages d_other) 1 = Some (pg_of "cube" "b" 4) /\ length (doc_pages d_one) <> length (doc_pages d_other) /\
  alike_page al_files d_one al_files d_other (pg_of "t" "b" 3) (pg_of "cube" "b" 4).
Proof.
  split; [apply al_converts; vm_compute; reflexivity|]. split; [apply al_converts; vm_compute; reflexivity|]. split; [apply one_parses|]. split; [apply other_parses|].
  split; [reflexivity|]. split; [reflexivity|]. split; [discriminate|]. apply alike_second. right. left. reflexivity.
Qed.
Lemma al_scripts : converts al_files (B "s") al_one /\ parses (B "s") al_one d_one /\ parses (B "s") al_same d_same /\
  Forall2 (alike_page al_files d_one al_files d_same) (doc_pages d_one) (doc_pages d_same) /\ loads_fine al_files d_same.
Proof.
  split; [exact (proj1 al_pages)|]. split; [apply one_parses|]. split; [apply same_parses|].
  assert (C : converts al_files (B "s") al_same) by (apply al_converts; vm_compute; reflexivity).
  split.
  - constructor; [|constructor; [|constructor]].
    + split; [apply Permutation_refl|]. constructor; [|constructor]. apply AI_text. apply Permutation_refl.
    + apply alike_second. right. left. reflexivity.
  - apply convertible in C. destruct C as (d & P & N & R & _). rewrite (parses_fun same_parses P). split; assumption.
Qed.
