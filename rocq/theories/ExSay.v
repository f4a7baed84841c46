(** ExSay.v - a script with a defect in every block, for the theorem about defects. *)
From Verif Require Import Base Num NumF64 Geo Stl StlRead Env Ast Lexer Parser Ps Draw Main DocSpec ValidSpec MsgSpec SaySpec P_Base EnvEx ExDoc ExMsg P_Script2.

Local Unset Implicit Arguments.
Local Open Scope list_scope.
Definition ex_many : bytes := B "load t = ""t.stl"";" ++ [LF] ++ B "page { title = ""a"";" ++ [LF] ++ B " draw u {}" ++ [LF] ++
  B " draw t { view = ""Z+"";" ++ [LF] ++ B "  dim(at=""x""); }" ++ [LF] ++ B " text[""x""] { colour = ""red""; } }" ++ [LF] ++ B "page { name = ""b""; name = ""c""; }".
Section Many.
  Context {A : Arith} {E : Env}.
  Let at_ (k : nat) : loc := Loc (B "s") k.
  Let str (n v : string) (k : nat) : meta := Meta (B n) (MStr (B v)) (at_ k).
  Definition many_model : model := Model (B "t") (B "t.stl") (at_ 1).
  Definition many_dim : dim := Dim KDim (at_ 5) [str "at" "x" 5].
  Definition many_page : page := Page (at_ 2) [str "title" "a" 2]
    [DDraw (at_ 3) (B "u") [] []; DDraw (at_ 4) (B "t") [str "view" "Z+" 4] [many_dim]; DText (at_ 6) (B "x") [str "colour" "red" 6]].
  Definition many_page2 : page := Page (at_ 7) [str "name" "b" 7; str "name" "c" 7] [].
  Definition d_many : document := Doc [many_model] [many_page; many_page2].
  Lemma many_parses : parses (B "s") ex_many d_many.
  Proof. eexists. vm_compute. reflexivity. Qed.
  Lemma many_must fs f ps r : reads_as fs d_many (B "t") f -> sees fs d_many (B "t") [str "view" "Z+" 4] ps r ->
    must_say fs d_many (at_ 2) (B "title") /\ must_say fs d_many (at_ 3) (B "Unknown model 'u'") /\ must_say fs d_many (at_ 5) (B "Missing 'dir'") /\
    must_say fs d_many (at_ 6) (B "colour") /\ must_say fs d_many (at_ 7) (B "Duplicate page property 'name'").
  Proof.
    intros RA SE.
    assert (PG : forall pg l m, In pg [many_page; many_page2] -> must_page fs d_many pg l m -> must_say fs d_many l m).
    { intros pg l m I M. eapply MS_page; [repeat constructor; intros []| |exact I|exact M]. intros mo [<-|[]]. exists f. exact RA. }
    assert (NA : forall n, B "t" <> B n -> ~ In (B n) (map mo_name (doc_models d_many))) by (intros n H [K|[]]; exact (H K)).
    repeat split.
    - apply (PG many_page); [left; reflexivity|]. apply (MP_unknown fs d_many many_page (str "title" "a" 2)); [split; [left; reflexivity|]|].
      + intros [K|[]]. discriminate K.
      + exists [], []. split; [reflexivity|intros []].
    - apply (PG many_page); [left; reflexivity|]. eapply MP_item; [left; reflexivity|]. apply MI_draw. apply (MR_model fs d_many (at_ 3) (B "u") [] []); [constructor| |].
      + intros x [].
      + apply NA. discriminate.
    - apply (PG many_page); [left; reflexivity|]. eapply MP_item; [right; left; reflexivity|]. apply MI_draw.
      apply (MR_dim fs d_many (at_ 4) (B "t") _ _ many_dim ps r); [repeat constructor; intros []| |exact SE|left; reflexivity|].
      + intros x [<-|[]] K. discriminate K.
      + apply (MD_missing ps many_dim "dir"); [right; left; reflexivity| | |].
        * intros [K|[]]. discriminate K.
        * intros [K|K]; discriminate K.
        * intros _ x [[<-|[]] K]. apply K. left. reflexivity.
    - apply (PG many_page); [left; reflexivity|]. eapply MP_item; [right; right; left; reflexivity|].
      apply (MI_text_unknown fs d_many (at_ 6) (B "x") _ (str "colour" "red" 6)); [repeat constructor; intros []|split; [left; reflexivity|]].
      intros [K|[]]. discriminate K.
    - apply (PG many_page2); [right; left; reflexivity|]. apply (MP_duplicate fs d_many many_page2 (str "name" "c" 7)).
      exists [], (str "name" "b" 7), [], []. split; reflexivity.
  Qed.
End Many.
Lemma t_stl : resolves (A := ExA) (E := ExE) ex_files (B "t.stl") ex_stl.
Proof. apply resolves_iff. vm_compute. reflexivity. Qed.
Lemma many_reads : exists f, reads_as (A := ExA) (E := ExE) ex_files d_many (B "t") f.
Proof.
  assert (H : match stl_make (A := ExA) ex_stl with Ret (Some _, _) => true | _ => false end = true) by (vm_compute; reflexivity).
  destruct (stl_make ex_stl) as [[[f|] lg]|] eqn:Q; try discriminate H. exists f, many_model, ex_stl, lg. split; [left; reflexivity|]. split; [reflexivity|]. split; [exact t_stl|exact Q].
Qed.
Lemma many_sees : exists f ps r, reads_as (A := ExA) (E := ExE) ex_files d_many (B "t") f /\
  sees (A := ExA) (E := ExE) ex_files d_many (B "t") [Meta (B "view") (MStr (B "Z+")) (Loc (B "s") 4)] ps r.
Proof.
  destruct many_reads as [f RA]. pose proof RA as (m & t & lg & I & N & R & M).
  assert (t = ex_stl) as ->. { pose proof t_stl as R'. apply resolves_iff in R'. destruct I as [<-|[]]. apply resolves_iff in R. change (mo_source many_model) with (B "t.stl") in R. congruence. }
  assert (H : match stl_make (A := ExA) ex_stl with Ret (Some f, _) => match rotate f mZP with Ret _ => true | _ => false end | _ => false end = true) by (vm_compute; reflexivity).
  rewrite M in H. destruct (rotate f mZP) as [p|] eqn:RO; [|discriminate H]. exists f, (points (cull_back_face p)), mZP. split; [exact RA|].
  exists f, p. split; [exact RA|]. split; [|split; [exact RO|reflexivity]]. eapply AV_name; [left; reflexivity|reflexivity|reflexivity|]. cbn [view_names combine]. repeat ((left; reflexivity) || right).
Qed.
