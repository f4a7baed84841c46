(** ExMsg.v - scripts with messages, for the theorems about messages. *)
From Verif Require Import Base Num NumF64 Geo Stl StlRead Env Ast Lexer Parser Ps Draw Main DocSpec ValidSpec MsgSpec P_Base P_Mark EnvEx ExDoc.

Local Unset Implicit Arguments.
Local Open Scope list_scope.
Definition log_of (c : bytes) : option (bool * list diag) :=
  match script_to_ps (A := ExA) (E := ExE) ex_files (B "s") c with Ret r => Some (r_ok r, r_log r) | Abort _ => None end.
Lemma log_of_run c b lg : log_of c = Some (b, lg) -> exists r, script_to_ps (A := ExA) (E := ExE) ex_files (B "s") c = Ret r /\ r_ok r = b /\ r_log r = lg.
Proof. unfold log_of. destruct (script_to_ps ex_files (B "s") c) as [r|]; [|discriminate]. intro H. injection H as <- <-. exists r. auto. Qed.

(** A text block with two places. *)
Definition ex_text2 : bytes := B "page { text[""x""] { @[1,2]; @[3,4]; } }".
Definition only_at (d : document) : bool :=
  match doc_models d with [] => true | _ => false end &&
  forallb (fun pg => match pg_meta pg with [] => true | _ => false end &&
    forallb (fun i => match i with DText _ _ ml => forallb (fun x => bytes_eqb (m_name x) (B "@")) ml | _ => false end) (pg_draws pg)) (doc_pages d).
Lemma only_at_says fs d l m : only_at d = true -> true_message fs d l m ->
  m = B "Duplicate text property '@'" \/ m = B "Unexepcted properties for text" \/ m = B "@".
Proof.
  unfold only_at. intros H T. apply andb_true_iff in H. destruct H as [H1 H2]. destruct T as [mo l m I T|k pg l m N T].
  - destruct (doc_models d); [destruct I|discriminate H1].
  - rewrite forallb_forall in H2. specialize (H2 _ (nth_error_In _ _ N)). apply andb_true_iff in H2. destruct H2 as [H2 H3].
    assert (PM : pg_meta pg = []) by (destruct (pg_meta pg); [reflexivity|discriminate H2]). rewrite forallb_forall in H3.
    destruct T as [l m T|x kk [U _] _|x I _ _|i l m I T].
    + rewrite PM in T. destruct T as [y (a & x & b & c & Q & _)|x [[] _] _|x [[] _]]. destruct a; discriminate Q.
    + rewrite PM in U. destruct U.
    + rewrite PM in I. destruct I.
    + specialize (H3 _ I). destruct T as [l0 t ml l m T|l0 n ml ds l m T|l0 n ml ds dm ps r l m I' SE T]; try discriminate H3.
      rewrite forallb_forall in H3. destruct T as [y (a & x & b & c & -> & _)|x _ _|x [U _]].
      * left. unfold says_duplicate. assert (Y : In y (a ++ x :: b ++ y :: c)) by (rewrite in_app_iff; right; right; rewrite in_app_iff; right; left; reflexivity).
        apply H3, bytes_eqb_eq in Y. rewrite Y. reflexivity.
      * right. left. reflexivity.
      * right. right. apply H3, bytes_eqb_eq in U. exact U.
Qed.
Lemma text2_untrue : exists r d l m, script_to_ps (A := ExA) (E := ExE) ex_files (B "s") ex_text2 = Ret r /\ parses (B "s") ex_text2 d /\ In (DSym l m) (r_log r) /\ ~ true_message ex_files d l m.
Proof.
  destruct (log_of_run ex_text2 false [DSym (Loc (B "s") 1) (B "Duplicate draw property '@'")]) as (r & H & _ & L); [vm_compute; reflexivity|].
  exists r, (doc_of ex_text2), (Loc (B "s") 1), (B "Duplicate draw property '@'"). split; [exact H|]. split; [apply parses_ex; vm_compute; reflexivity|].
  split; [rewrite L; left; reflexivity|]. intro T. apply only_at_says in T; [|vm_compute; reflexivity]. destruct T as [T|[T|T]]; vm_compute in T; discriminate T.
Qed.

(** A dimension whose direction is a string. *)
Definition ex_dir : bytes := B "load t = ""t.stl""; page { draw t { dim(at=[0,0,0], dir=""x"", from=[0,0,0], to=[1,0,0]); } }".
Definition is_str (v : mval) : bool := match v with MStr _ => true | _ => false end.
Definition word_dirs (d : document) : bool :=
  forallb (fun pg => match pg_meta pg with [] => true | _ => false end &&
    forallb (fun i => match i with DDraw _ _ [] ds => forallb (fun dm => forallb (fun x => existsb (bytes_eqb (m_name x)) (map B ["at"; "from"; "to"]%string) ||
      (bytes_eqb (m_name x) (B "dir") && is_str (m_val x))) (d_meta dm)) ds | _ => false end) (pg_draws pg)) (doc_pages d).
Definition zero_words : bytes := B "Dimention's 'dir' must not be the zero vector".
Lemma word_dirs_says fs d l m : word_dirs d = true -> true_message fs d l m -> m <> zero_words.
Proof.
  unfold word_dirs. intros H2 T. rewrite forallb_forall in H2. destruct T as [mo l m I T|k pg l m N T].
  - destruct T; intro Q; apply (f_equal (firstn 1)) in Q; vm_compute in Q; discriminate Q.
  - specialize (H2 _ (nth_error_In _ _ N)). apply andb_true_iff in H2. destruct H2 as [H2 H3].
    assert (PM : pg_meta pg = []) by (destruct (pg_meta pg); [reflexivity|discriminate H2]). rewrite forallb_forall in H3.
    assert (EM : forall k l0 l m, true_of_names k l0 [] l m -> False).
    { intros k' l0 l' m' T'. destruct T' as [y (a & x & b & c & Q & _)|x [[] _] _|x [[] _]]. destruct a; discriminate Q. }
    destruct T as [l m T|x kk [U _] _|x I _ _|i l m I T].
    + rewrite PM in T. destruct (EM _ _ _ _ T).
    + rewrite PM in U. destruct U.
    + rewrite PM in I. destruct I.
    + specialize (H3 _ I). destruct T as [l0 t ml l m T|l0 n ml ds l m T|l0 n ml ds dm ps r l m I' SE T]; try discriminate H3; destruct ml as [|]; try discriminate H3.
      * destruct T as [l m T|x []|T|x v []|x []]; [destruct (EM _ _ _ _ T)|]. intro Q. apply (f_equal (firstn 1)) in Q. vm_compute in Q. discriminate Q.
      * rewrite forallb_forall in H3. specialize (H3 _ I'). rewrite forallb_forall in H3.
        destruct T; try (intro Q; apply (f_equal (firstn 2)) in Q; vm_compute in Q; discriminate Q).
        -- destruct H as [y R|x U K|x [U _]]; try (intro Q; apply (f_equal (firstn 2)) in Q; vm_compute in Q; discriminate Q).
           specialize (H3 _ U). intro Q. rewrite Q in H3. vm_compute in H3. discriminate H3.
        -- destruct H4 as (y & p & p' & Iy & Ny & Vy & _). specialize (H3 _ Iy). rewrite Ny, Vy in H3. cbn [is_str] in H3. rewrite andb_false_r in H3. vm_compute in H3. discriminate H3.
Qed.
Lemma dir_untrue : exists r d l m, script_to_ps (A := ExA) (E := ExE) ex_files (B "s") ex_dir = Ret r /\ parses (B "s") ex_dir d /\ In (DSym l m) (r_log r) /\ m = zero_words /\ ~ true_message ex_files d l m.
Proof.
  destruct (log_of_run ex_dir false [DSym (Loc (B "s") 1) (B "Expected point for 'dir' got T"); DSym (Loc (B "s") 1) zero_words]) as (r & H & _ & L); [vm_compute; reflexivity|].
  exists r, (doc_of ex_dir), (Loc (B "s") 1), zero_words. split; [exact H|]. split; [apply parses_ex; vm_compute; reflexivity|].
  split; [rewrite L; right; left; reflexivity|]. split; [reflexivity|]. intro T. apply word_dirs_says in T; [exact (T eq_refl)|vm_compute; reflexivity].
Qed.

(** Wrong statements in several lines. *)
Definition ex_wrong : bytes := B "load t = ""t.stl"";" ++ [LF] ++ B "page { name = ""a"";" ++ [LF] ++ B " name = ""b"";" ++ [LF] ++ B " draw u {}" ++ [LF] ++
  B " draw t {" ++ [LF] ++ B "  dim(at=[0,0,0], from=[0,0,0], to=near([1,0,0])," ++ [LF] ++ B "   dir=far([1,0,0])); }" ++ [LF] ++ B " colour = 3; }".
