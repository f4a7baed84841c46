(** ExLang.v - concrete scripts and environments for the Examples beside the
    theorems about the script language. *)
From Coq Require Import Reals.
From Flocq Require Import Core IEEE754.BinarySingleNaN.
From Verif Require Import Base Num NumReal NumF64 NumLaws Geo Stl Regex StlRead Env Ast Lexer Parser Ps Draw Main
  P_Base P_Index P_Geo1 DocSpec P_Script LangSpec Grammar StlSpec F64Spec EndSpec PrintSpec RealSpec P_Real P_Span2 P_Total P_Lex P_Lex2 P_Lex3 P_Parser2 P_Layout P_Lang2 P_Stl P_Bound EnvEx ExDoc ExStl ExGeo ExReal.

Local Unset Implicit Arguments.

(** ** Literals *)
Definition nul_literal : bytes := [DQUOTE; "a"%char; NUL; "b"%char; DQUOTE].
Lemma nul_lost : literal nul_literal ["a"; NUL; "b"]%char /\ tokens nul_literal = Ret [LTok 1 (TStr [])].
Proof.
  split; [|reflexivity]. exists ["a"; NUL; "b"]%char. split; [reflexivity|]. repeat (apply quoted_plain; [discriminate..|]). apply quoted_nil.
Qed.
Definition odd_string : bytes := B "say ""hi\"" " ++ [LF] ++ B "?".

(** ** Numbers that are too large *)
Definition big_number : bytes := B "page { name = 999999999999999999999999999999999999999999; }".
Lemma big_throws : match parse (B "s") big_number with Abort (AThrow _) => true | _ => false end = true.
Proof. vm_compute. reflexivity. Qed.
Definition big_scale : bytes := B "page { draw t { scale = 3000000000:1; } }".
Lemma big_scale_ub : match parse (B "s") big_scale with Abort (AUB _) => true | _ => false end = true.
Proof. vm_compute. reflexivity. Qed.
Definition readable_b (c : bytes) : bool :=
  match scan_all c with
  | Some l => forallb (fun x => match lx_act x with ANum => match stof (lx_text x) with Some v => match to_int v with Some _ => true | None => false end | None => false end | _ => true end) l
  | None => false
  end.
Lemma readable_ok c : readable_b c = true -> forall w, numeral_in c w -> exists x, stof w = Some x /\ to_int x <> None.
Proof.
  unfold readable_b. intros H w (l & x & S & HI & HA & <-). rewrite S in H. rewrite forallb_forall in H. specialize (H _ HI). rewrite HA in H.
  destruct (stof (lx_text x)) as [v|]; [|discriminate H]. exists v. split; [reflexivity|]. intro T. rewrite T in H. discriminate H.
Qed.
Lemma ex_readable : forall w, numeral_in ex_script w -> exists x, stof w = Some x /\ to_int x <> None.
Proof. apply readable_ok. vm_compute. reflexivity. Qed.

(** ** Scales that are not whole numbers *)
Definition scaled (w : bytes) : bytes := B "load t = ""t.stl""; page { draw t { scale = " ++ w ++ B ":1; } }".
Definition same_run (a b : outcome result) : bool :=
  match a, b with Ret r, Ret r' => r_ok r && r_ok r' && bytes_eqb (r_out r) (r_out r') | _, _ => false end.
Lemma scale_lost : exists x y r r', stof (B "1.5") = Some x /\ stof (B "1") = Some y /\ (y <? x)%num = true /\
  script_to_ps ex_files (B "s") (scaled (B "1.5")) = Ret r /\ script_to_ps ex_files (B "s") (scaled (B "1")) = Ret r' /\ r_ok r = true /\ r_ok r' = true /\ r_out r = r_out r'.
Proof.
  assert (H : match stof (B "1.5"), stof (B "1") with Some x, Some y => (y <? x)%num | _, _ => false end = true) by (vm_compute; reflexivity).
  assert (K : same_run (script_to_ps ex_files (B "s") (scaled (B "1.5"))) (script_to_ps ex_files (B "s") (scaled (B "1"))) = true) by (vm_compute; reflexivity).
  destruct (stof (B "1.5")) as [x|]; [|discriminate H]. destruct (stof (B "1")) as [y|]; [|discriminate H].
  destruct (script_to_ps ex_files (B "s") (scaled (B "1.5"))) as [r|]; [|discriminate K]. destruct (script_to_ps ex_files (B "s") (scaled (B "1"))) as [r'|]; [|discriminate K].
  cbn [same_run] in K. apply andb_true_iff in K. destruct K as [K K3]. apply andb_true_iff in K. destruct K as [K1 K2]. apply bytes_eqb_eq in K3.
  exists x, y, r, r'. repeat (split; [first [reflexivity|assumption]|]). exact K3.
Qed.

(** ** Integers as numbers, with a reader that drops the fraction: documents
    can be printed in this environment. *)
Definition IntA : Arith := {|
  num := Z; of_Z := fun z => z; of_dec := fun m e => (m * 10 ^ e)%Z; nadd := Z.add; nsub := Z.sub; nmul := Z.mul; ndiv := Z.quot; nneg := Z.opp; nabs := Z.abs;
  nsqrt := Z.sqrt; nlt := Z.ltb; nle := Z.leb; neq := Z.eqb; sum3 := fun a b c => (a + b + c)%Z; to_f32 := fun z => z;
  to_int := fun z => if ((-2147483648 <=? z) && (z <=? 2147483647))%Z then Some z else None; dbl_max := 0%Z;
  nsin := fun z => z; ncos := fun z => z; nacos := fun z => z; natan2 := fun y _ => y; nsorter := stable |}.
Definition int_digits (s : bytes) : Z := match dec_val (run is_digit s) 0 with Some n => Z.of_N n | None => 0%Z end.
Definition int_stof (w : bytes) : option Z :=
  match w with
  | "-"%char :: t => Some (- int_digits t)%Z
  | "+"%char :: t => Some (int_digits t)
  | _ => Some (int_digits w)
  end.
Definition IntE : @Env IntA := {|
  re2_double := int_stof : bytes -> option (@num IntA); stof := int_stof : bytes -> option (@num IntA); fmt_num := (fun _ => []) : @num IntA -> bytes;
  pf_ok := fun _ => true; pf_format := (fun s _ => s) : bytes -> @num IntA -> bytes; now := []; type_name := fun _ => []; flag_name := []; flag_timestamp := false;
  flag_number_pages := false; flag_load_path := [] |}.
Definition int_spell (z : Z) : bytes := if (z <? 0)%Z then "-"%char :: dec_of_N (Z.to_N (- z)) else dec_of_N (Z.to_N z).
Lemma dec_val_digits s : forall a v, dec_val s a = Some v -> Forall digit s.
Proof.
  induction s as [|c s IH]; intros a v H; [constructor|]. cbn [dec_val] in H. destruct (_ && _)%bool eqn:K; [|discriminate H]. apply andb_true_iff in K. destruct K as [K1 K2]. apply N.leb_le in K1. apply N.leb_le in K2.
  constructor; [unfold digit, ord; lia|exact (IH _ _ H)].
Qed.
Lemma dec_of_N_val n : dec_of_N n <> [] /\ dec_val (dec_of_N n) 0 = Some n.
Proof.
  unfold dec_of_N. destruct (dec_digits_spec (S (N.to_nat (N.log2 n))) (n := n) []) as (d & -> & Hd & H).
  - rewrite Nnat.Nat2N.inj_succ, Nnat.N2Nat.id. destruct (N.eq_dec n 0) as [->|Hn]; [reflexivity|]. apply N.log2_spec. lia.
  - rewrite app_nil_r. split; [apply Hd; discriminate|]. rewrite H. reflexivity.
Qed.
Lemma int_digits_spell n : int_digits (dec_of_N n) = Z.of_N n.
Proof.
  destruct (dec_of_N_val n) as [_ H]. unfold int_digits. rewrite <- (app_nil_r (dec_of_N n)), digits_run; [rewrite H; reflexivity|exact (dec_val_digits _ _ _ H)|exact I].
Qed.
Lemma dec_number n : number (dec_of_N n) /\ number ("-"%char :: dec_of_N n).
Proof.
  destruct (dec_of_N_val n) as [NE H]. apply dec_val_digits in H. split.
  - exists [], (dec_of_N n), []. split; [left; reflexivity|]. split; [symmetry; apply app_nil_r|]. split; [exact H|]. left. auto.
  - exists (B "-"), (dec_of_N n), []. split; [right; left; reflexivity|]. split; [cbn; rewrite app_nil_r; reflexivity|]. split; [exact H|]. left. auto.
Qed.
Lemma int_spell_num z : number (int_spell z) /\ int_stof (int_spell z) = Some z.
Proof.
  unfold int_spell. destruct (Z.ltb_spec z 0) as [L|L].
  - split; [apply dec_number|]. cbn [int_stof]. rewrite int_digits_spell. f_equal. lia.
  - split; [apply dec_number|]. destruct (dec_of_N_val (Z.to_N z)) as [NE V]. pose proof (int_digits_spell (Z.to_N z)) as D. apply dec_val_digits in V.
    destruct (dec_of_N (Z.to_N z)) as [|c t]; [congruence|]. unfold int_stof.
    assert (C1 : c <> "-"%char) by (intros ->; apply Forall_inv in V; unfold digit, ord in V; change (N_of_ascii "-") with 45%N in V; lia).
    assert (C2 : c <> "+"%char) by (intros ->; apply Forall_inv in V; unfold digit, ord in V; change (N_of_ascii "+") with 43%N in V; lia).
    assert (K : match c :: t with "-"%char :: t0 => Some (- int_digits t0)%Z | "+"%char :: t0 => Some (int_digits t0) | _ => Some (int_digits (c :: t)) end = Some (int_digits (c :: t))).
    { destruct c as [[] [] [] [] [] [] [] []]; try reflexivity; congruence. }
    rewrite K, D. f_equal. lia.
Qed.
Lemma int_spells_read : @spells_read IntA IntE int_spell int_spell.
Proof.
  split.
  - intros w x _ _. apply (int_spell_num x).
  - intros w x z _ _ T. destruct (int_spell_num z) as [H1 H2]. split; [exact H1|]. exists z. split; [exact H2|]. cbn in T |- *. destruct (_ && _)%bool eqn:R; [injection T as ->; rewrite R; reflexivity|discriminate T].
Qed.
Lemma int_parses : exists d, @parses IntA IntE (B "s") ex_script d /\ doc_pages d <> [].
Proof.
  assert (H : match @parse IntA IntE (B "s") ex_script with Ret (0, d, _) => match doc_pages d with [] => false | _ => true end | _ => false end = true) by (vm_compute; reflexivity).
  unfold parses. destruct (@parse IntA IntE (B "s") ex_script) as [[[[|n] d] lg]|]; try discriminate H. exists d. split; [eauto|]. destruct (doc_pages d); [discriminate H|discriminate].
Qed.

(** ** A conversion that must end: an environment whose sine and cosine are sane. *)
Definition flat_libm : libm := Libm (fun _ => fz_ 0) (fun _ => fz_ 1) (fun x => x) (fun y x => y) stable.
Definition FlatE : @Env (F64 flat_libm true) := {|
  re2_double := ex_double : bytes -> option (@num (F64 flat_libm true)); stof := ex_stof : bytes -> option (@num (F64 flat_libm true)); fmt_num := ex_print : @num (F64 flat_libm true) -> bytes;
  pf_ok := ex_pf_ok; pf_format := ex_format : bytes -> @num (F64 flat_libm true) -> bytes; now := B "now"; type_name := fun _ => B "T"; flag_name := B "name"; flag_timestamp := true;
  flag_number_pages := true; flag_load_path := B "lib" |}.
Lemma flat_sane : trig_sane flat_libm.
Proof.
  split.
  - intros x _. cbn [l_sin l_cos flat_libm]. split; [apply bnd_zero|apply bnd_one].
  - intros x _ [_ H]. cbn [l_cos flat_libm] in H. vm_compute in H. discriminate H.
Qed.
Definition flat_text : bytes := B "solid f
facet normal 0 0 1
outer loop
vertex 0 0 0
vertex 1 0 0
vertex 0 1 0
endloop
endfacet
facet normal 0 0 1
outer loop
vertex 1 1 0
vertex 0 1 0
vertex 1 0 0
endloop
endfacet
endsolid f
".
Definition flat_files : files := fun p => if bytes_eqb p (B "lib/f.stl") then Some flat_text else None.
Definition flat_script : bytes := B "load f = ""f.stl""; page { draw f { view = [1, 0.5]; scale = 1:2;
  dim(at=[0,2,5], dir=[1,0,0], from=[0,0,0], to=[1,0,0]); } }".
Section Flat.
  #[local] Instance FA : Arith := F64 flat_libm true.
  #[local] Instance FE : Env := FlatE.
  Lemma flat_numbers : forall w x, numeral w -> re2_double w = Some x -> is_nan (x : f64) = false.
  Proof.
    intros w x _ H. change (ex_double w = Some x) in H. unfold ex_double in H. destruct w as [|c t]; [discriminate|].
    match type of H with (let '(_, _) := ?y in _) = _ => destruct y as [neg ds] end.
    match type of H with match ?y with _ => _ end = _ => destruct y as [[m k]|] end; [|discriminate H].
    injection H as <-. destruct neg; [change (is_nan (Bopp (fdec m (- k))) = false); rewrite opp_nan|]; apply fdec_nan.
  Qed.
  Lemma flat_readable : forall w, numeral_in flat_script w -> exists x, stof w = Some x /\ to_int x <> None.
  Proof.
    intros w (l & x & S & HI & HA & <-).
    assert (K : match scan_all flat_script with
      | Some l => forallb (fun x => match lx_act x with ANum => match stof (lx_text x) with Some v => match to_int v with Some _ => true | None => false end | None => false end | _ => true end) l
      | None => false end = true) by (vm_compute; reflexivity).
    rewrite S in K. rewrite forallb_forall in K. specialize (K _ HI). rewrite HA in K.
    destruct (stof (lx_text x)) as [v|]; [|discriminate K]. exists v. split; [reflexivity|]. intro T. rewrite T in K. discriminate K.
  Qed.
  Definition unit3 (p : v3) : bool := unit_num (x3 p) && unit_num (y3 p) && unit_num (z3 p).
  Lemma unit3_bnd p : unit3 p = true -> bnd3 flat_libm true 500 p.
  Proof.
    unfold unit3, unit_num. rewrite !andb_true_iff. intros [[[H1 H2] [H3 H4]] [H5 H6]].
    split; [|split]; (eapply bnd_mono; [|apply bnd_unit; eassumption]; lia).
  Qed.
  Lemma flat_plain : plain_model flat_libm true flat_text.
  Proof.
    split.
    - intros (ls & pre & post & evs & HL & H1 & H2 & H3).
      assert (K : match stl_make flat_text with Ret _ => true | _ => false end = true) by (vm_compute; reflexivity).
      destruct (proj2 (out_of_bounds (F64_ordered flat_libm true) (feq_refl (fz_ 0) eq_refl) (fun w x W D => feq_refl x (flat_numbers w x W D)) flat_text ls HL)) as [e He]; [exists pre, post, evs; auto|].
      assert (He2 : @stl_make FA FE flat_text = Abort e) by exact He. rewrite He2 in K. discriminate K.
    - intros ls l p HL HI HS. apply getlines_of in HL. subst ls. apply unit3_bnd. inversion HS as [| | |? HT|]; subst. apply vertex_iff in HT.
      assert (K : forallb (fun l => match match_three re_vertex 1 l with Some p => unit3 p | None => true end) (getlines flat_text) = true) by (vm_compute; reflexivity).
      rewrite forallb_forall in K. specialize (K _ HI). assert (HT2 : @match_three FA FE re_vertex 1 l = Some p) by exact HT. rewrite HT2 in K. exact K.
  Qed.
  Lemma flat_models d m t : parses (B "s") flat_script d -> In m (doc_models d) -> resolves flat_files (mo_source m) t -> plain_model flat_libm true t.
  Proof.
    intros _ _ HR. assert (K : exists p, flat_files p = Some t).
    { destruct HR as [[_ H]|(_ & es & _ & H)]; [eauto|]. revert H. generalize (map (fun d => d ++ B "/" ++ mo_source m) (B "." :: es)). induction 1; eauto. }
    destruct K as [p K]. unfold flat_files in K. destruct (bytes_eqb p (B "lib/f.stl")); [injection K as <-; exact flat_plain|discriminate K].
  Qed.
  Lemma flat_views d pg l n ml ds x a : parses (B "s") flat_script d -> In pg (doc_pages d) -> In (DDraw l n ml ds) (pg_draws pg) -> In x ml -> m_name x = B "view" -> m_val x = MLoc a ->
    bnd 1000 (x2 a) /\ bnd 1000 (y2 a).
  Proof.
    intros [lg P] HP HD HX _ HV.
    assert (K : match parse (B "s") flat_script with
      | Ret (0, d, _) => forallb (fun pg => forallb (fun i => match i with DDraw _ _ ml _ => forallb (fun x => match m_val x with MLoc a => unit_num (x2 a) && unit_num (y2 a) | _ => true end) ml | _ => true end) (pg_draws pg)) (doc_pages d)
      | _ => false end = true) by (vm_compute; reflexivity).
    rewrite P in K. rewrite forallb_forall in K. specialize (K _ HP). rewrite forallb_forall in K. specialize (K _ HD). cbv beta iota in K. rewrite forallb_forall in K. specialize (K _ HX). rewrite HV in K.
    unfold unit_num in K. rewrite !andb_true_iff in K. destruct K as [[K1 K2] [K3 K4]]. split; (eapply bnd_mono; [|apply bnd_unit; eassumption]; lia).
  Qed.
  Lemma flat_parses : exists d, parses (B "s") flat_script d /\ doc_models d <> [] /\ doc_pages d <> [].
  Proof.
    assert (H : match parse (B "s") flat_script with Ret (0, d, _) => match doc_models d, doc_pages d with _ :: _, _ :: _ => true | _, _ => false end | _ => false end = true) by (vm_compute; reflexivity).
    unfold parses. destruct (parse (B "s") flat_script) as [[[[|n] d] lg]|]; try discriminate H. exists d. split; [eauto|]. destruct (doc_models d), (doc_pages d); try discriminate H. split; discriminate.
  Qed.
End Flat.

(** ** Further examples *)
Lemma ex_at : exists d, parses (B "s") ex_script d /\ exists k ml, block d k ml /\ (k = BDraw \/ k = BText) /\ exists x, In x ml /\ m_name x = B "@".
Proof.
  exists (doc_of ex_script). split; [apply parses_ex; vm_compute; reflexivity|].
  apply block_ex with (pb := fun x => match fst x with BDraw | BText => existsb (fun y => bytes_eqb (m_name y) (B "@")) (snd x) | _ => false end); [|vm_compute; reflexivity].
  intros k ml H. cbn [fst snd] in H. assert (K : k = BDraw \/ k = BText) by (destruct k; try discriminate H; auto). split; [exact K|].
  assert (H' : existsb (fun y => bytes_eqb (m_name y) (B "@")) ml = true) by (destruct K as [-> | ->]; exact H).
  apply existsb_exists in H'. destruct H' as (y & HI & HY). apply bytes_eqb_eq in HY. eauto.
Qed.
Lemma odd_ok : ~ In NUL odd_string /\ literal (spell odd_string) odd_string /\ spell odd_string = B """say \""hi\\\"" \n?""".
Proof.
  split; [|split; [apply spell_literal|reflexivity]]. intro H. cbn in H. repeat (destruct H as [H|H]; [discriminate H|]). exact H.
Qed.
Lemma ex_derives : exists ts d, tokens ex_script = Ret ts /\ g_input (B "s") ts d /\ length (doc_pages d) = 2.
Proof.
  assert (H : exists lg, parse (B "s") ex_script = Ret (0, doc_of ex_script, lg)) by (apply parses_ex; vm_compute; reflexivity).
  destruct H as [lg H]. apply parse_iff in H. destruct H as (_ & ts & T & G). exists ts, (doc_of ex_script). split; [exact T|]. split; [exact G|]. vm_compute. reflexivity.
Qed.
Lemma ex_layouts : exists ws s s', arranged ws s /\ arranged ws s' /\ s <> s' /\ exists d, parses (B "s") s d /\ doc_pages d <> [].
Proof.
  assert (P : parses (B "s") ex_script (doc_of ex_script)) by (apply parses_ex; vm_compute; reflexivity).
  destruct (parsed_arranged _ _ _ P) as [ws W]. exists ws, ex_script, (SP :: ex_script). split; [exact W|]. split.
  - apply (arranged_layout [SP]); [|exact W]. constructor; [left; reflexivity|constructor].
  - split; [intro K; apply (f_equal (@length _)) in K; cbn [length] in K; lia|]. exists (doc_of ex_script). split; [exact P|].
    assert (L : length (doc_pages (doc_of ex_script)) = 2) by (vm_compute; reflexivity). intro K. rewrite K in L. discriminate L.
Qed.
Lemma ex_scale : exists d, parses (B "s") ex_script d /\ exists pg l n ml ds m, In pg (doc_pages d) /\ In (DDraw l n ml ds) (pg_draws pg) /\ In m ml /\ m_val m = MScale 1 2.
Proof.
  exists (doc_of ex_script). split; [apply parses_ex; vm_compute; reflexivity|].
  destruct (@draw_ex (doc_of ex_script) (fun _ ml _ => existsb (fun m => match m_val m with MScale 1 2 => true | _ => false end) ml)) as (pg & l & n & ml & ds & H1 & H2 & H3); [vm_compute; reflexivity|].
  apply existsb_exists in H3. destruct H3 as (m & HI & HM). exists pg, l, n, ml, ds, m. split; [exact H1|]. split; [exact H2|]. split; [exact HI|].
  destruct (m_val m) as [| | | |a b]; try discriminate HM. destruct a as [|[]|]; try discriminate HM. destruct b as [|[|[]|]|]; try discriminate HM. reflexivity.
Qed.
Lemma big_ends : exists e, script_to_ps ex_files (B "s") big_number = Abort e.
Proof.
  assert (K : match script_to_ps ex_files (B "s") big_number with Abort _ => true | _ => false end = true) by (vm_compute; reflexivity).
  destruct (script_to_ps ex_files (B "s") big_number) as [r|e]; [discriminate K|eauto].
Qed.

(** A facet so large that turning it makes two of its corners infinitely deep;
    the third corner is so far away that no normal can be computed, so the facet
    is not taken for a back face.  The other facet is in front of it. *)
Definition vast : bytes := B "17" ++ List.repeat "0"%char 307.
Definition vast_y : bytes := B "133517687777566199792226152644000473402312325665184941609505153354056026121557965014669568363074213988573426368525354613842070246959962797257905592906458388831707131603500845150205893217067747631339200557102629318668126509674690598325424793953870849679696624712742108809465762244926114690104410482840965218304".
Definition vast_vertex (a b c : bytes) : bytes := B "vertex " ++ a ++ B " " ++ b ++ B " " ++ c ++ [LF].
Definition vast_facet (a b c : bytes) : bytes :=
  B "facet normal 0 0 1" ++ [LF] ++ B "outer loop" ++ [LF] ++ a ++ b ++ c ++ B "endloop" ++ [LF] ++ B "endfacet" ++ [LF].
Definition vast_stl : bytes :=
  B "solid v" ++ [LF] ++
  vast_facet (vast_vertex (B "0") vast_y (B "-" ++ vast)) (vast_vertex (B "1") vast_y (B "-" ++ vast)) (vast_vertex (B "0") (B "-" ++ vast) (B "0")) ++
  vast_facet (vast_vertex (B "-9") (B "-9") (B "0")) (vast_vertex (B "9") (B "-9") (B "0")) (vast_vertex (B "0") (B "9") (B "0")) ++
  B "endsolid v" ++ [LF].
Definition vast_files : files := fun p => if bytes_eqb p (B "lib/v.stl") then Some vast_stl else None.
Definition vast_script : bytes := B "load v = ""v.stl""; page { draw v { view = [0, 45]; } }".
Lemma vast_ends : script_to_ps vast_files (B "s") vast_script = Abort (ACheck "Points out of order").
Proof.
  assert (K : match script_to_ps vast_files (B "s") vast_script with Abort (ACheck s) => String.eqb s "Points out of order" | _ => false end = true) by (vm_compute; reflexivity).
  destruct (script_to_ps vast_files (B "s") vast_script) as [r|[s|s|s]]; try discriminate K. apply String.eqb_eq in K. subst s. reflexivity.
Qed.

(** A drawing of two triangles in exact arithmetic. *)
Definition RealE : @Env XR := {|
  re2_double := (fun _ => None) : bytes -> option (@num XR); stof := (fun _ => None) : bytes -> option (@num XR); fmt_num := (fun _ => []) : @num XR -> bytes;
  pf_ok := fun _ => true; pf_format := (fun s _ => s) : bytes -> @num XR -> bytes; now := []; type_name := fun _ => []; flag_name := []; flag_timestamp := false;
  flag_number_pages := false; flag_load_path := [] |}.
Definition real_models : @stl_map XR := [(B "m", Some (Stl (map embf ex_tris) [] [] 0))].
Definition real_metas : list (@meta XR) := [Meta (B "scale") (MScale 3 2) (Loc [] 0)].
Lemma real_points s ts r m : facets s = map embf ts -> Forall proper ts -> rotation r -> rotate s (embm r) = Ret m ->
  strict_weak order (flat_map fverts (facets m)) = true.
Proof.
  intros HF HP HR H. destruct (view_real s ts r HF HP HR) as (m' & ts' & H' & _ & F & _). rewrite H in H'. injection H' as <-. rewrite F.
  apply (points_fine XR_ordered). eapply Forall_impl; [apply okf_okF|apply okf_embf].
Qed.
Lemma real_draw : exists (E : @Env XR) st ml s1, visit_draw st (Loc [] 0) (B "m") ml [] vst_init = Ret (s1, [], true) /\ asks_scale ml 3 2.
Proof.
  exists RealE, real_models, real_metas.
  destruct (view_lines (Stl (map embf ex_tris) [] [] 0) ex_tris ex_id eq_refl ex_proper ex_rotation) as (m & ss & R & T & _).
  pose proof (real_points (Stl (map embf ex_tris) [] [] 0) ex_tris _ _ eq_refl ex_proper ex_rotation R) as SO.
  assert (Z : embm ex_id = mZP) by reflexivity. rewrite Z in R.
  eexists. split; [|eapply AS_given; [left; reflexivity|reflexivity..]].
  set (mo := Stl (map embf ex_tris) [] [] 0) in R. assert (M : real_models = [(B "m", Some mo)]) by reflexivity. rewrite M. clearbody mo. clear M.
  unfold visit_draw. cbn -[rotate to_lines limits cull_back_face nsub nmul nadd ndiv of_Z proj_scale add_lines add_dims mZP]. rewrite R. cbn [obind].
  rewrite (rotated_culled _ _ _ R), T. cbn [obind].
  unfold add_dims. rewrite SO. reflexivity.
Qed.
Lemma part_lost : exists (A : Arith) (E : Env) w v u, literal w v /\ tokens w = Ret [LTok 1 (TStr u)] /\ u <> v.
Proof.
  exists ExA, ExE, nul_literal, ["a"; NUL; "b"]%char, []. split; [exact (proj1 nul_lost)|]. split; [exact (proj2 nul_lost)|discriminate].
Qed.
