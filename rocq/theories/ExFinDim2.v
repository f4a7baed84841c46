(** ExFinDim2.v - a conversion in doubles with a dimension of each kind that meets the hypotheses of finite_all. *)
From Coq Require Import Reals Lra ZArith Lia.
From Flocq Require Import Core IEEE754.BinarySingleNaN.
From Verif Require Import Base Num NumF64 Geo Stl StlRead Env Ast Lexer Parser Ps Draw Main GeoSpec DocSpec PsSpec FiniteSpec StlSpec EndSpec F64Spec LookSpec FinDimSpec P_Base P_Stl P_Total P_Bound P_Float P_Finite64 P_Mark P_FinDim2 LangSpec EnvEx ExGeo ExLang ExPs ExFin64 ExFinDim.

Local Unset Implicit Arguments.
Local Open Scope R_scope.

(** The formatted numbers have at most a hundred bytes. *)
Definition KindE : @Env (F64 flat_libm true) := {|
  re2_double := ex_double : bytes -> option (@num (F64 flat_libm true)); stof := half_stof : bytes -> option (@num (F64 flat_libm true)); fmt_num := ex_print : @num (F64 flat_libm true) -> bytes;
  pf_ok := ex_pf_ok; pf_format := fun fm (x : @num (F64 flat_libm true)) => firstn 100 (ex_format fm x); now := B "now"; type_name := fun _ => B "T"; flag_name := B "name"; flag_timestamp := true;
  flag_number_pages := true; flag_load_path := B "lib" |}.
Definition kinds_script : bytes := B "load f = ""f.stl""; page { name = ""plate""; draw f { scale = 1:2; @[1, -2];
  dim(at=[0,2,5], dir=[1,0,0], from=near([0.1,0,0]), to=near(center([1,0,0]))); angle(at=[2,2,0], apex=near([0,0,0]), from_dir=[2,0,0], to_point=[0,3,0]);
  dia(at=[3,2,0], dir=[2,2,0], center=[1,0,0]); rad(at=[-2,3,0], dir=[0,2,0], center=near([0,2,0])); } }".
Section Kinds.
  Notation HA := (F64 flat_libm true).
  Notation script := kinds_script.
  Lemma unit_bnd k (x : f64) : (0 <= k)%Z -> ExGeo.unit_num x = true -> bnd k x.
  Proof. intros K H. apply andb_true_iff in H. destruct H. apply (bnd_mono 0 k); [exact K|]. apply bnd_unit; assumption. Qed.
  Lemma kinds_atan2 (y x : f64) : bnd 2 y -> bnd 2 x -> bnd 600 (l_atan2 flat_libm y x).
  Proof. intros H _. apply (bnd_mono 2 600); [lia|exact H]. Qed.
  Lemma kinds_labels fm (x : @num HA) : (Z.of_nat (length (@pf_format HA KindE fm x)) < 2 ^ 60)%Z.
  Proof. cbn [pf_format KindE]. pose proof (firstn_le_length 100 (ex_format fm x)). lia. Qed.
  Lemma kinds_words (x : @num HA) : word_like (@fmt_num HA KindE x).
  Proof. exact (ex_words x). Qed.
  Lemma kinds_resolves s t : @resolves HA KindE flat_files s t -> t = flat_text.
  Proof.
    intro HR. assert (K : exists p, flat_files p = Some t).
    { destruct HR as [[_ H]|(_ & es & _ & H)]; [eauto|]. revert H. generalize (map (fun d => d ++ B "/" ++ s) (B "." :: es)). induction 1; eauto. }
    destruct K as [q K]. unfold flat_files in K. destruct (bytes_eqb q (B "lib/f.stl")); [injection K as <-; reflexivity|discriminate K].
  Qed.
  Lemma kinds_model d m t ls l p : @parses HA KindE (B "s") script d -> In m (doc_models d) -> @resolves HA KindE flat_files (mo_source m) t -> lines_in t ls -> In l ls -> @says HA KindE l (EVertex p) -> bnd3 flat_libm true 388 p.
  Proof.
    intros _ _ HR HL HI HS. apply kinds_resolves in HR. subst t. apply getlines_of in HL. subst ls. inversion HS as [| | |? HT|]; subst. apply vertex_iff in HT.
    assert (K : forallb (fun l => match @match_three HA KindE re_vertex 1 l with Some p => unit3 p | None => true end) (getlines flat_text) = true) by (vm_compute; reflexivity).
    rewrite forallb_forall in K. specialize (K _ HI). assert (HT2 : @match_three HA KindE re_vertex 1 l = Some p) by exact HT. rewrite HT2 in K.
    unfold unit3 in K. rewrite !andb_true_iff in K. destruct K as [[K1 K2] K3]. split; [|split]; (apply unit_bnd; [lia|assumption]).
  Qed.
  (** ** Checks *)
  Definition bigb (x : f64) : bool := is_finite x && (flt (fz_ 1) x || flt x (fz_ (-1))).
  Lemma bigb_spec x : bigb x = true -> big x.
  Proof.
    unfold bigb, big. intro H. apply andb_true_iff in H. destruct H as [F H]. assert (F1 : fin (fz_ 1)) by (vm_compute; reflexivity). assert (F2 : fin (fz_ (-1))) by (vm_compute; reflexivity).
    assert (V1 : B2R (fz_ 1) = 1) by (apply (int_val 1); lia). assert (V2 : B2R (fz_ (-1)) = -1) by (apply (int_val (-1)); lia).
    assert (L : bpow radix2 (-390) <= 1) by (change 1 with (bpow radix2 0); apply bpow_le; lia). apply orb_true_iff in H. destruct H as [H|H].
    - pose proof (flt_lt _ _ F1 F H) as Q. rewrite V1 in Q. rewrite Rabs_pos_eq; lra.
    - pose proof (flt_lt _ _ F F2 H) as Q. rewrite V2 in Q. rewrite Rabs_left; lra.
  Qed.
  Fixpoint fits (ps : list (@v3 HA)) (p : @point HA) : list (@v2 HA * @num HA) :=
    match p with
    | PVal _ _ => []
    | PFunc n q _ => match snd (invoke ps q) with Some t => match fit_circle ps (xy t) with Some c => [c] | None => [] end | None => [] end ++ fits ps q
    end.
  Lemma fits_all ps p c : @centre_fit HA ps p c -> In c (fits ps p).
  Proof.
    induction 1 as [q l t c HI HF|n q l c H IH]; cbn [fits]; apply in_or_app; [left|right; exact IH]. rewrite HI, HF. left. reflexivity.
  Qed.
  Definition values (ps : list (@v3 HA)) r (ml : list (@meta HA)) (n : string) : list (@v3 HA) :=
    flat_map (fun x => match m_val x with MPoint p => if bytes_eqb (m_name x) (B n) then match snd (invoke ps (point_rotate r p)) with Some v => [v] | None => [] end else [] | _ => [] end) ml.
  Lemma values_all ps r ml n v : @evaluates HA ps r ml n v -> In v (values ps r ml n).
  Proof.
    intros (x & p & p' & I & N & V & M & H). apply in_flat_map. exists x. split; [exact I|]. rewrite V, N, bytes_eqb_refl. rewrite (multiplied_eq _ _ _ M) in H. rewrite H. left. reflexivity.
  Qed.
  Definition circles (ps : list (@v3 HA)) r (dm : @dim HA) : list (@v2 HA * @num HA) :=
    flat_map (fun x => match m_val x with MPoint p => fits ps (point_rotate r p) | _ => [] end) (d_meta dm) ++
    flat_map (fun t => match fit_circle ps (xy t) with Some c => [c] | None => [] end) (values ps r (d_meta dm) "center").
  Lemma circles_all ps r dm c : @circle_used HA ps r dm c -> In c (circles ps r dm).
  Proof.
    intros [x p p' c' I V M H|t c' _ EV H]; apply in_or_app; [left|right]; apply in_flat_map.
    - exists x. split; [exact I|]. rewrite V. rewrite (multiplied_eq _ _ _ M) in H. exact (fits_all _ _ _ H).
    - exists t. split; [exact (values_all _ _ _ _ _ EV)|]. rewrite H. left. reflexivity.
  Qed.
  Definition sides (ps : list (@v3 HA)) r (ml : list (@meta HA)) : list (@v3 HA) :=
    flat_map (values ps r ml) ["from_dir"; "to_dir"]%string ++
    flat_map (fun k => flat_map (fun v => map (fun a => sub3 v a) (values ps r ml "apex")) (values ps r ml k)) ["from_point"; "to_point"]%string.
  Lemma sides_all ps r ml v : @side_dir HA ps r ml v -> In v (sides ps r ml).
  Proof.
    intros [k v' HK EV|k v' a HK EV EA]; apply in_or_app; [left|right]; apply in_flat_map; exists k.
    - split; [destruct HK as [->| ->]; cbn; auto|exact (values_all _ _ _ _ _ EV)].
    - split; [destruct HK as [->| ->]; cbn; auto|]. apply in_flat_map. exists v'. split; [exact (values_all _ _ _ _ _ EV)|]. apply (in_map (fun a => sub3 v' a)). exact (values_all _ _ _ _ _ EA).
  Qed.
  Definition dim_fine (ps : list (@v3 HA)) r (dm : @dim HA) : bool :=
    forallb (fun c : @v2 HA * @num HA => ExGeo.unit_num (x2 (fst c)) && ExGeo.unit_num (y2 (fst c)) && ExGeo.unit_num (snd c)) (circles ps r dm) &&
    match d_kind dm with KAngle => forallb (fun v : @v3 HA => bigb (x3 v) || bigb (y3 v) || bigb (z3 v)) (sides ps r (d_meta dm)) | KDim => true
    | _ => forallb (fun v : @v3 HA => bigb (x3 v) || bigb (y3 v)) (values ps r (d_meta dm) "dir") end.
  Definition flat_set : option (list (@v3 HA)) :=
    match @stl_make HA KindE flat_text with Ret (Some f, _) => match rotate f mZP with Ret p => Some (points (cull_back_face p)) | _ => None end | _ => None end.
  Definition kinds_item (i : @drawable HA) : bool := match i with
    | DDraw _ _ ml ds => scales_ok ml && negb (existsb (fun x => bytes_eqb (m_name x) (B "view")) ml) && match flat_set with Some ps => forallb (dim_fine ps mZP) ds | None => false end
    | DText _ _ _ => true end.
  Lemma kinds_checked d pg i : @parses HA KindE (B "s") script d -> In pg (doc_pages d) -> In i (pg_draws pg) -> kinds_item i = true.
  Proof.
    intros [lg P] HP HI. assert (K : match @parse HA KindE (B "s") script with Ret (0%nat, d, _) => forallb (fun pg => forallb kinds_item (pg_draws pg)) (doc_pages d) | _ => false end = true) by (vm_compute; reflexivity).
    rewrite P in K. rewrite forallb_forall in K. specialize (K _ HP). rewrite forallb_forall in K. exact (K _ HI).
  Qed.
  Lemma kinds_scales : @scales_positive HA KindE (B "s") script.
  Proof.
    intros d pg l n ml ds a b HP Ipg I AS. pose proof (kinds_checked _ _ _ HP Ipg I) as K. cbn [kinds_item] in K. rewrite !andb_true_iff in K. destruct K as [[K _] _].
    destruct AS as [_|x a b Ix _ V]; [split; reflexivity|]. unfold scales_ok in K. rewrite forallb_forall in K. specialize (K x Ix). rewrite V in K. apply andb_true_iff in K. destruct K as [K1 K2].
    apply Z.ltb_lt in K1. apply Z.ltb_lt in K2. auto.
  Qed.
  Lemma kinds_shown ps r dm : @shown_dim HA KindE flat_files (B "s") script ps r dm -> dim_fine ps r dm = true.
  Proof.
    intros (f & ds & p & (d & pg & l & n & ml & m & t & lg & HP & Ipg & I & AV & _ & _ & HR & MK) & Id & RO & ->). apply kinds_resolves in HR. subst t.
    pose proof (kinds_checked _ _ _ HP Ipg I) as K. cbn [kinds_item] in K. rewrite !andb_true_iff in K. destruct K as [[_ K1] K2]. apply negb_true_iff in K1.
    assert (NV : forall x, In x ml -> m_name x = B "view" -> False).
    { intros x Ix N. assert (T : existsb (fun x => bytes_eqb (m_name x) (B "view")) ml = true) by (apply existsb_exists; exists x; split; [exact Ix|rewrite N; apply bytes_eqb_refl]). congruence. }
    destruct AV as [_|x a Ix N _|x nm r Ix N _ _]; [|destruct (NV x Ix N)|destruct (NV x Ix N)].
    assert (FS : flat_set = Some (points (cull_back_face p))) by (unfold flat_set; rewrite MK, RO; reflexivity). rewrite FS in K2. rewrite forallb_forall in K2. exact (K2 _ Id).
  Qed.
  Lemma kinds_circles ps r dm ce rad : @shown_dim HA KindE flat_files (B "s") script ps r dm -> @circle_used HA ps r dm (ce, rad) -> bnd 390 (x2 ce : f64) /\ bnd 390 (y2 ce : f64) /\ bnd 390 (rad : f64).
  Proof.
    intros S C. pose proof (kinds_shown _ _ _ S) as K. apply andb_true_iff in K. destruct K as [K _]. rewrite forallb_forall in K. specialize (K _ (circles_all _ _ _ _ C)). cbn [fst snd] in K.
    rewrite !andb_true_iff in K. destruct K as [[K1 K2] K3]. split; [|split]; (apply unit_bnd; [lia|assumption]).
  Qed.
  Lemma kinds_sides ps r dm v : @shown_dim HA KindE flat_files (B "s") script ps r dm -> d_kind dm = KAngle -> @side_dir HA ps r (d_meta dm) v -> big (x3 v) \/ big (y3 v) \/ big (z3 v).
  Proof.
    intros S KD C. pose proof (kinds_shown _ _ _ S) as K. apply andb_true_iff in K. destruct K as [_ K]. rewrite KD in K. rewrite forallb_forall in K. specialize (K _ (sides_all _ _ _ _ C)).
    rewrite !orb_true_iff in K. destruct K as [[K|K]|K]; apply bigb_spec in K; auto.
  Qed.
  Lemma kinds_dirs v : @circle_dir HA KindE flat_files (B "s") script v -> big (x3 v) \/ big (y3 v).
  Proof.
    intros (f & r & ds & dm & p & DM & Id & KD & RO & EV). assert (S : @shown_dim HA KindE flat_files (B "s") script (points (cull_back_face p)) r dm) by (exists f, ds, p; auto).
    pose proof (kinds_shown _ _ _ S) as K. apply andb_true_iff in K. destruct K as [_ K]. assert (K2 : forallb (fun v : @v3 HA => bigb (x3 v) || bigb (y3 v)) (values (points (cull_back_face p)) r (d_meta dm) "dir") = true) by (destruct KD as [KD|KD]; rewrite KD in K; exact K).
    rewrite forallb_forall in K2. specialize (K2 _ (values_all _ _ _ _ _ EV)). apply orb_true_iff in K2. destruct K2 as [K2|K2]; apply bigb_spec in K2; auto.
  Qed.
  Lemma kinds_titles d pg t : @parses HA KindE (B "s") script d -> In pg (doc_pages d) -> titled pg t -> (Z.of_nat (length t) < 2 ^ 60)%Z.
  Proof.
    intros [lg P] HP HT.
    assert (K : match @parse HA KindE (B "s") script with
      | Ret (0%nat, d, _) => forallb (fun pg => forallb (fun x => match m_val x with MStr t => Nat.ltb (length t) 10 | _ => true end) (pg_meta pg)) (doc_pages d)
      | _ => false end = true) by (vm_compute; reflexivity).
    rewrite P in K. rewrite forallb_forall in K. specialize (K _ HP). destruct HT as [_|x t I N V]; [cbn; lia|]. rewrite forallb_forall in K. specialize (K _ I). rewrite V in K. apply Nat.ltb_lt in K. lia.
  Qed.
  Lemma kinds_run : exists r, @script_to_ps HA KindE flat_files (B "s") script = Ret r /\ r_ok r = true /\ r_log r = [].
  Proof.
    assert (K : match @script_to_ps HA KindE flat_files (B "s") script with Ret r => match r_log r with [] => r_ok r | _ => false end | _ => false end = true) by (vm_compute; reflexivity).
    destruct (@script_to_ps HA KindE flat_files (B "s") script) as [r|]; [|discriminate K]. exists r. split; [reflexivity|]. destruct (r_log r); [split; [exact K|reflexivity]|discriminate K].
  Qed.
End Kinds.
