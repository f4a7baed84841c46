(** ExLook2.v - a conversion that looks for a point near the center of a circle and passes all checks. *)
From Coq Require Import Reals ZArith Lia.
From Flocq Require Import Core IEEE754.BinarySingleNaN.
From Verif Require Import Base Num NumF64 Geo Stl StlRead Env Ast Lexer Parser Ps Draw Main DrawLk GeoSpec DocSpec PsSpec FiniteSpec StlSpec EndSpec F64Spec LookSpec FinDimSpec P_Base P_Total P_Bound P_Float P_Finite P_Mark P_Lookup4 LangSpec EnvEx ExGeo ExLang ExFin64 ExFinDim ExFinDim2.

Local Unset Implicit Arguments.
Section Kinds.
  Notation HA := (F64 flat_libm true).
  Notation script := kinds_script.
  Lemma kinds_model500 d m t ls l p : @parses HA KindE (B "s") script d -> In m (doc_models d) -> @resolves HA KindE flat_files (mo_source m) t -> lines_in t ls -> In l ls -> @says HA KindE l (EVertex p) -> bnd3 flat_libm true 500 p.
  Proof. intros H1 H2 H3 H4 H5 H6. apply (bnd3_mono flat_libm true 388); [lia|]. eapply kinds_model; eassumption. Qed.
  Lemma kinds_no_view d pg l n ml ds x : @parses HA KindE (B "s") script d -> In pg (doc_pages d) -> In (DDraw l n ml ds) (pg_draws pg) -> In x ml -> m_name x = B "view" -> False.
  Proof.
    intros HP Ipg I Ix N. pose proof (kinds_checked _ _ _ HP Ipg I) as K. cbn [kinds_item] in K. rewrite !andb_true_iff in K. destruct K as [[_ K1] _]. apply negb_true_iff in K1.
    assert (T : existsb (fun x => bytes_eqb (m_name x) (B "view")) ml = true) by (apply existsb_exists; exists x; split; [exact Ix|rewrite N; apply bytes_eqb_refl]). congruence.
  Qed.
  Lemma kinds_views d pg l n ml ds x a : @parses HA KindE (B "s") script d -> In pg (doc_pages d) -> In (DDraw l n ml ds) (pg_draws pg) -> In x ml -> m_name x = B "view" -> m_val x = MLoc a ->
    bnd 1000 (x2 a : f64) /\ bnd 1000 (y2 a : f64).
  Proof. intros HP Ipg I Ix N _. destruct (kinds_no_view _ _ _ _ _ _ _ HP Ipg I Ix N). Qed.
  Lemma kinds_says d p : @parses HA KindE (B "s") script d -> says_point d p -> bnd3 flat_libm true 500 (triple p).
  Proof.
    intros HP (pg & l & n & ml & ds & dm & x & Ipg & I & Id & Ix & V).
    destruct (parsed_nums (A := HA) (E := KindE) (fun x => bnd 128 (x : f64)) (fun w x _ => half_stof_bnd w x) _ _ _ HP pg Ipg) as [_ DI]. destruct (DI _ I) as [_ M]. specialize (M dm Id x Ix). rewrite V in M.
    apply (bnd3_mono flat_libm true 128); [lia|]. exact M.
  Qed.
  Fixpoint subs {X} (l : list X) : list (list X) := match l with [] => [[]] | x :: t => map (cons x) (subs t) ++ subs t end.
  Lemma filter_subs {X} (f : X -> bool) l : In (filter f l) (subs l).
  Proof. induction l as [|x l IH]; cbn [filter subs]; [left; reflexivity|]. apply in_app_iff. destruct (f x); [left; apply in_map; exact IH|right; exact IH]. Qed.
  Definition flat_circle : bool := match flat_set with Some ps => forallb (fun l => match @find_circle HA l with Some (ce, _) => negb (is_nan (x2 ce : f64)) && negb (is_nan (y2 ce : f64)) | None => true end) (subs (map xy ps)) | None => false end.
  Lemma flat_circle_ok : flat_circle = true. Proof. vm_compute. reflexivity. Qed.
  Lemma kinds_known f r ds p t ce rad : @draws_model HA KindE flat_files (B "s") script f r ds -> rotate f r = Ret p -> fit_circle (points (cull_back_face p)) t = Some (ce, rad) -> is_nan (x2 ce : f64) = false /\ is_nan (y2 ce : f64) = false.
  Proof.
    intros (d & pg & l & n & ml & m & tx & lg & HP & Ipg & I & AV & _ & _ & HR & MK) RO FC. apply kinds_resolves in HR. subst tx.
    destruct AV as [_|x a Ix N _|x nm r Ix N _ _]; [|destruct (kinds_no_view _ _ _ _ _ _ _ HP Ipg I Ix N)|destruct (kinds_no_view _ _ _ _ _ _ _ HP Ipg I Ix N)].
    assert (FS : flat_set = Some (points (cull_back_face p))) by (unfold flat_set; rewrite MK, RO; reflexivity). pose proof flat_circle_ok as K. unfold flat_circle in K. rewrite FS in K. set (ps := points (cull_back_face p)) in *. clearbody ps.
    rewrite forallb_forall in K. unfold fit_circle in FC. destruct (find_circle (closest (map xy ps) 3 t)) as [[c0 r0]|]; [|discriminate FC].
    unfold between in FC. match type of FC with find_circle (if ?b then _ else _) = _ => destruct b end; [discriminate FC|]. match type of FC with find_circle (filter ?g _) = _ => set (f0 := g) in FC end.
    specialize (K _ (filter_subs f0 _)). rewrite FC in K. apply andb_true_iff in K. destruct K as [K1 K2]. split; apply negb_true_iff; assumption.
  Qed.
  Lemma kinds_near : exists d p, @parses HA KindE (B "s") script d /\ says_point d p /\ near_centre p.
  Proof.
    assert (H : match @parse HA KindE (B "s") script with
      | Ret (0, d, _) => match doc_pages d with pg :: _ => match pg_draws pg with DDraw _ _ _ (dm :: _) :: _ => match d_meta dm with _ :: _ :: _ :: x :: _ => match m_val x with MPoint (PFunc n (PFunc m _ _) _) => bytes_eqb n (B "near") && bytes_eqb m (B "center") | _ => false end | _ => false end | _ => false end | _ => false end
      | _ => false end = true) by (vm_compute; reflexivity).
    unfold parses. destruct (@parse HA KindE (B "s") script) as [[[[|n] d] lg]|]; try discriminate H. destruct (doc_pages d) as [|pg pgs] eqn:P1; [discriminate H|].
    destruct (pg_draws pg) as [|[l nm ml ds|] its] eqn:P2; try discriminate H. destruct ds as [|dm ds]; [discriminate H|]. destruct (d_meta dm) as [|x1 [|x2 [|x3 [|x t]]]] eqn:P3; try discriminate H.
    destruct (m_val x) as [|p| | |] eqn:P4; try discriminate H. destruct p as [|n [|m q lq'] lq]; try discriminate H. apply andb_true_iff in H. destruct H as [H1 H2]. apply bytes_eqb_eq in H1. apply bytes_eqb_eq in H2.
    exists d, (PFunc n (PFunc m q lq') lq). split; [eauto|]. split.
    - exists pg, l, nm, ml, (dm :: ds), dm, x. rewrite P1, P2, P3. cbn. auto 10.
    - left. split; [exact H1|]. left. exact H2.
  Qed.
End Kinds.
