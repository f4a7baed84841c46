(** ExFin.v - a whole conversion in exact arithmetic, and a valid and an
    invalid script. *)
From Coq Require Import Reals Lra.
From Verif Require Import Base Num NumReal NumLaws Geo Stl Regex StlRead Env Ast Lexer Parser Ps Draw Main GeoSpec RealSpec DocSpec PsSpec FiniteSpec ValidSpec
  P_Base P_Meta P_Dims P_Doc P_Script P_Index P_Geo1 P_Real P_Span P_Span2 P_Total P_Value2 P_Valid ExReal ExMark.
From Verif Require ExLang.

Local Unset Implicit Arguments.
Local Open Scope R_scope.
Local Open Scope list_scope.

(** A reader of numbers g, and a printer that always prints 7. *)
Definition ReadE (g : bytes -> R) : @Env XR := {|
  re2_double := (fun w => Some (Fin (g w))) : bytes -> option (@num XR); stof := (fun w => Some (Fin (g w))) : bytes -> option (@num XR);
  fmt_num := (fun _ => B "7") : @num XR -> bytes;
  pf_ok := fun _ => true; pf_format := (fun s _ => s) : bytes -> @num XR -> bytes; now := B "now"; type_name := fun _ => []; flag_name := B "name"; flag_timestamp := true;
  flag_number_pages := true; flag_load_path := [] |}.
Definition fin_stl : bytes := B "facet normal 0 0 1
vertex 0 0 0
vertex 4 0 0
vertex 0 3 0
endfacet
".
Definition fin_files : files := fun p => if bytes_eqb p (B "./t.stl") then Some fin_stl else None.
Definition fin_script : bytes := B "load t = ""t.stl"";
page { name = ""first""; draw t { @[1, 3]; dim(at=[0,4,0], dir=[1,0,0], from=[0,0,0], to=[4,0,0]); } text[""one""] { @[0,1]; } }".
Section Read.
  Variable g : bytes -> R.
  #[local] Existing Instance XR.
  #[local] Instance RdE : @Env XR := ReadE g.
  Definition fn (s : string) : @num XR := Fin (g (B s)).
  Definition fp (x y z : string) : @v3 XR := V3 (fn x) (fn y) (fn z).
  Definition fat (n : string) (x y z : string) : @meta XR := Meta (B n) (MPoint (PVal (fp x y z) (Loc (B "s") 2))) (Loc (B "s") 2).
  Definition fin_dims : list (@dim XR) := [Dim KDim (Loc (B "s") 2) [fat "at" "0" "4" "0"; fat "dir" "1" "0" "0"; fat "from" "0" "0" "0"; fat "to" "4" "0" "0"]].
  Definition fin_place (a b : string) : @meta XR := Meta (B "@") (MLoc (V2 (fn a) (fn b))) (Loc (B "s") 2).
  Lemma fin_parses : exists l1 l2, parse (B "s") fin_script = Ret (0%nat, Doc [Model (B "t") (B "t.stl") l1] [Page (Loc (B "s") 2) [Meta (B "name") (MStr (B "first")) (Loc (B "s") 2)]
     [DDraw (Loc (B "s") 2) (B "t") [fin_place "1" "3"] fin_dims; DText (Loc (B "s") 2) (B "one") [fin_place "0" "1"]]], l2).
  Proof. eexists. eexists. vm_compute. reflexivity. Qed.
End Read.
(** One digit. *)
Definition digit_of (w : bytes) : R := match w with [c] => IZR (Z.of_N (N_of_ascii c) - 48) | _ => 0 end.
#[local] Existing Instance XR.
#[local] Instance DgE : @Env XR := ReadE digit_of.
Definition dp (x y z : Z) : @v3 XR := emb (P3 (IZR x) (IZR y) (IZR z)).
Lemma fin_make : exists m t, stl_make fin_stl = Ret (Some m, []) /\ facets m = map embf [t] /\ Forall proper [t].
Proof.
  assert (L : getlines fin_stl = map B ["facet normal 0 0 1"; "vertex 0 0 0"; "vertex 4 0 0"; "vertex 0 3 0"; "endfacet"]%string) by (vm_compute; reflexivity).
  destruct (facet_real (P3 0 0 1) (P3 0 0 0) (P3 4 0 0) (P3 0 3 0)) as (t & HT & PT & _).
  { intro H. apply (f_equal rz) in H. unfold rcross, rsub, rzero in H. cbn [rx ry rz] in H. lra. }
  assert (R : read_lines 1 (Rd zero3 [] []) (getlines fin_stl) = Ret (Some (Rd zero3 [] [embf t]), [])).
  { rewrite L. cbn [map]. change (B "facet normal 0 0 1" :: ?l) with (B "facet normal 0 0 1" :: l).
    assert (R1 : forall s, read_line 1 s (B "facet normal 0 0 1") = Ret (Some (Rd (dp 0 0 1) [] (rd_facets s)), [])) by (intro s; vm_compute; reflexivity).
    assert (R2 : forall s, read_line 2 s (B "vertex 0 0 0") = Ret (Some (Rd (rd_norm s) (rd_pts s ++ [dp 0 0 0]) (rd_facets s)), [])) by (intro s; vm_compute; reflexivity).
    assert (R3 : forall s, read_line 3 s (B "vertex 4 0 0") = Ret (Some (Rd (rd_norm s) (rd_pts s ++ [dp 4 0 0]) (rd_facets s)), [])) by (intro s; vm_compute; reflexivity).
    assert (R4 : forall s, read_line 4 s (B "vertex 0 3 0") = Ret (Some (Rd (rd_norm s) (rd_pts s ++ [dp 0 3 0]) (rd_facets s)), [])) by (intro s; vm_compute; reflexivity).
    cbn [read_lines]. rewrite R1. cbn [obind]. rewrite R2. cbn [obind]. rewrite R3. cbn [obind]. rewrite R4. cbn [obind].
    cbn [rd_norm rd_pts rd_facets app].
    assert (R5 : read_line 5 (Rd (dp 0 0 1) [dp 0 0 0; dp 4 0 0; dp 0 3 0] []) (B "endfacet") = Ret (Some (Rd zero3 [] [mk_facet (dp 0 0 1) (dp 0 0 0) (dp 4 0 0) (dp 0 3 0)]), [])).
    { unfold read_line.
      replace (rmatch re_solid (B "endfacet")) with false by (vm_compute; reflexivity). replace (rmatch re_oloop (B "endfacet")) with false by (vm_compute; reflexivity).
      replace (match_three re_facet 2 (B "endfacet")) with (None : option v3) by (vm_compute; reflexivity). replace (rmatch re_efacet (B "endfacet")) with true by (vm_compute; reflexivity).
      cbn [rd_norm rd_pts rd_facets app].
      replace (eq3 (dp 0 0 1) zero3) with false; [reflexivity|]. symmetry. unfold eq3, dp, zero3, emb, nz. cbn [x3 y3 z3 rx ry rz neq XR of_Z xeq]. destruct (reqb_spec 0 0), (reqb_spec 1 0); try lra; reflexivity. }
    rewrite R5. cbn [obind]. unfold dp. rewrite HT. reflexivity. }
  assert (OK : Forall okF [embf t]) by (apply Forall_cons; [exact (conj (emb_ok _) (conj (emb_ok _) (emb_ok _)))|apply Forall_nil]).
  destruct (index_spec XR_ordered OK) as (m & HI & HX). exists m, t. split; [|split; [|apply Forall_cons; [exact PT|apply Forall_nil]]].
  - unfold stl_make. rewrite R. cbn [obind rd_facets]. rewrite HI. reflexivity.
  - exact (ix_facets HX).
Qed.
Lemma fin_converts : converts fin_files (B "s") fin_script.
Proof.
  apply convertible. destruct (fin_parses digit_of) as (l1 & l2 & HP). eexists. split; [exists l2; exact HP|].
  destruct fin_make as (m & t & HM & FM & PM).
  assert (RS : resolves fin_files (B "t.stl") fin_stl). { apply P_Script2.resolves_iff. vm_compute. reflexivity. }
  split; [|split].
  - cbn. repeat constructor; auto.
  - intros x [<-|[]]. exists m. eexists _, fin_stl, []. split; [left; reflexivity|]. split; [reflexivity|]. split; [exact RS|exact HM].
  - constructor; [|constructor]. split; [|split].
    + split; [cbn; repeat constructor; auto|]. intros n [<-|[]]. cbn. auto.
    + eexists. eapply T_some; [left; reflexivity|reflexivity..].
    + constructor; [|constructor; [|constructor]].
      * split; [split; [cbn; repeat constructor; auto|intros n [<-|[]]; cbn; auto]|].
        split; [exists 1%Z, 1%Z; apply AS_default; intros [H|[]]; discriminate H|].
        destruct (view_lines m [t] ex_id FM PM ex_rotation) as (p & ss & R & T & _).
        exists m, mZP, p, (flat_map strokes ss). split; [eexists _, fin_stl, []; split; [left; reflexivity|]; split; [reflexivity|]; split; [exact RS|exact HM]|].
        split; [apply AV_default; intros [H|[]]; discriminate H|]. change (@mZP XR) with (embm ex_id). split; [exact R|]. rewrite (rotated_culled _ _ _ R). split; [exact T|].
        split; [apply swo_strict, strict_weak_iff; exact (ExLang.real_points m [t] _ _ FM PM ex_rotation R)|].
        split; [right; exact (rotation_nonzero ex_id ex_rotation)|]. constructor; [|constructor]. 
        split; [split; [cbn; repeat constructor; cbn; intuition discriminate|intros n I; cbn in I |- *; intuition (subst; cbn; auto)]|].
        exists (B "%.3f"), (emb (P3 0 4 0)), (emb (P3 1 0 0)), (emb (P3 0 0 0)), (emb (P3 4 0 0)).
        assert (EV : forall n x y z, In (fat digit_of n x y z) (d_meta (hd (Dim KDim (Loc [] 0) []) (fin_dims digit_of))) -> forall q, P3 (digit_of (B x)) (digit_of (B y)) (digit_of (B z)) = q ->
          evaluates (points p) (embm ex_id) (d_meta (hd (Dim KDim (Loc [] 0) []) (fin_dims digit_of))) n (emb q)).
        { intros n x y z I q <-. rewrite <- (id_mul (P3 _ _ _)). apply coord_evaluates. eexists _, _. split; [exact I|]. split; reflexivity. }
        split; [right; split; [intro H; cbn in H; intuition discriminate|reflexivity]|].
        split; [eapply EV; [left; reflexivity|reflexivity]|]. split; [eapply EV; [right; left; reflexivity|reflexivity]|].
        split; [eapply EV; [right; right; left; reflexivity|reflexivity]|]. split; [eapply EV; [right; right; right; left; reflexivity|reflexivity]|].
        unfold eq3, zero3, emb, nz. cbn [x3 y3 z3 rx ry rz neq XR of_Z xeq]. destruct (reqb_spec 1 0); [lra|reflexivity].
      * split; [cbn; repeat constructor; auto|intros n [<-|[]]; cbn; auto].
Qed.
Lemma fin_case : (forall x, word_like (@fmt_num XR DgE x)) /\ one_line (@flag_name XR DgE) /\ one_line (B "s") /\ one_line (@now XR DgE) /\
  (forall w x, @re2_double XR DgE w = Some x -> real x) /\ (forall w x, @stof XR DgE w = Some x -> real x) /\
  @scales_positive XR DgE (B "s") fin_script /\ (forall v, @circle_dir XR DgE fin_files (B "s") fin_script v -> ~ (x3 v = Fin 0 /\ y3 v = Fin 0)) /\
  exists r, @script_to_ps XR DgE fin_files (B "s") fin_script = Ret r /\ r_ok r = true.
Proof.
  destruct (fin_parses digit_of) as (l1 & l2 & HP). change (@parse XR (RdE digit_of)) with (@parse XR DgE) in HP.
  split; [intro x; cbn; split; [discriminate|repeat constructor]|]. split; [unfold one_line; cbn; intuition discriminate|].
  split; [unfold one_line; cbn; intuition discriminate|]. split; [unfold one_line; cbn; intuition discriminate|].
  split; [intros w x H; injection H as <-; eexists; reflexivity|]. split; [intros w x H; injection H as <-; eexists; reflexivity|]. split; [|split].
  - intros d pg l n ml ds a b [lg Hd] Ip Ii As. rewrite HP in Hd. injection Hd as <- _. destruct Ip as [<-|[]]. destruct Ii as [Q|[Q|[]]]; [|discriminate Q]. injection Q as _ _ <- _.
    destruct As as [_|x a b I Q _]; [lia|]. destruct I as [<-|[]]. discriminate Q.
  - intros v (f & r & ds & dm & p & (d & pg & l & n & ml & m & t & lg & [lg' Hd] & Ip & Ii & _) & Id & K & _). rewrite HP in Hd. injection Hd as <- _. destruct Ip as [<-|[]]. destruct Ii as [Q|[Q|[]]]; [|discriminate Q].
    injection Q as _ _ _ <-. destruct Id as [<-|[]]. destruct K as [K|K]; discriminate K.
  - exact fin_converts.
Qed.
