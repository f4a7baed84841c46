(** ExStl.v - example STL texts. *)
From Coq Require Import Reals.
From Flocq Require Import Core IEEE754.BinarySingleNaN.
From Verif Require Import Base Num NumF64 NumLaws Geo Stl Regex Env StlRead EnvEx StlSpec P_Base P_Order P_Stl.

Local Unset Implicit Arguments.

Definition two_blocks : list bytes := [
  B "solid two"; B " facet normal 0 0 1"; B "  outer loop"; B "   vertex 0 0 0"; B "   vertex 4 0 0"; B "   vertex 0 4 0"; B "  endloop"; B " endfacet";
  B "facet normal 0 0 0"; B "outer loop"; B "vertex 0 0 0"; B "vertex 4 0 0"; B "vertex 0 -4.5 1"; B "endloop"; B "endfacet"; B "endsolid two" ].
Definition two_text : bytes := flat_map (fun l => l ++ [LF]) two_blocks.

Lemma two_lines : lines_in two_text two_blocks.
Proof. split; [|left; reflexivity]. repeat constructor; simpl; intuition discriminate. Qed.
Lemma ex_f l : match match_three re_facet 2 l with Some _ => true | None => false end = true -> exists v, says l (EFacet v).
Proof. destruct (match_three re_facet 2 l) as [v|] eqn:M; [|discriminate]. intros _. exists v. constructor. apply facet_iff. exact M. Qed.
Lemma ex_fz l : match match_three re_facet 2 l with Some v => zero_vec v | None => false end = true -> exists v, says l (EFacet v) /\ zero_vec v = true.
Proof. destruct (match_three re_facet 2 l) as [v|] eqn:M; [|discriminate]. intro Z. exists v. split; [constructor; apply facet_iff; exact M|exact Z]. Qed.
Lemma ex_fn l : match match_three re_facet 2 l with Some v => negb (zero_vec v) | None => false end = true -> exists v, says l (EFacet v) /\ zero_vec v = false.
Proof. destruct (match_three re_facet 2 l) as [v|] eqn:M; [|discriminate]. intro Z. apply negb_true_iff in Z. exists v. split; [constructor; apply facet_iff; exact M|exact Z]. Qed.
Lemma ex_v l : match match_three re_vertex 1 l with Some _ => true | None => false end = true -> exists v, says l (EVertex v).
Proof. destruct (match_three re_vertex 1 l) as [v|] eqn:M; [|discriminate]. intros _. exists v. constructor. apply vertex_iff. exact M. Qed.
Lemma ex_s l : rmatch re_solid l = true -> says l EOther. Proof. intro H. apply says_solid, solid_iff. exact H. Qed.
Lemma ex_l l : rmatch re_oloop l = true -> says l EOther. Proof. intro H. apply says_loop, loop_iff. exact H. Qed.
Lemma ex_e l : rmatch re_efacet l = true -> says l EEnd. Proof. intro H. apply says_end, efacet_iff. exact H. Qed.

Lemma two_says : exists evs n1 n2 ps1 ps2, Forall2 says two_blocks evs /\ blocks evs [(n1, ps1); (n2, ps2)] /\ zero_vec n1 = false /\ zero_vec n2 = true.
Proof.
  destruct (ex_fn (B " facet normal 0 0 1")) as (n1 & N1 & Z1); [vm_compute; reflexivity|]. destruct (ex_fz (B "facet normal 0 0 0")) as (n2 & N2 & Z2); [vm_compute; reflexivity|].
  destruct (ex_v (B "   vertex 0 0 0")) as (p1 & P1); [vm_compute; reflexivity|]. destruct (ex_v (B "   vertex 4 0 0")) as (p2 & P2); [vm_compute; reflexivity|]. destruct (ex_v (B "   vertex 0 4 0")) as (p3 & P3); [vm_compute; reflexivity|].
  destruct (ex_v (B "vertex 0 0 0")) as (p4 & P4); [vm_compute; reflexivity|]. destruct (ex_v (B "vertex 4 0 0")) as (p5 & P5); [vm_compute; reflexivity|]. destruct (ex_v (B "vertex 0 -4.5 1")) as (p6 & P6); [vm_compute; reflexivity|].
  exists [EOther; EFacet n1; EOther; EVertex p1; EVertex p2; EVertex p3; EOther; EEnd; EFacet n2; EOther; EVertex p4; EVertex p5; EVertex p6; EOther; EEnd; EOther], n1, n2, [p1; p2; p3], [p4; p5; p6].
  split; [|split; [|split; assumption]].
  - repeat (apply Forall2_cons; [first [eassumption | apply ex_s; vm_compute; reflexivity | apply ex_l; vm_compute; reflexivity | apply ex_e; vm_compute; reflexivity]|]). apply Forall2_nil.
  - apply blocks_other. apply (blocks_facet n1 [EOther; EVertex p1; EVertex p2; EVertex p3; EOther]); [repeat constructor|simpl; lia|].
    apply (blocks_facet n2 [EOther; EVertex p4; EVertex p5; EVertex p6; EOther]); [repeat constructor|simpl; lia|]. apply blocks_other, blocks_nil.
Qed.
Lemma norm_nan m e : is_nan (norm64 m e) = false.
Proof.
  unfold norm64. pose proof (binary_normalize_correct 53 1024 prec64 emax64 mode_NE m e false) as C. cbv zeta in C.
  destruct (Rlt_bool _ _); [destruct C as (_ & F & _)|]; destruct (binary_normalize 53 1024 prec64 emax64 mode_NE m e false); try reflexivity; try discriminate.
Qed.
Lemma opp_nan x : is_nan (Bopp x : f64) = is_nan x.
Proof. destruct x; reflexivity. Qed.
Lemma fdec_nan m e : is_nan (fdec m e) = false.
Proof. unfold fdec. destruct (0 <=? e)%Z; [apply norm_nan|]. cbv zeta. destruct (m <? 0)%Z; rewrite ?opp_nan; apply norm_nan. Qed.
Lemma feq_refl x : is_nan x = false -> feq x x = true.
Proof.
  intro H. unfold feq, Beqb, SpecFloat.SFeqb. destruct x as [[]|[]| |s m e W]; try discriminate; try reflexivity. cbn [B2SF SpecFloat.SFcompare]. destruct s; rewrite Z.compare_refl; [rewrite Pos.compare_cont_refl|rewrite Pos.compare_cont_refl]; reflexivity.
Qed.
Lemma ex_numbers : forall w x, numeral w -> re2_double w = Some x -> ok x.
Proof.
  intros w x _ H. apply feq_refl. change (ex_double w = Some x) in H. unfold ex_double in H. destruct w as [|c t]; [discriminate|].
  match type of H with (let '(_, _) := ?y in _) = _ => destruct y as [neg ds] end.
  match type of H with match ?y with _ => _ end = _ => destruct y as [[m k]|] end; [|discriminate H].
  injection H as <-. destruct neg; [change (is_nan (Bopp (fdec m (- k))) = false); rewrite opp_nan|]; apply fdec_nan.
Qed.
Lemma ex_zero : ok (nz : @num ExA). Proof. vm_compute. reflexivity. Qed.

(** A facet closed before it has three vertices. *)
Definition short_lines : list bytes := [B "facet normal 0 0 1"; B "vertex 1 1 1"; B "endfacet"].
Definition short_text : bytes := flat_map (fun l => l ++ [LF]) short_lines.
Lemma short_in : lines_in short_text short_lines.
Proof. split; [|left; reflexivity]. repeat constructor; simpl; intuition discriminate. Qed.
Lemma short_ub : match stl_make short_text with Abort (AUB _) => true | _ => false end = true.
Proof. vm_compute. reflexivity. Qed.
Lemma short_says : exists evs, Forall2 says short_lines evs /\ short_facet evs.
Proof.
  destruct (ex_fn (B "facet normal 0 0 1")) as (n1 & N1 & Z1); [vm_compute; reflexivity|]. destruct (ex_v (B "vertex 1 1 1")) as (p1 & P1); [vm_compute; reflexivity|].
  exists [EFacet n1; EVertex p1; EEnd]. split.
  - repeat (apply Forall2_cons; [first [eassumption | apply ex_e; vm_compute; reflexivity]|]). apply Forall2_nil.
  - exists [], n1, [EVertex p1], []. repeat split; [exact Z1|repeat constructor|simpl; lia].
Qed.
(** One line is not supported: a tab after the keyword. *)
Definition odd_lines : list bytes := [B "solid a"; B "vertex" ++ [ascii_of_nat 9] ++ B "0 0 0"; B "endsolid"].
Lemma quiet_skip {A : Arith} mid rest pre n t : Forall quiet mid -> mid ++ rest = pre ++ EFacet n :: t -> exists pre', pre = mid ++ pre' /\ rest = pre' ++ EFacet n :: t.
Proof.
  intro HQ. revert pre. induction HQ as [|e mid He HQ IH]; intros pre Q; [exists pre; auto|]. destruct pre as [|y pre]; [injection Q as -> _; destruct He|].
  injection Q as -> Q. destruct (IH pre Q) as (pre' & -> & ->). exists pre'. auto.
Qed.
Lemma blocks_not_short {A : Arith} : forall evs bs, blocks evs bs -> ~ short_facet evs.
Proof.
  intros evs bs H. induction H as [|evs bs H IH|v mid evs bs HQ HL H IH]; intros (pre & n & m & post & Q & Z & MQ & L).
  - destruct pre; discriminate.
  - destruct pre as [|x pre]; [discriminate|]. injection Q as _ Q. apply IH. exists pre, n, m, post. auto.
  - destruct pre as [|x pre].
    + injection Q as <- Q. assert (SAME : mid = m); [|subst; lia].
      clear -Q HQ MQ. revert m Q MQ. induction HQ as [|e mid He HQ IH]; intros m Q MQ.
      * destruct m as [|e m]; [reflexivity|]. injection Q as <- _. inversion MQ as [|? ? F]; destruct F.
      * destruct m as [|e' m]; [injection Q as -> _; destruct He|]. injection Q as <- Q. inversion MQ; subst. f_equal. apply IH; assumption.
    + injection Q as _ Q. apply quiet_skip in Q; [|exact HQ]. destruct Q as (pre' & _ & Q). destruct pre' as [|y pre']; [discriminate|]. injection Q as _ Q. apply IH. exists pre', n, m, post. auto.
Qed.
Lemma odd_not : ~ supported (B "vertex" ++ [ascii_of_nat 9] ++ B "0 0 0").
Proof.
  assert (M : forall l, match rmatch re_solid l, rmatch re_oloop l, match_three re_facet 2 l, match_three re_vertex 1 l, rmatch re_efacet l with false, false, None, None, false => true | _, _, _, _, _ => false end = true -> ~ supported l).
  { intros l H (e & [K|K|v K|v K|K]); [apply solid_iff in K|apply loop_iff in K|apply facet_iff in K|apply vertex_iff in K|apply efacet_iff in K]; rewrite K in H.
    - discriminate H.
    - destruct (rmatch re_solid l); discriminate H.
    - destruct (rmatch re_solid l), (rmatch re_oloop l); discriminate H.
    - destruct (rmatch re_solid l), (rmatch re_oloop l), (match_three re_facet 2 l); discriminate H.
    - destruct (rmatch re_solid l), (rmatch re_oloop l), (match_three re_facet 2 l), (match_three re_vertex 1 l); discriminate H. }
  apply M. vm_compute. reflexivity.
Qed.
