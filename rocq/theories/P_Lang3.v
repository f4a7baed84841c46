(** P_Lang3.v - which assertions a script can trip. *)
From Verif Require Import Base Num Geo Stl Regex StlRead Env Ast Lexer Parser Ps Draw Main
  P_Base P_Index P_Hide P_Geo1 P_Stl P_Total DocSpec LangSpec P_Lex P_Lex2 P_Lex3 Grammar P_Parser P_Parser2 P_Lang.

Local Unset Implicit Arguments.

Section Place.
  Context {A : Arith} {E : Env}.
  Lemma read_line_abort n s l e : read_line n s l = Abort e -> e = AUB "e[0..2] of a vector with fewer than three points".
  Proof.
    unfold read_line. intro H. destruct (rmatch re_solid l); [discriminate H|]. destruct (rmatch re_oloop l); [discriminate H|]. destruct (match_three re_facet 2 l); [discriminate H|].
    destruct (rmatch re_efacet l); [|destruct (match_three re_vertex 1 l); discriminate H]. destruct (eq3 (rd_norm s) zero3); [discriminate H|].
    destruct (rd_pts s) as [|p0 [|p1 [|p2 ps]]]; first [discriminate H|injection H as <-; reflexivity].
  Qed.
  Lemma read_lines_abort ls : forall n s e, read_lines n s ls = Abort e -> e = AUB "e[0..2] of a vector with fewer than three points".
  Proof.
    induction ls as [|l ls IH]; intros n s e H; [discriminate H|]. cbn [read_lines] in H. apply obind_abort in H. destruct H as [H|([r lg] & _ & H)]; [exact (read_line_abort _ _ _ _ H)|].
    destruct r as [s'|]; [|discriminate H]. apply obind_abort in H. destruct H as [H|([r' lg'] & _ & H)]; [exact (IH _ _ _ H)|discriminate H].
  Qed.
  Lemma stl_make_abort t e : stl_make t = Abort e -> e = AUB "e[0..2] of a vector with fewer than three points" \/ e = AUB "std::map without a strict weak ordering".
  Proof.
    unfold stl_make. intro H. apply obind_abort in H. destruct H as [H|([r lg] & _ & H)]; [left; exact (read_lines_abort _ _ _ _ H)|]. destruct r as [s|]; [|discriminate H].
    apply obind_abort in H. destruct H as [H|(m & _ & H)]; [right; exact (proj1 (index_abort _ H))|discriminate H].
  Qed.
  (** The complete list of ways a conversion can end the process. *)
  Lemma abort_list fs src c e : script_to_ps fs src c = Abort e ->
    In e [AThrow "std::stof"; AUB "Scale: float to int out of range"; AUB "e[0..2] of a vector with fewer than three points";
          AUB "std::map without a strict weak ordering"; AUB "std::set without a strict weak ordering"; AUB "std::sort without a strict weak ordering";
          ACheck "Points out of order"; ACheck "Hidden section reversed"; ACheck "Null rotation"]%string.
  Proof.
    intro H. destruct (script_abort _ _ _ _ H) as [e' P|d m t e' P I R M|f r ds e' D R|f r ds p e' D R L|f r ds p D R SO|f r ds D N Z].
    - destruct (parse_abort _ _ _ P) as [(-> & _)|(-> & _)]; simpl; auto.
    - destruct (stl_make_abort _ _ M) as [->| ->]; simpl; auto.
    - unfold rotate in R. rewrite (proj1 (index_abort _ R)). simpl; auto.
    - rewrite (rotated_culled _ _ _ R) in L. unfold rotate in R. destruct (lines_abort _ _ _ R L) as [->|[->| ->]]; simpl; auto 10.
    - simpl; auto 10.
    - simpl; auto 10.
  Qed.
  Lemma place_type fs src c : script_to_ps fs src c <> Abort (ACheck "@ is not a location").
  Proof. intro H. apply abort_list in H. simpl in H. repeat (destruct H as [H|H]; [discriminate H|]). exact H. Qed.
  Lemma place_location f c d k ml x : parses f c d -> k = BDraw \/ k = BText -> block d k ml -> In x ml -> m_name x = B "@" -> exists v, m_val x = MLoc v.
  Proof.
    intros P K HB HI HN. pose proof (parsed_at_ok _ _ _ P) as F. rewrite Forall_forall in F. destruct HB as [pg Hp|pg l n ml ds Hp Hd|pg l t ml Hp Hd|pg l n ml ds dm Hp Hd Hm].
    - destruct K as [K|K]; discriminate K.
    - specialize (F _ Hp). rewrite Forall_forall in F. specialize (F _ Hd). cbn [item_at_ok] in F. rewrite Forall_forall in F. exact (F _ HI HN).
    - specialize (F _ Hp). rewrite Forall_forall in F. specialize (F _ Hd). cbn [item_at_ok] in F. rewrite Forall_forall in F. exact (F _ HI HN).
    - destruct K as [K|K]; discriminate K.
  Qed.
  (** Parsing *)
  Lemma parse_returns f c : (forall w, numeral_in c w -> exists x, stof w = Some x /\ to_int x <> None) -> exists rc d lg, parse f c = Ret (rc, d, lg) /\ (rc = 0 \/ rc = 1).
  Proof.
    intro N. destruct (parse f c) as [[[rc d] lg]|e] eqn:P.
    - exists rc, d, lg. split; [reflexivity|]. revert P. unfold parse. destruct (tokens c); [|intro H; discriminate H]. cbn [obind]. destruct (parse_input _ _ _ _ _) as [d' [pe|]]; [destruct pe|]; intro H; first [discriminate H|apply (f_equal (fun o => match o with Ret (x, _, _) => x | _ => 0 end)) in H; cbn in H; subst rc; auto].
    - exfalso. destruct (parse_abort _ _ _ P) as [(_ & w & W & S)|(_ & w & x & W & S & T)]; destruct (N _ W) as (y & Sy & Ty); [congruence|]. rewrite S in Sy. injection Sy as ->. exact (Ty T).
  Qed.
End Place.

Section More.
  Context {A : Arith} {E : Env}.
  Lemma spelled_back s : ~ In NUL s -> tokens (spell s) = Ret [LTok 1 (TStr s)].
  Proof. intro N. apply literal_token; [apply spell_literal|apply spell_nul, N]. Qed.
  Lemma every_byte_once s : exists l, scan_all s = Some l /\ flat_map lx_text l = s /\
    Forall (fun x => lx_text x <> [] /\ piece (lx_act x) (lx_text x)) l /\
    forall pre x post, l = pre ++ x :: post -> lx_act x <> ASkip -> lx_line x = 1 + newlines (flat_map lx_text pre).
  Proof. destruct (scanned s) as (l & H1 & H2 & H3 & H4 & _). exists l. auto. Qed.
  Lemma tok_of_line x k : tok_of x = Ret (Some k) -> t_line k = lx_line x /\ not_skipped x = true.
  Proof. unfold tok_of, not_skipped. destruct (lx_act x); intro H; try discriminate H; [| | | | |]; first [injection H as <-; split; reflexivity|destruct (new_quote _); [injection H as <-; split; reflexivity|discriminate H]]. Qed.
  Lemma tok_of_none x : tok_of x = Ret None -> not_skipped x = false.
  Proof. unfold tok_of, not_skipped. destruct (lx_act x); intro H; try discriminate H; [destruct (new_quote _); discriminate H|reflexivity]. Qed.
  Lemma toks_lines l : forall ts, toks_of l = Ret ts -> map t_line ts = map lx_line (filter not_skipped l).
  Proof.
    induction l as [|x l IH]; intros ts H; cbn [toks_of] in H; [injection H as <-; reflexivity|].
    apply obind_ret in H. destruct H as (o & H1 & H). apply obind_ret in H. destruct H as (ts' & H2 & H). injection H as <-. cbn [filter].
    destruct o as [k|]; [destruct (tok_of_line _ _ H1) as [L N]; rewrite N; cbn [map]; rewrite L, (IH _ H2); reflexivity|rewrite (tok_of_none _ H1); exact (IH _ H2)].
  Qed.
  Lemma token_lines s l : scan_all s = Some l -> exists ts, tokens s = Ret ts /\ map t_line ts = map lx_line (filter not_skipped l).
  Proof.
    intro H. destruct (tokens_total s) as [ts HT]. exists ts. split; [exact HT|]. unfold tokens in HT. rewrite H in HT. exact (toks_lines _ _ HT).
  Qed.
End More.
Lemma input_iff {A : Arith} f el ts d : parse_input f el (S (length ts)) (Doc [] []) ts = (d, None) <-> g_input f ts d.
Proof.
  split; [|apply input_complete]. intro H. apply (input_sound f el (S (length ts)) ts [] (Doc [] []) d); [constructor|exact H].
Qed.
