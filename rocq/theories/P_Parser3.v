(** P_Parser3.v - line numbers and the file name only show up in locations;
    why a parse can end the process. *)
From Verif Require Import Base Num Env Ast Lexer Parser Grammar LangSpec P_Base P_Parser P_Parser2.

Local Unset Implicit Arguments.

(** ** Without locations *)
Section Erase.
  Context {A : Arith}.
  Definition at0 (t : ltok) : ltok := LTok 0 (t_tok t).
  Definition era {X Y} (f : X -> Y) (r : pres X) : pres Y :=
    match r with POk x ts => POk (f x) (map at0 ts) | PFail (PSyntax _ m) => PFail (PSyntax 0 m) | PFail (PDead a) => PFail (PDead a) end.
  Variable file : bytes.
  Variable el : nat.
  Lemma era_fail {X Y} (f : X -> Y) ts : @fail A 0 Y (map at0 ts) = era f (@fail A el X ts).
  Proof. unfold fail. destruct ts as [|[l []] ts]; reflexivity. Qed.
  Lemma era_bind {X X' Y Y'} (g : X -> X') (f : Y -> Y') (a : pres X) (a' : pres X') (k : X -> list ltok -> pres Y) (k' : X' -> list ltok -> pres Y') :
    a' = era g a -> (forall x ts, k' (g x) (map at0 ts) = era f (k x ts)) -> pbind a' k' = era f (pbind a k).
  Proof. intros -> H. destruct a as [x ts|[l m|e]]; cbn [era pbind]; [apply H|reflexivity|reflexivity]. Qed.
  Lemma era_punct c ts : punct 0 c (map at0 ts) = era (fun _ => 0) (punct el c ts).
  Proof. unfold punct. destruct ts as [|[l []] ts]; try reflexivity. cbn [map at0 t_tok]. destruct (byte_eqb c c0); [reflexivity|]. exact (era_fail _ (LTok l (TP c0) :: ts)). Qed.
  Lemma era_num ts : pnum 0 (map at0 ts) = era id (pnum el ts).
  Proof. unfold pnum. destruct ts as [|[l []] ts]; reflexivity. Qed.
  Definition loc0 : loc := Loc [] 0.
  Ltac eb := repeat match goal with
    | |- pbind (punct 0 _ _) _ = _ => eapply (era_bind (fun _ => 0)); [apply era_punct|intros ? ?]
    | |- pbind (pnum 0 _) _ = _ => eapply (era_bind id); [apply era_num|intros ? ?; unfold id at 1]
    end.
  Lemma era_location ts : parse_location 0 (map at0 ts) = era id (parse_location el ts).
  Proof. unfold parse_location. eb. reflexivity. Qed.
  Lemma era_point : forall n ts, length ts <= n -> parse_point [] 0 (map at0 ts) = era erase_point (parse_point file el ts).
  Proof.
    induction n as [|n IH]; intros ts L; (destruct ts as [|[l t] ts]; [reflexivity|]); [simpl in L; lia|]. destruct t; try reflexivity.
    - cbn [map at0 t_tok parse_point]. destruct (byte_eqb c "["); [|exact (era_fail _ (LTok l (TP c) :: ts))]. eb. reflexivity.
    - cbn [map at0 t_tok parse_point]. destruct ts as [|[lp k] ts]; [reflexivity|]. cbn [map at0 t_tok]. destruct k; try reflexivity. destruct (byte_eqb c "("); [|exact (era_fail _ (LTok lp (TP c) :: ts))].
      eapply (era_bind erase_point); [apply IH; simpl in L; lia|]. intros p t. eb. reflexivity.
  Qed.
  Lemma era_more_str : forall ts acc, parse_more_str acc (map at0 ts) = (let '(w, r) := parse_more_str acc ts in (w, map at0 r)).
  Proof. induction ts as [|[l []] ts IH]; intro acc; try reflexivity. cbn [map at0 t_tok parse_more_str]. apply IH. Qed.
  Lemma era_string ts : parse_string_lit 0 (map at0 ts) = era id (parse_string_lit el ts).
  Proof. unfold parse_string_lit. destruct ts as [|[l []] ts]; try reflexivity. cbn [map at0 t_tok]. rewrite era_more_str. destruct (parse_more_str s ts). reflexivity. Qed.
  Lemma era_value ts : parse_value [] 0 (map at0 ts) = era erase_mval (parse_value file el ts).
  Proof.
    unfold parse_value. destruct ts as [|[l t] ts]; [reflexivity|]. destruct t; try reflexivity.
    - cbn [map at0 t_tok]. destruct (byte_eqb c "["); [|exact (era_fail _ (LTok l (TP c) :: ts))]. eb. destruct ts2 as [|[lp k] ts2]; [reflexivity|]. destruct k; try reflexivity. cbn [map at0 t_tok].
      destruct (byte_eqb c0 "]"); [reflexivity|]. destruct (byte_eqb c0 ","); [|exact (era_fail _ (LTok lp (TP c0) :: ts2))]. eb. reflexivity.
    - cbn [map at0 t_tok]. eapply (era_bind erase_point); [exact (era_point _ (LTok l (TId s) :: ts) (le_n _))|]. reflexivity.
    - cbn [map at0 t_tok]. destruct ts as [|[lp k] ts]; [reflexivity|]. destruct k; try reflexivity. cbn [map at0 t_tok]. destruct (byte_eqb c ":"); [|reflexivity]. eb. unfold mk_scale. destruct (to_int f); [|reflexivity]. destruct (to_int x); reflexivity.
    - cbn [map at0 t_tok]. eapply (era_bind id); [exact (era_string (LTok l (TStr s) :: ts))|]. reflexivity.
  Qed.
  Lemma era_arg ts : parse_arg [] 0 (map at0 ts) = era erase_meta (parse_arg file el ts).
  Proof.
    unfold parse_arg. destruct ts as [|[l t] ts]; [reflexivity|]. destruct t; try reflexivity; cbn [map at0 t_tok].
    - destruct (byte_eqb c "@"); [|exact (era_fail _ (LTok l (TP c) :: ts))]. eapply (era_bind id); [apply era_location|]. reflexivity.
    - eb. eapply (era_bind erase_mval); [apply era_value|]. reflexivity.
  Qed.
  Lemma era_arg_semi ts : parse_arg_semi [] 0 (map at0 ts) = era erase_meta (parse_arg_semi file el ts).
  Proof. unfold parse_arg_semi. eapply (era_bind erase_meta); [apply era_arg|]. intros x t. eb. reflexivity. Qed.
  Lemma era_more_args : forall fuel ts acc, parse_more_args [] 0 fuel (map erase_meta acc) (map at0 ts) = era (map erase_meta) (parse_more_args file el fuel acc ts).
  Proof.
    induction fuel as [|fuel IH]; intros ts acc; [reflexivity|]. cbn [parse_more_args]. destruct ts as [|[l t] ts]; [reflexivity|]. destruct t; try reflexivity. cbn [map at0 t_tok]. destruct (byte_eqb c ","); [|reflexivity].
    eapply (era_bind erase_meta); [apply era_arg|]. intros x t. rewrite <- IH, map_app. reflexivity.
  Qed.
  Lemma era_dim_args fuel ts : parse_dim_args [] 0 fuel (map at0 ts) = era (map erase_meta) (parse_dim_args file el fuel ts).
  Proof.
    unfold parse_dim_args. eb. cbv zeta.
    assert (FIN : forall ml t, pbind (punct 0 ")" (map at0 t)) (fun _ t2 => pbind (punct 0 ";" t2) (fun _ t3 => POk (map erase_meta ml) t3)) = era (map erase_meta) (pbind (punct el ")" t) (fun _ t2 => pbind (punct el ";" t2) (fun _ t3 => POk ml t3)))).
    { intros ml t. eb. reflexivity. }
    assert (ARGS : pbind (parse_arg [] 0 (map at0 ts0)) (fun a t1 => pbind (parse_more_args [] 0 fuel [a] t1) (fun ml t => pbind (punct 0 ")" t) (fun _ t2 => pbind (punct 0 ";" t2) (fun _ t3 => POk ml t3)))) =
      era (map erase_meta) (pbind (parse_arg file el ts0) (fun a t1 => pbind (parse_more_args file el fuel [a] t1) (fun ml t => pbind (punct el ")" t) (fun _ t2 => pbind (punct el ";" t2) (fun _ t3 => POk ml t3)))))).
    { eapply (era_bind erase_meta); [apply era_arg|]. intros a t. eapply (era_bind (map erase_meta)); [exact (era_more_args fuel t [a])|]. apply FIN. }
    destruct ts0 as [|[l k] ts0]; [exact ARGS|]. destruct k; try exact ARGS. cbn [map at0 t_tok] in *. destruct (byte_eqb c ")"); [|exact ARGS]. exact (FIN [] (LTok l (TP c) :: ts0)).
  Qed.
  Definition erase_parts (md : list meta * list dim) : list meta * list dim := (map erase_meta (fst md), map erase_dim (snd md)).
  Lemma era_draw_parts : forall fuel ts ml ds, parse_draw_parts [] 0 fuel (map erase_meta ml) (map erase_dim ds) (map at0 ts) = era erase_parts (parse_draw_parts file el fuel ml ds ts).
  Proof.
    induction fuel as [|fuel IH]; intros ts ml ds; [reflexivity|]. cbn [parse_draw_parts].
    assert (N : pbind (parse_arg_semi [] 0 (map at0 ts)) (fun a t => parse_draw_parts [] 0 fuel (map erase_meta ml ++ [a]) (map erase_dim ds) t) = era erase_parts (pbind (parse_arg_semi file el ts) (fun a t => parse_draw_parts file el fuel (ml ++ [a]) ds t))).
    { eapply (era_bind erase_meta); [apply era_arg_semi|]. intros x t. rewrite <- IH, map_app. reflexivity. }
    destruct ts as [|[l k] ts]; [exact N|]. cbn [map at0 t_tok] in *. destruct k; try exact N.
    - destruct (byte_eqb c "}"); [reflexivity|exact N].
    - destruct (dkind_of_kw n); [|exact (era_fail _ (LTok l (TKw n) :: ts))]. eapply (era_bind (map erase_meta)); [apply era_dim_args|]. intros x t. rewrite <- IH, map_app. reflexivity.
  Qed.
  Lemma era_text_parts : forall fuel ts ml, parse_text_parts [] 0 fuel (map erase_meta ml) (map at0 ts) = era (map erase_meta) (parse_text_parts file el fuel ml ts).
  Proof.
    induction fuel as [|fuel IH]; intros ts ml; [reflexivity|]. cbn [parse_text_parts].
    assert (N : pbind (parse_arg_semi [] 0 (map at0 ts)) (fun a t => parse_text_parts [] 0 fuel (map erase_meta ml ++ [a]) t) = era (map erase_meta) (pbind (parse_arg_semi file el ts) (fun a t => parse_text_parts file el fuel (ml ++ [a]) t))).
    { eapply (era_bind erase_meta); [apply era_arg_semi|]. intros x t. rewrite <- IH, map_app. reflexivity. }
    destruct ts as [|[l k] ts]; [exact N|]. cbn [map at0 t_tok] in *. destruct k; try exact N. destruct (byte_eqb c "}"); [reflexivity|exact N].
  Qed.
  Definition erase_page_parts (md : list meta * list drawable) : list meta * list drawable := (map erase_meta (fst md), map erase_drawable (snd md)).
  Lemma era_page_parts : forall fuel ts ml ds, parse_page_parts [] 0 fuel (map erase_meta ml) (map erase_drawable ds) (map at0 ts) = era erase_page_parts (parse_page_parts file el fuel ml ds ts).
  Proof.
    induction fuel as [|fuel IH]; intros ts ml ds; [reflexivity|]. cbn [parse_page_parts].
    assert (N : pbind (parse_arg_semi [] 0 (map at0 ts)) (fun a t => parse_page_parts [] 0 fuel (map erase_meta ml ++ [a]) (map erase_drawable ds) t) = era erase_page_parts (pbind (parse_arg_semi file el ts) (fun a t => parse_page_parts file el fuel (ml ++ [a]) ds t))).
    { eapply (era_bind erase_meta); [apply era_arg_semi|]. intros x t. rewrite <- IH, map_app. reflexivity. }
    destruct ts as [|[l k] ts]; [exact N|]. cbn [map at0 t_tok] in *. destruct k; try exact N.
    - destruct (byte_eqb c "}"); [reflexivity|exact N].
    - destruct (Nat.eq_dec n 3) as [->|N3]; [|destruct (Nat.eq_dec n 7) as [->|N7]].
      + destruct ts as [|[b k] ts]; [reflexivity|]. cbn [map at0 t_tok]. destruct k; try reflexivity. eb. eapply (era_bind erase_parts); [exact (era_draw_parts fuel _ [] [])|]. intros [m dm] t. rewrite <- IH, map_app. reflexivity.
      + eb. eapply (era_bind id); [apply era_string|]. intros s t. unfold id. eb. eapply (era_bind (map erase_meta)); [exact (era_text_parts fuel _ [])|]. intros m t'. rewrite <- IH, map_app. reflexivity.
      + do 8 (destruct n as [|n]; [solve [exact N|lia]|]). exact N.
  Qed.
  Definition erase_err (e : option perr) : option perr := match e with Some (PSyntax _ m) => Some (PSyntax 0 m) | _ => e end.
  Lemma era_input : forall fuel ts d, parse_input [] 0 fuel (erase d) (map at0 ts) = (let '(d', e) := parse_input file el fuel d ts in (erase d', erase_err e)).
  Proof.
    induction fuel as [|fuel IH]; intros ts d; [reflexivity|]. cbn [parse_input].
    destruct ts as [|[l k] ts]; [reflexivity|]. cbn [map at0 t_tok].
    assert (N : (erase d, Some (stop 0 (LTok 0 k :: map at0 ts))) = (let '(d', e) := (d, Some (stop el (LTok l k :: ts))) in (erase d', erase_err e))) by (destruct k; reflexivity).
    destruct k; try exact N. destruct (Nat.eq_dec n 4) as [->|N3]; [|destruct (Nat.eq_dec n 5) as [->|N7]].
    - assert (PM : parse_model [] 0 (at0 (LTok l (TKw 4)) :: map at0 ts) = era erase_model (parse_model file el (LTok l (TKw 4) :: ts))).
      { unfold parse_model. destruct ts as [|[b k] ts]; [reflexivity|]. cbn [map at0 t_tok]. destruct k; try reflexivity. eb. destruct ts0 as [|[c k] ts0]; [reflexivity|]. cbn [map at0 t_tok]. destruct k; try reflexivity. eb. reflexivity. }
      rewrite PM. destruct (parse_model file el (LTok l (TKw 4) :: ts)) as [m r|[]]; cbn [era]; [|reflexivity|reflexivity]. rewrite <- IH. f_equal. unfold erase. cbn [doc_models doc_pages]. rewrite map_app. reflexivity.
    - assert (PM : parse_page [] 0 fuel (at0 (LTok l (TKw 5)) :: map at0 ts) = era erase_page (parse_page file el fuel (LTok l (TKw 5) :: ts))).
      { unfold parse_page. unfold at0 at 1. cbn [t_tok]. eb. eapply (era_bind erase_page_parts); [exact (era_page_parts fuel _ [] [])|]. intros [m dm] t. reflexivity. }
      rewrite PM. destruct (parse_page file el fuel (LTok l (TKw 5) :: ts)) as [m r|[]]; cbn [era]; [|reflexivity|reflexivity]. rewrite <- IH. f_equal. unfold erase. cbn [doc_models doc_pages]. rewrite map_app. reflexivity.
    - do 8 (destruct n as [|n]; [solve [exact N|lia]|]). exact N.
  Qed.
End Erase.


Section Answer.
  Context {A : Arith} {E : Env}.
  Lemma same_tokens f f' c c' ts ts' : tokens c = Ret ts -> tokens c' = Ret ts' -> map t_tok ts = map t_tok ts' -> erase_answer (parse f c) = erase_answer (parse f' c').
  Proof.
    intros H H' E1. unfold parse. rewrite H, H'. cbn [obind].
    assert (EQ : map at0 ts = map at0 ts').
    { assert (M : forall l, map at0 l = map (LTok 0) (map t_tok l)) by (intro l; rewrite map_map; reflexivity). rewrite !M, E1. reflexivity. }
    assert (LN : length ts = length ts') by (rewrite <- (map_length t_tok ts), E1; apply map_length). rewrite <- LN.
    pose proof (era_input f (1 + count_lf c) (S (length ts)) ts (Doc [] [])) as E2. pose proof (era_input f' (1 + count_lf c') (S (length ts)) ts' (Doc [] [])) as E3. rewrite EQ, E3 in E2.
    destruct (parse_input f (1 + count_lf c) (S (length ts)) (Doc [] []) ts) as [d e]. destruct (parse_input f' (1 + count_lf c') (S (length ts)) (Doc [] []) ts') as [d' e'].
    assert (E4 : erase d' = erase d) by (apply (f_equal fst) in E2; exact E2). assert (E5 : erase_err e' = erase_err e) by (apply (f_equal snd) in E2; exact E2). clear E2 E3. destruct e as [[]|], e' as [[]|]; cbn [erase_err] in E5; try discriminate E5; cbn [erase_answer map erase_diag].
    - injection E5 as ->. rewrite E4. reflexivity.
    - injection E5 as ->. reflexivity.
    - rewrite E4. reflexivity.
  Qed.
End Answer.

(** ** Why the process may end *)
Section Dead.
  Context {A : Arith}.
  Variable file : bytes.
  Variable el : nat.
  Definition blame (ts : list ltok) (e : perr) : Prop :=
    match e with
    | PSyntax _ _ => True
    | PDead a => (a = AThrow "std::stof" /\ exists l, In (LTok l TThrow) ts) \/
        (a = AUB "Scale: float to int out of range" /\ exists l x, In (LTok l (TNum x)) ts /\ to_int x = None)
    end.
  (** [n] tokens are known to have been consumed *)
  Definition good {X} (ts : list ltok) (r : pres X) : Prop :=
    match r with POk _ t => exists pre, ts = pre ++ t | PFail e => blame ts e end.
  Lemma blame_suffix pre t e : blame t e -> blame (pre ++ t) e.
  Proof. destruct e; [auto|]. intros [(Q & l & H)|(Q & l & x & H & K)]; [left; split; [exact Q|]; exists l|right; split; [exact Q|]; exists l, x; split; [|exact K]]; apply in_or_app; right; exact H. Qed.
  Lemma good_fail {X} ts : good ts (@fail A el X ts).
  Proof. unfold fail, good, stop. destruct ts as [|[l []] ts]; try exact I. left. split; [reflexivity|]. exists l. left. reflexivity. Qed.
  Lemma good_ok {X} (x : X) ts : good ts (POk x ts).
  Proof. exists []. reflexivity. Qed.
  Lemma good_bind {X Y} ts (a : pres X) (k : X -> list ltok -> pres Y) : good ts a -> (forall x t, length t <= length ts -> (exists pre, ts = pre ++ t) -> good t (k x t)) -> good ts (pbind a k).
  Proof.
    intros G H. destruct a as [x t|e]; [|exact G]. destruct G as [pre ->]. cbn [pbind]. specialize (H x t ltac:(rewrite app_length; lia) (ex_intro _ pre eq_refl)).
    destruct (k x t) as [y u|e]; [destruct H as [p ->]; exists (pre ++ p); apply app_assoc|]. apply blame_suffix. exact H.
  Qed.
  Lemma good_cons {X} k ts (r : pres X) : good ts r -> good (k :: ts) r.
  Proof. destruct r as [x t|e]; [intros [p ->]; exists (k :: p); reflexivity|]. exact (blame_suffix [k] ts e). Qed.
  Lemma good_punct c ts : good ts (punct el c ts).
  Proof. unfold punct. destruct ts as [|[l []] ts]; try apply good_fail. destruct (byte_eqb c c0); [apply good_cons, good_ok|apply good_fail]. Qed.
  Lemma good_num ts : good ts (pnum el ts).
  Proof. unfold pnum. destruct ts as [|[l []] ts]; try apply good_fail. apply good_cons, good_ok. Qed.
  Ltac gd := repeat match goal with
    | |- good _ (pbind (punct _ _ _) _) => apply good_bind; [apply good_punct|intros ? ? ? ?]
    | |- good _ (pbind (pnum _ _) _) => apply good_bind; [apply good_num|intros ? ? ? ?]
    | |- good _ (punct _ _ _) => apply good_punct
    | |- good _ (fail _ _) => apply good_fail
    | |- good _ (POk _ _) => apply good_ok
    end.
  Lemma good_location ts : good ts (parse_location el ts).
  Proof. unfold parse_location. gd. Qed.
  Lemma good_point : forall n ts, length ts <= n -> good ts (parse_point file el ts).
  Proof.
    induction n as [|n IH]; intros ts L; (destruct ts as [|[l t] ts]; [apply good_fail|]); [simpl in L; lia|]. destruct t; try apply good_fail.
    - cbn [parse_point]. destruct (byte_eqb c "["); [|apply good_fail]. apply good_cons. gd.
    - cbn [parse_point]. destruct ts as [|[lp k] ts]; [apply good_cons, good_fail|]. destruct k; try (apply good_cons, good_fail). destruct (byte_eqb c "("); [|apply good_cons, good_fail].
      do 2 apply good_cons. apply good_bind; [apply IH; simpl in L; lia|]. intros p t _ _. gd.
  Qed.
  Lemma good_string ts : good ts (parse_string_lit el ts).
  Proof.
    unfold parse_string_lit. destruct ts as [|[l []] ts]; try apply good_fail. apply good_cons. revert s. induction ts as [|[l1 k] ts IH]; intro s; [apply good_ok|]. cbn [parse_more_str]. destruct k; try apply good_ok. apply good_cons, IH.
  Qed.
  Lemma good_value ts : good ts (parse_value file el ts).
  Proof.
    unfold parse_value. destruct ts as [|[l t] ts]; [apply good_fail|]. destruct t; try apply good_fail.
    - destruct (byte_eqb c "["); [|apply good_fail]. apply good_cons. gd. destruct t1 as [|[lp k] t1]; [apply good_fail|]. destruct k; try apply good_fail. destruct (byte_eqb c0 "]"); [apply good_cons; gd|]. destruct (byte_eqb c0 ","); [|apply good_fail]. apply good_cons. gd.
    - apply good_bind; [exact (good_point _ _ (le_n _))|]. intros; gd.
    - destruct ts as [|[lp k] ts]; [apply good_cons; gd|]. destruct k; try solve [apply good_cons; gd]. destruct (byte_eqb c ":"); [|apply good_cons; gd].
      destruct (to_int f) as [m|] eqn:EF.
      + do 2 apply good_cons. unfold mk_scale. rewrite EF. destruct ts as [|[b k] ts]; [apply good_fail|]. destruct k; try apply good_fail. cbn [pnum pbind]. destruct (to_int f0) eqn:E0; [apply good_cons; gd|]. right. split; [reflexivity|]. exists b, f0. split; [left; reflexivity|exact E0].
      + unfold mk_scale. rewrite EF. destruct ts as [|[b k] ts]; [do 2 apply good_cons; apply good_fail|]. destruct k; try (do 2 apply good_cons; apply good_fail). right. split; [reflexivity|]. exists l, f. split; [left; reflexivity|exact EF].
    - apply good_bind; [apply good_string|]. intros; gd.
  Qed.
  Lemma good_arg ts : good ts (parse_arg file el ts).
  Proof.
    unfold parse_arg. destruct ts as [|[l t] ts]; [apply good_fail|]. destruct t; try apply good_fail.
    - destruct (byte_eqb c "@"); [|apply good_fail]. apply good_cons. apply good_bind; [apply good_location|]. intros; gd.
    - apply good_cons. gd. apply good_bind; [apply good_value|]. intros; gd.
  Qed.
  (** An argument takes at least one token. *)
  Lemma arg_shorter ts v r : parse_arg file el ts = POk v r -> length r < length ts.
  Proof. intro H. apply arg_sound in H. destruct H as (pre & -> & H). destruct (arg_head file _ _ H) as (l & k & p & -> & _). rewrite app_length. simpl. lia. Qed.
  Lemma good_arg_bind {Y} ts (k : meta -> list ltok -> pres Y) : (forall x t, length t < length ts -> good t (k x t)) -> good ts (pbind (parse_arg file el ts) k).
  Proof.
    intro H. pose proof (good_arg ts) as G. destruct (parse_arg file el ts) as [x t|e] eqn:PA; [|exact G]. specialize (H x t (arg_shorter _ _ _ PA)). destruct G as [pre ->]. cbn [pbind].
    destruct (k x t) as [y u|e]; [destruct H as [p ->]; exists (pre ++ p); apply app_assoc|]. apply blame_suffix. exact H.
  Qed.
  Lemma good_more_args : forall fuel ts acc, length ts < fuel -> good ts (parse_more_args file el fuel acc ts).
  Proof.
    induction fuel as [|fuel IH]; intros ts acc L; [lia|]. cbn [parse_more_args]. destruct ts as [|[l t] ts]; [gd|]. destruct t; try apply good_ok. destruct (byte_eqb c ","); [|apply good_ok]. apply good_cons. apply good_arg_bind. intros x t L1. apply IH. simpl in L. lia.
  Qed.
  Lemma good_dim_args fuel ts : length ts <= fuel -> good ts (parse_dim_args file el fuel ts).
  Proof.
    intro L. unfold parse_dim_args. gd. cbv zeta.
    assert (ARGS : good t (pbind (parse_arg file el t) (fun a t1 => pbind (parse_more_args file el fuel [a] t1) (fun ml t => pbind (punct el ")" t) (fun _ t2 => pbind (punct el ";" t2) (fun _ t3 => POk ml t3)))))).
    { apply good_arg_bind. intros a t1 L1. apply good_bind; [apply good_more_args; lia|]. intros; gd. }
    destruct t as [|[l k] t]; [exact ARGS|]. destruct k; try exact ARGS. destruct (byte_eqb c ")"); [|exact ARGS]. gd.
  Qed.
  Lemma good_semi_bind {Y} ts (k : meta -> list ltok -> pres Y) : (forall x t, length t < length ts -> good t (k x t)) -> good ts (pbind (parse_arg_semi file el ts) k).
  Proof.
    intro H. unfold parse_arg_semi. replace (pbind (pbind (parse_arg file el ts) (fun a t => pbind (punct el ";" t) (fun _ t' => POk a t'))) k) with (pbind (parse_arg file el ts) (fun a t => pbind (punct el ";" t) (fun _ t' => k a t'))).
    - apply good_arg_bind. intros x t L. gd. apply H. lia.
    - destruct (parse_arg file el ts) as [a t|]; [|reflexivity]. cbn [pbind]. destruct (punct el ";" t); reflexivity.
  Qed.
  Lemma good_draw_parts : forall fuel ts ml ds, length ts < fuel -> good ts (parse_draw_parts file el fuel ml ds ts).
  Proof.
    induction fuel as [|fuel IH]; intros ts ml ds L; [lia|]. cbn [parse_draw_parts].
    assert (N : good ts (pbind (parse_arg_semi file el ts) (fun a t => parse_draw_parts file el fuel (ml ++ [a]) ds t))) by (apply good_semi_bind; intros x t L1; apply IH; lia).
    destruct ts as [|[l k] ts]; [exact N|]. destruct k; try exact N.
    - destruct (byte_eqb c "}"); [apply good_cons; gd|exact N].
    - destruct (dkind_of_kw n); [|apply good_fail]. apply good_cons. simpl in L. apply good_bind; [apply good_dim_args; lia|]. intros x t L1 _. apply IH. lia.
  Qed.
  Lemma good_text_parts : forall fuel ts ml, length ts < fuel -> good ts (parse_text_parts file el fuel ml ts).
  Proof.
    induction fuel as [|fuel IH]; intros ts ml L; [lia|]. cbn [parse_text_parts].
    assert (N : good ts (pbind (parse_arg_semi file el ts) (fun a t => parse_text_parts file el fuel (ml ++ [a]) t))) by (apply good_semi_bind; intros x t L1; apply IH; lia).
    destruct ts as [|[l k] ts]; [exact N|]. destruct k; try exact N. destruct (byte_eqb c "}"); [apply good_cons; gd|exact N].
  Qed.
  Lemma good_page_parts : forall fuel ts ml ds, length ts < fuel -> good ts (parse_page_parts file el fuel ml ds ts).
  Proof.
    induction fuel as [|fuel IH]; intros ts ml ds L; [lia|]. cbn [parse_page_parts].
    assert (N : good ts (pbind (parse_arg_semi file el ts) (fun a t => parse_page_parts file el fuel (ml ++ [a]) ds t))) by (apply good_semi_bind; intros x t L1; apply IH; lia).
    destruct ts as [|[l k] ts]; [exact N|]. destruct k; try exact N.
    - destruct (byte_eqb c "}"); [apply good_cons; gd|exact N].
    - destruct (Nat.eq_dec n 3) as [->|N3]; [|destruct (Nat.eq_dec n 7) as [->|N7]]; simpl in L.
      + apply good_cons. destruct ts as [|[b k] ts]; [gd|]. destruct k; try apply good_fail. apply good_cons. simpl in L. gd. apply good_bind; [apply good_draw_parts; lia|]. intros [m dm] u L1 _. apply IH. lia.
      + apply good_cons. gd. apply good_bind; [apply good_string|]. intros s u L1 _. gd. apply good_bind; [apply good_text_parts; lia|]. intros m u' L2 _. apply IH. lia.
      + do 8 (destruct n as [|n]; [solve [exact N|lia]|]). exact N.
  Qed.
  Lemma input_dead : forall fuel ts d d' e, length ts < fuel -> parse_input file el fuel d ts = (d', Some e) -> blame ts e.
  Proof.
    induction fuel as [|fuel IH]; intros ts d d' e L H; [lia|]. cbn [parse_input] in H.
    assert (N : (d, Some (stop el ts)) = (d', Some e) -> blame ts e) by (intro Q; injection Q as _ <-; exact (@good_fail nat ts)).
    destruct ts as [|[l k] ts]; [discriminate H|]. destruct k; try exact (N H). destruct (Nat.eq_dec n 4) as [->|N3]; [|destruct (Nat.eq_dec n 5) as [->|N7]]; simpl in L.
    - assert (PM : good ts (parse_model file el (LTok l (TKw 4) :: ts))).
      { unfold parse_model. destruct ts as [|[b k] ts]; [gd|]. destruct k; try apply good_fail. apply good_cons. gd. destruct t as [|[c k] t]; [gd|]. destruct k; try apply good_fail. apply good_cons. gd. }
      destruct (parse_model file el (LTok l (TKw 4) :: ts)) as [m r|e'].
      + destruct PM as [pre ->]. rewrite app_length in L. apply IH in H; [|lia]. exact (blame_suffix (LTok l (TKw 4) :: pre) r e H).
      + injection H as _ <-. exact (blame_suffix [LTok l (TKw 4)] ts e' PM).
    - assert (PM : good ts (parse_page file el fuel (LTok l (TKw 5) :: ts))).
      { unfold parse_page. gd. apply good_bind; [apply good_page_parts; lia|]. intros; gd. }
      destruct (parse_page file el fuel (LTok l (TKw 5) :: ts)) as [m r|e'].
      + destruct PM as [pre ->]. rewrite app_length in L. apply IH in H; [|lia]. exact (blame_suffix (LTok l (TKw 5) :: pre) r e H).
      + injection H as _ <-. exact (blame_suffix [LTok l (TKw 5)] ts e' PM).
    - do 8 (destruct n as [|n]; [solve [exact (N H)|lia]|]). exact (N H).
  Qed.
End Dead.
