(** P_Weight.v - a document is no larger than its script. *)
From Verif Require Import Base Num Env Ast Lexer Parser DocSpec Grammar StackSpec WeightSpec P_Lang2 P_LrTime.
Local Unset Implicit Arguments.

Section Weight.
  Context {A : Arith}.
  Definition fun_of (m : meta) : nat := match m_val m with MPoint p => functions p | _ => 0 end.
  Definition w_meta (m : meta) : nat := 3 + 3 * fun_of m.
  Definition w_metas (l : list meta) : nat := list_sum (map w_meta l).
  Definition w_dim (x : dim) : nat := 4 + w_metas (d_meta x).
  Definition w_dims (l : list dim) : nat := list_sum (map w_dim l).
  Definition w_item (i : drawable) : nat := match i with DDraw _ _ ml ds => 4 + w_metas ml + w_dims ds | DText _ _ ml => 4 + w_metas ml end.
  Definition w_items (l : list drawable) : nat := list_sum (map w_item l).
  Definition w_page (p : page) : nat := 3 + w_metas (pg_meta p) + w_items (pg_draws p).
  Definition w_pages (l : list page) : nat := list_sum (map w_page l).
  Lemma w_metas_app a b : w_metas (a ++ b) = w_metas a + w_metas b.
  Proof. unfold w_metas. rewrite map_app, list_sum_app. reflexivity. Qed.
  Lemma w_dims_app a b : w_dims (a ++ b) = w_dims a + w_dims b.
  Proof. unfold w_dims. rewrite map_app, list_sum_app. reflexivity. Qed.
  Lemma w_items_app a b : w_items (a ++ b) = w_items a + w_items b.
  Proof. unfold w_items. rewrite map_app, list_sum_app. reflexivity. Qed.
  Lemma w_pages_app a b : w_pages (a ++ b) = w_pages a + w_pages b.
  Proof. unfold w_pages. rewrite map_app, list_sum_app. reflexivity. Qed.
  Lemma w_metas_sum l : w_metas l = 3 * length l + 3 * list_sum (map fun_of l).
  Proof. induction l as [|m l IH]; [reflexivity|]. unfold w_metas in *. cbn [map list_sum fold_right length]. change (fold_right Nat.add 0) with list_sum. rewrite IH. unfold w_meta. lia. Qed.
  Lemma w_dims_sum l : w_dims l = 4 * length l + w_metas (flat_map d_meta l).
  Proof. induction l as [|x l IH]; [reflexivity|]. change (w_dims (x :: l)) with (w_dim x + w_dims l). cbn [flat_map length]. rewrite w_metas_app, IH. unfold w_dim. lia. Qed.
  Definition dims_in (i : drawable) : list dim := match i with DDraw _ _ _ ds => ds | DText _ _ _ => [] end.
  Lemma w_items_sum l : w_items l = 4 * length l + 4 * length (flat_map dims_in l) + w_metas (flat_map item_metas l).
  Proof.
    induction l as [|x l IH]; [reflexivity|]. change (w_items (x :: l)) with (w_item x + w_items l). cbn [flat_map length]. rewrite w_metas_app, IH, app_length. destruct x as [lo n ml ds|lo t ml]; cbn [w_item item_metas dims_in length]; [rewrite w_metas_app, w_dims_sum|]; lia.
  Qed.
  Lemma w_pages_sum l : w_pages l = 3 * length l + 4 * length (flat_map pg_draws l) + 4 * length (flat_map dims_in (flat_map pg_draws l)) + w_metas (flat_map page_metas l).
  Proof.
    induction l as [|x l IH]; [reflexivity|]. change (w_pages (x :: l)) with (w_page x + w_pages l). cbn [flat_map length]. rewrite flat_map_app, w_metas_app, IH, !app_length. unfold w_page, page_metas. rewrite w_items_sum, w_metas_app. lia.
  Qed.
  Lemma needed_sum d : needed d = 5 * length (doc_models d) + w_pages (doc_pages d).
  Proof. unfold needed, doc_functions, doc_dims, doc_items, doc_metas. rewrite w_pages_sum, w_metas_sum. unfold fun_of, dims_in. lia. Qed.
  Variable f : bytes.
  Ltac len := rewrite ?app_length in *; cbn [length] in *; rewrite ?app_length in *; cbn [length] in *; rewrite ?app_length in *; cbn [length] in *.
  Lemma point_fits ts p : g_point f ts p -> 7 + 3 * functions p <= length ts.
  Proof. induction 1 as [|a b c n ts p H IH]; [cbn; lia|]. cbn [functions]. len. lia. Qed.
  Lemma string_fits ts s : g_string ts s -> 1 <= length ts.
  Proof. induction 1; len; lia. Qed.
  Lemma value_fits ts v : g_value f ts v -> 1 + 3 * match v with MPoint p => functions p | _ => 0 end <= length ts.
  Proof. intros [us s H|us p H|a x|us v' H|a b c x y m n _ _]; [apply string_fits in H; lia|apply point_fits in H; lia|cbn; lia|destruct H; cbn; lia|cbn; lia]. Qed.
  Lemma arg_fits ts m : g_arg f ts m -> w_meta m <= length ts.
  Proof. intros [a b n us v H|a us v H]; unfold w_meta, fun_of; cbn [m_val length]; [apply value_fits in H; lia|destruct H; cbn; lia]. Qed.
  Lemma one_meta m : w_metas [m] = w_meta m.
  Proof. unfold w_metas. cbn. lia. Qed.
  Lemma parts_fit ts ml : g_dim_parts f ts ml -> w_metas ml <= length ts.
  Proof. induction 1 as [ts m H|a ts ml us m H IH K]; [apply arg_fits in H; rewrite one_meta; exact H|]. apply arg_fits in K. rewrite w_metas_app, one_meta. len. lia. Qed.
  Lemma draw_fits ts r : g_draw_parts f ts r -> w_metas (fst r) + w_dims (snd r) <= length ts.
  Proof.
    induction 1 as [|a ts ml ds us m H IH K|a b c d ts ml ds k kd H IH K|a b c d ts ml ds k kd us m H IH K P]; [cbn; lia| | |]; cbn [fst snd] in *.
    - apply arg_fits in K. rewrite w_metas_app, one_meta. len. lia.
    - rewrite w_dims_app. change (w_dims [Dim kd (Loc f a) []]) with 4. len. lia.
    - apply parts_fit in P. rewrite w_dims_app. unfold w_dims at 2. cbn [map list_sum fold_right]. unfold w_dim. cbn [d_meta]. len. lia.
  Qed.
  Lemma text_fits ts ml : g_text_parts f ts ml -> w_metas ml <= length ts.
  Proof. induction 1 as [|a ts ml us m H IH K]; [cbn; lia|]. apply arg_fits in K. rewrite w_metas_app, one_meta. len. lia. Qed.
  Lemma page_fits ts r : g_page_parts f ts r -> w_metas (fst r) + w_items (snd r) <= length ts.
  Proof.
    induction 1 as [|a ts ml ds us m H IH K|a b c d ts ml ds n us m dm H IH K|a b c d e ts ml ds us s ws m H IH S K]; [cbn; lia| | |]; cbn [fst snd] in *.
    - apply arg_fits in K. rewrite w_metas_app, one_meta. len. lia.
    - apply draw_fits in K. cbn [fst snd] in K. rewrite w_items_app. unfold w_items at 2. cbn [map list_sum fold_right w_item]. len. lia.
    - apply text_fits in K. apply string_fits in S. rewrite w_items_app. unfold w_items at 2. cbn [map list_sum fold_right w_item]. len. lia.
  Qed.
  Lemma input_fits ts d : g_input f ts d -> needed d <= length ts.
  Proof.
    intros H. rewrite needed_sum. induction H as [|a b c d e ts ms ps n s H IH|a b c ts ms ps us ml ds H IH K]; [cbn; lia| |]; cbn [doc_models doc_pages] in *.
    - len. lia.
    - apply page_fits in K. cbn [fst snd] in K. rewrite w_pages_app. unfold w_pages at 2. cbn [map list_sum fold_right]. unfold w_page. cbn [pg_meta pg_draws]. len. lia.
  Qed.
End Weight.
Lemma script_fits {A : Arith} {E : Env} f c d : parses f c d -> exists ts, tokens c = Ret ts /\ needed d <= length ts /\ length ts <= length c.
Proof. intros H. destruct (parsed_words f c d H) as (ts & ws & T & G & _). exists ts. split; [exact T|]. split; [exact (input_fits f ts d G)|exact (tokens_few c ts T)]. Qed.

(** Scripts that need every token they have. *)
Section Tight.
  Context {A : Arith}.
  Variables (f : bytes) (x : num).
  Definition tight_page : list ltok := map (LTok 1) [TKw 5; TP "{"%char; TKw 3; TId (B "t"); TP "{"%char; TKw 2; TP "("%char; TId (B "a"); TP "="%char; TNum x; TP ")"%char; TP ";"%char; TP "}"%char; TP "}"%char].
  Lemma tight_more ts d : g_input f ts d -> exists d', g_input f (ts ++ tight_page) d' /\ needed d' = needed d + 14 /\ length (doc_dims d') = S (length (doc_dims d)).
  Proof.
    intros H. destruct d as [ms ps]. eexists. split.
    - unfold tight_page. cbn [map]. refine (@gi_page A f 1 1 1 ts ms ps (map (LTok 1) [TKw 3; TId (B "t"); TP "{"%char; TKw 2; TP "("%char; TId (B "a"); TP "="%char; TNum x; TP ")"%char; TP ";"%char; TP "}"%char]) [] _ H _).
      refine (@gq_draw A f 1 1 1 1 [] [] [] (B "t") (map (LTok 1) [TKw 2; TP "("%char; TId (B "a"); TP "="%char; TNum x; TP ")"%char; TP ";"%char]) [] _ (@gq_none A f) _).
      refine (@gr_dim A f 1 1 1 1 [] [] [] 2 KDim (map (LTok 1) [TId (B "a"); TP "="%char; TNum x]) _ (@gr_none A f) gk_dim _).
      apply gd_one. refine (@ga_named A f 1 1 (B "a") [LTok 1 (TNum x)] _ _). apply gv_num.
    - rewrite !needed_sum. unfold doc_dims, doc_items. cbn [doc_models doc_pages]. rewrite w_pages_app, !flat_map_app, !app_length. split; [|cbn; lia].
      unfold w_pages at 2. cbn. lia.
  Qed.
  Lemma tight k : exists ts d, g_input f ts d /\ needed d = length ts /\ length (doc_dims d) = k.
  Proof.
    induction k as [|k (ts & d & G & N & L)]; [exists [], (Doc [] []); split; [constructor|split; reflexivity]|].
    destruct (tight_more ts d G) as (d' & G' & N' & L'). exists (ts ++ tight_page), d'. split; [exact G'|]. rewrite app_length, N', N, L', L. split; reflexivity.
  Qed.
End Tight.
