(** BazelSpec.v - what Bazel guarantees about the files of an action, and targets without clashes. *)
From Verif Require Import Base Num Env Bazel DocSpec.

Definition dotted (p : bytes) : Prop := exists q, p = B "./" ++ q.
(** "./x" is x, and an action reads no other files than its inputs (except by absolute paths). *)
Definition sandbox (t : target) (fs : files) : Prop :=
  (forall p, ~ abs_path p -> fs (B "./" ++ p) = fs p) /\
  (forall p c, ~ abs_path p -> ~ dotted p -> fs p = Some c -> exists g, In g (tg_inputs t) /\ p = b_path g).
(** Paths are relative and normal; the flag --load_path is a list separated by commas. *)
Definition tidy (t : target) : Prop :=
  forall f, In f (tg_ps t :: tg_inputs t) ->
    ~ abs_path (b_path f) /\ ~ dotted (b_path f) /\ ~ abs_path (b_below f) /\ ~ dotted (b_below f) /\ b_path f <> [] /\ ~ In ","%char (b_root f).
(** No other file of the target is in the place of f below another root. *)
Definition apart (t : target) (f : bfile) : Prop :=
  b_path (tg_ps t) <> b_path f /\
  forall g h, In g (tg_inputs t) -> In h (tg_ps t :: tg_inputs t) ->
    b_path h = b_path (BFile (b_root g) (b_below f)) \/ b_path h = b_below f -> b_path h = b_path f.
