(** Prop_Weight.v - documents are no larger than their scripts. *)
From Verif Require Import Base Num Env Ast Lexer Parser DocSpec Grammar StackSpec WeightSpec P_Weight EnvEx ExGeo ExNeg.

(** ** C104 *)
Theorem C104_document_fits_its_script : forall (A : Arith) (E : Env) f c d, parses f c d -> exists ts, tokens c = Ret ts /\ needed d <= length ts /\ length ts <= length c.
Proof. exact @script_fits. Qed.
Print Assumptions C104_document_fits_its_script.
(** The bound is reached by scripts with any number of dimensions. *)
Theorem C104_bound_is_reached : forall (A : Arith) f (x : num) k, exists ts d, g_input f ts d /\ needed d = length ts /\ length (doc_dims d) = k.
Proof. exact @tight. Qed.
Print Assumptions C104_bound_is_reached.
Example C104_example : exists d, @parses ExA ExE (B "s") (ex_negative "1:1") d /\ needed d = 31 /\ length (doc_dims d) = 1 /\ length (doc_metas d) = 5.
Proof.
  assert (K : match @parse ExA ExE (B "s") (ex_negative "1:1") with Ret (0, d, _) => (needed d =? 31) && (length (doc_dims d) =? 1) && (length (doc_metas d) =? 5) | _ => false end = true) by (vm_compute; reflexivity).
  destruct (@parse ExA ExE (B "s") (ex_negative "1:1")) as [[[[|k] d] lg]|] eqn:HP; try discriminate K. apply andb_true_iff in K. destruct K as [K K3]. apply andb_true_iff in K. destruct K as [K1 K2].
  exists d. split; [exists lg; exact HP|]. split; [exact (proj1 (Nat.eqb_eq _ _) K1)|]. split; [exact (proj1 (Nat.eqb_eq _ _) K2)|exact (proj1 (Nat.eqb_eq _ _) K3)].
Qed.
