(** P_Pi.v - the number pi to fifteen places. *)
From Coq Require Import Reals Lra Machin.
Local Open Scope R_scope.
Lemma pi_bounds : 314159265358979 / 100000000000000 < PI < 31415926535898 / 10000000000000.
Proof.
  pose proof (PI_2_3_7_ineq 8) as H. cbn [Nat.mul Nat.add] in H.
  unfold tg_alt, PI_2_3_7_tg, Ratan_seq in H. cbn [sum_f_R0 Nat.mul Nat.add INR pow] in H. split; lra.
Qed.
