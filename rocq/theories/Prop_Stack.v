(** Prop_Stack.v - how large the stack of the parser gets, and how many steps it takes. *)
From Coq Require Import ZArith.
From Verif Require Import Base Num Env Ast Lexer Parser Lalr LrParser StackSpec P_LrDepth P_LrTime P_LrSharp.

(** ** C102: the stack of the parser grows with open parentheses only *)
Theorem C102_stack_follows_parentheses : forall (A : Arith) f el ts n stk r d, iter n (step f el) (Conf [(0, VNone)] ts (Doc [] [])) = Conf stk r d ->
  exists pre, ts = pre ++ r /\ (Z.of_nat (length stk) <= 20 + 2 * open_parens pre)%Z.
Proof. exact @stack_size. Qed.
Print Assumptions C102_stack_follows_parentheses.
Theorem C102_stack_of_scripts : forall (A : Arith) f el ts d m n stk r d', runs f el ts d None -> shallow m d ->
  iter n (step f el) (Conf [(0, VNone)] ts (Doc [] [])) = Conf stk r d' -> length stk <= 22 + 2 * m.
Proof. exact @stack_of_scripts. Qed.
Print Assumptions C102_stack_of_scripts.
Theorem C102_nesting_takes_stack : forall (A : Arith) f el n, exists ts, (exists d, runs f el ts d None /\ shallow n d) /\
  exists k stk r d, iter k (step f el) (Conf [(0, VNone)] ts (Doc [] [])) = Conf stk r d /\ 2 * n < length stk.
Proof. exact @deep_scripts. Qed.
Print Assumptions C102_nesting_takes_stack.
(** [page { draw a { dim(d = "y", to = near([x,x,x])); } }] attains the bound, 24 entries, when the point has been read. *)
Definition ex_dim_tokens {A : Arith} (x : num) : list ltok := map (LTok 1)
  [TKw 5; TP "{"; TKw 3; TId (B "a"); TP "{"; TKw 2; TP "("; TId (B "d"); TP "="; TStr (B "y"); TP ","; TId (B "to"); TP "="; TId (B "near"); TP "("; TP "["; TNum x; TP ","; TNum x; TP ","; TNum x; TP "]"; TP ")"; TP ")"; TP ";"; TP "}"; TP "}"].
Example C102_example : forall (A : Arith) x, (exists d, runs (B "s") 1 (ex_dim_tokens x) d None /\ shallow 1 d) /\
  exists n stk r d, iter n (step (B "s") 1) (Conf [(0, VNone)] (ex_dim_tokens x) (Doc [] [])) = Conf stk r d /\ length stk = 22 + 2 * 1.
Proof.
  intros A x. split; [|exists 28; do 3 eexists; split; [vm_compute; reflexivity|reflexivity]]. eexists. split; [exists 60; vm_compute; reflexivity|].
  intros y p I V. vm_compute in I. repeat destruct I as [<-|I]; try destruct I; vm_compute in V; try discriminate V. injection V as <-. cbn. lia.
Qed.

(** ** C103: parsing takes at most two steps per token, and three *)
Theorem C103_two_steps_per_token : forall (A : Arith) f el ts, exists d e, iter (2 * length ts + 3) (step f el) (Conf [(0, VNone)] ts (Doc [] [])) = Done d e.
Proof. exact @linear. Qed.
Print Assumptions C103_two_steps_per_token.
Theorem C103_two_steps_per_byte : forall (A : Arith) (E : Env) f el c ts, tokens c = Ret ts ->
  exists d e, iter (2 * length c + 3) (step f el) (Conf [(0, VNone)] ts (Doc [] [])) = Done d e.
Proof. exact @linear_script. Qed.
Print Assumptions C103_two_steps_per_byte.
(** The empty script takes three steps; after 30 the script above is not done, after 52 it is. *)
Example C103_example : forall (A : Arith) f x, (exists stk r d, iter 2 (step f 1) (Conf [(0, VNone)] [] (Doc [] [])) = Conf stk r d) /\
  (exists stk r d, iter 30 (step f 1) (Conf [(0, VNone)] (ex_dim_tokens x) (Doc [] [])) = Conf stk r d) /\
  length (ex_dim_tokens x) = 27 /\ exists d, iter 52 (step f 1) (Conf [(0, VNone)] (ex_dim_tokens x) (Doc [] [])) = Done d None.
Proof. intros A f x. split; [do 3 eexists; vm_compute; reflexivity|]. split; [do 3 eexists; vm_compute; reflexivity|]. split; [reflexivity|]. eexists. vm_compute. reflexivity. Qed.
(** No bound with fewer steps per token holds: of every length from 7 tokens on there is an accepted script that takes two steps per token and two. *)
Theorem C103_some_scripts_take_two : forall (A : Arith) f el n, exists ts d, length ts = n + 7 /\
  (exists stk r d', iter (2 * length ts + 1) (step f el) (Conf [(0, VNone)] ts (Doc [] [])) = Conf stk r d') /\
  iter (2 * length ts + 2) (step f el) (Conf [(0, VNone)] ts (Doc [] [])) = Done d None.
Proof. exact @sharp. Qed.
Print Assumptions C103_some_scripts_take_two.
