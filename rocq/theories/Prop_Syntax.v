(** Prop_Syntax.v - where syntax errors are reported. *)
From Verif Require Import Base Num NumF64 Geo Stl StlRead Env Ast Lexer Parser Ps Draw Main LangSpec SyntaxSpec P_Syntax2 EnvEx.

(** ** C82 *)
Theorem C82_errors_at_the_first_wrong_token : forall (A : Arith) (E : Env) f c rc d lg, parse f c = Ret (rc, d, lg) ->
  exists ts, tokens c = Ret ts /\ (rc = 0 <-> sentence (kinds ts)) /\
    (rc <> 0 -> exists pre, viable (kinds pre) /\
       ((ts = pre /\ lg = [DParse (Loc f (1 + newlines c)) (B "syntax error")]) \/
        exists t post, ts = pre ++ t :: post /\ ~ viable (kinds (pre ++ [t])) /\ lg = [DParse (Loc f (t_line t)) (complaint t)])).
Proof. exact @parse_verdict. Qed.
Print Assumptions C82_errors_at_the_first_wrong_token.
Theorem C82_what_a_wrong_script_prints : forall (A : Arith) (E : Env) fs src c r ts,
  script_to_ps fs src c = Ret r -> tokens c = Ret ts -> ~ sentence (kinds ts) ->
  r_ok r = false /\ r_out r = [] /\ exists pre l m, r_log r = [DParse (Loc src l) m; DLog (B "Parse failed with rc=1")] /\ viable (kinds pre) /\
    ((ts = pre /\ l = 1 + newlines c /\ m = B "syntax error") \/
     exists t post, ts = pre ++ t :: post /\ ~ viable (kinds (pre ++ [t])) /\ l = t_line t /\ m = complaint t).
Proof. exact @bad_script. Qed.
Print Assumptions C82_what_a_wrong_script_prints.
(** A missing equals sign in line 2, a missing brace, and a byte that is no token. *)
Definition said {A : Arith} {E : Env} (c : bytes) : option (nat * list diag) :=
  match parse (B "s") c with Ret (rc, _, lg) => Some (rc, lg) | _ => None end.
Example C82_example :
  said (B "page {" ++ [LF] ++ B "name ""x""; }") = Some (1, [DParse (Loc (B "s") 2) (B "syntax error")]) /\
  said (B "page {" ++ [LF; LF]) = Some (1, [DParse (Loc (B "s") 3) (B "syntax error")]) /\
  said (B "page { #") = Some (1, [DParse (Loc (B "s") 1) (B "#")]).
Proof. repeat split; vm_compute; reflexivity. Qed.
