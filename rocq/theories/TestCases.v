(** TestCases.v - the project's own end-to-end tests run on the model: the
    scripts of /repo/testcases, as testcases/BUILD:38-72 and input_test.sh run
    them.  These are tests of the model, not proofs about all inputs. *)
From Coq Require Import ZArith.
From Flocq Require Import IEEE754.BinarySingleNaN.
From Verif Require Import Base Num NumF64 Env Geo Stl StlRead Ast Lexer Parser Ps Draw Main Run TestFiles.

Local Unset Implicit Arguments.
Local Open Scope string_scope.
Local Open Scope list_scope.

Local Existing Instances RunA RunE.

(** hole.stl has 344 facets, and the model's check that an order is a strict weak
    one (Base.v) is cubic; the tests here use a coarser solid in its place: two
    plates with corners on the edges of its holes, radius 0.5 about (1,1) and
    radius 1 about (2,3). *)
Definition plate (p : string) (l : list string) : list string :=
  flat_map (fun qr => ["facet normal 0 0 1"; "outer loop"; "vertex " ++ p ++ " 1"; "vertex " ++ fst qr ++ " 1"; "vertex " ++ snd qr ++ " 1"; "endloop"; "endfacet"]%string) (combine l (tl l)).
Definition hole_small : bytes := file_of (["solid"] ++
  plate "1.5 1" ["1.3 1.4"; "1 1.5"; "0.7 1.4"; "0.5 1"; "0.7 0.6"; "1.3 0.6"] ++
  plate "3 3" ["2.6 3.8"; "2 4"; "1.4 3.8"; "1 3"; "1.4 2.2"; "2.6 2.2"] ++ ["endsolid"]).
Definition repo_files : list (string * bytes) := [
  ("/dev/null", []); ("testcases/cube.stl", cube_stl); ("testcases/hole.stl", hole_small);
  ("testcases/bad_angle.case", bad_angle_case); ("testcases/bad_dia.case", bad_dia_case); ("testcases/bad_dim.case", bad_dim_case);
  ("testcases/bad_draw.case", bad_draw_case); ("testcases/bad_fn.case", bad_fn_case); ("testcases/bad_model.case", bad_model_case);
  ("testcases/bad_page.case", bad_page_case); ("testcases/bad_rad.case", bad_rad_case); ("testcases/bad_text.case", bad_text_case);
  ("testcases/lex_error.case", lex_error_case); ("testcases/syntax_error.case", syntax_error_case);
  ("testcases/ang.example", ang_example); ("testcases/blank.example", blank_example); ("testcases/case1.example", case1_example);
  ("testcases/hole.example", hole_example)].
(** ./x is x. *)
Definition plain_path (p : bytes) : bytes := match p with "."%char :: "/"%char :: t => t | _ => p end.
Definition repo_fs : files := fun p => option_map snd (find (fun f => bytes_eqb (B (fst f)) (plain_path p)) repo_files).

(** The program run as input_test.sh:7-11 and rule.bzl run it. *)
Definition run_main (script : string) : ending * files := main (B script) (B "out") (fun _ => true) repo_fs.

(** ** input_test.sh *)
(** What is on stderr, line by line (ast.h:50-52, 73-88). *)
Definition at_loc (l : loc) (msg : bytes) : bytes := l_file l ++ B ":" ++ dec_of_nat (l_line l) ++ B ": " ++ msg.
Definition stderr_lines (lg : list diag) : list bytes :=
  flat_map (fun d => split_on nl (match d with DSym l m => at_loc l m | DParse l m => at_loc l m | DLog m => m end)) lg.

(** grep's patterns, as far as the tests use them:  .*  \b  .  and single bytes *)
Inductive pat := PStar | PBound | PAny | PByte (c : ascii).
Fixpoint pattern (w : bytes) : list pat :=
  match w with
  | "."%char :: "*"%char :: t => PStar :: pattern t
  | "."%char :: t => PAny :: pattern t
  | "\"%char :: "b"%char :: t => PBound :: pattern t
  | c :: t => PByte c :: pattern t
  | [] => []
  end.
Definition in_word (c : ascii) : bool := let n := N_of_ascii c in
  (((48 <=? n) && (n <=? 57)) || ((65 <=? n) && (n <=? 90)) || ((97 <=? n) && (n <=? 122)) || (n =? 95))%N.
(** [prev]: whether the byte before the rest of the line belongs to a word. *)
Fixpoint matches (p : list pat) : bool -> bytes -> bool :=
  match p with
  | [] => fun _ _ => true
  | PByte c :: p => fun _ w => match w with d :: t => byte_eqb c d && matches p (in_word d) t | [] => false end
  | PAny :: p => fun _ w => match w with d :: t => matches p (in_word d) t | [] => false end
  | PBound :: p => fun prev w => xorb prev (match w with d :: _ => in_word d | [] => false end) && matches p prev w
  | PStar :: p =>
      fix go (prev : bool) (w : bytes) : bool := matches p prev w || match w with d :: t => go (in_word d) t | [] => false end
  end.
Definition grep (w : bytes) (line : bytes) : bool := matches (PStar :: pattern w) false line.

(** The expected messages, line 35: what follows the last "//" of a line of the script, its
    number before it; "read" takes away spaces at the end and one of two backslashes. *)
Fixpoint after_slashes (w : bytes) : option bytes :=
  match w with
  | [] => None
  | c :: t =>
      match after_slashes t with
      | Some r => Some r
      | None => match c, t with "/"%char, "/"%char :: r => Some r | _, _ => None end
      end
  end.
Fixpoint unescape (w : bytes) : bytes := match w with "\"%char :: "\"%char :: t => "\"%char :: unescape t | c :: t => c :: unescape t | [] => [] end.
Fixpoint trim_end (w : bytes) : bytes := match w with [] => [] | c :: t => match trim_end t with [] => if byte_eqb c " " then [] else [c] | r => c :: r end end.
Fixpoint targets (src : bytes) (n : nat) (ls : list bytes) : list bytes :=
  match ls with
  | [] => []
  | l :: r => match after_slashes l with
              | Some m => [src ++ B ":" ++ dec_of_nat n ++ B ":.*" ++ trim_end (unescape m)]
              | None => []
              end ++ targets src (S n) r
  end.
Definition expected (script : string) : list bytes := match repo_fs (B script) with Some c => targets (B script) 1 (split_on nl c) | None => [] end.
(** What is missing: the exit status if it is not 1, and the messages not found. *)
Definition input_test (script : string) : option ending * list bytes :=
  match fst (run_main script) with
  | Exit 1 lg => (None, filter (fun t => negb (existsb (grep t) (stderr_lines lg))) (expected script))
  | e => (Some e, [])
  end.
Definition error_cases : list string := map (fun n => "testcases/" ++ n ++ ".case")%string
  ["bad_angle"; "bad_dia"; "bad_dim"; "bad_draw"; "bad_fn"; "bad_model"; "bad_page"; "bad_rad"; "bad_text"; "lex_error"; "syntax_error"].
Definition show_bytes (w : bytes) : string := string_of_list_ascii w.

(** testcases/BUILD:38-55: every error case fails with status 1 and says what its comments say. *)
Example failure_tests : forallb (fun s => match input_test s with (None, []) => true | _ => false end) error_cases = true.
Proof. match goal with |- _ = ?y => vm_cast_no_check (eq_refl y) end. Qed.
Example failure_targets : map (fun s => length (expected s)) error_cases = [13; 7; 13; 8; 1; 3; 5; 7; 3; 1; 1].
Proof. match goal with |- _ = ?y => vm_cast_no_check (eq_refl y) end. Qed.
(** testcases/BUILD:57-72: every example succeeds; the drawing of the last one has these labels. *)
Definition success (script : string) : bool := match run_main script with (Exit 0 [], f) => negb (bytes_eqb (match f (B "out") with Some o => o | None => [] end) []) | _ => false end.
Example success_tests : map (fun n => success ("testcases/" ++ n ++ ".example")%string) ["ang"; "blank"; "case1"] = [true; true; true].
Proof. match goal with |- _ = ?y => vm_cast_no_check (eq_refl y) end. Qed.
Definition said (p : string) (script : string) : list string :=
  match run_main script with
  | (Exit 0 [], f) => map show_bytes (filter (grep (B p)) (split_on nl (match f (B "out") with Some o => o | None => [] end)))
  | _ => []
  end.
Example hole_labels : said "CenterText show" "testcases/hole.example" =
  ["newpath 342 104.4 moveto (2.000) CenterText show"; "newpath 216 230.4 moveto (3.000) CenterText show";
   "newpath 342 86.4 moveto (2.500) CenterText show"; "newpath 234 212.4 moveto (2.5000) CenterText show";
   "newpath 487.2 284.4 moveto (\3512.0000) CenterText show"; "newpath 505.2 428.4 moveto (R1.000) CenterText show";
   "newpath 417.6 266.4 moveto (R0.5000) CenterText show"].
Proof. match goal with |- _ = ?y => vm_cast_no_check (eq_refl y) end. Qed.
