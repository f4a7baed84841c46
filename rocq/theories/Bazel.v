(** Bazel.v - model of rule.bzl:30-51: the rule stl2pdf up to the run of stl-to-ps.  The second
    action (ps2pdf) and the rule scad_binary run other programs and are not modelled. *)
From Verif Require Import Base Num Geo Stl StlRead Env Ast Lexer Parser Ps Draw Main.

(** A File of Bazel: the directory of its root (File.root.path, empty for source files) and its
    path below that root.  File.path joins them. *)
Record bfile := BFile { b_root : bytes; b_below : bytes }.
Definition b_path (f : bfile) : bytes :=
  match b_root f with [] => b_below f | r => r ++ B "/" ++ b_below f end.

(** The attributes of a target that the action uses (rule.bzl:73-97) and the file declared at
    rule.bzl:31. *)
Record target := Target { tg_name : bytes; tg_script : bfile; tg_deps : list bfile; tg_ps : bfile }.

(** rule.bzl:33 *)
Definition tg_inputs (t : target) : list bfile := tg_deps t ++ [tg_script t].

(** rule.bzl:34: dict([(x.root.path, 0) for x in inputs if x.root.path]).keys(), each root once in
    the order of first occurrence. *)
Fixpoint dict_keys (l : list bytes) : list bytes :=
  match l with
  | [] => []
  | x :: t => x :: filter (fun y => negb (bytes_eqb y x)) (dict_keys t)
  end.
Definition tg_roots (t : target) : list bytes :=
  dict_keys (filter (fun r => match r with [] => false | _ => true end) (map b_root (tg_inputs t))).

(** rule.bzl:36-40 *)
Definition tg_args (t : target) : list bytes :=
  [ B "--output=" ++ b_path (tg_ps t);
    B "--load_path=" ++ join (B ",") (tg_roots t);
    B "--script=" ++ b_path (tg_script t);
    B "--name=" ++ tg_name t ].

(** absl::ParseCommandLine for arguments of the form --flag=value, the only ones above: the last
    one counts. *)
Fixpoint strip (p s : bytes) : option bytes :=
  match p, s with
  | [], _ => Some s
  | c :: p', d :: s' => if byte_eqb c d then strip p' s' else None
  | _, [] => None
  end.
Fixpoint flag_value (name : string) (args : list bytes) : bytes :=
  match args with
  | [] => []
  | a :: t =>
      if existsb (fun b => match strip (B "--" ++ B name ++ B "=") b with Some _ => true | None => false end) t
      then flag_value name t
      else match strip (B "--" ++ B name ++ B "=") a with Some v => v | None => flag_value name t end
  end.

Section Action.
  Context {A : Arith}.
  (** The process started with other values for --name and --load_path. *)
  Definition with_flags (E : Env) (name path : bytes) : Env := {|
    re2_double := @re2_double A E; stof := @stof A E; fmt_num := @fmt_num A E; pf_ok := @pf_ok A E; pf_format := @pf_format A E;
    now := @now A E; type_name := @type_name A E; flag_name := name; flag_timestamp := @flag_timestamp A E;
    flag_number_pages := @flag_number_pages A E; flag_load_path := path |}.
  (** rule.bzl:42-47 *)
  Definition run_action (E : Env) (t : target) (can_write : bytes -> bool) (fs : files) : ending * files :=
    let a := tg_args t in
    @main A (with_flags E (flag_value "name" a) (flag_value "load_path" a)) (flag_value "script" a) (flag_value "output" a) can_write fs.
End Action.
