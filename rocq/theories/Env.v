(** Env.v - what the program takes from outside: number parsing and printing,
    printf formats, the clock and the command line flags.  Every field is an
    arbitrary function; theorems quantify over it and state as hypotheses the
    few facts they need. *)
From Verif Require Import Base Num.

Class Env {A : Arith} := {
  (** RE2's conversion of a captured group to double (used at stl.cc:100, 121):
      None if the text is not a number or is out of range. *)
  re2_double : bytes -> option num;
  (** std::stof of a NUM token (lexer.l:96-97): None means it throws. *)
  stof : bytes -> option num;
  (** absl::Substitute of a double (ps.cc:115-125, 151-154): six digits, "%g". *)
  fmt_num : num -> bytes;
  (** absl::ParsedFormat<'f'>::New(fmt) != nullptr, and StrFormat with it. *)
  pf_ok : bytes -> bool;
  pf_format : bytes -> num -> bytes;
  (** impl::Now(), ps.cc:44-52: a function-local static, so one value per run. *)
  now : bytes;
  (** Meta::type_name() (ast.h:219, 235), only used in messages.  The argument
      is the kind of value: 0 string, 1 point, 2 float, 3 location, 4 scale. *)
  type_name : nat -> bytes;
  (** --name, --timestamp, --number_pages (ps.cc:38-40), --load_path
      (stl-to-ps.cc:53). *)
  flag_name : bytes;
  flag_timestamp : bool;
  flag_number_pages : bool;
  flag_load_path : bytes;
}.

(** The files that can be opened for reading, and their contents. *)
Definition files := bytes -> option bytes.

(** ast.h:45-56  Loc *)
Record loc := Loc { l_file : bytes; l_line : nat }.

(** Diagnostics on stderr: SYM_ERROR (ast.h:73-88), absl LOG(WARNING/ERROR),
    parser_support::Error.  LOG(INFO) output is not modelled. *)
Inductive diag :=
| DSym (l : loc) (msg : bytes)
| DLog (msg : bytes)
| DParse (l : loc) (msg : bytes).
