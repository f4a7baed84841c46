(** MainIo.v - main (stl-to-ps-main.cc:42-71) on a device that may fail while the output is written. *)
From Verif Require Import Base Num Geo Stl StlRead Env Ast Lexer Parser Ps Draw Main.

Section MainIo.
  Context {A : Arith} {E : Env}.
  (** As Main.main, but only [room] bytes of the output reach the file: a write that fails sets
      badbit of the std::ofstream, later writes then do nothing, and neither RenderPages nor main
      (stl-to-ps-main.cc:65-71: out.close(); return ret ? 0 : 1) looks at the state of the stream. *)
  Definition main_on (room : nat) (script output : bytes) (can_write : bytes -> bool) (fs : files) : ending * files :=
    match script with
    | [] => (Exit 1 [], fs)
    | _ =>
        match output with
        | [] => (Exit 1 [], fs)
        | _ =>
            if negb (can_write output) then (Died (ACheck "out.rdstate()"), fs)
            else
              let fs1 := fs_set output [] fs in
              match fs1 script with
              | None => (Died (ACheck "in.rdstate()"), fs1)
              | Some c =>
                  match script_to_ps fs1 script c with
                  | Abort e => (Died e, fs1)
                  | Ret r => (Exit (if r_ok r then 0 else 1) (r_log r), fs_set output (firstn room (r_out r)) fs1)
                  end
              end
        end
    end.
End MainIo.
