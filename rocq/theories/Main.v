(** Main.v - model of ScriptToPS (stl-to-ps.cc:108-118, 209-219) and main
    (stl-to-ps-main.cc:42-71). *)
From Verif Require Import Base Num Geo Stl StlRead Env Ast Lexer Parser Ps Draw.

Section Main.
  Context {A : Arith} {E : Env}.

  (** What a call of ScriptToPS leaves behind: its return value, the bytes it
      wrote to the output stream and its diagnostics. *)
  Record result := Res { r_ok : bool; r_out : bytes; r_log : list diag }.

  (** stl-to-ps.cc:209-219  ScriptToPS(src, doc, out) *)
  Definition doc_to_ps (fs : files) (src : bytes) (d : document) : outcome result :=
    do! '(st, lg1, ok1) <- load_files fs (doc_models d) [];
    if negb ok1 then Ret (Res false [] lg1)
    else
      do! '(os, _, lg2, ok2) <- generate_pages st d;
      if negb ok2 then Ret (Res false [] (lg1 ++ lg2))
      else Ret (Res true (render_pages src os) (lg1 ++ lg2)).

  (** stl-to-ps.cc:108-118  ScriptToPS(src, in, out) *)
  Definition script_to_ps (fs : files) (src contents : bytes) : outcome result :=
    do! '(rc, d, lg) <- parse src contents;
    if rc =? 0
    then do! r <- doc_to_ps fs src d; Ret (Res (r_ok r) (r_out r) (lg ++ r_log r))
    else Ret (Res false [] (lg ++ [DLog (B "Parse failed with rc=" ++ dec_of_nat rc)])).

  (** ** The process.  [can_write] says which paths open for writing.  Paths
      that name the same file differently (links, "./x" and "x") are not
      identified, and write errors after a successful open are in MainIo.v. *)
  Definition fs_set (p c : bytes) (fs : files) : files :=
    fun q => if bytes_eqb q p then Some c else fs q.

  (** How the process ends and the files it leaves. *)
  Inductive ending := Exit (code : nat) (lg : list diag) | Died (a : abort).

  (** stl-to-ps-main.cc:42-71 after the flags are parsed. *)
  Definition main (script output : bytes) (can_write : bytes -> bool) (fs : files) : ending * files :=
    match script with
    | [] => (Exit 1 [], fs)
    | _ =>
        match output with
        | [] => (Exit 1 [], fs)
        | _ =>
            if negb (can_write output) then (Died (ACheck "out.rdstate()"), fs)
            else
              let fs1 := fs_set output [] fs in
              match fs1 script with
              | None => (Died (ACheck "in.rdstate()"), fs1)
              | Some c =>
                  match script_to_ps fs1 script c with
                  | Abort e => (Died e, fs1)
                  | Ret r => (Exit (if r_ok r then 0 else 1) (r_log r), fs_set output (r_out r) fs1)
                  end
              end
        end
    end.
End Main.
