(** EnvEx.v - one concrete environment, used only in the Examples that show
    that the hypotheses of the theorems can be met.  It is not a model of any
    library: a small decimal reader and a number printer that truncates. *)
From Coq Require Import ZArith.
From Flocq Require Import IEEE754.BinarySingleNaN.
From Verif Require P_Base.
From Verif Require Import Base Num NumF64 Geo Stl StlRead Env Ast Lexer Parser Ps Draw Main.

(** Digits up to the end or a '.'; returns value, number of digits after the
    point. *)
Fixpoint ex_digits (s : bytes) (acc : Z) (frac : option Z) : option (Z * Z) :=
  match s with
  | [] => Some (acc, match frac with Some k => k | None => 0%Z end)
  | c :: t =>
      if byte_in 48 57 c
      then ex_digits t (acc * 10 + Z.of_N (N_of_ascii c) - 48)%Z
                     (match frac with Some k => Some (k + 1)%Z | None => None end)
      else if byte_eqb c "." then
             match frac with Some _ => None | None => ex_digits t acc (Some 0%Z) end
           else None
  end.
Definition ex_double (s : bytes) : option f64 :=
  match s with
  | [] => None
  | c :: t =>
      let '(neg, ds) := if byte_eqb c "-" then (true, t) else (false, s) in
      match ex_digits ds 0 None with
      | Some (m, k) => let v := fdec m (- k) in Some (if neg : bool then fneg v else v)
      | None => None
      end
  end.
(** As stof: values from 2^128 on are rejected. *)
Definition ex_stof (s : bytes) : option f64 :=
  match ex_double s with
  | Some v => if flt (fabs v) (norm64 1 128) then Some (f_to_f32 v) else None
  | None => None
  end.
Definition ex_print (x : f64) : bytes :=
  match x with
  | B754_nan => B "nan"
  | B754_infinity false => B "inf"
  | B754_infinity true => B "-inf"
  | B754_zero _ => B "0"
  | B754_finite s _ _ _ => (if s then B "-" else []) ++ dec_of_N (Z.to_N (Z.abs (Btrunc x)))
  end.
Definition ex_libm : libm := Libm (fun x => x) (fun _ => fz_ 1) (fun x => x) (fun y x => y) P_Base.stable.
#[global] Instance ExA : Arith := F64 ex_libm true.
(** '%' somewhere in the format. *)
Definition ex_pf_ok (s : bytes) : bool := existsb (byte_eqb "%") s.
(** Replaces the format specification by the number; keeps the rest. *)
Fixpoint ex_after (s : bytes) : bytes :=
  match s with [] => [] | c :: t => if byte_eqb c "f" then t else ex_after t end.
Fixpoint ex_format (s : bytes) (x : f64) : bytes :=
  match s with
  | [] => []
  | c :: t => if byte_eqb c "%" then ex_print x ++ ex_after t else c :: ex_format t x
  end.
Definition ex_env (load_path : bytes) : @Env ExA := {|
  re2_double := ex_double : bytes -> option (@num ExA);
  stof := ex_stof : bytes -> option (@num ExA);
  fmt_num := ex_print : @num ExA -> bytes;
  pf_ok := ex_pf_ok;
  pf_format := ex_format : bytes -> @num ExA -> bytes;
  now := B "now";
  type_name := fun _ => B "T";
  flag_name := B "name";
  flag_timestamp := true;
  flag_number_pages := true;
  flag_load_path := load_path
|}.
#[global] Instance ExE : @Env ExA := ex_env (B "lib").

(** A tetrahedron. *)
Definition ex_stl : bytes := B "solid t
 facet normal 0 0 -1
  outer loop
   vertex 0 0 0
   vertex 0 4 0
   vertex 4 0 0
  endloop
 endfacet
 facet normal 0 -1 0
  outer loop
   vertex 0 0 0
   vertex 4 0 0
   vertex 0 0 4
  endloop
 endfacet
 facet normal -1 0 0
  outer loop
   vertex 0 0 0
   vertex 0 0 4
   vertex 0 4 0
  endloop
 endfacet
 facet normal 1 1 1
  outer loop
   vertex 4 0 0
   vertex 0 4 0
   vertex 0 0 4
  endloop
 endfacet
endsolid t
".
Definition ex_files : files :=
  fun p => if bytes_eqb p (B "lib/t.stl") then Some ex_stl else None.

Definition ex_script : bytes := B "// two pages
load t = ""t.stl"";
page {
  name = ""first"";
  draw t {
    @[1, 2]; scale = 1:2;
    dim(at=[2,5,0], dir=[1,0,0], from=[0,4,0], to=near([4,1,0]));
    angle(at=[1,1,0], apex=[0,0,0], from_dir=[1,0,0], to_point=[0,4,0]);
  }
  text[""one\n"" ""two""] { @[0,1]; }
}
page { draw t { view = ""X+""; } }
".
Example ex_converts : exists r, script_to_ps ex_files (B "s") ex_script = Ret r /\ r_ok r = true /\ r_log r = [].
Proof. eexists. split; [vm_compute; reflexivity|]. split; reflexivity. Qed.
