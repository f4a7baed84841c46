(** Run.v - a libm and an environment that compute, so that the model can be
    run on the project's own tests (TestUnit.v, TestCases.v).  Nothing is proved
    about them here and no theorem depends on them. *)
From Coq Require Import ZArith.
From Flocq Require Import Core IEEE754.BinarySingleNaN.
From Verif Require Import Base Num NumF64 Env P_Base.

Local Unset Implicit Arguments.
Local Open Scope Z_scope.

(** ** Functions of libm: fixed point numbers with 160 bits after the point,
    rounded to the nearest double at the end. *)
Definition fx_bits : Z := 160.
Definition fx_one : Z := 2 ^ fx_bits.
Definition fx_mul (a b : Z) : Z := (a * b) / fx_one.
Definition fx_div (a b : Z) : Z := (a * fx_one) / b.
Definition fx_out (z : Z) : f64 := norm64 z (- fx_bits).
Definition fx_in (x : f64) : Z :=
  match x with
  | B754_finite s m e _ => let p := e + fx_bits in let v := if 0 <=? p then Z.pos m * 2 ^ p else Z.pos m / 2 ^ (- p) in if s then - v else v
  | _ => 0
  end.
(** x - x^3/3 + x^5/5 - ..., and x - x^3/3! + x^5/5! - ... *)
Fixpoint fx_atan_loop (n : nat) (x2 p k : Z) : Z := match n with O => 0 | S n => p / k - fx_atan_loop n x2 (fx_mul p x2) (k + 2) end.
Definition fx_atan_small (x : Z) : Z := fx_atan_loop 90 (fx_mul x x) x 1.
(** Halving the angle twice brings |x| <= 1 below 0.2. *)
Definition fx_half (x : Z) : Z := fx_div x (fx_one + Z.sqrt (fx_one * fx_one + x * x)).
Definition fx_atan1 (x : Z) : Z := 4 * fx_atan_small (fx_half (fx_half x)).
Definition fx_pi : Z := 4 * fx_atan1 fx_one.
(** The angle of (x, y), not both 0. *)
Definition fx_atan2 (y x : Z) : Z :=
  if Z.abs y <=? Z.abs x then (let a := fx_atan1 (fx_div y x) in if 0 <? x then a else if 0 <=? y then fx_pi + a else a - fx_pi)
  else (let a := fx_atan1 (fx_div x y) in if 0 <? y then fx_pi / 2 - a else - (fx_pi / 2) - a).
Fixpoint fx_sin_loop (n : nat) (x2 t k : Z) : Z := match n with O => 0 | S n => t - fx_sin_loop n x2 (fx_mul t x2 / (k * (k + 1))) (k + 2) end.
(** Modulo 2 pi into [-pi, pi) first. *)
Definition fx_turn (x : Z) : Z := (x + fx_pi) mod (2 * fx_pi) - fx_pi.
Definition fx_sin (x : Z) : Z := let x := fx_turn x in fx_sin_loop 40 (fx_mul x x) x 2.
Definition fx_cos (x : Z) : Z := let x := fx_turn x in fx_sin_loop 40 (fx_mul x x) fx_one 1.
Definition run_sin (x : f64) : f64 := match x with B754_zero _ => x | B754_finite _ _ _ _ => fx_out (fx_sin (fx_in x)) | _ => B754_nan end.
Definition run_cos (x : f64) : f64 := match x with B754_zero _ | B754_finite _ _ _ _ => fx_out (fx_cos (fx_in x)) | _ => B754_nan end.
Definition run_acos (x : f64) : f64 :=
  match x with
  | B754_zero _ | B754_finite _ _ _ _ =>
      let v := fx_in x in if fx_one <? Z.abs v then B754_nan else fx_out (fx_atan2 (Z.sqrt (fx_one * fx_one - v * v)) v)
  | _ => B754_nan
  end.
(** Only for finite arguments; signed zeros as IEEE 754 has them. *)
Definition run_atan2 (y x : f64) : f64 :=
  match y, x with
  | B754_zero s, B754_zero t => if t then (if s then fneg (fx_out fx_pi) else fx_out fx_pi) else y
  | B754_zero s, B754_finite t _ _ _ => if t then (if s then fneg (fx_out fx_pi) else fx_out fx_pi) else y
  | B754_finite _ _ _ _, (B754_zero _ | B754_finite _ _ _ _) => fx_out (fx_atan2 (fx_in y) (fx_in x))
  | _, _ => B754_nan
  end.
Definition run_libm : libm := Libm run_sin run_cos run_acos run_atan2 stable.
Definition RunA : Arith := F64 run_libm true.

(** ** Text to numbers: [sign] digits [. digits] [e [sign] digits] *)
Definition is_digit (c : ascii) : bool := let n := N_of_ascii c in ((48 <=? n) && (n <=? 57))%N.
Fixpoint take_digits (w : bytes) (acc : Z) (n : Z) : Z * Z * bytes :=
  match w with
  | c :: t => if is_digit c then take_digits t (acc * 10 + (Z.of_N (N_of_ascii c) - 48)) (n + 1) else (acc, n, w)
  | [] => (acc, n, [])
  end.
Definition take_sign (w : bytes) : bool * bytes :=
  match w with c :: t => if byte_eqb c "-" then (true, t) else if byte_eqb c "+" then (false, t) else (false, w) | [] => (false, []) end.
(** sign, m and e with the value m * 10^e *)
Definition read_dec (w : bytes) : option (bool * Z * Z) :=
  let '(s, w1) := take_sign w in
  let '(m, n, w2) := take_digits w1 0 0 in
  let '(m, k, w3) := match w2 with c :: t => if byte_eqb c "." then take_digits t m 0 else (m, 0, w2) | [] => (m, 0, w2) end in
  if n + k =? 0 then None
  else match w3 with
       | [] => Some (s, m, - k)
       | c :: t => if byte_eqb c "e" || byte_eqb c "E" then
                     let '(sx, t1) := take_sign t in
                     let '(x, nx, t2) := take_digits t1 0 0 in
                     match t2 with [] => if nx =? 0 then None else Some (s, m, (if sx then - x else x) - k) | _ => None end
                   else None
       end.
(** m * 10^e as q * 2^k with a sticky last bit. *)
Definition dec_bits (m e : Z) : Z * Z :=
  if 0 <=? e then (m * 10 ^ e, 0)
  else let k := 1100 + 4 * - e in let d := 10 ^ (- e) in let v := m * 2 ^ k in (2 * (v / d) + (if v mod d =? 0 then 0 else 1), - k - 1).
Definition run_double (w : bytes) : option f64 :=
  match read_dec w with
  | Some (s, m, e) => let '(q, k) := dec_bits m e in let v := norm64 q k in if is_finite v then Some (if s then fneg v else v) else None
  | None => None
  end.
Definition run_stof (w : bytes) : option f64 :=
  match read_dec w with
  | Some (s, m, e) =>
      let '(q, k) := dec_bits m e in
      match norm32 q k with
      | B754_zero _ => Some (B754_zero s)
      | B754_finite _ m' e' _ => let v := norm64 (Z.pos m') e' in Some (if s then fneg v else v)
      | _ => None
      end
  | None => None
  end.

(** ** Numbers to text *)
Fixpoint dec_digits (n : nat) (z : Z) (acc : bytes) : bytes :=
  match n with
  | O => acc
  | S n => let acc' := ascii_of_N (48 + Z.to_N (z mod 10)) :: acc in if z <? 10 then acc' else dec_digits n (z / 10) acc'
  end.
Definition dec_text (z : Z) : bytes := dec_digits 400 z [].
(** a/b to the nearest integer, ties to even *)
Definition round_div (a b : Z) : Z :=
  let q := a / b in let r := a mod b in
  if 2 * r <? b then q else if b <? 2 * r then q + 1 else if Z.even q then q else q + 1.
(** m * 2^e as a quotient *)
Definition quot_of (m : positive) (e : Z) : Z * Z := if 0 <=? e then (Z.pos m * 2 ^ e, 1) else (Z.pos m, 2 ^ (- e)).
Definition pad_left (c : ascii) (n : nat) (w : bytes) : bytes := repeat c (n - length w) ++ w.
(** z with its last n digits after the point *)
Definition fixed_text (n : nat) (z : Z) : bytes :=
  match n with
  | O => dec_text z
  | _ => let w := pad_left "0" (S n) (dec_text z) in let k := (length w - n)%nat in firstn k w ++ B "." ++ skipn k w
  end.
Definition run_fixed (n : nat) (x : f64) : bytes :=
  match x with
  | B754_zero s => (if s then B "-" else []) ++ fixed_text n 0
  | B754_finite s m e _ => let '(a, b) := quot_of m e in (if s then B "-" else []) ++ fixed_text n (round_div (a * 10 ^ Z.of_nat n) b)
  | B754_infinity s => if s then B "-inf" else B "inf"
  | B754_nan => B "nan"
  end.
(** "%g": the exponent x with 10^x <= a/b < 10^(x+1), then six figures. *)
Definition ge_pow (a b x : Z) : bool := if 0 <=? x then 10 ^ x * b <=? a else b <=? a * 10 ^ (- x).
Definition dec_exp (a b : Z) : Z :=
  let g := (Z.log2 a - Z.log2 b) * 30103 / 100000 in
  if ge_pow a b (g + 2) then g + 2 else if ge_pow a b (g + 1) then g + 1 else if ge_pow a b g then g else if ge_pow a b (g - 1) then g - 1 else g - 2.
Definition six (a b x : Z) : Z := if 5 <=? x then round_div a (b * 10 ^ (x - 5)) else round_div (a * 10 ^ (5 - x)) b.
Fixpoint drop_zeros (n : nat) (z k : Z) : Z * Z := match n with O => (z, k) | S n => if (z mod 10 =? 0) && (0 <? k) then drop_zeros n (z / 10) (k - 1) else (z, k) end.
Definition run_num (x : f64) : bytes :=
  match x with
  | B754_zero s => if s then B "-0" else B "0"
  | B754_finite s m e _ =>
      let '(a, b) := quot_of m e in
      let x0 := dec_exp a b in let d0 := six a b x0 in
      let '(x, d) := if d0 =? 1000000 then (x0 + 1, 100000) else (x0, d0) in
      (if s then B "-" else []) ++
      (if (x <? -4) || (6 <=? x) then
         let '(z, k) := drop_zeros 6 d 5 in
         fixed_text (Z.to_nat k) z ++ B "e" ++ (if x <? 0 then B "-" else B "+") ++ pad_left "0" 2 (dec_text (Z.abs x))
       else let '(z, k) := drop_zeros 12 d (5 - x) in fixed_text (Z.to_nat k) z)
  | B754_infinity s => if s then B "-inf" else B "inf"
  | B754_nan => B "nan"
  end.

(** ** Formats with one conversion %[.n]f, and %% for a percent sign. *)
Inductive fpart := FText (w : bytes) | FConv (n : nat).
Fixpoint read_format (w : bytes) (fuel : nat) : option (list fpart) :=
  match fuel, w with
  | O, _ => None
  | _, [] => Some []
  | S fuel, c :: t =>
      if byte_eqb c "%" then
        match t with
        | d :: t' =>
            if byte_eqb d "%" then option_map (cons (FText (B "%"))) (read_format t' fuel)
            else if byte_eqb d "f" then option_map (cons (FConv 6)) (read_format t' fuel)
            else if byte_eqb d "." then
              let '(m, _, t2) := take_digits t' 0 0 in
              match t2 with f :: t3 => if byte_eqb f "f" then option_map (cons (FConv (Z.to_nat m))) (read_format t3 fuel) else None | [] => None end
            else None
        | [] => None
        end
      else option_map (cons (FText [c])) (read_format t fuel)
  end.
Definition conversions (l : list fpart) : nat := length (filter (fun p => match p with FConv _ => true | _ => false end) l).
Definition run_pf_ok (w : bytes) : bool := match read_format w (S (length w)) with Some l => Nat.eqb (conversions l) 1 | None => false end.
Definition run_pf_format (w : bytes) (x : f64) : bytes :=
  match read_format w (S (length w)) with
  | Some l => concat (map (fun p => match p with FText t => t | FConv n => run_fixed n x end) l)
  | None => []
  end.

(** The flags as testcases/input_test.sh:8-12 gives them. *)
Definition run_type_name (k : nat) : bytes := B (match k with O => "std::string" | 1%nat => "stl2ps::Point" | 2%nat => "float" | 3%nat => "stl2ps::Loc" | _ => "stl2ps::Scale" end).
Definition RunE : @Env RunA := @Build_Env RunA run_double run_stof run_num run_pf_ok run_pf_format (B "now") run_type_name (B "test") true true (B "").

(** Spot checks: numbers a C program prints with %g, %.4f and %.17g. *)
Definition shown (o : option f64) : bytes := match o with Some x => run_num x | None => B "none" end.
Example run_reads : map shown [run_double (B "-12.5e-1"); run_double (B "1e999"); run_double (B "."); run_double (B "1x"); run_stof (B ".1"); run_stof (B "+3"); run_stof (B "1e-46")]
  = map B ["-1.25"; "none"; "none"; "none"; "0.1"; "3"; "0"]%string.
Proof. vm_compute. reflexivity. Qed.
Example run_prints : map (fun w => shown (run_double (B w))) ["123456.5"; "123457.5"; "999999.5"; "1234567"; "0.0001"; "0.00001"; "-0"; "100"; "0.30000000000000004"]%string
  = map B ["123456"; "123458"; "1e+06"; "1.23457e+06"; "0.0001"; "1e-05"; "-0"; "100"; "0.3"]%string.
Proof. vm_compute. reflexivity. Qed.
Example run_trig : map (fun x => run_fixed 17 x) [run_sin (fz_ 1); run_cos (fz_ 1); run_sin (fz_ 100); run_acos (fdec 5 (-1)); run_acos (fz_ (-1)); run_atan2 (fz_ 1) (fz_ (-2)); run_atan2 (fz_ (-3)) (fz_ 1)]
  = map B ["0.84147098480789650"; "0.54030230586813977"; "-0.50636564110975879"; "1.04719755119659785"; "3.14159265358979312"; "2.67794504458898697"; "-1.24904577239825443"]%string.
Proof. vm_compute. reflexivity. Qed.
Example run_formats : (map run_pf_ok (map B ["%f"; "%.4f"; "a %.2f%% b"; "%n"; "none"; "%f%f"]%string), run_pf_format (B "a %.2f%% b") (fdec 125 (-2)))
  = ([true; true; true; false; false; false], B "a 1.25% b").
Proof. vm_compute. reflexivity. Qed.
