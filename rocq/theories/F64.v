(** * F64: IEEE-754 binary64 arithmetic as used by the C++ [double].

    Every operation is the executable, axiom-free SpecFloat of the Coq standard
    library at precision 53, emax 1024 (round to nearest even).  Trusted: the C++
    implementation evaluates double expressions in binary64 (FLT_EVAL_METHOD = 0, no
    contraction), which is the case on the x86-64/SSE2 and AArch64 targets. *)
From Coq Require Import ZArith Floats.SpecFloat.
From Verif Require Import Base.

Notation f64 := spec_float.
Definition prec64 : Z := 53%Z.
Definition emax64 : Z := 1024%Z.

Definition fadd (x y : f64) : f64 := SFadd prec64 emax64 x y.
Definition fsub (x y : f64) : f64 := SFsub prec64 emax64 x y.
Definition fmul (x y : f64) : f64 := SFmul prec64 emax64 x y.
Definition fdiv (x y : f64) : f64 := SFdiv prec64 emax64 x y.
Definition flt (x y : f64) : bool := SFltb x y.
Definition fle (x y : f64) : bool := SFleb x y.
Definition fgt (x y : f64) : bool := SFltb y x.
Definition fge (x y : f64) : bool := SFleb y x.

(** static_cast<double>(uint32_t): always exact *)
Definition f_of_Z (z : Z) : f64 := binary_normalize prec64 emax64 z 0 false.
Definition f_of_nat (n : nat) : f64 := f_of_Z (Z.of_nat n).

(** truncation toward zero; None for NaN and infinities *)
Definition ftrunc (x : f64) : option Z :=
  match x with
  | S754_zero _ => Some 0%Z
  | S754_finite s m e =>
    let a := (if (0 <=? e)%Z then Z.pos m * 2 ^ e else Z.pos m / 2 ^ (- e))%Z in
    Some (if s then (- a)%Z else a)
  | _ => None
  end.

(** static_cast<uint32_t>(double): undefined unless the truncated value is
    representable (C++ [conv.fpint]) *)
Definition f_to_u32 (x : f64) : outcome Z :=
  match ftrunc x with
  | Some z => if decide (0 <= z < W32)%Z then Ok z else Fail (UB FloatCast)
  | None => Fail (UB FloatCast)
  end.

Definition f_zero : f64 := S754_zero false.
Definition f_one : f64 := f_of_Z 1.
(** decimal literals, as the nearest binary64 *)
Definition f_0_03 : f64 := S754_finite false 8646911284551352 (-58).
Definition f_0_95 : f64 := S754_finite false 8556839292003942 (-53).
Definition f_1_5 : f64 := S754_finite false 6755399441055744 (-52).
Definition f_0_01 : f64 := S754_finite false 5764607523034235 (-59).
Definition f_0_0001 : f64 := S754_finite false 7378697629483821 (-66).
