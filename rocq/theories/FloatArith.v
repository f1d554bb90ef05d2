(* IEEE-754 binary64 and binary32, round to nearest even, from Flocq. *)
From Coq Require Import ZArith Bool.
From Flocq Require Import Core BinarySingleNaN.
From Verif Require Import Base Arith.
Local Open Scope Z_scope.

Section Prec.
Variables prec emax : Z.
Context (Hprec : Prec_gt_0 prec) (Hemax : Prec_lt_emax prec emax).

(* Conversion of an integer times a power of two, correctly rounded. *)
Definition fp_make (m e : Z) : binary_float prec emax := binary_normalize prec emax Hprec Hemax mode_NE m e false.

Definition arith_fp : arith (binary_float prec emax) :=
  Arith _ (Bplus mode_NE) (Bminus mode_NE) (Bmult mode_NE) (Bdiv mode_NE)
        Bopp Babs (Bsqrt mode_NE) (fun z => fp_make z 0) Bltb Bleb Beqb.
End Prec.

Global Instance prec64_gt_0 : Prec_gt_0 53 := eq_refl.
Global Instance prec64_lt_emax : Prec_lt_emax 53 1024 := eq_refl.
Global Instance prec32_gt_0 : Prec_gt_0 24 := eq_refl.
Global Instance prec32_lt_emax : Prec_lt_emax 24 128 := eq_refl.

Notation b64 := (binary_float 53 1024).
Notation b32 := (binary_float 24 128).

Definition arith64 : arith b64 := arith_fp 53 1024 _ _.
Definition arith32 : arith b32 := arith_fp 24 128 _ _.

(* m * 2^e *)
Definition f64 (m e : Z) : b64 := fp_make 53 1024 _ _ m e.
Definition f32 (m e : Z) : b32 := fp_make 24 128 _ _ m e.

(* double to float *)
Definition narrow (x : b64) : b32 :=
  match x with
  | B754_zero s => B754_zero s
  | B754_infinity s => B754_infinity s
  | B754_nan => B754_nan
  | B754_finite s m e _ => binary_normalize 24 128 _ _ mode_NE (cond_Zopp s (Zpos m)) e s
  end.
(* float to double *)
Definition widen (x : b32) : b64 :=
  match x with
  | B754_zero s => B754_zero s
  | B754_infinity s => B754_infinity s
  | B754_nan => B754_nan
  | B754_finite s m e _ => binary_normalize 53 1024 _ _ mode_NE (cond_Zopp s (Zpos m)) e s
  end.

(* double and float as on the usual platforms *)
Definition envIEEE : fpenv := FpEnv b64 b32 arith64 arith32 narrow (f64 1 (-52)).
