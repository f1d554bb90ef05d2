(* Arithmetic interfaces.  Models of numeric code are written against these
   records, so that one and the same model can be instantiated with real
   numbers (exact arithmetic), IEEE binary64/binary32 numbers or rationals.
   These are plain records of functions: nothing is assumed about them. *)
From Coq Require Import ZArith Bool.
From Verif Require Import Base.

(* Operations of a C++ floating point type.  Comparisons return false when
   an operand is a NaN. *)
Record arith (T : Type) := Arith {
  a_add : T -> T -> T;
  a_sub : T -> T -> T;
  a_mul : T -> T -> T;
  a_div : T -> T -> T;
  a_neg : T -> T;
  a_abs : T -> T;
  a_sqrt : T -> T;
  a_ofZ : Z -> T;                (* conversion from an integer type *)
  a_lt : T -> T -> bool;         (* x < y *)
  a_le : T -> T -> bool;         (* x <= y *)
  a_eq : T -> T -> bool          (* x == y *)
}.
Arguments a_add {T} a.
Arguments a_sub {T} a.
Arguments a_mul {T} a.
Arguments a_div {T} a.
Arguments a_neg {T} a.
Arguments a_abs {T} a.
Arguments a_sqrt {T} a.
Arguments a_ofZ {T} a.
Arguments a_lt {T} a.
Arguments a_le {T} a.
Arguments a_eq {T} a.

(* The pair of types double and float with the narrowing conversion and
   std::numeric_limits<double>::epsilon (). *)
Record fpenv := FpEnv {
  fp_D : Type;
  fp_F : Type;
  fp_d : arith fp_D;
  fp_f : arith fp_F;
  fp_narrow : fp_D -> fp_F;
  fp_eps : fp_D
}.

(* glm::max (x, y) is (x < y) ? y : x and glm::min (x, y) is (y < x) ? y : x *)
Definition glm_max {T} (A : arith T) (x y : T) : T := if a_lt A x y then y else x.
Definition glm_min {T} (A : arith T) (x y : T) : T := if a_lt A y x then y else x.

(* glm::dot, glm::length of three-dimensional vectors *)
Definition dot3 {T} (A : arith T) (u v : vec3 T) : T :=
  a_add A (a_add A (a_mul A (vx u) (vx v)) (a_mul A (vy u) (vy v))) (a_mul A (vz u) (vz v)).
Definition length3 {T} (A : arith T) (v : vec3 T) : T := a_sqrt A (dot3 A v v).
Definition vadd3 {T} (A : arith T) (u v : vec3 T) : vec3 T :=
  V3 (a_add A (vx u) (vx v)) (a_add A (vy u) (vy v)) (a_add A (vz u) (vz v)).
Definition vsub3 {T} (A : arith T) (u v : vec3 T) : vec3 T :=
  V3 (a_sub A (vx u) (vx v)) (a_sub A (vy u) (vy v)) (a_sub A (vz u) (vz v)).
Definition vscale3 {T} (A : arith T) (v : vec3 T) (k : T) : vec3 T :=
  V3 (a_mul A (vx v) k) (a_mul A (vy v) k) (a_mul A (vz v) k).
Definition vofZ3 {T} (A : arith T) (p : ivec3) : vec3 T :=
  V3 (a_ofZ A (vx p)) (a_ofZ A (vy p)) (a_ofZ A (vz p)).
