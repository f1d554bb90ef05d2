(* Model of src/util/bisection_zero_finder.cpp, src/util/regula_falsi_zero_finder.cpp
   and of the step count of include/isomesh/util/zero_finder.hpp. *)
From Coq Require Import ZArith List Bool.
From Verif Require Import Base Arith GridModel EdgeModel FillModel.
Import ListNotations.
Local Open Scope Z_scope.

(* StepCountedZeroFinder::setStepCount, zero_finder.hpp:48: glm::max (1, steps) *)
Definition set_step_count (steps : Z) : Z := if 1 <? steps then steps else 1.

Section Zero.
Variable E : fpenv.
Notation D := (fp_D E).
Notation A := (fp_d E).

(* f (p) with the coordinate along the axis replaced, as in
   std::get<C> (p) = mid; f (p) *)
Definition value_at (f : field E) (d : axis) (p : vec3 D) (c : D) : D := fl_value f (vset E d p c).

(* val * f0 > 0 *)
Definition same_sign (u v : D) : bool := a_lt A (a_ofZ A 0) (a_mul A u v).

(* std::min (f0, f1) *)
Definition std_min (u v : D) : D := if a_lt A v u then v else u.

(* (c0 + c1) * 0.5; the literal is the exact quotient 1 / 2 in every instance *)
Definition one_half : D := a_div A (a_ofZ A 1) (a_ofZ A 2).
Definition midpoint (c0 c1 : D) : D := a_mul A (a_add A c0 c1) one_half.

(* BisectionZeroFinder::findAlongC<C>, bisection_zero_finder.cpp:17-43; the loop
   counter is the number of remaining iterations *)
Fixpoint bisect (F : D -> D) (steps : nat) (c0 c1 f0 f1 : D) : D :=
  match steps with
  | O => if a_le A (a_abs A f0) (a_abs A f1) then c0 else c1
  | S steps' =>
      let mid := midpoint c0 c1 in
      let val := F mid in
      if same_sign val f0 then bisect F steps' mid c1 val f1
      else if same_sign val f1 then bisect F steps' c0 mid f0 val
      else
        let val := a_abs A val in
        let f0 := a_abs A f0 in
        let f1 := a_abs A f1 in
        if a_le A val (std_min f0 f1) then mid
        else if a_le A f0 f1 then c0 else c1
  end.

(* findAlongX, findAlongY, findAlongZ, :45-61 *)
Definition bisection (steps : Z) : zero_finder E := fun call f =>
  bisect (value_at f (zc_axis call) (zc_start call)) (Z.to_nat (set_step_count steps))
    (vget (zc_axis call) (zc_start call)) (zc_end call) (zc_f0 call) (zc_f1 call).

(* (c0 * f1 - c1 * f0) / (f1 - f0), regula_falsi_zero_finder.cpp:20 *)
Definition secant (c0 c1 f0 f1 : D) : D :=
  a_div A (a_sub A (a_mul A c0 f1) (a_mul A c1 f0)) (a_sub A f1 f0).

(* double m = 1.0 - val / f0; if (m <= 0) m = 0.5;  :27-28, :37-38 *)
Definition damping (val fe : D) : D :=
  let m := a_sub A (a_ofZ A 1) (a_div A val fe) in
  if a_le A m (a_ofZ A 0) then one_half else m.

(* RegulaFalsiZeroFinder::findAlongC<C>, :14-47.  Besides the result the loop
   returns the history (c0, c1, mid) of its iterations, which the code does not
   keep. *)
Fixpoint falsi (F : D -> D) (steps : nat) (side : Z) (mid c0 c1 f0 f1 : D) : D * list (D * D * D) :=
  match steps with
  | O => (mid, [])
  | S steps' =>
      let mid := secant c0 c1 f0 f1 in
      let val := F mid in
      if same_sign val f0 then
        let f1' := if side =? -1 then a_mul A f1 (damping val f0) else f1 in
        let '(r, h) := falsi F steps' (-1) mid mid c1 val f1' in (r, (c0, c1, mid) :: h)
      else if same_sign val f1 then
        let f0' := if side =? 1 then a_mul A f0 (damping val f1) else f0 in
        let '(r, h) := falsi F steps' 1 mid c0 mid f0' val in (r, (c0, c1, mid) :: h)
      else (mid, [(c0, c1, mid)])
  end.

Definition falsi_run (steps : Z) (call : zf_call E) (f : field E) : D * list (D * D * D) :=
  let c0 := vget (zc_axis call) (zc_start call) in
  falsi (value_at f (zc_axis call) (zc_start call)) (Z.to_nat (set_step_count steps)) 0
    c0 c0 (zc_end call) (zc_f0 call) (zc_f1 call).

(* findAlongX, findAlongY, findAlongZ, :49-65 *)
Definition regula_falsi (steps : Z) : zero_finder E := fun call f => fst (falsi_run steps call f).

End Zero.
Arguments value_at {E}.
Arguments bisect {E}.
Arguments bisection {E}.
Arguments secant {E}.
Arguments falsi {E}.
Arguments falsi_run {E}.
Arguments regula_falsi {E}.
Arguments midpoint {E}.
Arguments same_sign {E}.
