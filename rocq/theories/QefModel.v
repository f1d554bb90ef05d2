(* Model of src/qef/householder.hpp, src/qef/jacobi.hpp, src/qef/qef_solver_3d.cpp and
   src/qef/qef_solver_4d.cpp.  The two solvers differ in the dimension, the number of rows and
   the largest number of points; the model has these as parameters, 3, 8 and 2^30 or 4, 16 and
   2^29.  Sums of the products of two four-dimensional vectors are written from left to
   right; glm adds the first two and the last two products (this makes a difference for rounding
   only; three-dimensional sums are as in glm). *)
From Coq Require Import ZArith List Bool.
From Verif Require Import Base Arith.
Import ListNotations.

(* Vectors and matrices; the first index of a matrix is the column, the second one the row, as
   in A[c][r] of the sources. *)
Notation fvec T := (nat -> T).
Notation fmat T := (nat -> nat -> T).
Definition upd {T} (m : fmat T) (c r : nat) (x : T) : fmat T :=
  fun c' r' => if (Nat.eqb c' c && Nat.eqb r' r)%bool then x else m c' r'.

Section Qef.
Context {T : Type}.
Variable A : arith T.
(* std::numeric_limits<float>::min () *)
Variable float_min : T.
Notation "x + y" := (a_add A x y).
Notation "x - y" := (a_sub A x y).
Notation "x * y" := (a_mul A x y).
Notation "x / y" := (a_div A x y).
Notation "0" := (a_ofZ A 0%Z).
Notation "1" := (a_ofZ A 1%Z).
Notation "2" := (a_ofZ A 2%Z).

(* x_0 + x_1 + ... from left to right *)
Definition sum_from (z : T) (l : list T) : T := fold_left (fun s x => s + x) l z.
Definition sum_left (l : list T) : T := match l with [] => 0 | x :: l' => sum_from x l' end.
Definition dotn (D : nat) (u v : fvec T) : T := sum_left (map (fun c => u c * v c) (seq 0 D)).

(* ---- src/qef/householder.hpp ---- *)

(* the rows i, ..., used - 1 *)
Definition rows_from (i used : nat) : list nat := seq i (used - i).

(* householder.hpp:22-24 *)
Definition col_norm (m : fmat T) (i used : nat) : T := fold_left (fun s j => s + m i j * m i j) (rows_from i used) 0.

(* householder.hpp:26-40: v and invgamma *)
Definition reflection (m : fmat T) (i used : nat) : fvec T * T :=
  let norm := col_norm m i used in
  if a_lt A norm float_min then (fun j => if Nat.eqb j i then 1 else 0, 2)
  else
    let mult := 1 / a_sqrt A norm in
    let v j := if (Nat.leb i j && Nat.ltb j used)%bool then m i j * mult else 0 in
    let vi := if a_le A 0 (v i) then v i + 1 else v i - 1 in
    (fun j => if Nat.eqb j i then vi else v j, 1 / a_abs A vi).

(* householder.hpp:43-48, for column j *)
Definition reflect_column (v : fvec T) (invgamma : T) (i used : nat) (m : fmat T) (j : nat) : fmat T :=
  let mult := fold_left (fun s k => s + m j k * v k) (rows_from i used) 0 * invgamma in
  fold_left (fun m k => upd m j k (m j k - mult * v k)) (rows_from i used) m.

(* householder.hpp:20-50, for column i; all columns *)
Definition householder_step (N used : nat) (m : fmat T) (i : nat) : fmat T :=
  let '(v, invgamma) := reflection m i used in
  fold_left (reflect_column v invgamma i used) (seq i (N - i)) m.
Definition householder (N : nat) (m : fmat T) (used : nat) : fmat T := fold_left (householder_step N used) (seq 0 N) m.

(* ---- src/qef/jacobi.hpp ---- *)

(* the functions of the mathematical library *)
Variable hypot copysign : T -> T -> T.
Variable msin mcos matan : T -> T.

(* jacobi.hpp:12-18 calcSinCosFast *)
Definition sincos_fast (t : T) : T * T :=
  let half := 1 / 2 in
  let inv := half / hypot 1 t in
  let c := a_sqrt A (half + inv) in
  let s := copysign (a_sqrt A (half - inv)) t in
  (s, c).
(* jacobi.hpp:21-25 calcSinCosAccurate *)
Definition sincos_accurate (t : T) : T * T :=
  let phi := 1 / 2 * matan t in (msin phi, mcos phi).

(* jacobi.hpp:27-57, 59-104 rotate; the macro is applied to all k other than i and j in
   increasing order *)
Definition rotate_entry (c s : T) (i j : nat) (m : fmat T) (k : nat) : fmat T :=
  if (Nat.eqb k i || Nat.eqb k j)%bool then m else
  let aik := m (Nat.min i k) (Nat.max i k) in
  let ajk := m (Nat.min j k) (Nat.max j k) in
  let m := upd m (Nat.min i k) (Nat.max i k) (c * aik + s * ajk) in
  upd m (Nat.min j k) (Nat.max j k) (a_neg A s * aik + c * ajk).
Definition rotate_vectors (c s : T) (i j : nat) (h : fmat T) (k : nat) : fmat T :=
  let hik := h i k in
  let hjk := h j k in
  let h := upd h i k (c * hik + s * hjk) in
  upd h j k (a_neg A s * hik + c * hjk).
Definition rotate (D : nat) (m h : fmat T) (c s : T) (i j : nat) : fmat T * fmat T :=
  let m := fold_left (rotate_entry c s i j) (seq 0 D) m in
  let aii := m i i in
  let ajj := m j j in
  let aij := m i j in
  let m := upd m i i (c * c * aii + s * s * ajj + c * s * (aij + aij)) in
  let m := upd m j j (s * s * aii + c * c * ajj - c * s * (aij + aij)) in
  let m := upd m i j 0 in
  (m, fold_left (rotate_vectors c s i j) (seq 0 D) h).

(* jacobi.hpp:114-126: the largest element above the diagonal *)
Definition largest (D : nat) (m : fmat T) : T * nat * nat :=
  fold_left (fun best p =>
      let '(max_el, _, _) := best in
      let el := a_abs A (m (fst p) (snd p)) in
      if a_lt A max_el el then (el, fst p, snd p) else best)
    (flat_map (fun i => map (fun j => (i, j)) (seq (S i) (D - S i))) (seq 0 D))
    (a_abs A (m 0%nat 1%nat), 0%nat, 1%nat).

(* jacobi.hpp:113-138 *)
Fixpoint jacobi_loop (D : nat) (tolerance : T) (fast : bool) (iters : nat) (m h : fmat T) : fmat T * fmat T :=
  match iters with
  | O => (m, h)
  | S iters' =>
      let '(max_el, i, j) := largest D m in
      if a_le A max_el tolerance then (m, h)
      else
        let t := (m i j + m i j) / (m i i - m j j) in
        let '(s, c) := if fast then sincos_fast t else sincos_accurate t in
        let '(m, h) := rotate D m h c s i j in
        jacobi_loop D tolerance fast iters' m h
  end.
Definition identity : fmat T := fun c r => if Nat.eqb c r then 1 else 0.
(* jacobi.hpp:108-143: eigenvalues, eigenvectors in the columns *)
Definition jacobi (D : nat) (m : fmat T) (tolerance : T) (max_iters : nat) (fast : bool) : fvec T * fmat T :=
  let '(m, h) := jacobi_loop D tolerance fast max_iters m identity in (fun i => m i i, h).

(* ---- src/qef/qef_solver_3d.cpp, qef_solver_4d.cpp ---- *)
Variable D : nat.
Variable max_rows : nat.
Variable points_limit : Z.

(* qef_solver_3d.hpp:94-111 *)
Record solver := Solver { q_mat : fmat T; q_used : nat; q_sum : fvec T; q_count : Z; q_dim : Z }.
(* qef_solver_3d.hpp:26-38: entries of the matrix on and above the diagonal *)
Record qstate := QState { s_mat : fmat T; s_sum : fvec T; s_count : Z; s_dim : Z }.
(* qef_solver_3d.hpp:112-119 *)
Record tuning := Tuning { t_pinv : T; t_jacobi : T; t_iters : nat; t_fast : bool }.

(* qef_solver_3d.cpp:25-31 reset; also the constructor without argument *)
Definition q_new : solver := Solver (fun _ _ => 0) 0%nat (fun _ => 0) 0%Z 0%Z.

(* qef_solver_3d.cpp:127-130 compressMatrix *)
Definition compress (s : solver) : solver :=
  Solver (householder (S D) (q_mat s) (q_used s)) (S D) (q_sum s) (q_count s) (q_dim s).

(* The rows of data written from row id on, column by column. *)
Definition put_rows (m d : fmat T) (id : nat) : fmat T :=
  fun c r => if (Nat.leb c D && Nat.leb id r && Nat.leb r (id + D)%nat)%bool
             then (if Nat.leb (r - id)%nat c then d c (r - id)%nat else 0) else m c r.

(* qef_solver_3d.cpp:33-58 merge; access outside of the array is undefined *)
Definition merge (s : solver) (d : qstate) : outcome solver :=
  let '(dim, sum, count) :=
    if (q_dim s <? s_dim d)%Z then (s_dim d, s_sum d, s_count d)
    else if (s_dim d =? q_dim s)%Z then (q_dim s, fun c => q_sum s c + s_sum d c, u32 (q_count s + s_count d)%Z)
    else (q_dim s, q_sum s, q_count s) in
  let s := if Nat.ltb (max_rows - S D)%nat (q_used s) then compress s else s in
  let id := q_used s in
  if Nat.ltb (id + D)%nat max_rows then Ret (Solver (put_rows (q_mat s) (s_mat d) id) (id + S D)%nat sum count dim) else UB.

(* qef_solver_3d.cpp:60-75 state *)
Definition state (s : solver) : outcome (qstate * solver) :=
  let s := compress s in
  _ <- oassert (q_count s <? points_limit)%Z ;;
  Ret (QState (fun c r => if Nat.leb r c then q_mat s c r else 0) (q_sum s) (q_count s) (q_dim s), s).

(* qef_solver_3d.cpp:77-88 addPlane *)
Definition add_plane (s : solver) (point normal : fvec T) : outcome solver :=
  let s := if Nat.eqb (q_used s) max_rows then compress s else s in
  let id := q_used s in
  if Nat.ltb id max_rows then
    Ret (Solver (fun c r => if (Nat.eqb r id && Nat.leb c D)%bool then (if Nat.eqb c D then dotn D normal point else normal c) else q_mat s c r)
           (S id) (fun c => q_sum s c + point c) (u32 (q_count s + 1)%Z) (q_dim s))
  else UB.

(* qef_solver_3d.cpp:90-98 eval *)
Definition eval (s : solver) (point : fvec T) : T :=
  fold_left (fun error i =>
      let dot := sum_left (map (fun c => q_mat s c i * point c) (seq 0 D)) in
      let diff := dot - q_mat s D i in
      error + diff * diff)
    (seq 0 (q_used s)) 0.

(* glm: matrix times matrix, matrix times vector, transpose *)
Definition mat_mul (a b : fmat T) : fmat T := fun c r => sum_left (map (fun k => a k r * b c k) (seq 0 D)).
Definition mat_vec (a : fmat T) (v : fvec T) : fvec T := fun r => sum_left (map (fun k => a k r * v k) (seq 0 D)).
Definition transpose (a : fmat T) : fmat T := fun c r => a r c.

(* glm::clamp (x, min, max) = min (max (x, min), max) *)
Definition clampv (x lo hi : fvec T) : fvec T := fun c => glm_min A (glm_max A (x c) (lo c)) (hi c).

(* qef_solver_3d.cpp:100-125, with the function that computes eigenvalues and eigenvectors as a
   parameter.  Result before clamping, feature dimension. *)
Definition solve_with (eigen : fmat T -> fvec T * fmat T) (pinv : T) (s : solver) : fvec T * Z :=
  let M := q_mat s in
  let AT := transpose M in
  let ATA := mat_mul AT M in
  let '(e, E) := eigen ATA in
  let large i := a_le A pinv (a_abs A (e i)) in
  let sigma c r := if (Nat.eqb c r && large c)%bool then 1 / e c else 0 in
  let dim := (Z.of_nat (length (filter large (seq 0 D))))%Z in
  let ATAp := mat_mul (mat_mul E sigma) (transpose E) in
  let p c := q_sum s c / a_ofZ A (q_count s) in
  let b c := M D c in
  let l := mat_vec AT b in
  let q := mat_vec ATA p in
  let w := mat_vec ATAp (fun c => l c - q c) in
  (fun c => w c + p c, dim).

(* qef_solver_3d.cpp:100-125 solve *)
Definition solve (tune : tuning) (s : solver) (min_point max_point : fvec T) : fvec T * solver :=
  let s := compress s in
  let eigen m := jacobi D m (t_jacobi tune) (t_iters tune) (t_fast tune) in
  let '(x, dim) := solve_with eigen (t_pinv tune) s in
  (clampv x min_point max_point, Solver (q_mat s) (q_used s) (q_sum s) (q_count s) dim).
End Qef.
Arguments solver T : clear implicits.
Arguments qstate T : clear implicits.
Arguments tuning T : clear implicits.
