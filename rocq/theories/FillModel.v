(* Model of UniformGrid::fill, src/data/grid.cpp:24-127, and of the interfaces it
   uses: include/isomesh/field/scalar_field.hpp, include/isomesh/util/zero_finder.hpp. *)
From Coq Require Import ZArith List Bool.
From Verif Require Import Base Arith GridModel EdgeModel.
Import ListNotations.
Local Open Scope Z_scope.

Section Fill.
Variable E : fpenv.
Notation D := (fp_D E).
Notation A := (fp_d E).

(* ScalarField: value, gradient and material selection.  User supplied code,
   modelled as arbitrary functions (no state, no exceptions). *)
Record field := Field {
  fl_value : vec3 D -> D;
  fl_grad : vec3 D -> vec3 D;
  fl_material : vec3 D -> D -> material
}.

(* Arguments of a call of ZeroFinder::findAlongX / Y / Z: axis, start point of the
   interval, end coordinate along the axis, values at both ends. *)
Record zf_call := ZfCall {
  zc_axis : axis; zc_start : vec3 D; zc_end : D; zc_f0 : D; zc_f1 : D
}.

(* ZeroFinder: an arbitrary function of the arguments and the field. *)
Definition zero_finder := zf_call -> field -> D.

(* Data members of UniformGrid, grid.hpp:104-115 *)
Record ugrid := UGrid {
  g_size : Z;
  g_pos : vec3 D;
  g_step : D;
  g_mat : mat_array;
  g_ex : list (uedge (fp_F E));
  g_ey : list (uedge (fp_F E));
  g_ez : list (uedge (fp_F E))
}.

(* edges<D> (), grid.hpp:159-164 *)
Definition g_edges (d : axis) (g : ugrid) : list (uedge (fp_F E)) :=
  match d with AX => g_ex g | AY => g_ey g | AZ => g_ez g end.

(* A freshly constructed grid, grid.cpp:12-22: materials uninitialised. *)
Definition new_grid (size : Z) (pos : vec3 D) (step : D) : ugrid :=
  UGrid size pos step (fun _ => None) [] [] [].

(* localToGlobal, globalToLocal, grid.hpp:52-53 *)
Definition local_to_global (step : D) (pos : vec3 D) (l : vec3 D) : vec3 D :=
  vadd3 A (vscale3 A l step) pos.
Definition global_to_local (step : D) (pos : vec3 D) (p : vec3 D) : vec3 D :=
  let q := vsub3 A p pos in V3 (a_div A (vx q) step) (a_div A (vy q) step) (a_div A (vz q) step).

(* Bounds-checked element write *)
Definition array_write {T} (size : Z) (a : Z -> option T) (i : Z) (v : T) : outcome (Z -> option T) :=
  if (0 <=? i) && (i <? size) then Ret (fun j => if j =? i then Some v else a j) else UB.

(* values[idx] > 0, values[idx] <= 0.0 *)
Definition gt0 (v : D) : bool := a_lt A (a_ofZ A 0) v.
Definition le0 (v : D) : bool := a_le A v (a_ofZ A 0).

Definition vset (d : axis) (p : vec3 D) (v : D) : vec3 D :=
  match d with AX => V3 v (vy p) (vz p) | AY => V3 (vx p) v (vz p) | AZ => V3 (vx p) (vy p) v end.

(* State of the sampling loops, grid.cpp:25-29 *)
Record sample_state := SS {
  ss_idx : Z; ss_pos : vec3 D; ss_values : Z -> option D; ss_mat : mat_array
}.

(* grid.cpp:35-41 *)
Definition sample_point (n : Z) (step : D) (f : field) (s : sample_state) (_ : Z) : outcome sample_state :=
  let v := fl_value f (ss_pos s) in
  values <- array_write (data_size n) (ss_values s) (ss_idx s) v ;;
  mat <- array_write (data_size n) (ss_mat s) (ss_idx s)
           (if gt0 v then Empty else fl_material f (ss_pos s) v) ;;
  Ret (SS (u32 (ss_idx s + 1)) (vset AZ (ss_pos s) (a_add A (vz (ss_pos s)) step)) values mat).

(* grid.cpp:33-43 *)
Definition sample_row (n : Z) (step : D) (low : vec3 D) (f : field) (s : sample_state) (_ : Z)
  : outcome sample_state :=
  let h := half n in
  s <- ofold (sample_point n step f) (zrange (- h) (h + 1))
             (SS (ss_idx s) (vset AZ (ss_pos s) (vz low)) (ss_values s) (ss_mat s)) ;;
  Ret (SS (ss_idx s) (vset AX (ss_pos s) (a_add A (vx (ss_pos s)) step)) (ss_values s) (ss_mat s)).

(* grid.cpp:31-45 *)
Definition sample_plane (n : Z) (step : D) (low : vec3 D) (f : field) (s : sample_state) (_ : Z)
  : outcome sample_state :=
  let h := half n in
  s <- ofold (sample_row n step low f) (zrange (- h) (h + 1))
             (SS (ss_idx s) (vset AX (ss_pos s) (vx low)) (ss_values s) (ss_mat s)) ;;
  Ret (SS (ss_idx s) (vset AY (ss_pos s) (a_add A (vy (ss_pos s)) step)) (ss_values s) (ss_mat s)).

(* grid.cpp:25-46; the vector of values starts as zeros *)
Definition fill_samples (g : ugrid) (f : field) : outcome sample_state :=
  let n := g_size g in
  let h := half n in
  let m := a_ofZ A (- h) in
  let low := local_to_global (g_step g) (g_pos g) (V3 m m m) in
  ofold (sample_plane n (g_step g) low f) (zrange (- h) (h + 1))
    (SS 0 low (fun i => if (0 <=? i) && (i <? data_size n) then Some (a_ofZ A 0) else None) (g_mat g)).

(* State of the edge loops: idx1, idx2, the storage and, for C10 only, the list
   of solver calls made so far. *)
Record edge_state := ES {
  es_i1 : Z; es_i2 : Z; es_edges : list (uedge (fp_F E)); es_calls : list zf_call
}.

(* The loop bodies grid.cpp:58-71 (X), 84-97 (Y), 108-121 (Z), which differ in the
   axis only. *)
Definition edge_body (d : axis) (g : ugrid) (f : field) (solver : zero_finder)
    (values : Z -> option D) (mat : mat_array) (y x : Z) (s : edge_state) (z : Z) : outcome edge_state :=
  v1 <- oread (values (es_i1 s)) ;;
  v2 <- oread (values (es_i2 s)) ;;
  let sign1 := le0 v1 in
  let sign2 := le0 v2 in
  s <- (if negb (eqb sign1 sign2) then
          let p := local_to_global (g_step g) (g_pos g) (vofZ3 A (V3 x y z)) in
          let c0 := vget d p in
          let c1 := a_add A c0 (g_step g) in
          let call := ZfCall d p c1 v1 v2 in
          let p := vset d p (solver call f) in
          let grad := fl_grad f p in
          let offset := a_div A (a_sub A (vget d p) c0) (g_step g) in
          mt <- oread (if sign1 then mat (es_i1 s) else mat (es_i2 s)) ;;
          e <- make_edge E x y z grad offset (axis_num d) sign1 mt ;;
          Ret (ES (es_i1 s) (es_i2 s) (es_edges s ++ [e]) (es_calls s ++ [call]))
        else Ret s) ;;
  Ret (ES (u32 (es_i1 s + 1)) (u32 (es_i2 s + 1)) (es_edges s) (es_calls s)).

(* Exclusive loop limits of the three nests: the loop along the axis of the
   edges stops one earlier, grid.cpp:55-57, 81-83, 105-107. *)
Definition loop_end (d : axis) (loop : axis) (h : Z) : Z := if axis_eqb d loop then h else h + 1.

(* idx1 and idx2 skip the last row (X, grid.cpp:74-75), nothing (Y), the last
   element of a row (Z, grid.cpp:123-124). *)
Definition edge_skip (k : Z) (s : edge_state) : edge_state :=
  ES (u32 (es_i1 s + k)) (u32 (es_i2 s + k)) (es_edges s) (es_calls s).

Definition edge_row (d : axis) (g : ugrid) (f : field) (solver : zero_finder)
    (values : Z -> option D) (mat : mat_array) (y : Z) (s : edge_state) (x : Z) : outcome edge_state :=
  let h := half (g_size g) in
  s <- ofold (edge_body d g f solver values mat y x) (zrange (- h) (loop_end d AZ h)) s ;;
  Ret (match d with AZ => edge_skip 1 s | _ => s end).

Definition edge_plane (d : axis) (g : ugrid) (f : field) (solver : zero_finder)
    (values : Z -> option D) (mat : mat_array) (s : edge_state) (y : Z) : outcome edge_state :=
  let h := half (g_size g) in
  s <- ofold (edge_row d g f solver values mat y) (zrange (- h) (loop_end d AX h)) s ;;
  Ret (match d with AX => edge_skip (u32 (g_size g + 1)) s | _ => s end).

(* Start value of idx2, grid.cpp:54, 80, 104 *)
Definition idx2_start (d : axis) (n : Z) : Z :=
  match d with AX => u32 (n + 1) | AY => u32 (u32 (n + 1) * u32 (n + 1)) | AZ => 1 end.

(* The nests grid.cpp:51-76 (X), 77-100 (Y), 101-126 (Z) *)
Definition fill_edges (d : axis) (g : ugrid) (f : field) (solver : zero_finder)
    (values : Z -> option D) (mat : mat_array) : outcome edge_state :=
  let h := half (g_size g) in
  ofold (edge_plane d g f solver values mat) (zrange (- h) (loop_end d AY h))
        (ES 0 (idx2_start d (g_size g)) [] []).

(* fill, grid.cpp:24-127.  Returns the new grid and the solver calls. *)
Definition fill (g : ugrid) (f : field) (solver : zero_finder) : outcome (ugrid * list zf_call) :=
  s <- fill_samples g f ;;
  ex <- fill_edges AX g f solver (ss_values s) (ss_mat s) ;;
  ey <- fill_edges AY g f solver (ss_values s) (ss_mat s) ;;
  ez <- fill_edges AZ g f solver (ss_values s) (ss_mat s) ;;
  Ret (UGrid (g_size g) (g_pos g) (g_step g) (ss_mat s) (es_edges ex) (es_edges ey) (es_edges ez),
       es_calls ex ++ es_calls ey ++ es_calls ez).

End Fill.
Arguments Field {E}.
Arguments fl_value {E}.
Arguments fl_grad {E}.
Arguments fl_material {E}.
Arguments ZfCall {E}.
Arguments zc_axis {E}.
Arguments zc_start {E}.
Arguments zc_end {E}.
Arguments zc_f0 {E}.
Arguments zc_f1 {E}.
Arguments UGrid {E}.
Arguments g_size {E}.
Arguments g_pos {E}.
Arguments g_step {E}.
Arguments g_mat {E}.
Arguments g_ex {E}.
Arguments g_ey {E}.
Arguments g_ez {E}.
Arguments g_edges {E}.
Arguments new_grid {E}.
Arguments fill {E}.
