(* fill (src/data/grid.cpp:24-127) when something it calls throws: the allocation of the values, the field, the zero
   finder, the growing of an edge storage.  Only what is done before the exception is kept; the bodies of the loops are
   those of FillModel.v.

   Simplified: a call of the zero finder, which calls the field, is one occasion to throw. *)
From Coq Require Import ZArith List Bool.
From Verif Require Import Base Arith GridModel EdgeModel FillModel.
Import ListNotations.
Local Open Scope Z_scope.

(* Result with the number of the next occasion; FErr: undefined behaviour or a failed assertion *)
Inductive fres (S : Type) := FRet (s : S) (k : nat) | FThrow (s : S) | FErr.
Arguments FRet {S} s k.
Arguments FThrow {S} s.
Arguments FErr {S}.

Definition lift {S} (o : outcome S) (k : nat) : fres S := match o with Ret s => FRet s k | _ => FErr end.
Definition fbind {S T} (r : fres S) (thrown : S -> T) (next : S -> nat -> fres T) : fres T :=
  match r with FRet s k => next s k | FThrow s => FThrow (thrown s) | FErr => FErr end.
Fixpoint ffold {X S} (f : S -> nat -> X -> fres S) (l : list X) (s : S) (k : nat) : fres S :=
  match l with [] => FRet s k | x :: l' => fbind (f s k x) (fun s => s) (fun s k => ffold f l' s k) end.

Section Throw.
Variable E : fpenv.
(* The occasions at which an exception is thrown *)
Variable fails : nat -> bool.
Notation field := (field E).
Notation ugrid := (ugrid E).
Notation zero_finder := (zero_finder E).

(* grid.cpp:35-41: f (call_pos), then f.material unless the value is positive *)
Definition tsample_point (n : Z) (step : fp_D E) (f : field) (s : sample_state E) (k : nat) (z : Z) : fres (sample_state E) :=
  if fails k then FThrow s
  else if gt0 E (fl_value f (ss_pos E s)) then lift (sample_point E n step f s z) (S k)
  else if fails (S k) then FThrow s
  else lift (sample_point E n step f s z) (S (S k)).

(* grid.cpp:33-43 *)
Definition tsample_row (n : Z) (step : fp_D E) (low : vec3 (fp_D E)) (f : field) (s : sample_state E) (k : nat) (_ : Z)
  : fres (sample_state E) :=
  let h := half n in
  fbind (ffold (tsample_point n step f) (zrange (- h) (h + 1)) (SS E (ss_idx E s) (vset E AZ (ss_pos E s) (vz low)) (ss_values E s) (ss_mat E s)) k)
    (fun s => s)
    (fun s k => FRet (SS E (ss_idx E s) (vset E AX (ss_pos E s) (a_add (fp_d E) (vx (ss_pos E s)) step)) (ss_values E s) (ss_mat E s)) k).

(* grid.cpp:31-45 *)
Definition tsample_plane (n : Z) (step : fp_D E) (low : vec3 (fp_D E)) (f : field) (s : sample_state E) (k : nat) (_ : Z)
  : fres (sample_state E) :=
  let h := half n in
  fbind (ffold (tsample_row n step low f) (zrange (- h) (h + 1)) (SS E (ss_idx E s) (vset E AX (ss_pos E s) (vx low)) (ss_values E s) (ss_mat E s)) k)
    (fun s => s)
    (fun s k => FRet (SS E (ss_idx E s) (vset E AY (ss_pos E s) (a_add (fp_d E) (vy (ss_pos E s)) step)) (ss_values E s) (ss_mat E s)) k).

(* grid.cpp:25-46 *)
Definition tfill_samples (g : ugrid) (f : field) (k : nat) : fres (sample_state E) :=
  let n := g_size g in
  let h := half n in
  let m := a_ofZ (fp_d E) (- h) in
  let low := local_to_global E (g_step g) (g_pos g) (V3 m m m) in
  ffold (tsample_plane n (g_step g) low f) (zrange (- h) (h + 1))
    (SS E 0 low (fun i => if (0 <=? i) && (i <? data_size n) then Some (a_ofZ (fp_d E) 0) else None) (g_mat g)) k.

(* The body of the nests grid.cpp:51-126: solver, f.grad, addEdge *)
Definition tedge_body (d : axis) (g : ugrid) (f : field) (solver : zero_finder) (values : Z -> option (fp_D E)) (mat : mat_array)
    (y x : Z) (s : edge_state E) (k : nat) (z : Z) : fres (edge_state E) :=
  match values (es_i1 E s), values (es_i2 E s) with
  | Some v1, Some v2 =>
      if negb (eqb (le0 E v1) (le0 E v2)) then
        if fails k || fails (S k) || fails (S (S k)) then FThrow s
        else lift (edge_body E d g f solver values mat y x s z) (S (S (S k)))
      else lift (edge_body E d g f solver values mat y x s z) k
  | _, _ => FErr
  end.

Definition tedge_row (d : axis) (g : ugrid) (f : field) (solver : zero_finder) (values : Z -> option (fp_D E)) (mat : mat_array)
    (y : Z) (s : edge_state E) (k : nat) (x : Z) : fres (edge_state E) :=
  let h := half (g_size g) in
  fbind (ffold (tedge_body d g f solver values mat y x) (zrange (- h) (loop_end d AZ h)) s k)
    (fun s => s) (fun s k => FRet (match d with AZ => edge_skip E 1 s | _ => s end) k).

Definition tedge_plane (d : axis) (g : ugrid) (f : field) (solver : zero_finder) (values : Z -> option (fp_D E)) (mat : mat_array)
    (s : edge_state E) (k : nat) (y : Z) : fres (edge_state E) :=
  let h := half (g_size g) in
  fbind (ffold (tedge_row d g f solver values mat y) (zrange (- h) (loop_end d AX h)) s k)
    (fun s => s) (fun s k => FRet (match d with AX => edge_skip E (u32 (g_size g + 1)) s | _ => s end) k).

(* One nest; the storage was cleared before it (grid.cpp:52, 78, 102). *)
Definition tfill_edges (d : axis) (g : ugrid) (f : field) (solver : zero_finder) (values : Z -> option (fp_D E)) (mat : mat_array) (k : nat)
  : fres (edge_state E) :=
  let h := half (g_size g) in
  ffold (tedge_plane d g f solver values mat) (zrange (- h) (loop_end d AY h)) (ES E 0 (idx2_start d (g_size g)) [] []) k.

(* fill, grid.cpp:24-127: the grid it leaves *)
Definition tfill (g : ugrid) (f : field) (solver : zero_finder) (k : nat) : fres ugrid :=
  let grid mat ex ey ez := UGrid (g_size g) (g_pos g) (g_step g) mat ex ey ez in
  if fails k then FThrow g
  else
  fbind (tfill_samples g f (S k)) (fun s => grid (ss_mat E s) (g_ex g) (g_ey g) (g_ez g)) (fun s k =>
  fbind (tfill_edges AX g f solver (ss_values E s) (ss_mat E s) k) (fun x => grid (ss_mat E s) (es_edges E x) (g_ey g) (g_ez g)) (fun x k =>
  fbind (tfill_edges AY g f solver (ss_values E s) (ss_mat E s) k) (fun y => grid (ss_mat E s) (es_edges E x) (es_edges E y) (g_ez g)) (fun y k =>
  fbind (tfill_edges AZ g f solver (ss_values E s) (ss_mat E s) k) (fun z => grid (ss_mat E s) (es_edges E x) (es_edges E y) (es_edges E z)) (fun z k =>
  FRet (grid (ss_mat E s) (es_edges E x) (es_edges E y) (es_edges E z)) k)))).
End Throw.
