(* QefSolver3D as the octrees and uniform dual contouring call it: the operations DcModel,
   MdcModel and UdcModel have as parameters, made of those of QefModel.  The tuning of the solver
   (setPinvTolerance and the like, qef_solver_3d.hpp) is a parameter as nothing in these callers
   changes it. *)
From Coq Require Import ZArith List Bool.
From Verif Require Import Base Arith EdgeModel FillModel UdcModel QefModel DcModel.
Import ListNotations.

(* glm::vec3 as the vectors of QefModel and back *)
Definition fvec_of {T} (v : vec3 T) : fvec T := fun c => match c with O => vx v | S O => vy v | _ => vz v end.
Definition vec3_of {T} (v : fvec T) : vec3 T := V3 (v 0%nat) (v 1%nat) (v 2%nat).

Section Solver.
Context {T : Type}.
Variable A : arith T.
Variable float_min : T.
Variable hypot copysign : T -> T -> T.
Variable msin mcos matan : T -> T.
Variable tune : tuning T.

(* qef_solver_3d.hpp:36, :93: three dimensions, 8 rows, less than 2^30 points *)
Definition s3_limit : Z := (2 ^ 30)%Z.
Definition s3_add (s : solver T) (p n : vec3 T) : outcome (solver T) := add_plane A float_min 3 8 s (fvec_of p) (fvec_of n).
Definition s3_merge (s : solver T) (d : qstate T) : outcome (solver T) := merge A float_min 3 8 s d.
Definition s3_solve (s : solver T) (lo hi : vec3 T) : solver T * vec3 T :=
  let '(z, s') := solve A float_min hypot copysign msin mcos matan 3 tune s (fvec_of lo) (fvec_of hi) in (s', vec3_of z).
Definition s3_state (s : solver T) : outcome (qstate T * solver T) := state A float_min 3 s3_limit s.

(* The calls in dc_octree.cpp:349-367, :376-414.  The operations there are total; a call of the
   solver that does not return leaves the solver as it is and gives the state of the data in it
   (the theorems show that all calls they are about return). *)
Definition solver3_ops : qef_ops T (solver T) (qstate T) := QefOps T (solver T) (qstate T)
  (fun _ => q_new A)
  (fun s p n => match s3_add s p n with Ret s' => s' | _ => s end)
  (fun s d => match s3_merge s d with Ret s' => s' | _ => s end)
  s3_solve
  (fun s p => eval A 3 s (fvec_of p))
  (fun s => match s3_state s with Ret (d, s') => (s', d) | _ => (s, QState (q_mat s) (q_sum s) (q_count s) (q_dim s)) end).

(* uniform dual contouring, src/algo/uniform_dual_contouring.cpp:29-51: a new solver, the planes of one cell, solve *)
Definition solver3_cell (planes : list (vec3 T * vec3 T)) (lo hi : vec3 T) : vec3 T :=
  snd (s3_solve (fold_left (fun s p => match s3_add s (fst p) (snd p) with Ret s' => s' | _ => s end) planes (q_new A)) lo hi).
End Solver.
