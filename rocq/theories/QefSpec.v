(* Vocabulary for the statements about the QEF solvers. *)
From Coq Require Import ZArith List Bool Reals.
From Verif Require Import Base Arith RealArith QefModel.
Import ListNotations.

(* ---- histories of calls, in any arithmetic ---- *)
Section Histories.
Context {T : Type}.
Variable A : arith T.
Variable float_min : T.
Variable hypot copysign : T -> T -> T.
Variable msin mcos matan : T -> T.
Variable D max_rows : nat.
Variable points_limit : Z.
(* The compressions of the matrix that are free of charge. *)
Variable free : solver T -> Prop.

(* Charge for a compression of s that takes place if c holds. *)
Definition charge (c : Prop) (s : solver T) (k : nat) : Prop := (k = 0%nat /\ (c -> free s)) \/ k = 1%nat.

(* history s L k: s is a solver in which the planes L (a point and the normal of each of
   them) were put by calls of reset, addPlane, state, merge and solve, and k is the number of
   compressions with charge on the way.  The data for merge is the state of another solver with a
   history of its own.  A solver made from a state is a new one into which the state is merged. *)
Inductive history : solver T -> list (fvec T * fvec T) -> nat -> Prop :=
| h_new : history (q_new A) [] 0
| h_plane : forall s L k q n s' k1, history s L k -> add_plane A float_min D max_rows s q n = Ret s' ->
    charge (q_used s = max_rows) s k1 -> history s' (L ++ [(q, n)]) (k + k1)
| h_state : forall s L k d s' k1, history s L k -> state A float_min D points_limit s = Ret (d, s') ->
    charge True s k1 -> history s' L (k + k1)
| h_merge : forall s L k s2 L2 k2 d s2' s' k1 k3, history s L k -> history s2 L2 k2 ->
    state A float_min D points_limit s2 = Ret (d, s2') -> charge True s2 k3 ->
    merge A float_min D max_rows s d = Ret s' -> charge (max_rows - S D < q_used s)%nat s k1 ->
    history s' (L ++ L2) (k + k1 + (k2 + k3))
| h_solve : forall s L k tune lo hi z s' k1, history s L k ->
    solve A float_min hypot copysign msin mcos matan D tune s lo hi = (z, s') ->
    charge True s k1 -> history s' L (k + k1).
End Histories.

Local Open Scope R_scope.

(* ---- the error of a list of planes, in the reals ---- *)
Fixpoint total (n : nat) (f : nat -> R) : R := match n with O => 0 | S n' => total n' f + f n' end.

(* (normal . (p - point))^2 for all planes *)
Definition plane_error (D : nat) (p : fvec R) (l : fvec R * fvec R) : R :=
  let d := total D (fun c => snd l c * (p c - fst l c)) in d * d.
Definition planes_error (D : nat) (L : list (fvec R * fvec R)) (p : fvec R) : R := fold_right (fun l s => plane_error D p l + s) 0 L.

(* |p_1| + |p_2| + ... *)
Definition taxi (D : nat) (p : fvec R) : R := total D (fun c => Rabs (p c)).

(* No column has, when its turn comes, a sum of squares other than zero below float_min. *)
Definition no_tiny_column (float_min : R) (D : nat) (s : solver R) : Prop := forall i, (i <= D)%nat ->
  let norm := col_norm arithR (fold_left (householder_step arithR float_min (S D) (q_used s)) (seq 0 i) (q_mat s)) i (q_used s) in
  norm = 0 \/ float_min <= norm.

(* 2^-126, the least normal number of type float *)
Definition least_normal : R := / IZR (2 ^ 126).

Definition vec3R (x y z : R) : fvec R := fun c => match c with O => x | 1%nat => y | _ => z end.
Definition unit_normal (D : nat) (n : fvec R) : Prop := total D (fun c => n c * n c) = 1.
