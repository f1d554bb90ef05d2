(* Files of triangles: what a loader has to check and to compute. *)
From Coq Require Import ZArith List Bool Reals.
From Verif Require Import Base Arith RealArith PlyModel.
Import ListNotations.
Local Open Scope Z_scope.

Notation face := (Z * Z * Z)%type.
Definition corners (f : face) : list Z := let '(a, b, c) := f in [a; b; c].
(* The indices of the faces are those of vertices. *)
Definition file_ok {F} (f : ply_file F) : Prop :=
  forall t i, In t (pf_faces f) -> In i (corners t) -> 0 <= i < zlen (pf_verts f).
(* The other orientation. *)
Definition wound (reverse : bool) (f : face) : face := let '(a, b, c) := f in if reverse then (a, c, b) else f.
Definition three_corners (f : face) : bool := let '(a, b, c) := f in negb ((a =? b) || (b =? c) || (a =? c)).

Section Arithmetic.
Context {F : Type}.
Variable A : arith F.
Notation "x + y" := (a_add A x y).
Notation "x - y" := (a_sub A x y).
Notation "x * y" := (a_mul A x y).
Notation "x / y" := (a_div A x y).

(* Translation by -c, division by k. *)
Definition placed (c : vec3 F) (k : F) (v : vec3 F) : vec3 F := V3 ((vx v - vx c) / k) ((vy v - vy c) / k) ((vz v - vz c) / k).

(* (b - c) x (b - a): twice the area of a triangle, along its normal. *)
Definition area2 (a b c : vec3 F) : vec3 F :=
  let ux := vx b - vx c in let uy := vy b - vy c in let uz := vz b - vz c in
  let wx := vx b - vx a in let wy := vy b - vy a in let wz := vz b - vz a in
  V3 (uy * wz - wy * uz) (uz * wx - wz * ux) (ux * wy - wx * uy).
Definition vplus (a b : vec3 F) : vec3 F := V3 (vx a + vx b) (vy a + vy b) (vz a + vz b).

(* Sum over the corners at vertex [i] of the faces, in the order of the file. *)
Definition normal_at (pos : Z -> vec3 F) (fs : list face) (i : Z) : vec3 F :=
  fold_left (fun n t => let '(a, b, c) := t in
      fold_left (fun n j => if i =? j then vplus n (area2 (pos a) (pos b) (pos c)) else n) [a; b; c] n)
    fs (V3 (a_ofZ A 0) (a_ofZ A 0) (a_ofZ A 0)).
End Arithmetic.
