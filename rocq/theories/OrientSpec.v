(* Geometry of directed sides, in exact arithmetic. *)
From Coq Require Import ZArith Reals List Bool.
From Verif Require Import Base GridSpec CellSpec.
Import ListNotations.
Local Open Scope R_scope.

(* The point of a grid edge at parameter [t] of the way from its lesser endpoint. *)
Definition edge_point (e : gedge) (t : R) : vec3 R :=
  V3 (IZR (vx (snd e)) + t * IZR (vx (unit_vec (fst e))))
     (IZR (vy (snd e)) + t * IZR (vy (unit_vec (fst e))))
     (IZR (vz (snd e)) + t * IZR (vz (unit_vec (fst e)))).

Definition grid_point (p : ivec3) : vec3 R := V3 (IZR (vx p)) (IZR (vy p)) (IZR (vz p)).

Definition subR (a b : vec3 R) : vec3 R := V3 (vx a - vx b) (vy a - vy b) (vz a - vz b).
Definition crossR (a b : vec3 R) : vec3 R :=
  V3 (vy a * vz b - vz a * vy b) (vz a * vx b - vx a * vz b) (vx a * vy b - vy a * vx b).

(* Looking along the direction [sgn] of axis [d] (that is, with the normal
   pointing away from the observer reversed), the point [S] lies to the right
   of the ray from [A] to [B]: the component of (B-A) x (S-A) along the
   outward normal [sgn] * d is negative. *)
Definition on_right (d : axis) (sgn : R) (A B S : vec3 R) : Prop :=
  sgn * vget d (crossR (subR B A) (subR S A)) < 0.

(* The two end points of an edge of the grid. *)
Definition edge_ends (e : gedge) : list ivec3 := edge_corners (fst e) (snd e).

(* A directed side from edge [e1] to edge [e2], both in the face of cell [q]
   at level [s] (0 or 1) of axis [d]: seen from outside the cell, the solid end
   points of both edges lie to the right, wherever on the two edges its end
   points are. *)
Definition side_oriented (solid : ivec3 -> bool) (q : ivec3) (e1 e2 : gedge) : Prop :=
  forall d s t u S, (s = 0 \/ s = 1)%Z ->
    edge_in_plane d (vget d q + s) e1 -> edge_in_plane d (vget d q + s) e2 ->
    0 < t < 1 -> 0 < u < 1 ->
    (In S (edge_ends e1) \/ In S (edge_ends e2)) -> solid S = true ->
    on_right d (2 * IZR s - 1) (edge_point e1 t) (edge_point e2 u) (grid_point S).
