(* Geometric specification of a uniform grid, independent of its indexing. *)
From Coq Require Import ZArith List Bool.
From Verif Require Import Base.
Import ListNotations.
Local Open Scope Z_scope.

(* The sizes documented as valid: powers of two from 2 to 1024. *)
Definition valid_size (n : Z) : Prop := exists k, 1 <= k <= 10 /\ n = 2 ^ k.

Definition power_of_two (n : Z) : Prop := exists k, 0 <= k /\ n = 2 ^ k.

(* A grid of size [n] consists of the points with coordinates in [-n/2, n/2]. *)
Definition vertex_in (n : Z) (p : ivec3) : Prop :=
  - n <= 2 * vx p <= n /\ - n <= 2 * vy p <= n /\ - n <= 2 * vz p <= n.

(* Corner points of grid elements: an edge runs from [p] one unit along its
   axis, a face is the unit square at [p] perpendicular to its axis, a cell is the unit
   cube at [p]. *)
Definition edge_corners (d : axis) (p : ivec3) : list ivec3 := [p; vadd p (unit_vec d)].

Definition face_corners (d : axis) (p : ivec3) : list ivec3 :=
  match d with
  | AX => [p; vadd p (V3 0 1 0); vadd p (V3 0 0 1); vadd p (V3 0 1 1)]
  | AY => [p; vadd p (V3 1 0 0); vadd p (V3 0 0 1); vadd p (V3 1 0 1)]
  | AZ => [p; vadd p (V3 1 0 0); vadd p (V3 0 1 0); vadd p (V3 1 1 0)]
  end.

Definition cell_corners (p : ivec3) : list ivec3 :=
  [vadd p (V3 0 0 0); vadd p (V3 0 0 1); vadd p (V3 1 0 0); vadd p (V3 1 0 1);
   vadd p (V3 0 1 0); vadd p (V3 0 1 1); vadd p (V3 1 1 0); vadd p (V3 1 1 1)].

(* An element belongs to the grid if all its corners do. *)
Definition element_in (n : Z) (corners : list ivec3) : Prop :=
  forall q, In q corners -> vertex_in n q.
Definition edge_in (n : Z) (d : axis) (p : ivec3) : Prop := element_in n (edge_corners d p).
Definition face_in (n : Z) (d : axis) (p : ivec3) : Prop := element_in n (face_corners d p).
Definition cell_in (n : Z) (p : ivec3) : Prop := element_in n (cell_corners p).

(* An element lies on the border if one of the unit cubes it is part of is
   not in the grid. *)
Definition on_border (n : Z) (corners : list ivec3) : Prop :=
  exists c, incl corners (cell_corners c) /\ ~ cell_in n c.

(* 32-bit positions except the most negative coordinate. *)
Definition safe_i32 (z : Z) : Prop := i32min < z <= i32max.
Definition safe_pos (p : ivec3) : Prop := safe_i32 (vx p) /\ safe_i32 (vy p) /\ safe_i32 (vz p).

(* (y, x, z) lexicographic order of points *)
Definition yxz_lt (p q : ivec3) : Prop :=
  vy p < vy q \/ (vy p = vy q /\ (vx p < vx q \/ (vx p = vx q /\ vz p < vz q))).

(* The two other axes, such that (d, u, v) is right handed. *)
Definition next_axis (d : axis) : axis := match d with AX => AY | AY => AZ | AZ => AX end.

Definition vsub (p q : ivec3) : ivec3 := V3 (vx p - vx q) (vy p - vy q) (vz p - vz q).

(* The four cells around an edge along [d], counter-clockwise when looking
   against the direction of the axis: with u = next_axis d and v = next_axis u
   their minimal corners are p-u-v, p-v, p, p-u. *)
Definition cells_around (d : axis) (p : ivec3) : list ivec3 :=
  let u := unit_vec (next_axis d) in
  let v := unit_vec (next_axis (next_axis d)) in
  [vsub (vsub p u) v; vsub p v; p; vsub p u].

(* The position of a point in the YXZ enumeration of the grid points. *)
Definition yxz_index (n : Z) (p : ivec3) : Z :=
  ((vy p + n / 2) * (n + 1) + (vx p + n / 2)) * (n + 1) + (vz p + n / 2).
