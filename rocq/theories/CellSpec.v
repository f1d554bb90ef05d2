(* Unit cells: their corners and edges in the numbering of the lookup tables,
   the surface inside a cell as a set of triangles between crossing edges. *)
From Coq Require Import ZArith List Bool.
From Verif Require Import Base GridSpec MeshSpec EdgeModel.
Import ListNotations.
Local Open Scope Z_scope.

(* An edge of the grid: axis and lesser endpoint. *)
Definition gedge := (axis * ivec3)%type.

Definition gedge_eqb (a b : gedge) : bool := axis_eqb (fst a) (fst b) && veqb (snd a) (snd b).

(* Edges of the unit cell at the origin, numbered as documented in
   include/isomesh/util/tables.hpp. *)
Definition local_edges : list gedge :=
  [(AX, V3 0 0 0); (AX, V3 0 0 1); (AX, V3 0 1 0); (AX, V3 0 1 1);
   (AY, V3 0 0 0); (AY, V3 0 0 1); (AY, V3 1 0 0); (AY, V3 1 0 1);
   (AZ, V3 0 0 0); (AZ, V3 1 0 0); (AZ, V3 0 1 0); (AZ, V3 1 1 0)].

Definition local_edge (i : Z) : gedge := tab (AX, V3 0 0 0) local_edges i.

(* Edge [i] of the cell at [q]. *)
Definition cell_edge (q : ivec3) (i : Z) : gedge :=
  (fst (local_edge i), vadd q (snd (local_edge i))).

(* Number of the corner of a unit cell with the given offset. *)
Definition corner_number (o : ivec3) : Z := 4 * vy o + 2 * vx o + vz o.
Definition edge_start (i : Z) : Z := corner_number (snd (local_edge i)).
Definition edge_end (i : Z) : Z := corner_number (vadd (snd (local_edge i)) (unit_vec (fst (local_edge i)))).

(* Sign configuration of a cell: is corner k solid? *)
Definition config (solid : ivec3 -> bool) (q : ivec3) : list bool := map solid (cell_corners q).

(* Edge [i] joins a solid and an empty corner. *)
Definition crossing (bs : list bool) (i : Z) : bool :=
  xorb (tab false bs (edge_start i)) (tab false bs (edge_end i)).

(* The same for an edge of the grid. *)
Definition edge_crosses (solid : ivec3 -> bool) (e : gedge) : bool :=
  xorb (solid (snd e)) (solid (vadd (snd e) (unit_vec (fst e)))).

(* A cell met by the surface. *)
Definition surface_cell (n : Z) (solid : ivec3 -> bool) (q : ivec3) : Prop :=
  cell_in n q /\ exists i, 0 <= i < 12 /\ edge_crosses solid (cell_edge q i) = true.

(* Both end points of the edge lie in the plane where coordinate [d] is [s]. *)
Definition edge_in_plane (d : axis) (s : Z) (e : gedge) : Prop :=
  fst e <> d /\ vget d (snd e) = s.

(* Two edges lie in a common outer face of the grid. *)
Definition in_outer_face (n : Z) (e1 e2 : gedge) : Prop :=
  exists d s, (2 * s = n \/ 2 * s = - n) /\ edge_in_plane d s e1 /\ edge_in_plane d s e2.

(* The grid edge a stored edge stands for. *)
Definition axis_of (k : Z) : axis := match k with 0 => AX | 1 => AY | _ => AZ end.
Definition edge_key {F} (e : uedge F) : gedge := (axis_of (ue_axis e), lesser_endpoint e).
