(* Surfaces dual to a grid: one quad around each sign-changing edge. *)
From Coq Require Import ZArith List Bool Sorted.
From Verif Require Import Base GridSpec MeshSpec CellSpec.
Import ListNotations.
Local Open Scope Z_scope.

(* The two triangles replacing the quad v0 v1 v2 v3, wound in this order if
   [forward] and in the opposite order otherwise. *)
Definition quad_tris (forward : bool) (v0 v1 v2 v3 : Z) : list triangle :=
  if forward then [(v0, v1, v3); (v1, v2, v3)] else [(v0, v3, v1); (v1, v3, v2)].

(* Quad of the vertices numbered [id] of the four cells around an edge. *)
Definition around_quad (id : ivec3 -> Z) (solid : ivec3 -> bool) (e : gedge) : list triangle :=
  match cells_around (fst e) (snd e) with
  | [c0; c1; c2; c3] => quad_tris (solid (snd e)) (id c0) (id c1) (id c2) (id c3)
  | _ => []
  end.

(* All four cells around the edge belong to the grid. *)
Definition inner_edge (n : Z) (e : gedge) : Prop := Forall (cell_in n) (cells_around (fst e) (snd e)).

(* Faces of the grid are given like edges: the unit square at [p]
   perpendicular to [d].  Its two cells and its four edges: *)
Definition face_low (f : gedge) : ivec3 := vsub (snd f) (unit_vec (fst f)).
Definition face_high (f : gedge) : ivec3 := snd f.
Definition face_edges (f : gedge) : list gedge :=
  let a := next_axis (fst f) in
  let b := next_axis a in
  [(a, snd f); (b, vadd (snd f) (unit_vec a)); (a, vadd (snd f) (unit_vec b)); (b, snd f)].

(* How much more often the triangles run from [a] to [b] than back. *)
Definition net (ts : list triangle) (a b : Z) : Z := side_count ts a b - side_count ts b a.

(* The cells met by the surface, in the order of the grid points. *)
Definition surface_cells (n : Z) (solid : ivec3 -> bool) (qs : list ivec3) : Prop :=
  StronglySorted Z.lt (map (yxz_index n) qs) /\ forall q, In q qs <-> surface_cell n solid q.

(* [id] numbers the elements of the list consecutively from zero. *)
Definition numbers (qs : list ivec3) (id : ivec3 -> Z) : Prop := forall k q, znth qs k = Some q -> id q = k.

(* The edge belongs to the cell. *)
Definition edge_of_cell (q : ivec3) (e : gedge) : bool := existsb (veqb q) (cells_around (fst e) (snd e)).
