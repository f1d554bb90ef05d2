(* Model of the indexing part of UniformGrid:
   include/isomesh/data/grid.hpp and src/data/grid.cpp. *)
From Coq Require Import ZArith List Bool.
From Verif Require Import Base.
Import ListNotations.
Local Open Scope Z_scope.

(* The constructor's checks, grid.cpp:14-19, and the allocation length of
   grid.cpp:21 (32-bit product).  The result is (m_size, m_halfSize, length). *)
Definition grid_ctor (size : Z) : outcome (Z * Z * Z) :=
  if size <? 2 then Throw InvalidArgument
  else if negb (Z.land size (size - 1) =? 0) then Throw InvalidArgument
  else if size >? 1024 then Throw LengthError
  else Ret (size, Z.quot (i32 size) 2, u32 (u32 (u32 (size + 1) * u32 (size + 1)) * u32 (size + 1))).

(* m_halfSize, grid.cpp:13 *)
Definition half (size : Z) : Z := Z.quot (i32 size) 2.

(* dataSize, grid.hpp:45 *)
Definition data_size (size : Z) : Z :=
  u32 (u32 (u32 (size + 1) * u32 (size + 1)) * u32 (size + 1)).

(* minCoord, maxCoord, grid.hpp:47-48 *)
Definition max_coord (size : Z) : Z := half size.
Definition min_coord (size : Z) : Z := - half size.

(* glm::abs on int32_t: negating the most negative value overflows *)
Definition iabs (x : Z) : outcome Z := if x =? i32min then UB else Ret (Z.abs x).

(* if (cond) return v; with a condition that may be undefined *)
Definition ret_if {A} (c : outcome bool) (v : A) (k : outcome A) : outcome A :=
  b <- c ;; if b then Ret v else k.

Definition abs_gt (x h : Z) : outcome bool := a <- iabs x ;; Ret (a >? h).
Definition abs_eq (x h : Z) : outcome bool := a <- iabs x ;; Ret (a =? h).

(* isVertexInGrid, grid.cpp:164-172 *)
Definition is_vertex_in_grid (size : Z) (p : ivec3) : outcome bool :=
  let h := half size in
  ret_if (abs_gt (vx p) h) false
 (ret_if (abs_gt (vy p) h) false
 (ret_if (abs_gt (vz p) h) false
 (Ret true))).

(* isVertexOnBorder, grid.cpp:174-182 *)
Definition is_vertex_on_border (size : Z) (p : ivec3) : outcome bool :=
  let h := half size in
  ret_if (abs_eq (vx p) h) true
 (ret_if (abs_eq (vy p) h) true
 (ret_if (abs_eq (vz p) h) true
 (Ret false))).

(* x < -m_halfSize || x >= m_halfSize *)
Definition outside_half_open (x h : Z) : outcome bool := Ret ((x <? - h) || (x >=? h)).

(* isEdgeInGrid<0>, <1>, <2>, grid.cpp:188-219 *)
Definition is_edge_in_grid (d : axis) (size : Z) (p : ivec3) : outcome bool :=
  let h := half size in
  match d with
  | AX => ret_if (outside_half_open (vx p) h) false
         (ret_if (abs_gt (vy p) h) false (ret_if (abs_gt (vz p) h) false (Ret true)))
  | AY => ret_if (outside_half_open (vy p) h) false
         (ret_if (abs_gt (vx p) h) false (ret_if (abs_gt (vz p) h) false (Ret true)))
  | AZ => ret_if (outside_half_open (vz p) h) false
         (ret_if (abs_gt (vx p) h) false (ret_if (abs_gt (vy p) h) false (Ret true)))
  end.

(* isEdgeOnBorder<0>, <1>, <2>, grid.cpp:221-246 *)
Definition is_edge_on_border (d : axis) (size : Z) (p : ivec3) : outcome bool :=
  let h := half size in
  match d with
  | AX => ret_if (abs_eq (vy p) h) true (ret_if (abs_eq (vz p) h) true (Ret false))
  | AY => ret_if (abs_eq (vx p) h) true (ret_if (abs_eq (vz p) h) true (Ret false))
  | AZ => ret_if (abs_eq (vx p) h) true (ret_if (abs_eq (vy p) h) true (Ret false))
  end.

(* isFaceInGrid<0>, <1>, <2>, grid.cpp:312-343 *)
Definition is_face_in_grid (d : axis) (size : Z) (p : ivec3) : outcome bool :=
  let h := half size in
  match d with
  | AX => ret_if (abs_gt (vx p) h) false
         (ret_if (outside_half_open (vy p) h) false
         (ret_if (outside_half_open (vz p) h) false (Ret true)))
  | AY => ret_if (abs_gt (vy p) h) false
         (ret_if (outside_half_open (vx p) h) false
         (ret_if (outside_half_open (vz p) h) false (Ret true)))
  | AZ => ret_if (abs_gt (vz p) h) false
         (ret_if (outside_half_open (vx p) h) false
         (ret_if (outside_half_open (vy p) h) false (Ret true)))
  end.

(* isFaceOnBorder<0>, <1>, <2>, grid.cpp:345-364 *)
Definition is_face_on_border (d : axis) (size : Z) (p : ivec3) : outcome bool :=
  let h := half size in
  ret_if (abs_eq (vget d p) h) true (Ret false).

(* isCellInGrid, grid.cpp:370-376 *)
Definition is_cell_in_grid (size : Z) (p : ivec3) : bool :=
  let h := half size in
  if (vx p <? - h) || (vy p <? - h) || (vz p <? - h) then false
  else if (vx p >=? h) || (vy p >=? h) || (vz p >=? h) then false
  else true.

(* isCellOnBorder, grid.cpp:378-384 *)
Definition is_cell_on_border (size : Z) (p : ivec3) : bool :=
  let h := half size in
  if (vx p =? - h) || (vy p =? - h) || (vz p =? - h) then true
  else if (vx p =? h - 1) || (vy p =? h - 1) || (vz p =? h - 1) then true
  else false.

(* pointToIndex, grid.cpp:142-148; unsigned 32-bit arithmetic *)
Definition point_to_index (size : Z) (p : ivec3) : outcome Z :=
  let h := half size in
  b <- is_vertex_in_grid size p ;;
  _ <- oassert b ;;
  let idx := u32 (u32 (vy p + h) * u32 (size + 1)) in
  let idx := u32 (u32 (idx + u32 (vx p + h)) * u32 (size + 1)) in
  Ret (u32 (idx + u32 (vz p + h))).

(* indexToPoint, grid.cpp:150-158 *)
Definition index_to_point (size : Z) (idx : Z) : outcome ivec3 :=
  let h := half size in
  _ <- oassert (idx <? data_size size) ;;
  let z := i32 (idx mod u32 (size + 1)) - h in
  let idx := idx / u32 (size + 1) in
  let x := i32 (idx mod u32 (size + 1)) - h in
  let idx := idx / u32 (size + 1) in
  let y := i32 idx - h in
  Ret (V3 x y z).

(* adjacentCellsForEdge<0>, <1>, <2>, grid.cpp:248-306 *)
Definition adjacent_cells_for_edge (d : axis) (size : Z) (p : ivec3) : outcome (list Z) :=
  let h := half size in
  let dx := u32 (size + 1) in
  let dy := u32 (u32 (size + 1) * u32 (size + 1)) in
  let dz := 1 in
  c2 <- point_to_index size p ;;
  match d with
  | AX =>
      let c0 := u32 (u32 (c2 - dy) - dz) in
      let c1 := u32 (c2 - dz) in
      let c3 := u32 (c2 - dy) in
      let '(c0, c3) := if vy p =? - h then (kBadIndex, kBadIndex) else (c0, c3) in
      let '(c1, c2) := if vy p =? h then (kBadIndex, kBadIndex) else (c1, c2) in
      let '(c0, c1) := if vz p =? - h then (kBadIndex, kBadIndex) else (c0, c1) in
      let '(c2, c3) := if vz p =? h then (kBadIndex, kBadIndex) else (c2, c3) in
      Ret [c0; c1; c2; c3]
  | AY =>
      let c0 := u32 (u32 (c2 - dx) - dz) in
      let c1 := u32 (c2 - dx) in
      let c3 := u32 (c2 - dz) in
      let '(c0, c1) := if vx p =? - h then (kBadIndex, kBadIndex) else (c0, c1) in
      let '(c2, c3) := if vx p =? h then (kBadIndex, kBadIndex) else (c2, c3) in
      let '(c0, c3) := if vz p =? - h then (kBadIndex, kBadIndex) else (c0, c3) in
      let '(c1, c2) := if vz p =? h then (kBadIndex, kBadIndex) else (c1, c2) in
      Ret [c0; c1; c2; c3]
  | AZ =>
      let c0 := u32 (u32 (c2 - dx) - dy) in
      let c1 := u32 (c2 - dy) in
      let c3 := u32 (c2 - dx) in
      let '(c0, c3) := if vx p =? - h then (kBadIndex, kBadIndex) else (c0, c3) in
      let '(c1, c2) := if vx p =? h then (kBadIndex, kBadIndex) else (c1, c2) in
      let '(c0, c1) := if vy p =? - h then (kBadIndex, kBadIndex) else (c0, c1) in
      let '(c2, c3) := if vy p =? h then (kBadIndex, kBadIndex) else (c2, c3) in
      Ret [c0; c1; c2; c3]
  end.

(* adjacentVerticesForCell, grid.cpp:386-400 *)
Definition adjacent_vertices_for_cell (size : Z) (c : Z) : list Z :=
  let dx := u32 (size + 1) in
  let dy := u32 (u32 (size + 1) * u32 (size + 1)) in
  let dz := 1 in
  [c; u32 (c + dz); u32 (c + dx); u32 (u32 (c + dx) + dz);
   u32 (c + dy); u32 (u32 (c + dy) + dz); u32 (u32 (c + dx) + dy);
   u32 (u32 (u32 (c + dx) + dy) + dz)].

(* The material array m_mat (grid.hpp:109): [None] is an element outside the
   array or not yet written (grid.cpp:21 leaves the elements uninitialised). *)
Definition mat_array := Z -> option material.

(* materialsOfCell, grid.cpp:402-416 *)
Definition materials_of_cell (size : Z) (mat : mat_array) (c : Z) : outcome (list material) :=
  omap (fun i => oread (mat i)) (adjacent_vertices_for_cell size c).

(* at, operator[], grid.cpp:129-136 *)
Definition grid_at (size : Z) (mat : mat_array) (p : ivec3) : outcome material :=
  b <- is_vertex_in_grid size p ;;
  _ <- oassert b ;;
  i <- point_to_index size p ;;
  oread (mat i).
