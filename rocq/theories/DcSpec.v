(* What an octree built for dual contouring is supposed to contain. *)
From Coq Require Import ZArith List Bool.
From Verif Require Import Base Arith GridSpec EdgeModel EdgeSpec FillModel FillSpec CellSpec OctreeModel OctreeSpec
  UdcModel DcModel.
Import ListNotations.
Local Open Scope Z_scope.

(* Corner [i] of the cube of level [n] at [q], in the numbering of the cell corners. *)
Definition cube_corner (q : ivec3) (n : nat) (i : Z) : ivec3 := vadd q (vscale (edge_len n) (corner_offset i)).
Definition cube_corners (q : ivec3) (n : nat) : list ivec3 := map (cube_corner q n) (zseq 0 8).

(* All elements are equal. *)
Definition one_kind (bs : list bool) : bool := forallb (fun b => b) bs || forallb negb bs.

(* The corners of the cube are not all of the same kind. *)
Definition mixed (solid : ivec3 -> bool) (q : ivec3) (n : nat) : bool :=
  negb (one_kind (map solid (cube_corners q n))).

(* Corners of a cube that are connected along its edges by corners of their kind;
   corners whose numbers differ in one binary digit share an edge. *)
Inductive linked (kind : Z -> bool) : Z -> Z -> Prop :=
| linked_refl : forall i, 0 <= i < 8 -> linked kind i i
| linked_step : forall i j b, linked kind i j -> In b [1; 2; 4] -> kind (Z.lxor j b) = kind j ->
    linked kind i (Z.lxor j b).

(* The solid corners are connected and so are the empty ones. *)
Definition two_pieces (kind : Z -> bool) : Prop :=
  forall i j, 0 <= i < 8 -> 0 <= j < 8 -> kind i = kind j -> linked kind i j.

(* All grid vertices in the closed cube are of the same kind. *)
Definition uniform (solid : ivec3 -> bool) (q : ivec3) (n : nat) : Prop :=
  exists b, forall p, in_closed_cube q n p -> solid p = b.

(* The cube lies inside the grid. *)
Definition cube_in_grid (size : Z) (q : ivec3) (n : nat) : Prop :=
  forall p, in_closed_cube q n p -> vertex_in size p.

(* Material stored for a grid vertex. *)
Definition grid_material {E} (g : ugrid E) (p : ivec3) : material :=
  match g_mat g (yxz_index (g_size g) p) with Some m => m | None => Empty end.

(* Vertices of the octants of a cube: [o] has coordinates 0, 1 and 2. *)
Definition lattice (q : ivec3) (m : nat) (o : ivec3) : ivec3 := vadd q (vscale (edge_len m) o).
Definition lattice_point (o : ivec3) : Prop := 0 <= vx o <= 2 /\ 0 <= vy o <= 2 /\ 0 <= vz o <= 2.

(* Cubes whose surface one vertex may stand for.  A bigger cube with surface has
   two connected kinds of corners and so has each octant; the material in the
   middle between two vertices of the octants is that of one of them, the material in the
   middle of four is that of one of the four, the material in the middle of the cube is
   that of a corner; the octants are such cubes as well. *)
Inductive one_sheet (mat : ivec3 -> material) (solid : ivec3 -> bool) : ivec3 -> nat -> Prop :=
| one_sheet_cell : forall q, one_sheet mat solid q 0
| one_sheet_uniform : forall q n, uniform solid q n -> one_sheet mat solid q n
| one_sheet_merge : forall q m,
    two_pieces (fun i => solid (cube_corner q (Datatypes.S m) i)) ->
    (forall i, 0 <= i < 8 -> two_pieces (fun j => solid (cube_corner (child_pos q m i) m j))) ->
    (forall d o, lattice_point o -> vget d o = 1 ->
       mat (lattice q m o) = mat (lattice q m (vsub o (unit_vec d))) \/
       mat (lattice q m o) = mat (lattice q m (vadd o (unit_vec d)))) ->
    (forall d d' o, d <> d' -> lattice_point o -> vget d o = 1 -> vget d' o = 1 ->
       exists s t, (s = 1 \/ s = -1) /\ (t = 1 \/ t = -1) /\
         mat (lattice q m o) = mat (lattice q m (vadd o (vadd (vscale s (unit_vec d)) (vscale t (unit_vec d')))))) ->
    (exists i, 0 <= i < 8 /\ mat (lattice q m (V3 1 1 1)) = mat (cube_corner q (Datatypes.S m) i)) ->
    (forall i, 0 <= i < 8 -> one_sheet mat solid (child_pos q m i) m) ->
    one_sheet mat solid q (Datatypes.S m).

Section Spec.
Context {E : fpenv} {Q S : Type}.
Variable ops : qef_ops (fp_F E) Q S.
Variable g : ugrid E.
Variable solid : ivec3 -> bool.
Variable eps : fp_F E.
Notation F := (fp_F E).
Notation A := (fp_f E).

(* Bounds given to the QEF solver for the cube. *)
Definition cube_low (q : ivec3) : vec3 F := vofZ3 A q.
Definition cube_high (q : ivec3) (n : nat) : vec3 F :=
  vofZ3 A (V3 (vx q + edge_len n) (vy q + edge_len n) (vz q + edge_len n)).

Definition sum3 (l : list (vec3 F)) : vec3 F :=
  fold_left (vadd3 A) l (V3 (a_ofZ A 0) (a_ofZ A 0) (a_ofZ A 0)).

(* Vertex [v], normal [nrm] and QEF state [s] of the cube of level [n] at [q].

   In a unit cell they come from the planes of the sign-changing edges of the
   cell, whichever state the solver is in before.  In a bigger cube they come from
   the states of those octants that have corners of both kinds; the error at the
   vertex does not exceed [eps]. *)
Inductive measured : ivec3 -> nat -> vec3 F -> vec3 F -> S -> Prop :=
| measured_cell : forall q es sol0 sol1 sol2 v s,
    map edge_key es = filter (edge_crosses solid) (map (cell_edge q) (zseq 0 12)) ->
    (forall e, In e es -> In e (g_edges (fst (edge_key e)) g)) ->
    qo_solve ops (fold_left (fun sol e => qo_add ops sol (surface_point E e) (surface_normal E e)) es
                    (qo_reset ops sol0)) (cube_low q) (cube_high q 0) = (sol1, v) ->
    qo_state ops sol1 = (sol2, s) ->
    measured q 0 v (normalize3 (sum3 (map (surface_normal E) es))) s
| measured_merge : forall q m (parts : list (Z * (vec3 F * vec3 F * S))) sol0 sol1 sol2 v s,
    map fst parts = filter (fun i => mixed solid (child_pos q m i) m) (zseq 0 8) ->
    (forall i v' nrm' s', In (i, (v', nrm', s')) parts -> measured (child_pos q m i) m v' nrm' s') ->
    qo_solve ops (fold_left (fun sol p => qo_merge ops sol (snd (snd p))) parts (qo_reset ops sol0))
      (cube_low q) (cube_high q (Datatypes.S m)) = (sol1, v) ->
    a_lt A eps (qo_eval ops sol1 v) = false ->
    qo_state ops sol1 = (sol2, s) ->
    measured q (Datatypes.S m) v (normalize3 (sum3 (map (fun p => snd (fst (snd p))) parts))) s.

(* A leaf of a tree with [depth] levels below the root, occupying the cube of
   level [n] at [q]. *)
Record leaf_ok (depth : nat) (simplify : bool) (l : dc_leaf F S) (q : ivec3) (n : nat) : Prop := {
  lk_depth : lf_depth l = Z.of_nat depth - Z.of_nat n;
  lk_corners : lf_corners l = Some (map (grid_material g) (cube_corners q n));
  lk_uniform : mixed solid q n = false -> uniform solid q n;
  lk_mixed : mixed solid q n = true ->
    exists v nrm s, lf_vertex l = Some v /\ lf_normal l = Some nrm /\ lf_qef l = Some s /\ measured q n v nrm s;
  lk_fine : simplify = false -> n <> O -> uniform solid q n;
  lk_simple : n <> O -> mixed solid q n = true -> two_pieces (fun i => solid (cube_corner q n i));
  lk_sheet : one_sheet (grid_material g) solid q n
}.

End Spec.

(* m_depth of the node. *)
Definition node_depth {F S} (t : otree (dc_leaf F S) Z) : Z :=
  match t with OLeaf l => lf_depth l | ONode d _ => d end.

(* Level and lower corner of the root cube. *)
Definition root_level (size : Z) : nat := Z.to_nat (Z.log2 size).

(* ---- contours ---- *)

(* Oriented triangles: 1 for the corners [x], [y], [z] in this cyclic order, -1
   for the opposite order. *)
Definition turn (x y z : Z) (t : Z * Z * Z) : Z :=
  let same := fun a b => let '(a1, a2, a3) := a in let '(b1, b2, b3) := b in (a1 =? b1) && (a2 =? b2) && (a3 =? b3) in
  if existsb (same t) [(x, y, z); (y, z, x); (z, x, y)] then 1
  else if existsb (same t) [(x, z, y); (z, y, x); (y, x, z)] then -1 else 0.
Definition turns (ts : list (Z * Z * Z)) (x y z : Z) : Z := fold_right Z.add 0 (map (turn x y z) ts).

(* The quad around an edge as two triangles with the vertices numbered [id] of
   the four cells, seen counterclockwise from the empty end of the edge. *)
Definition fan_around (id : ivec3 -> Z) (solid : ivec3 -> bool) (e : gedge) : list (Z * Z * Z) :=
  match map id (cells_around (fst e) (snd e)) with
  | [i0; i1; i2; i3] => if solid (snd e) then [(i0, i1, i2); (i0, i2, i3)] else [(i0, i2, i1); (i0, i3, i2)]
  | _ => []
  end.

(* Number of the vertex of the leaf that contains a unit cell. *)
Definition vertex_of {F S B} (n : nat) (t : otree (dc_leaf F S) B) (q c : ivec3) : Z :=
  match leaf_at n t q c with
  | Some l => match lf_id l with Some i => i | None => -1 end
  | None => -1
  end.

(* Forget the vertex numbers. *)
Definition without_id {F S} (l : dc_leaf F S) : dc_leaf F S :=
  DcLeaf (lf_depth l) (lf_vertex l) (lf_normal l) (lf_corners l) (lf_qef l) None.

(* ---- histories ---- *)

(* Grids filled from fields without NaN whose material inside is not Empty. *)
Inductive filled {E} : ugrid E -> (ivec3 -> bool) -> Prop :=
| filled_by : forall (g0 : ugrid E) f solver g calls,
    valid_size (g_size g0) -> nan_free g0 f -> solid_inside g0 f -> fill g0 f solver = Ret (g, calls) ->
    filled g (fun p => le0 E (sample g0 f p)).

(* Octrees of a size after any number of successful calls. *)
Inductive dc_reached {E Q S} (ops : qef_ops (fp_F E) Q S) (size : Z) : dc_octree E S -> Prop :=
| reached_new : forall scale t, dc_new size scale = Ret t -> dc_reached ops size t
| reached_build : forall t g solid eps simplify sol t' sol', dc_reached ops size t ->
    filled g solid -> size <= g_size g -> dc_build ops g eps simplify t sol = Ret (t', sol') -> dc_reached ops size t'
| reached_contour : forall t t' m, dc_reached ops size t -> dc_contour t = Ret (t', m) -> dc_reached ops size t'.
