(* Model of include/isomesh/data/dc_octree.hpp, dc_octree_node.hpp,
   src/data/dc_octree.cpp and src/data/dc_octree_node.cpp. *)
From Coq Require Import ZArith List Bool.
From Verif Require Import Base Arith Tables DcTables MeshModel MaterialFilterModel GridModel EdgeModel FillModel
  MCModel UdcModel OctreeModel.
Import ListNotations.
Local Open Scope Z_scope.

(* ------------------------------------------------------------------ *)
(* Traversal tables                                                    *)
(* ------------------------------------------------------------------ *)

(* edgeTable, dc_octree.cpp:49-53 *)
Definition dc_edge_table (d : axis) : list (list Z) :=
  match d with
  | AX => [[0; 4; 5; 1]; [2; 6; 7; 3]]
  | AY => [[0; 1; 3; 2]; [4; 5; 7; 6]]
  | AZ => [[0; 2; 6; 4]; [1; 3; 7; 5]]
  end.

(* subTable of edgeProc, dc_octree.cpp:62-69 *)
Definition dc_edge_sub (d : axis) : list (Z * Z) :=
  match d with
  | AX => [(0, 5); (3, 4); (0, 7); (3, 6); (1, 1); (2, 0); (1, 3); (2, 2)]
  | AY => [(0, 3); (1, 2); (3, 1); (2, 0); (0, 7); (1, 6); (3, 5); (2, 4)]
  | AZ => [(0, 6); (0, 7); (1, 4); (1, 5); (3, 2); (3, 3); (2, 0); (2, 1)]
  end.

(* cornersTable of edgeProc, dc_octree.cpp:71-75 *)
Definition dc_corners_table (d : axis) : list (Z * Z) :=
  match d with
  | AX => [(5, 7); (1, 3); (0, 2); (4, 6)]
  | AY => [(3, 7); (2, 6); (0, 4); (1, 5)]
  | AZ => [(6, 7); (4, 5); (0, 1); (2, 3)]
  end.

(* faceTableX, faceTableY, faceTableZ, dc_octree.cpp:132-134 *)
Definition dc_face_table (d : axis) : list (list Z) :=
  match d with
  | AX => [[0; 2]; [4; 6]; [5; 7]; [1; 3]]
  | AY => [[0; 4]; [1; 5]; [3; 7]; [2; 6]]
  | AZ => [[0; 1]; [2; 3]; [6; 7]; [4; 5]]
  end.

(* subTable of faceProcX, faceProcY, faceProcZ, dc_octree.cpp:137-140, 176-179, 215-218 *)
Definition dc_face_sub (d : axis) : list (Z * Z) :=
  match d with
  | AX => [(0, 2); (0, 3); (1, 0); (1, 1); (0, 6); (0, 7); (1, 4); (1, 5)]
  | AY => [(0, 4); (0, 5); (0, 6); (0, 7); (1, 0); (1, 1); (1, 2); (1, 3)]
  | AZ => [(0, 1); (1, 0); (0, 3); (1, 2); (0, 5); (1, 4); (0, 7); (1, 6)]
  end.

(* The calls of faceProcX :155-173, faceProcY :194-212, faceProcZ :233-251 *)
Definition dc_face_calls (d : axis) : list pcall :=
  map (PFace d) (dc_face_table d) ++
  match d with
  | AX => map (PEdge AY) (dc_edge_table AY) ++ map (PEdge AZ) (dc_edge_table AZ)
  | AY => map (PEdge AX) (dc_edge_table AX) ++ map (PEdge AZ) (dc_edge_table AZ)
  | AZ => map (PEdge AX) (dc_edge_table AX) ++ map (PEdge AY) (dc_edge_table AY)
  end.

(* The calls of cellProc after those for the children, dc_octree.cpp:263-275 *)
Definition dc_cell_calls : list pcall :=
  flat_map (fun i => [PFace AX (tab [] (dc_face_table AX) i); PFace AY (tab [] (dc_face_table AY) i);
                      PFace AZ (tab [] (dc_face_table AZ) i)]) (zseq 0 4) ++
  flat_map (fun i => [PEdge AX (tab [] (dc_edge_table AX) i); PEdge AY (tab [] (dc_edge_table AY) i);
                      PEdge AZ (tab [] (dc_edge_table AZ) i)]) (zseq 0 2).

Definition dc_procs : procs := Procs dc_edge_sub dc_edge_table dc_face_sub dc_face_calls dc_cell_calls.

(* ------------------------------------------------------------------ *)
(* Topological safety                                                  *)
(* ------------------------------------------------------------------ *)

(* dcToMc, dc_octree.cpp:419 *)
Definition dc_to_mc (i : Z) : Z := tab 0 [0; 3; 1; 2; 4; 7; 5; 6] i.

(* CubeMaterials, dc_octree.hpp:52: entry [y][x][z] of the 3 x 3 x 3 array is
   number (3 y + x) 3 + z of a list *)
Definition cube_index (y x z : Z) : Z := (3 * y + x) * 3 + z.
Definition cube_at (mats : list material) (y x z : Z) : material := tab Empty mats (cube_index y x z).

(* The masks of :438-444 and :447-454; [base] is kCellCornerOffset[i] or zero,
   [scale] is 1 or 2 *)
Definition topo_mask (mats : list material) (base : ivec3) (scale : Z) : Z :=
  fold_left (fun mask j =>
    let pos := vadd base (vscale scale (corner_offset j)) in
    if is_solid (cube_at mats (vy pos) (vx pos) (vz pos)) then Z.lor mask (Z.shiftl 1 (dc_to_mc j)) else mask)
    (zseq 0 8) 0.

Definition is_manifold (mask : Z) : bool := tab false isManifold mask.

Definition differs_both (m a b : material) : bool := negb (m =? a) && negb (m =? b).
Definition differs_all (m a b c d : material) : bool :=
  negb (m =? a) && negb (m =? b) && negb (m =? c) && negb (m =? d).

(* :460-469 for one pair (c1, c2) *)
Definition edge_mid_bad (mats : list material) (c1 c2 : Z) : bool :=
  let at' := cube_at mats in
  differs_both (at' 1 c1 c2) (at' 0 c1 c2) (at' 2 c1 c2)
  || differs_both (at' c1 1 c2) (at' c1 0 c2) (at' c1 2 c2)
  || differs_both (at' c1 c2 1) (at' c1 c2 0) (at' c1 c2 2).

(* :471-482 for one c1 *)
Definition face_mid_bad (mats : list material) (c1 : Z) : bool :=
  let at' := cube_at mats in
  differs_all (at' 1 1 c1) (at' 0 0 c1) (at' 0 2 c1) (at' 2 0 c1) (at' 2 2 c1)
  || differs_all (at' 1 c1 1) (at' 0 c1 0) (at' 0 c1 2) (at' 2 c1 0) (at' 2 c1 2)
  || differs_all (at' c1 1 1) (at' c1 0 0) (at' c1 0 2) (at' c1 2 0) (at' c1 2 2).

(* checkTopoSafety, dc_octree.cpp:418-491 *)
Definition check_topo_safety (mats : list material) : bool :=
  if negb (is_manifold (topo_mask mats (V3 0 0 0) 2)) then false
  else if negb (forallb (fun i => is_manifold (topo_mask mats (corner_offset i) 1)) (zseq 0 8)) then false
  else if existsb (fun c1 => existsb (edge_mid_bad mats c1) (zseq 0 3)) (zseq 0 3) then false
  else if existsb (face_mid_bad mats) (zseq 0 3) then false
  else existsb (fun i => let pos := vscale 2 (corner_offset i) in
         cube_at mats 1 1 1 =? cube_at mats (vy pos) (vx pos) (vz pos)) (zseq 0 8).

(* ------------------------------------------------------------------ *)
(* Nodes                                                               *)
(* ------------------------------------------------------------------ *)

(* The operations of QefSolver3D (qef_solver_3d.hpp) used by the octree; [Q] is
   the solver with its options, [S] is QefSolver3D::State.  solve and state may
   change the solver. *)
Record qef_ops (F Q S : Type) := QefOps {
  qo_reset : Q -> Q;
  qo_add : Q -> vec3 F -> vec3 F -> Q;
  qo_merge : Q -> S -> Q;
  qo_solve : Q -> vec3 F -> vec3 F -> Q * vec3 F;
  qo_eval : Q -> vec3 F -> F;
  qo_state : Q -> Q * S
}.
Arguments qo_reset {F Q S}.
Arguments qo_add {F Q S}.
Arguments qo_merge {F Q S}.
Arguments qo_solve {F Q S}.
Arguments qo_eval {F Q S}.
Arguments qo_state {F Q S}.

(* leaf_data of DC_OctreeNode, dc_octree_node.hpp:31-37, and m_depth, :42.
   [None]: the member has not been written since the node became a leaf. *)
Record dc_leaf (F S : Type) := DcLeaf {
  lf_depth : Z;
  lf_vertex : option (vec3 F);
  lf_normal : option (vec3 F);
  lf_corners : option (list material);
  lf_qef : option S;
  lf_id : option Z
}.
Arguments DcLeaf {F S}.
Arguments lf_depth {F S}.
Arguments lf_vertex {F S}.
Arguments lf_normal {F S}.
Arguments lf_corners {F S}.
Arguments lf_qef {F S}.
Arguments lf_id {F S}.

Section DC.
Variable E : fpenv.
Variables Q S : Type.
Variable ops : qef_ops (fp_F E) Q S.
Notation F := (fp_F E).
Notation A := (fp_f E).

(* inner nodes keep m_depth *)
Definition dc_tree := otree (dc_leaf F S) Z.

(* The constructor dc_octree_node.cpp:11-14 with the given depth *)
Definition dc_fresh (depth : Z) : dc_leaf F S := DcLeaf depth None None None None None.

(* subdivide, dc_octree_node.cpp:21-29, without failing allocations
   (DcHeap.v has those) *)
Definition dc_subdivide (t : dc_tree) : outcome dc_tree :=
  match t with
  | ONode _ _ => Throw LogicError
  | OLeaf l => Ret (ONode (lf_depth l) (map (fun _ => OLeaf (dc_fresh (i16 (lf_depth l + 1)))) (zseq 0 8)))
  end.

(* collapse, dc_octree_node.cpp:31-39; the children share their storage with
   leaf_data, so nothing is known about leaf_data afterwards *)
Definition dc_collapse (t : dc_tree) : outcome (dc_leaf F S) :=
  match t with
  | OLeaf _ => Throw LogicError
  | ONode depth _ => Ret (dc_fresh depth)
  end.

(* isHomogenous, dc_octree_node.cpp:41-52, on the corners of a leaf *)
Definition corners_homogenous (cs : list material) : bool :=
  let '(all_air, all_solid) := fold_left (fun '(air, sol) m =>
    if m =? Empty then (air, false) else (false, sol)) cs (true, true) in
  all_air || all_solid.
Definition leaf_homogenous (l : dc_leaf F S) : outcome bool :=
  cs <- oread (lf_corners l) ;; Ret (corners_homogenous cs).

(* ------------------------------------------------------------------ *)
(* Building                                                            *)
(* ------------------------------------------------------------------ *)

(* BuildArgs, dc_octree.hpp:45-50, without the solver *)
Record dc_args := DcArgs { da_grid : ugrid E; da_eps : F; da_simplify : bool }.

(* edge_table of buildLeaf, dc_octree.cpp:381-385 *)
Definition dc_leaf_edges : list (axis * (Z * Z)) :=
  map (pair AX) [(0, 2); (1, 3); (4, 6); (5, 7)] ++
  map (pair AY) [(0, 4); (1, 5); (2, 6); (3, 7)] ++
  map (pair AZ) [(0, 1); (2, 3); (4, 5); (6, 7)].

Definition zero3 : vec3 F := V3 (a_ofZ A 0) (a_ofZ A 0) (a_ofZ A 0).

(* The loop body :388-405; the state is (has_edges, avg_normal, solver) *)
Definition leaf_edge_step (g : ugrid E) (q : ivec3) (corners : list material)
    (st : bool * vec3 F * Q) (de : axis * (Z * Z)) : outcome (bool * vec3 F * Q) :=
  let '(has, avg, sol) := st in
  let '(d, (c1, c2)) := de in
  mat1 <- oread (znth corners c1) ;;
  mat2 <- oread (znth corners c2) ;;
  if mat1 =? mat2 then Ret st
  else if is_solid mat1 && is_solid mat2 then Ret st
  else
    let pos := vadd q (corner_offset c1) in
    it <- find_edge (g_edges d g) (vx pos) (vy pos) (vz pos) ;;
    _ <- oassert (negb (it =? zlen (g_edges d g))) ;;
    e <- oread (znth (g_edges d g) it) ;;
    Ret (true, vadd3 A avg (surface_normal E e), qo_add ops sol (surface_point E e) (surface_normal E e)).

(* lower_bound (min_corner), upper_bound (min_corner + size), :352-353, :411-412 *)
Definition upper_corner (q : ivec3) (size : Z) : ivec3 := V3 (vx q + size) (vy q + size) (vz q + size).

(* buildLeaf, dc_octree.cpp:370-416; [l] is the node before the call *)
Definition build_leaf (args : dc_args) (l : dc_leaf F S) (q : ivec3) (size : Z) (sol : Q)
  : outcome (dc_leaf F S * Q) :=
  let g := da_grid args in
  let sol := qo_reset ops sol in
  c <- point_to_index (g_size g) q ;;
  corners <- materials_of_cell (g_size g) (g_mat g) c ;;
  '(has, avg, sol) <- ofold (leaf_edge_step g q corners) dc_leaf_edges (false, zero3, sol) ;;
  if has : bool then
    let '(sol, v) := qo_solve ops sol (vofZ3 A q) (vofZ3 A (upper_corner q size)) in
    let '(sol, s) := qo_state ops sol in
    Ret (DcLeaf (lf_depth l) (Some v) (Some (normalize3 avg)) (Some corners) (Some s) (lf_id l), sol)
  else Ret (DcLeaf (lf_depth l) (lf_vertex l) (lf_normal l) (Some corners) (lf_qef l) (lf_id l), sol).

(* The array mats, :340-347: 64 writes into an uninitialised array, read as a
   whole afterwards *)
Definition cube_materials (corners : list (list material)) : outcome (list material) :=
  arr <- ofold (fun arr ij =>
      let '(i, j) := ij : Z * Z in
      cs <- oread (znth corners i) ;;
      m <- oread (znth cs j) ;;
      let o := vadd (corner_offset i) (corner_offset j) in
      Ret (set_nth arr (Z.to_nat (cube_index (vy o) (vx o) (vz o))) (Some m)))
    (flat_map (fun i => map (pair i) (zseq 0 8)) (zseq 0 8)) (map (fun _ => None) (zseq 0 27)) ;;
  omap oread arr.

(* The loop :351-356 *)
Definition merge_step (st : vec3 F * Q) (l : dc_leaf F S) : outcome (vec3 F * Q) :=
  let '(avg, sol) := st in
  h <- leaf_homogenous l ;;
  if h : bool then Ret st
  else
    n <- oread (lf_normal l) ;;
    s <- oread (lf_qef l) ;;
    Ret (vadd3 A avg n, qo_merge ops sol s).

(* buildNode after the children are built, :322-367.  A subdivided child ends
   the loop :325-332 at once; the other iterations only read. *)
Definition try_simplify (args : dc_args) (node : dc_tree) (q : ivec3) (size : Z) (sol : Q)
  : outcome (dc_tree * Q) :=
  match node with
  | OLeaf _ => UB
  | ONode depth cs =>
      if existsb is_subdivided cs then Ret (node, sol)
      else
        leaves <- omap leaf_data cs ;;
        homs <- omap leaf_homogenous leaves ;;
        all_corners <- omap (fun l => oread (lf_corners l)) leaves ;;
        corners <- omap (fun i => cs <- oread (znth all_corners i) ;; oread (znth cs i)) (zseq 0 8) ;;
        if forallb (fun h => h) homs then
          l <- dc_collapse node ;;
          Ret (OLeaf (DcLeaf (lf_depth l) (lf_vertex l) (lf_normal l) (Some corners) (lf_qef l) (lf_id l)), sol)
        else if negb (da_simplify args) then Ret (node, sol)
        else
          mats <- cube_materials all_corners ;;
          if negb (check_topo_safety mats) then Ret (node, sol)
          else
            '(avg, sol) <- ofold merge_step leaves (zero3, qo_reset ops sol) ;;
            let '(sol, v) := qo_solve ops sol (vofZ3 A q) (vofZ3 A (upper_corner q size)) in
            if a_lt A (da_eps args) (qo_eval ops sol v) then Ret (node, sol)
            else
              l <- dc_collapse node ;;
              let '(sol, s) := qo_state ops sol in
              Ret (OLeaf (DcLeaf (lf_depth l) (Some v) (Some (normalize3 avg)) (Some corners) (Some s) (lf_id l)), sol)
  end.

(* buildNode, dc_octree.cpp:307-368 *)
Fixpoint build_node (fuel : nat) (args : dc_args) (node : dc_tree) (q : ivec3) (size : Z) (sol : Q)
  : outcome (dc_tree * Q) :=
  match fuel with
  | O => NoFuel
  | Datatypes.S fuel' =>
      if size =? 1 then
        l <- leaf_data node ;;
        '(l, sol) <- build_leaf args l q size sol ;;
        Ret (OLeaf l, sol)
      else
        node <- dc_subdivide node ;;
        let child_size := Z.quot size 2 in
        '(cs, sol) <- ofold (fun st i =>
            let '(cs, sol) := st : list dc_tree * Q in
            c <- child node i ;;
            '(c, sol) <- build_node fuel' args c (vadd q (vscale child_size (corner_offset i))) child_size sol ;;
            Ret (cs ++ [c], sol)) (zseq 0 8) ([], sol) ;;
        match node with
        | OLeaf _ => UB
        | ONode depth _ => try_simplify args (ONode depth cs) q size sol
        end
  end.

(* class DC_Octree, dc_octree.hpp:20-58; m_globalPos only goes into the mesh *)
Record dc_octree := DcOctree { ot_scale : fp_D E; ot_size : Z; ot_root : dc_tree }.

(* The constructor, dc_octree.cpp:15-19; root_size is an int32_t *)
Definition dc_new (size : Z) (scale : fp_D E) : outcome dc_octree :=
  if (size <=? 0) || negb (Z.land size (size - 1) =? 0) then Throw InvalidArgument
  else Ret (DcOctree scale size (OLeaf (dc_fresh 0))).

(* The recursion is as deep as the size has halves. *)
Definition dc_fuel (size : Z) : nat := Datatypes.S (Z.to_nat (Z.log2 size)).

(* min_corner, dc_octree.cpp:34 *)
Definition dc_min_corner (size : Z) : ivec3 := let m := Z.quot (- size) 2 in V3 m m m.

(* build, dc_octree.cpp:21-42; the handler is modelled in DcHeap.v *)
Definition dc_build (g : ugrid E) (eps : F) (simplify : bool) (t : dc_octree) (sol : Q) : outcome (dc_octree * Q) :=
  let scaled := a_div A eps (fp_narrow E (a_mul (fp_d E) (ot_scale t) (ot_scale t))) in
  root <- (if is_subdivided (ot_root t) then l <- dc_collapse (ot_root t) ;; Ret (OLeaf l) else Ret (ot_root t)) ;;
  '(root, sol) <- build_node (dc_fuel (ot_size t)) (DcArgs g scaled simplify) root
                    (dc_min_corner (ot_size t)) (ot_size t) sol ;;
  Ret (DcOctree (ot_scale t) (ot_size t) root, sol).

(* ------------------------------------------------------------------ *)
(* Contouring                                                          *)
(* ------------------------------------------------------------------ *)

(* makeVertices, dc_octree.cpp:278-295 *)
Definition make_vertex (l : dc_leaf F S) (m : mesh (mvert F)) : outcome (dc_leaf F S * mesh (mvert F)) :=
  h <- leaf_homogenous l ;;
  if h : bool then
    Ret (DcLeaf (lf_depth l) (lf_vertex l) (lf_normal l) (lf_corners l) (lf_qef l) (Some u32max), m)
  else
    v <- oread (lf_vertex l) ;;
    n <- oread (lf_normal l) ;;
    cs <- oread (lf_corners l) ;;
    '(m, id) <- mesh_add_vertex m (MVert v n (fast_select (fast_add_all fast_new cs))) ;;
    Ret (DcLeaf (lf_depth l) (lf_vertex l) (lf_normal l) (lf_corners l) (lf_qef l) (Some id), m).

Fixpoint make_vertices (fuel : nat) (t : dc_tree) (m : mesh (mvert F)) : outcome (dc_tree * mesh (mvert F)) :=
  match fuel with
  | O => NoFuel
  | Datatypes.S fuel' =>
      match t with
      | OLeaf l => '(l, m) <- make_vertex l m ;; Ret (OLeaf l, m)
      | ONode depth _ =>
          '(cs, m) <- ofold (fun st i =>
              let '(cs, m) := st : list dc_tree * mesh (mvert F) in
              c <- child t i ;;
              '(c, m) <- make_vertices fuel' c m ;;
              Ret (cs ++ [c], m)) (zseq 0 8) ([], m) ;;
          Ret (ONode depth cs, m)
      end
  end.

(* The loop :109-115: materials at the ends of the edge, taken from the first
   of the deepest nodes *)
Definition deepest_step (d : axis) (leaves : list (dc_leaf F S)) (st : Z * material * material) (i : Z)
  : outcome (Z * material * material) :=
  let '(max_depth, mat1, mat2) := st in
  l <- oread (znth leaves i) ;;
  if lf_depth l >? max_depth then
    ends <- oread (znth (dc_corners_table d) i) ;;
    cs <- oread (lf_corners l) ;;
    mat1 <- oread (znth cs (fst ends)) ;;
    mat2 <- oread (znth cs (snd ends)) ;;
    Ret (lf_depth l, mat1, mat2)
  else Ret st.

(* edgeProc on four leaves, dc_octree.cpp:104-130 *)
Definition dc_act (d : axis) (leaves : list (dc_leaf F S)) (m : mesh (mvert F)) : outcome (mesh (mvert F)) :=
  '(_, mat1, mat2) <- ofold (deepest_step d leaves) (zseq 0 4) (-1, Empty, Empty) ;;
  if mat1 =? mat2 then Ret m
  else if is_solid mat1 && is_solid mat2 then Ret m
  else
    let flip := mat1 =? Empty in
    ids <- omap (fun i => l <- oread (znth leaves i) ;; oread (lf_id l)) (zseq 0 4) ;;
    match ids with
    | [id0; id1; id2; id3] =>
        if negb flip then
          m <- mesh_add_triangle m id0 id1 id2 ;;
          mesh_add_triangle m id0 id2 id3
        else
          m <- mesh_add_triangle m id0 id2 id1 ;;
          mesh_add_triangle m id0 id3 id2
    | _ => UB
    end.

(* contour, dc_octree.cpp:299-305; it writes the vertex numbers into the tree *)
Definition dc_contour (t : dc_octree) : outcome (dc_octree * mesh (mvert F)) :=
  '(root, m) <- make_vertices (dc_fuel (ot_size t)) (ot_root t) mesh_new ;;
  m <- cell_proc dc_procs dc_act (dc_fuel (ot_size t)) root m ;;
  Ret (DcOctree (ot_scale t) (ot_size t) root, m).

End DC.
Arguments DcArgs {E}.
Arguments da_grid {E}.
Arguments da_eps {E}.
Arguments da_simplify {E}.
Arguments leaf_homogenous {E S}.
Arguments dc_subdivide {E S}.
Arguments dc_collapse {E S}.
Arguments leaf_edge_step {E Q S} ops.
Arguments build_leaf {E Q S} ops.
Arguments merge_step {E Q S} ops.
Arguments try_simplify {E Q S} ops.
Arguments build_node {E Q S} ops.
Arguments DcOctree {E S}.
Arguments ot_scale {E S}.
Arguments ot_size {E S}.
Arguments ot_root {E S}.
Arguments dc_new {E S}.
Arguments dc_build {E Q S} ops.
Arguments make_vertex {E S}.
Arguments make_vertices {E S}.
Arguments deepest_step {E S}.
Arguments dc_act {E S}.
Arguments dc_contour {E S}.
