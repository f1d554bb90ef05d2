(* Model of src/algo/marching_cubes.cpp. *)
From Coq Require Import ZArith List Bool.
From Verif Require Import Base Arith Tables MeshModel GridModel EdgeModel FillModel.
Import ListNotations.
Local Open Scope Z_scope.

(* Vertex of a mesh, include/isomesh/data/mesh.hpp:26-35 *)
Record mvert (F : Type) := MVert { mv_pos : vec3 F; mv_normal : vec3 F; mv_mat : material }.
Arguments MVert {F}.
Arguments mv_pos {F}.
Arguments mv_normal {F}.
Arguments mv_mat {F}.

(* EdgeEntry, marching_cubes.cpp:16-27: (cellIndex, vertexIndex) *)
Definition entry := (Z * Z)%type.
Definition entry_less (a b : entry) : bool := fst a <? fst b.

(* if (cells[k] != kBadIndex) cell_edges_k.emplace_back (cells[k], vertex_idx) *)
Definition push (c v : Z) (l : list entry) : list entry :=
  if c =? kBadIndex then l else l ++ [(c, v)].

(* Bit mask of the positions satisfying [f]: mask |= uint32_t (1 << i) for
   i = i0, i0 + 1, ... *)
Fixpoint mask_from {A} (f : A -> bool) (i : Z) (l : list A) : Z :=
  match l with
  | [] => 0
  | a :: l' => Z.lor (if f a then Z.shiftl 1 i else 0) (mask_from f (i + 1) l')
  end.

(* getVertexMask, marching_cubes.cpp:29-36 *)
Definition get_vertex_mask (size : Z) (mat : mat_array) (cell_idx : Z) : outcome Z :=
  mats <- materials_of_cell size mat cell_idx ;;
  Ret (mask_from is_solid 0 mats).

Section MC.
Variable E : fpenv.
Notation F := (fp_F E).

(* marching_cubes.cpp:49-51 *)
Definition edge_vertex (e : uedge F) : mvert F :=
  MVert (surface_point E e) (surface_normal E e) (solid_material e).

(* Mesh and the vectors cell_edges_0, ..., cell_edges_3 *)
Definition collect_state := (mesh (mvert F) * list entry * list entry * list entry * list entry)%type.

(* The loop body of collectCellEdges<D>, marching_cubes.cpp:47-64 *)
Definition collect_step (d : axis) (size : Z) (st : collect_state) (e : uedge F) : outcome collect_state :=
  let '(m, l0, l1, l2, l3) := st in
  '(m', v) <- mesh_add_vertex m (edge_vertex e) ;;
  cells <- adjacent_cells_for_edge d size (lesser_endpoint e) ;;
  match cells with
  | [c0; c1; c2; c3] => Ret (m', push c0 v l0, push c1 v l1, push c2 v l2, push c3 v l3)
  | _ => UB
  end.

(* collectCellEdges<D>, marching_cubes.cpp:38-65 *)
Definition collect_cell_edges (d : axis) (g : ugrid E) (m : mesh (mvert F)) : outcome collect_state :=
  ofold (collect_step d (g_size g)) (g_edges d g) (m, [], [], [], []).

(* marching_cubes.cpp:86-89; glm::min (x, y) is (y < x) ? y : x *)
Definition heads_min (ls : list (list entry)) : Z :=
  fold_left (fun m l => match l with [] => m | (c, _) :: _ => if c <? m then c else m end) ls kBadIndex.

(* marching_cubes.cpp:97-102 for one list: vertex_idx[i] (None: not
   initialised) and the advanced iterator *)
Definition take_head (c : Z) (l : list entry) : option Z * list entry :=
  match l with
  | (c', v) :: l' => if c' =? c then (Some v, l') else (None, l)
  | [] => (None, [])
  end.

(* vertex_idx[i]: out of bounds or uninitialised elements are undefined *)
Definition read_vertex (vidx : list (option Z)) (i : Z) : outcome Z :=
  o <- oread (znth vidx i) ;; oread o.

(* marching_cubes.cpp:106-111 on the remainder of the table row *)
Fixpoint mc_triangles {V} (row : list Z) (vidx : list (option Z)) (m : mesh V) : outcome (mesh V) :=
  match row with
  | [] => UB
  | i1 :: row1 =>
      if i1 =? -1 then Ret m
      else match row1 with
           | i2 :: i3 :: row' =>
               a <- read_vertex vidx i1 ;;
               b <- read_vertex vidx i2 ;;
               c <- read_vertex vidx i3 ;;
               m' <- mesh_add_triangle m a b c ;;
               mc_triangles row' vidx m'
           | _ => UB
           end
  end.

Definition is_some {A} (o : option A) : bool := match o with Some _ => true | None => false end.

(* marching_cubes.cpp:104-111 *)
Definition mc_cell {V} (size : Z) (mat : mat_array) (cell_idx : Z) (vidx : list (option Z)) (m : mesh V)
  : outcome (mesh V) :=
  let edge_mask := mask_from is_some 0 vidx in
  vertex_mask <- get_vertex_mask size mat cell_idx ;;
  expected_mask <- oread (znth kMcVertexMaskToEdgeMask vertex_mask) ;;
  _ <- oassert (edge_mask =? expected_mask) ;;
  row <- oread (znth kMcTriangleTable vertex_mask) ;;
  mc_triangles row vidx m.

(* The loop of marching_cubes.cpp:85-112 over [ls], the unprocessed parts of
   the twelve sorted vectors *)
Fixpoint mc_loop {M} (proc : Z -> list (option Z) -> M -> outcome M) (fuel : nat) (ls : list (list entry)) (m : M)
  : outcome M :=
  match fuel with
  | O => NoFuel
  | S fuel' =>
      let c := heads_min ls in
      if c =? kBadIndex then Ret m
      else
        m' <- proc c (map (fun l => fst (take_head c l)) ls) m ;;
        mc_loop proc fuel' (map (fun l => snd (take_head c l)) ls) m'
  end.

Definition total_length {A} (ls : list (list A)) : nat := fold_right (fun l n => (length l + n)%nat) O ls.

(* marchingCubes, marching_cubes.cpp:71-116.  [sort] is std::sort with
   operator <.  The copies of global position and scale are left out, see
   MeshModel.v. *)
Definition marching_cubes (sort : list entry -> list entry) (g : ugrid E) : outcome (mesh (mvert F)) :=
  '(m, x0, x1, x2, x3) <- collect_cell_edges AX g mesh_new ;;
  '(m, y0, y1, y2, y3) <- collect_cell_edges AY g m ;;
  '(m, z0, z1, z2, z3) <- collect_cell_edges AZ g m ;;
  let cell_edges := [x2; x1; x3; x0; y2; y3; y1; y0; z2; z3; z1; z0] in
  let sorted := map sort cell_edges in
  mc_loop (mc_cell (g_size g) (g_mat g)) (S (total_length sorted)) sorted m.

End MC.
Arguments edge_vertex {E}.
Arguments marching_cubes {E}.
Arguments collect_cell_edges {E}.
Arguments collect_step {E}.
