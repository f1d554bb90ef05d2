(* Model of src/algo/uniform_dual_contouring.cpp. *)
From Coq Require Import ZArith List Bool.
From Verif Require Import Base Arith MeshModel MaterialFilterModel GridModel EdgeModel FillModel MCModel.
Import ListNotations.
Local Open Scope Z_scope.

(* Split off the longest prefix satisfying [f]. *)
Fixpoint span {A} (f : A -> bool) (l : list A) : list A * list A :=
  match l with
  | [] => ([], [])
  | a :: l' => if f a then let '(p, r) := span f l' in (a :: p, r) else ([], l)
  end.

Section UDC.
Variable E : fpenv.
Notation F := (fp_F E).
Notation A := (fp_f E).

(* QefSolver3D between reset () and solve (): the planes added, in order, and
   the bounds determine the answer (QefModel.v has the solver itself).  Pairs of
   point and normal. *)
Definition qef_solver := list (vec3 F * vec3 F) -> vec3 F -> vec3 F -> vec3 F.

(* EdgeEntry, uniform_dual_contouring.cpp:16-27: cell index and edge *)
Definition dc_entry := (Z * uedge F)%type.
Definition dc_less (a b : dc_entry) : bool := fst a <? fst b.

(* collectCellEdges<D>, :56-67 *)
Definition dc_collect_step (d : axis) (size : Z) (acc : list dc_entry) (e : uedge F) : outcome (list dc_entry) :=
  cells <- adjacent_cells_for_edge d size (lesser_endpoint e) ;;
  Ret (fold_left (fun acc c => if c =? kBadIndex then acc else acc ++ [(c, e)]) cells acc).
Definition dc_collect (d : axis) (g : ugrid E) (acc : list dc_entry) : outcome (list dc_entry) :=
  ofold (dc_collect_step d (g_size g)) (g_edges d g) acc.

(* glm::normalize (v) is v * inversesqrt (dot (v, v)) and inversesqrt (x) is 1 / sqrt (x) *)
Definition normalize3 (v : vec3 F) : vec3 F :=
  vscale3 A v (a_div A (a_ofZ A 1) (a_sqrt A (dot3 A v v))).

(* The do-while loop :37-43 over one group: planes and sum of normals *)
Definition plane_of (e : uedge F) : vec3 F * vec3 F := (surface_point E e, surface_normal E e).
Definition sum_normals (es : list (uedge F)) : vec3 F :=
  fold_left (fun s e => vadd3 A s (surface_normal E e)) es (V3 (a_ofZ A 0) (a_ofZ A 0) (a_ofZ A 0)).

(* glm::vec3 upper_bound = lower_bound + 1.0f, :45 *)
Definition plus_one (v : vec3 F) : vec3 F := vadd3 A v (V3 (a_ofZ A 1) (a_ofZ A 1) (a_ofZ A 1)).

(* :33-51 for one group of entries; the ids are the array dual_vertex_ids *)
Definition dual_vertex (qef : qef_solver) (lower : ivec3) (es : list (uedge F)) (mats : list material) : mvert F :=
  let lo := vofZ3 A lower in
  MVert (qef (map plane_of es) lo (plus_one lo)) (normalize3 (sum_normals es))
        (fast_select (fast_add_all fast_new mats)).

Definition dc_group (qef : qef_solver) (g : ugrid E) (c : Z) (es : list (uedge F))
    (st : mesh (mvert F) * (Z -> option Z)) : outcome (mesh (mvert F) * (Z -> option Z)) :=
  let '(m, ids) := st in
  lower <- index_to_point (g_size g) c ;;
  mats <- materials_of_cell (g_size g) (g_mat g) c ;;
  '(m', v) <- mesh_add_vertex m (dual_vertex qef lower es mats) ;;
  ids' <- array_write (data_size (g_size g)) ids c v ;;
  Ret (m', ids').

(* generateDualVertices, :29-53 *)
Fixpoint dc_groups (proc : Z -> list (uedge F) -> (mesh (mvert F) * (Z -> option Z)) ->
      outcome (mesh (mvert F) * (Z -> option Z)))
    (fuel : nat) (l : list dc_entry) (st : mesh (mvert F) * (Z -> option Z))
  : outcome (mesh (mvert F) * (Z -> option Z)) :=
  match l with
  | [] => Ret st
  | (c, _) :: _ =>
      match fuel with
      | O => NoFuel
      | S fuel' =>
          let '(grp, rest) := span (fun x => fst x =? c) l in
          st' <- proc c (map snd grp) st ;;
          dc_groups proc fuel' rest st'
      end
  end.

(* The loop body of generateQuads<D>, :71-94 *)
Definition quad_step (d : axis) (size : Z) (ids : Z -> option Z) (m : mesh (mvert F)) (e : uedge F)
  : outcome (mesh (mvert F)) :=
  cells <- adjacent_cells_for_edge d size (lesser_endpoint e) ;;
  match cells with
  | [c0; c1; c2; c3] =>
      if (c0 =? kBadIndex) || (c1 =? kBadIndex) || (c2 =? kBadIndex) || (c3 =? kBadIndex) then Ret m
      else
        v0 <- oread (ids c0) ;;
        v1 <- oread (ids c1) ;;
        v2 <- oread (ids c2) ;;
        v3 <- oread (ids c3) ;;
        _ <- oassert (negb (v0 =? kBadIndex) && negb (v1 =? kBadIndex) &&
                      negb (v2 =? kBadIndex) && negb (v3 =? kBadIndex)) ;;
        let flip := negb (is_lesser_solid e) in
        if negb flip then
          m <- mesh_add_triangle m v0 v1 v3 ;;
          mesh_add_triangle m v1 v2 v3
        else
          m <- mesh_add_triangle m v0 v3 v1 ;;
          mesh_add_triangle m v1 v3 v2
  | _ => UB
  end.

(* generateQuads<D>, :69-95 *)
Definition generate_quads (d : axis) (g : ugrid E) (ids : Z -> option Z) (m : mesh (mvert F))
  : outcome (mesh (mvert F)) :=
  ofold (quad_step d (g_size g) ids) (g_edges d g) m.

(* dualContouring, :101-124; [sort] is std::sort with operator < *)
Definition dual_contouring (sort : list dc_entry -> list dc_entry) (qef : qef_solver) (g : ugrid E)
  : outcome (mesh (mvert F)) :=
  l <- dc_collect AX g [] ;;
  l <- dc_collect AY g l ;;
  l <- dc_collect AZ g l ;;
  let sorted := sort l in
  let n := data_size (g_size g) in
  let ids := fun i => if (0 <=? i) && (i <? n) then Some kBadIndex else None in
  '(m, ids) <- dc_groups (dc_group qef g) (length sorted) sorted (mesh_new, ids) ;;
  m <- generate_quads AX g ids m ;;
  m <- generate_quads AY g ids m ;;
  generate_quads AZ g ids m.

End UDC.
Arguments dc_less {E}.
Arguments dc_collect {E}.
Arguments dc_collect_step {E}.
Arguments dual_vertex {E}.
Arguments dc_group {E}.
Arguments dc_groups {E}.
Arguments quad_step {E}.
Arguments generate_quads {E}.
Arguments dual_contouring {E}.
Arguments plane_of {E}.
Arguments normalize3 {E}.
Arguments sum_normals {E}.
