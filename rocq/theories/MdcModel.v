(* Model of include/isomesh/data/mdc_octree.hpp, mdc_octree_node.hpp,
   src/data/mdc_octree.cpp and src/data/mdc_octree_node.cpp. *)
From Coq Require Import ZArith List Bool.
From Verif Require Import Base Arith Tables GridSpec MeshModel MaterialFilterModel GridModel EdgeModel FillModel
  MCModel UdcModel DsuModel OctreeModel DcModel.
Import ListNotations.
Local Open Scope Z_scope.

(* ------------------------------------------------------------------ *)
(* Traversal tables                                                    *)
(* ------------------------------------------------------------------ *)

(* callSubEdgeProc, callSubClusterEdge, mdc_octree.cpp:69-76, 183-190 *)
Definition mdc_edge_calls (d : axis) : list (list Z) := tab [] kEdgeProcCallTable (axis_index d).
(* callSubFaceProc, callSubClusterFace, :78-83, 192-197 *)
Definition mdc_face_calls (d : axis) : list pcall := map (PFace d) (tab [] kFaceProcCallTable (axis_index d)).

(* edgeProc, faceProc and cellProc, :85-140, and clusterEdge, clusterFace and
   clusterCell, :199-257, make the same calls *)
Definition mdc_procs : procs := Procs
  (fun d => pairs_of (tab [] kEdgeProcChildTable (axis_index d)))
  mdc_edge_calls
  (fun d => pairs_of (tab [] kFaceProcChildTable (axis_index d)))
  (fun d => mdc_face_calls d ++ map (PEdge (next_axis d)) (mdc_edge_calls (next_axis d)) ++
            map (PEdge (next_axis (next_axis d))) (mdc_edge_calls (next_axis (next_axis d))))
  (mdc_face_calls AX ++ mdc_face_calls AY ++ mdc_face_calls AZ ++
   map (PEdge AX) (mdc_edge_calls AX) ++ map (PEdge AY) (mdc_edge_calls AY) ++ map (PEdge AZ) (mdc_edge_calls AZ)).

(* ------------------------------------------------------------------ *)
(* Vertices                                                            *)
(* ------------------------------------------------------------------ *)

(* struct MDC_Vertex, mdc_octree_node.hpp:16-32.  Pointers are addresses.  m_qef
   is [None] as long as it is not initialised; m_surfaceIdx is [None] for kBadIndex (the
   number of vertices is assumed to fit uint32_t, cf. DsuModel.v). *)
Record mdc_vertex (F S : Type) := MdcVertex {
  xv_pos : vec3 F;
  xv_normal : vec3 F;
  xv_mat : material;
  xv_collapsible : bool;
  xv_error : F;
  xv_parent : option Z;
  xv_index : Z;
  xv_surface : option nat;
  xv_qef : option S
}.
Arguments MdcVertex {F S}.
Arguments xv_pos {F S}.
Arguments xv_normal {F S}.
Arguments xv_mat {F S}.
Arguments xv_collapsible {F S}.
Arguments xv_error {F S}.
Arguments xv_parent {F S}.
Arguments xv_index {F S}.
Arguments xv_surface {F S}.
Arguments xv_qef {F S}.

(* Vertices by address; addresses from [vs_next] on have not been used yet. *)
Record vstore (V : Type) := VStore { vs_at : Z -> option V; vs_next : Z }.
Arguments VStore {V}.
Arguments vs_at {V}.
Arguments vs_next {V}.

Definition vs_empty {V} : vstore V := VStore (fun _ => None) 0.
(* Access through a dangling pointer is undefined. *)
Definition vs_read {V} (st : vstore V) (a : Z) : outcome V := oread (vs_at st a).
Definition vs_write {V} (st : vstore V) (a : Z) (v : V) : outcome (vstore V) :=
  _ <- vs_read st a ;; Ret (VStore (fun b => if b =? a then Some v else vs_at st b) (vs_next st)).
(* Destruction of some vertices *)
Definition vs_delete {V} (st : vstore V) (as_ : list Z) : vstore V :=
  VStore (fun b => if existsb (Z.eqb b) as_ then None else vs_at st b) (vs_next st).
(* std::vector<MDC_Vertex>::resize.  The elements may move when the vector
   grows; the model always moves them, so that pointers to them dangle. *)
Definition vs_resize {V} (fresh : V) (st : vstore V) (as_ : list Z) (n : nat) : vstore V * list Z :=
  let st' := vs_delete st as_ in
  let item k := match nth_error as_ k with Some a => vs_at st a | None => Some fresh end in
  (VStore (fun b => if (vs_next st <=? b) && (b <? vs_next st + Z.of_nat n) then item (Z.to_nat (b - vs_next st)) else vs_at st' b)
     (vs_next st + Z.of_nat n),
   zseq (vs_next st) n).

(* Leaves and inner nodes of struct MDC_OctreeNode, mdc_octree_node.hpp:34-66:
   m_depth, m_vertexMask, m_corners (not written: [None]), m_vertices.
   m_isSubtreeCollapsed is not used by the library. *)
Record mdc_leaf := MdcLeaf { ml_depth : Z; ml_mask : Z; ml_corners : option (list material); ml_verts : list Z }.
Record mdc_inner := MdcInner { mi_depth : Z; mi_mask : Z; mi_verts : list Z }.
Definition mdc_tree := otree mdc_leaf mdc_inner.

Definition node_verts (t : mdc_tree) : list Z := match t with OLeaf l => ml_verts l | ONode b _ => mi_verts b end.
(* Addresses of all vertices of a subtree *)
Fixpoint tree_verts (t : mdc_tree) : list Z :=
  match t with OLeaf l => ml_verts l | ONode b cs => mi_verts b ++ flat_map tree_verts cs end.

(* A new node, mdc_octree_node.hpp:56-65, with the given m_depth *)
Definition mdc_fresh (depth : Z) : mdc_leaf := MdcLeaf depth 0 None [].

(* subdivide, mdc_octree_node.cpp:60-68 *)
Definition mdc_subdivide (t : mdc_tree) : outcome mdc_tree :=
  match t with
  | ONode _ _ => Ret t
  | OLeaf l =>
      _ <- oassert (negb (ml_depth l =? 255)) ;;
      Ret (ONode (MdcInner (ml_depth l) (ml_mask l) (ml_verts l)) (map (fun _ => OLeaf (mdc_fresh (ml_depth l + 1))) (zseq 0 8)))
  end.

(* collapse, mdc_octree_node.cpp:70-76; the children are destroyed together with
   their vertices, the node keeps its own *)
Definition mdc_collapse {V} (t : mdc_tree) (st : vstore V) : mdc_leaf * vstore V :=
  match t with
  | OLeaf l => (l, st)
  | ONode b cs => (MdcLeaf (mi_depth b) (mi_mask b) None (mi_verts b), vs_delete st (flat_map tree_verts cs))
  end.

Section MDC.
Variable E : fpenv.
Variables Q S : Type.
Variable ops : qef_ops (fp_F E) Q S.
Notation F := (fp_F E).
Notation A := (fp_f E).
Notation xvertex := (mdc_vertex F S).
Notation store := (vstore xvertex).

(* Default member initialisers, mdc_octree_node.hpp:17-25 *)
Definition fresh_vertex : xvertex :=
  MdcVertex (zero3 E) (zero3 E) Empty true (a_ofZ A (-1)) None kBadIndex None None.

(* highestAncestor, mdc_octree_node.cpp:10-15, 28-33 *)
Fixpoint highest_ancestor (fuel : nat) (st : store) (a : Z) : outcome Z :=
  match fuel with
  | O => NoFuel
  | Datatypes.S fuel' =>
      v <- vs_read st a ;;
      match xv_parent v with
      | Some b => highest_ancestor fuel' st b
      | None => Ret a
      end
  end.

(* The loop of highestCollapsibleAncestor, mdc_octree_node.cpp:17-26, 35-44; [p] is v *)
Fixpoint collapsible_loop (fuel : nat) (st : store) (result : option Z) (p : option Z) : outcome (option Z) :=
  match fuel with
  | O => NoFuel
  | Datatypes.S fuel' =>
      match p with
      | None => Ret result
      | Some b =>
          v <- vs_read st b ;;
          collapsible_loop fuel' st (if xv_collapsible v then Some b else result) (xv_parent v)
      end
  end.
Definition highest_collapsible_ancestor (fuel : nat) (st : store) (a : Z) : outcome (option Z) :=
  v <- vs_read st a ;;
  collapsible_loop fuel st (if xv_collapsible v then Some a else None) (xv_parent v).

(* hasCollapsibleAncestor, mdc_octree_node.cpp:46-54 *)
Fixpoint has_collapsible_loop (fuel : nat) (st : store) (p : option Z) : outcome bool :=
  match fuel with
  | O => NoFuel
  | Datatypes.S fuel' =>
      match p with
      | None => Ret false
      | Some b =>
          v <- vs_read st b ;;
          if xv_collapsible v then Ret true else has_collapsible_loop fuel' st (xv_parent v)
      end
  end.

(* ------------------------------------------------------------------ *)
(* Leaves                                                              *)
(* ------------------------------------------------------------------ *)

(* solver[4], filter[4], avg_normal[4] of buildLeaf, mdc_octree.cpp:352-358, for
   one index; solver, filter, avg_normal of clusterCell likewise *)
Record gather := Gather { ga_sol : Q; ga_filter : fast_filter; ga_normal : vec3 F }.

(* storages[d], mdc_octree.cpp:363-365 *)
Definition storage_axis (d : Z) : axis := match d with 0 => AX | 1 => AY | _ => AZ end.

(* kMdcEdgeSetIndex[mask][i] *)
Definition edge_set (mask i : Z) : outcome Z := row <- oread (znth kMdcEdgeSetIndex mask) ;; oread (znth row i).

(* The loop body mdc_octree.cpp:367-386; the state is (surface_cnt, the four
   gathers, corner_used) *)
Definition mdc_edge_step (g : ugrid E) (q : ivec3) (mask : Z) (st : Z * list gather * list bool) (i : Z)
  : outcome (Z * list gather * list bool) :=
  let '(cnt, gs, used) := st in
  idx <- edge_set mask i ;;
  if idx <? 0 then Ret st
  else
    let d := storage_axis (tab 0 kCellEdgeDirection i) in
    ends <- oread (znth kCellEdgeEndpoint i) ;;
    c0 <- oread (znth ends 0) ;;
    c1 <- oread (znth ends 1) ;;
    let pos := vadd q (corner_offset c0) in
    it <- find_edge (g_edges d g) (vx pos) (vy pos) (vz pos) ;;
    _ <- oassert (negb (it =? zlen (g_edges d g))) ;;
    e <- oread (znth (g_edges d g) it) ;;
    ga <- oread (znth gs idx) ;;
    let corner := if is_lesser_solid e then c0 else c1 in
    u <- oread (znth used corner) ;;
    let ga' := Gather (qo_add ops (ga_sol ga) (surface_point E e) (surface_normal E e))
                 (if u : bool then ga_filter ga else fast_add (ga_filter ga) (solid_material e))
                 (vadd3 A (ga_normal ga) (surface_normal E e)) in
    Ret (Z.max cnt (idx + 1), set_nth gs (Z.to_nat idx) ga', set_nth used (Z.to_nat corner) true).

(* The members written by :286-291 and :391-396 *)
Definition solve_vertex (q : ivec3) (size : Z) (ga : gather) (v : xvertex) : xvertex :=
  let '(sol, p) := qo_solve ops (ga_sol ga) (vofZ3 A q) (vofZ3 A (upper_corner q size)) in
  let err := qo_eval ops sol p in
  let '(_, s) := qo_state ops sol in
  MdcVertex p (normalize3 (ga_normal ga)) (fast_select (ga_filter ga)) (xv_collapsible v) err (xv_parent v)
    (xv_index v) (xv_surface v) (Some s).

(* The loops :285-292 and :390-397 *)
Definition solve_vertices (q : ivec3) (size : Z) (gs : list gather) (as_ : list Z) (st : store) : outcome store :=
  ofold (fun st i =>
    ga <- oread (znth gs i) ;;
    a <- oread (znth as_ i) ;;
    v <- vs_read st a ;;
    vs_write st a (solve_vertex q size ga v)) (zseq 0 (length as_)) st.

(* buildLeaf, mdc_octree.cpp:340-398 *)
Definition mdc_build_leaf (g : ugrid E) (l : mdc_leaf) (q : ivec3) (size : Z) (st : store) (sol : Q)
  : outcome (mdc_leaf * store * Q) :=
  c <- point_to_index (g_size g) q ;;
  corners <- materials_of_cell (g_size g) (g_mat g) c ;;
  let mask := mask_from is_solid 0 corners in
  let sol := qo_reset ops sol in
  '(cnt, gs, _) <- ofold (mdc_edge_step g q mask) (zseq 0 12)
     (0, map (fun _ => Gather sol fast_new (zero3 E)) (zseq 0 4), map (fun _ => false) (zseq 0 8)) ;;
  let '(st, as_) := vs_resize fresh_vertex st (ml_verts l) (Z.to_nat cnt) in
  st <- solve_vertices q size gs as_ st ;;
  Ret (MdcLeaf (ml_depth l) mask (Some corners) as_, st, sol).

(* buildNode, mdc_octree.cpp:326-338 *)
Fixpoint mdc_build_node (fuel : nat) (g : ugrid E) (node : mdc_tree) (q : ivec3) (size : Z) (st : store) (sol : Q)
  : outcome (mdc_tree * store * Q) :=
  match fuel with
  | O => NoFuel
  | Datatypes.S fuel' =>
      if size =? 1 then
        l <- leaf_data node ;;
        '(l, st, sol) <- mdc_build_leaf g l q size st sol ;;
        Ret (OLeaf l, st, sol)
      else
        node <- mdc_subdivide node ;;
        let child_size := Z.quot size 2 in
        '(cs, st, sol) <- ofold (fun acc i =>
            let '(cs, st, sol) := acc : list mdc_tree * store * Q in
            c <- child node i ;;
            '(c, st, sol) <- mdc_build_node fuel' g c (vadd q (vscale child_size (corner_offset i))) child_size st sol ;;
            Ret (cs ++ [c], st, sol)) (zseq 0 8) ([], st, sol) ;;
        match node with
        | OLeaf _ => UB
        | ONode b _ => Ret (ONode b cs, st, sol)
        end
  end.

(* ------------------------------------------------------------------ *)
(* Clustering                                                          *)
(* ------------------------------------------------------------------ *)

(* dsu and vertices of clusterCell, mdc_octree.cpp:250-251 *)
Record cluster := Cluster { cl_store : store; cl_dsu : dsu; cl_verts : list Z }.

(* m_surfaceIdx = value *)
Definition set_surface (v : xvertex) (s : option nat) : xvertex :=
  MdcVertex (xv_pos v) (xv_normal v) (xv_mat v) (xv_collapsible v) (xv_error v) (xv_parent v) (xv_index v) s (xv_qef v).
Definition set_parent (v : xvertex) (p : option Z) : xvertex :=
  MdcVertex (xv_pos v) (xv_normal v) (xv_mat v) (xv_collapsible v) (xv_error v) p (xv_index v) (xv_surface v) (xv_qef v).
Definition set_contour (v : xvertex) (c : bool) (i : Z) : xvertex :=
  MdcVertex (xv_pos v) (xv_normal v) (xv_mat v) c (xv_error v) (xv_parent v) i (xv_surface v) (xv_qef v).

(* The leaf vertex at edge kEdgeProcSharedEdge[D][i] of node i, :29-31, 168-170;
   [None]: the condition of the return statement holds *)
Definition shared_vertex (d : axis) (leaves : list mdc_leaf) (i : Z) : outcome (option Z) :=
  l <- oread (znth leaves i) ;;
  row <- oread (znth kEdgeProcSharedEdge (axis_index d)) ;;
  e <- oread (znth row i) ;;
  idx <- edge_set (ml_mask l) e ;;
  if (idx <? 0) || (zlen (ml_verts l) <=? idx) then Ret None
  else a <- oread (znth (ml_verts l) idx) ;; Ret (Some a).

(* The loop body :168-176; the state has the vertices found so far, or [None] after the
   return statement *)
Definition cluster_step (fuel : nat) (d : axis) (leaves : list mdc_leaf) (acc : cluster * option (list Z)) (i : Z)
  : outcome (cluster * option (list Z)) :=
  let '(c, found) := acc in
  match found with
  | None => Ret acc
  | Some vs =>
      o <- shared_vertex d leaves i ;;
      match o with
      | None => Ret (c, None)
      | Some a =>
          h <- highest_ancestor fuel (cl_store c) a ;;
          v <- vs_read (cl_store c) h ;;
          match xv_surface v with
          | Some _ => Ret (c, Some (vs ++ [h]))
          | None =>
              let '(d', k) := dsu_add_set (cl_dsu c) in
              st <- vs_write (cl_store c) h (set_surface v (Some k)) ;;
              Ret (Cluster st d' (cl_verts c ++ [h]), Some (vs ++ [h]))
          end
      end
  end.

Definition surface_of (st : store) (a : Z) : outcome nat := v <- vs_read st a ;; oread (xv_surface v).

(* clusterEdgeLeaves, :164-181 *)
Definition cluster_edge_leaves (fuel : nat) (d : axis) (leaves : list mdc_leaf) (c : cluster) : outcome cluster :=
  '(c, found) <- ofold (cluster_step fuel d leaves) (zseq 0 4) (c, Some []) ;;
  match found with
  | None => Ret c
  | Some vs =>
      ks <- omap (surface_of (cl_store c)) vs ;;
      match ks with
      | [k0; k1; k2; k3] =>
          u <- dsu_merge (cl_dsu c) k0 k1 ;;
          u <- dsu_merge u k2 k3 ;;
          u <- dsu_merge u k0 k2 ;;
          Ret (Cluster (cl_store c) u (cl_verts c))
      | _ => UB
      end
  end.

(* The loop :260-267; the state is (dsu, new_cnt, set_idx); [None] is kBadIndex *)
Definition set_idx_step (acc : dsu * nat * list (option nat)) (i : nat) : outcome (dsu * nat * list (option nat)) :=
  let '(u, cnt, si) := acc in
  '(u, leader) <- dsu_leader u i ;;
  o <- oread (nth_error si leader) ;;
  let '(cnt, si) := match o with Some _ => (cnt, si) | None => (Datatypes.S cnt, set_nth si leader (Some cnt)) end in
  o <- oread (nth_error si leader) ;;
  Ret (u, cnt, set_nth si i o).

(* The loop body :276-281; the state is (store, gathers) *)
Definition adopt_step (si : list (option nat)) (as_ : list Z) (acc : store * list gather) (a : Z) : outcome (store * list gather) :=
  let '(st, gs) := acc in
  v <- vs_read st a ;;
  k <- oread (xv_surface v) ;;
  o <- oread (nth_error si k) ;;
  idx <- oread o ;;
  ga <- oread (nth_error gs idx) ;;
  s <- oread (xv_qef v) ;;
  p <- oread (nth_error as_ idx) ;;
  st <- vs_write st a (set_parent (set_surface v None) (Some p)) ;;
  Ret (st, set_nth gs idx (Gather (qo_merge ops (ga_sol ga) s) (fast_add (ga_filter ga) (xv_mat v)) (vadd3 A (ga_normal ga) (xv_normal v)))).

(* clusterCell, mdc_octree.cpp:239-293 *)
Fixpoint cluster_cell (fuel afuel : nat) (t : mdc_tree) (q : ivec3) (size : Z) (st : store) (sol : Q)
  : outcome (mdc_tree * store * Q) :=
  match fuel with
  | O => NoFuel
  | Datatypes.S fuel' =>
      match t with
      | OLeaf _ => Ret (t, st, sol)
      | ONode b _ =>
          let sub_size := Z.quot size 2 in
          '(sub, st, sol) <- ofold (fun acc i =>
              let '(cs, st, sol) := acc : list mdc_tree * store * Q in
              c <- child t i ;;
              '(c, st, sol) <- cluster_cell fuel' afuel c (vadd q (vscale sub_size (corner_offset i))) sub_size st sol ;;
              Ret (cs ++ [c], st, sol)) (zseq 0 8) ([], st, sol) ;;
          c <- run_calls mdc_procs (cluster_edge_leaves afuel) fuel' sub (pr_cell_calls mdc_procs) (Cluster st (dsu_new 0) []) ;;
          let n := dsu_count (cl_dsu c) in
          '(_, new_cnt, si) <- ofold set_idx_step (seq 0 n) (cl_dsu c, O, repeat None n) ;;
          let '(st, as_) := vs_resize fresh_vertex (cl_store c) (mi_verts b) new_cnt in
          let sol := qo_reset ops sol in
          '(st, gs) <- ofold (adopt_step si as_) (cl_verts c) (st, repeat (Gather sol fast_new (zero3 E)) new_cnt) ;;
          st <- solve_vertices q size gs as_ st ;;
          Ret (ONode (MdcInner (mi_depth b) (mi_mask b) as_) sub, st, sol)
      end
  end.

(* class MDC_Octree, mdc_octree.hpp:20-48; m_globalPos only goes into the mesh *)
Record mdc_octree := MdcOctree { mo_scale : fp_D E; mo_size : Z; mo_root : mdc_tree; mo_store : store }.

(* The constructor, mdc_octree.cpp:14-18 *)
Definition mdc_new (size : Z) (scale : fp_D E) : outcome mdc_octree :=
  if (size <=? 0) || negb (Z.land size (size - 1) =? 0) then Throw InvalidArgument
  else Ret (MdcOctree scale size (OLeaf (mdc_fresh 0)) vs_empty).

(* build, mdc_octree.cpp:299-312, without failing allocations *)
Definition mdc_build (g : ugrid E) (t : mdc_octree) (sol : Q) : outcome (mdc_octree * Q) :=
  let '(l, st) := mdc_collapse (mo_root t) (mo_store t) in
  let q := dc_min_corner (mo_size t) in
  let fuel := dc_fuel (mo_size t) in
  '(root, st, sol) <- mdc_build_node fuel g (OLeaf l) q (mo_size t) st sol ;;
  '(root, st, sol) <- cluster_cell fuel fuel root q (mo_size t) st sol ;;
  Ret (MdcOctree (mo_scale t) (mo_size t) root st, sol).

(* ------------------------------------------------------------------ *)
(* Contouring                                                          *)
(* ------------------------------------------------------------------ *)

(* The loop body of addVerticesToMesh, mdc_octree.cpp:143-155 *)
Definition add_vertex_step (afuel : nat) (leaf : bool) (eps : F) (acc : store * mesh (mvert F)) (a : Z)
  : outcome (store * mesh (mvert F)) :=
  let '(st, m) := acc in
  v <- vs_read st a ;;
  let collapsible := if leaf then true else a_le A (xv_error v) eps in
  anc <- (if collapsible then has_collapsible_loop afuel st (xv_parent v) else Ret true) ;;
  if collapsible && negb anc then
    '(m, id) <- mesh_add_vertex m (MVert (xv_pos v) (xv_normal v) (xv_mat v)) ;;
    st <- vs_write st a (set_contour v collapsible id) ;;
    Ret (st, m)
  else
    st <- vs_write st a (set_contour v collapsible kBadIndex) ;;
    Ret (st, m).

(* addVerticesToMesh, mdc_octree.cpp:142-159 *)
Fixpoint add_vertices (fuel afuel : nat) (eps : F) (t : mdc_tree) (st : store) (m : mesh (mvert F))
  : outcome (store * mesh (mvert F)) :=
  match fuel with
  | O => NoFuel
  | Datatypes.S fuel' =>
      acc <- ofold (add_vertex_step afuel (negb (is_subdivided t)) eps) (node_verts t) (st, m) ;;
      if is_subdivided t then
        ofold (fun acc i =>
          let '(st, m) := acc : store * mesh (mvert F) in
          c <- child t i ;;
          add_vertices fuel' afuel eps c st m) (zseq 0 8) acc
      else Ret acc
  end.

(* The loop body :29-35 of edgeProcLeaves; the state has the vertices found so far, or
   [None] after a return statement *)
Definition contour_vertex (afuel : nat) (d : axis) (st : store) (leaves : list mdc_leaf) (found : option (list Z)) (i : Z)
  : outcome (option (list Z)) :=
  match found with
  | None => Ret None
  | Some vs =>
      o <- shared_vertex d leaves i ;;
      match o with
      | None => Ret None
      | Some a =>
          h <- highest_collapsible_ancestor afuel st a ;;
          match h with
          | None => Ret None
          | Some b => Ret (Some (vs ++ [b]))
          end
      end
  end.

(* deepest_idx, :41-48; the state is (max_depth, deepest_idx) *)
Definition mdc_deepest (leaves : list mdc_leaf) : outcome Z :=
  l0 <- oread (znth leaves 0) ;;
  '(_, i) <- ofold (fun acc i =>
      l <- oread (znth leaves i) ;;
      Ret (if ml_depth l >? fst acc then (ml_depth l, i) else acc)) (zseq 1 3) (ml_depth l0, 0) ;;
  Ret i.

(* edgeProcLeaves, mdc_octree.cpp:25-67 *)
Definition mdc_act (afuel : nat) (st : store) (d : axis) (leaves : list mdc_leaf) (m : mesh (mvert F)) : outcome (mesh (mvert F)) :=
  found <- ofold (contour_vertex afuel d st leaves) (zseq 0 4) (Some []) ;;
  match found with
  | None => Ret m
  | Some vs =>
      i <- mdc_deepest leaves ;;
      row <- oread (znth kEdgeProcSharedEdge (axis_index d)) ;;
      e <- oread (znth row i) ;;
      l <- oread (znth leaves i) ;;
      ends <- oread (znth kCellEdgeEndpoint e) ;;
      k <- oread (znth ends 0) ;;
      cs <- oread (ml_corners l) ;;
      mat <- oread (znth cs k) ;;
      let flip := mat =? Empty in
      ids <- omap (fun a => v <- vs_read st a ;; Ret (xv_index v)) vs ;;
      match ids with
      | [id0; id1; id2; id3] =>
          if negb flip then
            m <- mesh_add_triangle m id0 id1 id2 ;;
            mesh_add_triangle m id0 id2 id3
          else
            m <- mesh_add_triangle m id0 id2 id1 ;;
            mesh_add_triangle m id0 id3 id2
      | _ => UB
      end
  end.

(* contour, mdc_octree.cpp:314-324 *)
Definition mdc_contour (eps : F) (t : mdc_octree) : outcome (mdc_octree * mesh (mvert F)) :=
  let scaled := a_div A eps (fp_narrow E (a_mul (fp_d E) (mo_scale t) (mo_scale t))) in
  let fuel := dc_fuel (mo_size t) in
  '(st, m) <- add_vertices fuel fuel scaled (mo_root t) (mo_store t) mesh_new ;;
  m <- cell_proc mdc_procs (mdc_act fuel st) fuel (mo_root t) m ;;
  Ret (MdcOctree (mo_scale t) (mo_size t) (mo_root t) st, m).

End MDC.
Arguments fresh_vertex {E S}.
Arguments highest_ancestor {E S}.
Arguments collapsible_loop {E S}.
Arguments highest_collapsible_ancestor {E S}.
Arguments has_collapsible_loop {E S}.
Arguments Gather {E Q}.
Arguments ga_sol {E Q}.
Arguments ga_filter {E Q}.
Arguments ga_normal {E Q}.
Arguments mdc_edge_step {E Q S} ops.
Arguments solve_vertex {E Q S} ops.
Arguments solve_vertices {E Q S} ops.
Arguments mdc_build_leaf {E Q S} ops.
Arguments mdc_build_node {E Q S} ops.
Arguments Cluster {E S}.
Arguments cl_store {E S}.
Arguments cl_dsu {E S}.
Arguments cl_verts {E S}.
Arguments set_surface {E S}.
Arguments set_parent {E S}.
Arguments set_contour {E S}.
Arguments cluster_step {E S}.
Arguments surface_of {E S}.
Arguments cluster_edge_leaves {E S}.
Arguments adopt_step {E Q S} ops.
Arguments cluster_cell {E Q S} ops.
Arguments MdcOctree {E S}.
Arguments mo_scale {E S}.
Arguments mo_size {E S}.
Arguments mo_root {E S}.
Arguments mo_store {E S}.
Arguments mdc_new {E S}.
Arguments mdc_build {E Q S} ops.
Arguments add_vertex_step {E S}.
Arguments add_vertices {E S}.
Arguments contour_vertex {E S}.
Arguments mdc_act {E S}.
Arguments mdc_contour {E S}.
