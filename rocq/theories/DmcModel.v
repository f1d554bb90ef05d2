(* Model of include/isomesh/data/dmc_octree.hpp, dmc_octree_node.hpp,
   src/data/dmc_octree.cpp and src/data/dmc_octree_node.cpp. *)
From Coq Require Import ZArith List Bool.
From Verif Require Import Base Arith Tables MeshModel GridModel EdgeModel FillModel MCModel UdcModel OctreeModel DcModel
  QefModel.
Import ListNotations.
Local Open Scope Z_scope.

(* ------------------------------------------------------------------ *)
(* The traversal                                                       *)
(* ------------------------------------------------------------------ *)

(* edgeTableX, edgeTableY, edgeTableZ, dmc_octree.cpp:113-115 *)
Definition dmc_edge_table (d : axis) : list (list Z) :=
  match d with
  | AX => [[0; 4; 5; 1]; [2; 6; 7; 3]]
  | AY => [[0; 1; 3; 2]; [4; 5; 7; 6]]
  | AZ => [[0; 2; 6; 4]; [1; 3; 7; 5]]
  end.

(* subTable of edgeProcX, edgeProcY, edgeProcZ, dmc_octree.cpp:118-121, 146-149, 174-177 *)
Definition dmc_edge_sub (d : axis) : list (Z * Z) :=
  match d with
  | AX => [(0, 5); (3, 4); (0, 7); (3, 6); (1, 1); (2, 0); (1, 3); (2, 2)]
  | AY => [(0, 3); (1, 2); (3, 1); (2, 0); (0, 7); (1, 6); (3, 5); (2, 4)]
  | AZ => [(0, 6); (0, 7); (1, 4); (1, 5); (3, 2); (3, 3); (2, 0); (2, 1)]
  end.

(* faceTableX, faceTableY, faceTableZ, dmc_octree.cpp:201-203 *)
Definition dmc_face_table (d : axis) : list (list Z) :=
  match d with
  | AX => [[0; 2]; [4; 6]; [5; 7]; [1; 3]]
  | AY => [[0; 4]; [1; 5]; [3; 7]; [2; 6]]
  | AZ => [[0; 1]; [2; 3]; [6; 7]; [4; 5]]
  end.

(* subTable of faceProcX, faceProcY, faceProcZ, dmc_octree.cpp:206-209, 247-250, 287-290 *)
Definition dmc_face_sub (d : axis) : list (Z * Z) :=
  match d with
  | AX => [(0, 2); (0, 3); (1, 0); (1, 1); (0, 6); (0, 7); (1, 4); (1, 5)]
  | AY => [(0, 4); (0, 5); (0, 6); (0, 7); (1, 0); (1, 1); (1, 2); (1, 3)]
  | AZ => [(0, 1); (1, 0); (0, 3); (1, 2); (0, 5); (1, 4); (0, 7); (1, 6)]
  end.

(* child 7 - i of node i in vertProc, dmc_octree.cpp:67 *)
Definition dmc_vert_sub : list (Z * Z) := map (fun i => (i, 7 - i)) (zseq 0 8).

(* { sub[0], ..., sub[7] } *)
Definition all_eight : list Z := zseq 0 8.

(* A call of faceProc, edgeProc or vertProc on some of the eight sub-nodes *)
Inductive vcall := VFace (d : axis) (ix : list Z) | VEdge (d : axis) (ix : list Z) | VVert.

(* The calls of edgeProcX, ... (dmc_octree.cpp:135-142 etc.), of faceProcX (:223-242), faceProcY
   (:264-283), faceProcZ (:304-323) and of cellProc (:335-348) in their order *)
Definition dmc_edge_calls (d : axis) : list vcall := map (VEdge d) (dmc_edge_table d) ++ [VVert].
Definition dmc_face_calls (d : axis) : list vcall :=
  let '(d1, d2) := match d with AX => (AY, AZ) | AY => (AX, AZ) | AZ => (AX, AY) end in
  map (VFace d) (dmc_face_table d) ++ map (VEdge d1) (dmc_edge_table d1) ++ map (VEdge d2) (dmc_edge_table d2) ++ [VVert].
Definition dmc_cell_calls : list vcall :=
  flat_map (fun i => map (fun d => VFace d (nth i (dmc_face_table d) [])) [AX; AY; AZ]) [0; 1; 2; 3]%nat ++
  flat_map (fun i => map (fun d => VEdge d (nth i (dmc_edge_table d) [])) [AX; AY; AZ]) [0; 1]%nat ++ [VVert].

Section Traverse.
Variables A B St : Type.
(* What vertProc does with eight leaves. *)
Variable act : list A -> St -> outcome St.
Notation tree := (otree A B).

(* vertProc, dmc_octree.cpp:59-111 *)
Fixpoint vert_proc (fuel : nat) (nodes : list tree) (st : St) : outcome St :=
  match fuel with
  | O => NoFuel
  | S fuel' =>
      sub <- omap (sub_of nodes) dmc_vert_sub ;;
      if some_subdivided nodes dmc_vert_sub then vert_proc fuel' sub st
      else
        leaves <- omap leaf_data sub ;;
        act leaves st
  end.

(* edgeProcX, edgeProcY, edgeProcZ, dmc_octree.cpp:117-199 *)
Fixpoint vedge_proc (fuel : nat) (d : axis) (nodes : list tree) (st : St) : outcome St :=
  match fuel with
  | O => NoFuel
  | S fuel' =>
      sub <- omap (sub_of nodes) (dmc_edge_sub d) ;;
      if some_subdivided nodes (dmc_edge_sub d) then
        ofold (fun st c =>
          match c with
          | VEdge d' ix => q <- pick sub ix ;; vedge_proc fuel' d' q st
          | VVert => q <- pick sub all_eight ;; vert_proc fuel' q st
          | VFace _ _ => UB
          end) (dmc_edge_calls d) st
      else Ret st
  end.

(* faceProcX, faceProcY, faceProcZ, dmc_octree.cpp:205-324 *)
Fixpoint vface_proc (fuel : nat) (d : axis) (nodes : list tree) (st : St) : outcome St :=
  match fuel with
  | O => NoFuel
  | S fuel' =>
      sub <- omap (sub_of nodes) (dmc_face_sub d) ;;
      if some_subdivided nodes (dmc_face_sub d) then
        ofold (fun st c =>
          match c with
          | VFace d' ix => q <- pick sub ix ;; vface_proc fuel' d' q st
          | VEdge d' ix => q <- pick sub ix ;; vedge_proc fuel' d' q st
          | VVert => q <- pick sub all_eight ;; vert_proc fuel' q st
          end) (dmc_face_calls d) st
      else Ret st
  end.

(* cellProc, dmc_octree.cpp:326-349 *)
Fixpoint vcell_proc (fuel : nat) (t : tree) (st : St) : outcome St :=
  match fuel with
  | O => NoFuel
  | S fuel' =>
      match t with
      | OLeaf _ => Ret st
      | ONode _ cs =>
          sub <- pick cs all_eight ;;
          st <- ofold (fun st c => vcell_proc fuel' c st) sub st ;;
          ofold (fun st c =>
            match c with
            | VFace d' ix => q <- pick sub ix ;; vface_proc fuel' d' q st
            | VEdge d' ix => q <- pick sub ix ;; vedge_proc fuel' d' q st
            | VVert => q <- pick sub all_eight ;; vert_proc fuel' q st
            end) dmc_cell_calls st
      end
  end.
End Traverse.
Arguments vert_proc {A B St}.
Arguments vedge_proc {A B St}.
Arguments vface_proc {A B St}.
Arguments vcell_proc {A B St}.

(* ------------------------------------------------------------------ *)
(* Nodes                                                               *)
(* ------------------------------------------------------------------ *)

(* DMC_OctreeNode, dmc_octree_node.hpp:14-29: dualVertex (as position and w), normal and material,
   None while not initialised, and the address of the node.  Only leaves have data in the
   model: contour does not read the data of inner nodes. *)
Record dmc_leaf (F : Type) := DmcLeaf {
  dn_addr : Z; dn_dual : option (vec3 F * F); dn_normal : option (vec3 F); dn_mat : option material }.
Arguments DmcLeaf {F}.
Arguments dn_addr {F}.
Arguments dn_dual {F}.
Arguments dn_normal {F}.
Arguments dn_mat {F}.

(* The constructor, dmc_octree_node.cpp:10-11: only children is initialised *)
Definition dmc_fresh {F} (addr : Z) : dmc_leaf F := DmcLeaf addr None None None.

Section DMC.
Variable E : fpenv.
Notation F := (fp_F E).
Notation D := (fp_D E).
Notation A := (fp_f E).
Notation AD := (fp_d E).
Notation dmc_tree := (otree (dmc_leaf F) unit).

(* ------------------------------------------------------------------ *)
(* Contouring                                                          *)
(* ------------------------------------------------------------------ *)

(* VertexMap, dmc_octree.cpp:52-53, as a list of keys and numbers *)
Definition vertex_map := list ((Z * Z) * Z).
Definition key_eqb (a b : Z * Z) : bool := (fst a =? fst b) && (snd a =? snd b).
Definition vm_find (m : vertex_map) (k : Z * Z) : option Z := option_map snd (find (fun e => key_eqb (fst e) k) m).

(* std::minmax (a, b) is (b < a) ? (b, a) : (a, b); the order of pointers is the order of
   addresses *)
Definition node_key (a b : Z) : Z * Z := if b <? a then (b, a) else (a, b).

(* lerp, dmc_octree.cpp:55-57 *)
Definition lerp1 (a w_a b w_b : F) : F := a_div A (a_add A (a_mul A a w_b) (a_mul A b w_a)) (a_add A w_a w_b).
Definition lerp3 (a : vec3 F) (w_a : F) (b : vec3 F) (w_b : F) : vec3 F :=
  V3 (lerp1 (vx a) w_a (vx b) w_b) (lerp1 (vy a) w_a (vy b) w_b) (lerp1 (vz a) w_a (vz b) w_b).

(* dmc_octree.cpp:94-98: the vertex between two nodes *)
Definition dmc_vertex (n1 n2 : dmc_leaf F) : outcome (mvert F) :=
  d1 <- oread (dn_dual n1) ;;
  d2 <- oread (dn_dual n2) ;;
  let w1 := a_abs A (snd d1) in
  let w2 := a_abs A (snd d2) in
  let point := lerp3 (fst d1) w1 (fst d2) w2 in
  nr1 <- oread (dn_normal n1) ;;
  nr2 <- oread (dn_normal n2) ;;
  let normal := normalize3 (lerp3 nr1 w1 nr2 w2) in
  m1 <- oread (dn_mat n1) ;;
  mat <- (if m1 =? Empty then oread (dn_mat n2) else Ret m1) ;;
  Ret (MVert point normal mat).

(* The state of contour: vtx_map and mesh *)
Definition dmc_state := (vertex_map * mesh (mvert F))%type.

(* One iteration of dmc_octree.cpp:85-104; the last component is edge_vertex *)
Definition dmc_edge_step (leaves : list (dmc_leaf F)) (edge_mask : Z) (st : dmc_state * list Z) (i : Z)
  : outcome (dmc_state * list Z) :=
  let '(vm, m, ev) := st in
  if Z.testbit edge_mask i then
    ends <- oread (znth kCellEdgeEndpoint i) ;;
    match ends with
    | [i1; i2] =>
        n1 <- oread (znth leaves i1) ;;
        n2 <- oread (znth leaves i2) ;;
        let key := node_key (dn_addr n1) (dn_addr n2) in
        match vm_find vm key with
        | Some idx => Ret (vm, m, ev ++ [idx])
        | None =>
            v <- dmc_vertex n1 n2 ;;
            '(m, idx) <- mesh_add_vertex m v ;;
            Ret (vm ++ [(key, idx)], m, ev ++ [idx])
        end
    | _ => UB
    end
  else Ret (vm, m, ev ++ [kBadIndex]).

(* dmc_octree.cpp:76-110 *)
Definition dmc_inside (w : F) : bool := a_le A w (a_ofZ A 0).
Definition dmc_act (leaves : list (dmc_leaf F)) (st : dmc_state) : outcome dmc_state :=
  ws <- omap (fun n => d <- oread (dn_dual n) ;; Ret (snd d)) leaves ;;
  let vertex_mask := mask_from dmc_inside 0 ws in
  edge_mask <- oread (znth kMcVertexMaskToEdgeMask vertex_mask) ;;
  '(vm, m, ev) <- ofold (dmc_edge_step leaves edge_mask) (zseq 0 12) (st, []) ;;
  row <- oread (znth kMcTriangleTable vertex_mask) ;;
  m <- mc_triangles row (map Some ev) m ;;
  Ret (vm, m).

(* class DMC_Octree, dmc_octree.hpp:33-37 *)
Record dmc_octree := DmcOctree { dt_pos : vec3 D; dt_scale : D; dt_size : Z; dt_root : dmc_tree }.

(* contour, dmc_octree.cpp:355-362; global position and scale of the mesh are left out *)
Definition dmc_contour (t : dmc_octree) : outcome (mesh (mvert F)) :=
  '(_, m) <- vcell_proc dmc_act (dc_fuel (dt_size t)) (dt_root t) ([], mesh_new) ;;
  Ret m.

(* ------------------------------------------------------------------ *)
(* Building                                                            *)
(* ------------------------------------------------------------------ *)

(* conversion from float to double *)
Variable widen : F -> D.
(* std::numeric_limits<float>: min, lowest, max *)
Variables float_min float_lowest float_max : F.
(* the functions of the mathematical library used by QefSolver4D *)
Variables hypot copysign : F -> F -> F.
Variables msin mcos matan : F -> F.
(* glm::root_three<double> () *)
Variable root_three : D.
(* The address of the node with a given lesser corner.  Nodes that are leaves at the same time
   have different corners. *)
Variable addr_of : ivec3 -> Z.

(* The arguments of build, dmc_octree.hpp:39-47, and the tuning parameters of the solver.  The
   random generator is not modelled: [ba_samples] are the offsets that are drawn for a cell, with
   random sampling; None without. *)
Record dmc_args := DmcArgs {
  ba_field : field E; ba_tuning : tuning F; ba_eps : F; ba_simple : bool;
  ba_samples : option (ivec3 -> Z -> list (vec3 F)); ba_early : bool }.

(* localToGlobal, dmc_octree.hpp:30 *)
Definition dmc_to_global (t : dmc_octree) (l : vec3 D) : vec3 D := vadd3 AD (vscale3 AD l (dt_scale t)) (dt_pos t).
Definition widen3 (v : vec3 F) : vec3 D := V3 (widen (vx v)) (widen (vy v)) (widen (vz v)).
Definition narrow3 (v : vec3 D) : vec3 F := V3 (fp_narrow E (vx v)) (fp_narrow E (vy v)) (fp_narrow E (vz v)).

(* glm::vec4 (v, w) as a vector of the solver *)
Definition vec4 (v : vec3 F) (w : F) : fvec F :=
  fun c => match c with 0%nat => vx v | 1%nat => vy v | 2%nat => vz v | _ => w end.

(* sample_offset_table, dmc_octree.cpp:429-440 *)
Definition sample_offsets (size : Z) : list (vec3 F) :=
  let min_offset := a_mul A (a_div A (a_ofZ A 1) (a_ofZ A 4)) (a_ofZ A size) in
  let max_offset := a_sub A (a_ofZ A size) min_offset in
  let o b := if b =? 0 then min_offset else max_offset in
  map (fun i => let c := corner_offset i in V3 (o (vx c)) (o (vy c)) (o (vz c))) (zseq 0 8).

(* dmc_octree.cpp:416-425, 443-451: one sample *)
Definition dmc_sample (t : dmc_octree) (args : dmc_args) (q : ivec3) (st : solver F * vec3 D) (offset : vec3 F)
  : outcome (solver F * vec3 D) :=
  let '(sol, avg) := st in
  let point_local := vadd3 A (vofZ3 A q) offset in
  let point_global := dmc_to_global t (widen3 point_local) in
  let value_local := fp_narrow E (a_div AD (fl_value (ba_field args) point_global) (dt_scale t)) in
  let grad := fl_grad (ba_field args) point_global in
  sol <- add_plane A float_min 4 16 sol (vec4 point_local value_local) (vec4 (narrow3 grad) (a_ofZ A (-1))) ;;
  Ret (sol, vadd3 AD avg grad).

(* glm::normalize of a dvec3 *)
Definition normalize_d (v : vec3 D) : vec3 D := vscale3 AD v (a_div AD (a_ofZ AD 1) (a_sqrt AD (dot3 AD v v))).

Definition dmc_solve (args : dmc_args) (sol : solver F) (q : ivec3) (size : Z) (lo hi : F) : fvec F * solver F :=
  solve A float_min hypot copysign msin mcos matan 4 (ba_tuning args) sol
    (vec4 (vofZ3 A q) lo) (vec4 (vofZ3 A (upper_corner q size)) hi).

(* generateDualVertex, dmc_octree.cpp:403-474: the new data of the node and the result *)
Definition generate_dual (t : dmc_octree) (args : dmc_args) (node : dmc_leaf F) (q : ivec3) (size : Z)
  : outcome (dmc_leaf F * bool) :=
  let offsets := match ba_samples args with Some f => f q size | None => sample_offsets size end in
  '(sol, avg) <- ofold (dmc_sample t args q) offsets (q_new A, V3 (a_ofZ AD 0) (a_ofZ AD 0) (a_ofZ AD 0)) ;;
  let normal := narrow3 (normalize_d avg) in
  let '(v, sol) := dmc_solve args sol q size (a_ofZ A 0) (a_ofZ A 0) in
  let error := eval A 4 sol v in
  let '(v, error) :=
    if a_lt A (ba_eps args) error then
      let '(v, sol) := dmc_solve args sol q size float_lowest float_max in (v, eval A 4 sol v)
    else (v, error) in
  let vertex := V3 (v 0%nat) (v 1%nat) (v 2%nat) in
  let w := v 3%nat in
  let mat := if dmc_inside w
             then Some (fl_material (ba_field args) (dmc_to_global t (widen3 vertex)) (a_mul AD (widen w) (dt_scale t)))
             else dn_mat node in
  Ret (DmcLeaf (dn_addr node) (Some (vertex, w)) (Some normal) mat, a_le A error (ba_eps args)).

(* The loops of shouldSplit, dmc_octree.cpp:492-560: for each of the 19 points the sum of the
   differences between interpolated and actual value, until it is above epsilon.  The points are given as
   offsets in halves of the side with the corners to interpolate between.  Simplified: the sum of the
   corner values is written from left to right starting with the first corner; :552-553 starts with
   0 + values[0]. *)
Definition split_points : list (ivec3 * list Z) :=
  flat_map (fun e => let '(h, ids, off) := e : ivec3 * list Z * Z in map (fun i => (vadd (vscale 2 (corner_offset i)) h, [i; i + off])) ids)
    [(V3 1 0 0, [0; 1; 4; 5], 2); (V3 0 1 0, [0; 1; 2; 3], 4); (V3 0 0 1, [0; 2; 4; 6], 1)] ++
  flat_map (fun e => let '(h, ids, offs) := e : ivec3 * list Z * list Z in
      map (fun i => (vadd (vscale 2 (corner_offset i)) h, i :: map (Z.add i) offs)) ids)
    [(V3 1 1 0, [0; 1], [2; 4; 6]); (V3 1 0 1, [0; 4], [1; 2; 3]); (V3 0 1 1, [0; 2], [1; 4; 5])] ++
  [(V3 1 1 1, zseq 0 8)].
Definition split_point (corner0 : vec3 D) (side : D) (h : ivec3) : vec3 D :=
  let halfside := a_mul AD side (a_div AD (a_ofZ AD 1) (a_ofZ AD 2)) in
  let c k := a_ofZ AD (k / 2) in
  let o k := if k mod 2 =? 0 then a_ofZ AD 0 else halfside in
  let corner := if (vx h <? 2) && (vy h <? 2) && (vz h <? 2) then corner0
                else vadd3 AD corner0 (vscale3 AD (V3 (c (vx h)) (c (vy h)) (c (vz h))) side) in
  vadd3 AD corner (V3 (o (vx h)) (o (vy h)) (o (vz h))).

(* shouldSplit, dmc_octree.cpp:476-562 *)
Definition should_split (t : dmc_octree) (args : dmc_args) (q : ivec3) (size : Z) : bool :=
  let corner0 := dmc_to_global t (vofZ3 AD q) in
  let side := a_mul AD (a_ofZ AD size) (dt_scale t) in
  let corner i := if i =? 0 then corner0 else vadd3 AD corner0 (vscale3 AD (vofZ3 AD (corner_offset i)) side) in
  let value i := fl_value (ba_field args) (corner i) in
  fst (fold_left (fun st e =>
      let '(stop, error) := st in
      if stop : bool then st else
      let p := split_point corner0 side (fst e) in
      let predict := a_mul AD (sum_left AD (map value (snd e))) (a_div AD (a_ofZ AD 1) (a_ofZ AD (zlen (snd e)))) in
      let actual := fl_value (ba_field args) p in
      let k := glm_max AD (a_ofZ AD 1) (length3 AD (fl_grad (ba_field args) p)) in
      let error := a_add AD error (a_div AD (a_abs AD (a_sub AD predict actual)) k) in
      (a_lt AD (widen (ba_eps args)) error, error)) split_points (false, a_ofZ AD 0)).

(* shouldStopSplitting, dmc_octree.cpp:564-578 *)
Definition should_stop (t : dmc_octree) (args : dmc_args) (q : ivec3) (size : Z) : bool :=
  let base_point := dmc_to_global t (vofZ3 AD q) in
  let side := a_mul AD (a_ofZ AD size) (dt_scale t) in
  let diag := a_mul AD side root_three in
  let side_times v := V3 (a_mul AD side (vx v)) (a_mul AD side (vy v)) (a_mul AD side (vz v)) in
  forallb (fun i =>
      let point := vadd3 AD base_point (side_times (vofZ3 AD (corner_offset i))) in
      negb (a_le AD (a_abs AD (fl_value (ba_field args) point)) diag)) (zseq 0 8).

(* buildNode, dmc_octree.cpp:364-401, on a node without children.  The product size * 8 (:391) is
   computed in 32 bits. *)
Fixpoint dmc_build_node (fuel : nat) (t : dmc_octree) (args : dmc_args) (q : ivec3) (size : Z) : outcome dmc_tree :=
  match fuel with
  | O => NoFuel
  | S fuel' =>
      let leaf := '(l, ok) <- generate_dual t args (dmc_fresh (addr_of q)) q size ;; Ret (OLeaf l, ok) in
      let split :=
        let child_size := Z.quot size 2 in
        cs <- omap (fun i => dmc_build_node fuel' t args (vadd q (vscale child_size (corner_offset i))) child_size) (zseq 0 8) ;;
        Ret (ONode tt cs) in
      if size =? 1 then '(l, _) <- leaf ;; Ret l
      else if ba_early args && should_stop t args q size then '(l, _) <- leaf ;; Ret l
      else if ba_simple args then
        if (size =? dt_size t) || should_split t args q size then split
        else '(l, _) <- leaf ;; Ret l
      else if i32max <? size * 8 then UB
      else if size * 8 <? dt_size t then
        '(l, ok) <- leaf ;;
        if ok : bool then Ret l else split
      else split
  end.

(* The constructor, dmc_octree.cpp:15-19 *)
Definition dmc_new (size : Z) (pos : vec3 D) (scale : D) : outcome dmc_octree :=
  if (size <=? 0) || negb (Z.land size (size - 1) =? 0) then Throw InvalidArgument
  else Ret (DmcOctree pos scale size (OLeaf (dmc_fresh (addr_of (dc_min_corner size))))).

(* build, dmc_octree.cpp:21-39.  Simplified: collapse of the root (:30) keeps the data of the root itself; contour
   does not read it. *)
Definition dmc_build (fl : field E) (tune : tuning F) (eps : F) (simple : bool)
    (samples : option (ivec3 -> Z -> list (vec3 F))) (early : bool) (t : dmc_octree) : outcome dmc_octree :=
  let scaled := a_div A eps (fp_narrow E (a_mul AD (dt_scale t) (dt_scale t))) in
  root <- dmc_build_node (dc_fuel (dt_size t)) t (DmcArgs fl tune scaled simple samples early)
            (dc_min_corner (dt_size t)) (dt_size t) ;;
  Ret (DmcOctree (dt_pos t) (dt_scale t) (dt_size t) root).
End DMC.
