(* Model of src/private/ply_data.cpp, src/util/ply_mesh.cpp, src/export/mesh2ply.cpp and
   src/field/mesh_field.cpp.  Reading and writing of the files (tinyply, streams) is not
   modelled: a file is the list of its vertices and the list of its faces.  The casts
   of the buffers assume that coordinates are of type float and indices of type int; files
   with other types are not modelled. *)
From Coq Require Import ZArith List Bool.
From Verif Require Import Base Arith MeshModel MCModel TriModel.
Import ListNotations.
Local Open Scope Z_scope.

Record ply_file (F : Type) := PlyFile { pf_verts : list (vec3 F); pf_faces : list (Z * Z * Z) }.
Arguments PlyFile {F} pf_verts pf_faces.
Arguments pf_verts {F} p.
Arguments pf_faces {F} p.

Section Ply.
Context {F : Type}.
Variable A : arith F.
(* std::numeric_limits<float>::max () and min () *)
Variable float_max float_min : F.
Notation vec := (vec3 F).

(* ---- src/private/ply_data.cpp ---- *)

(* src/private/ply_data.hpp:37-42; m_loaded is not looked at by the users below *)
Record ply_data := PlyData { pd_file : ply_file F; pd_direct : bool; pd_center : vec; pd_mult : F }.

(* src/private/ply_data.cpp:92-121, and mesh_field.cpp:30-53: smallest and largest
   coordinates *)
Definition bounds_step (b : vec * vec) (v : vec) : vec * vec :=
  let '(lo, hi) := b in
  let low c := if a_lt A (c v) (c lo) then c v else c lo in
  let high c := if a_lt A (c hi) (c v) then c v else c hi in
  (V3 (low vx) (low vy) (low vz), V3 (high vx) (high vy) (high vz)).
Definition bounds (vs : list vec) : vec * vec :=
  fold_left bounds_step vs (V3 float_max float_max float_max, V3 float_min float_min float_min).

(* std::max (a, b) is (a < b) ? b : a, as glm_max *)
Definition max_extent (b : vec * vec) : F :=
  let '(lo, hi) := b in
  glm_max A (a_sub A (vx hi) (vx lo)) (glm_max A (a_sub A (vy hi) (vy lo)) (a_sub A (vz hi) (vz lo))).

(* src/private/ply_data.cpp:21-38 load, 90-126 normalization, 12-19 the constructor *)
Definition ply_load (f : ply_file F) : ply_data :=
  let b := bounds (pf_verts f) in
  let '(lo, hi) := b in
  let mid c := a_div A (a_add A (c hi) (c lo)) (a_ofZ A 2) in
  PlyData f true (V3 (mid vx) (mid vy) (mid vz)) (a_div A (max_extent b) (a_ofZ A 32)).

(* src/private/ply_data.cpp:128-138 *)
Definition set_winding (d : ply_data) (direct : bool) : ply_data := PlyData (pd_file d) direct (pd_center d) (pd_mult d).

(* src/private/ply_data.cpp:40-44 vertex; access behind the end of the buffer is undefined *)
Definition ply_vertex (d : ply_data) (i : Z) : outcome vec :=
  v <- oread (znth (pf_verts (pd_file d)) i) ;;
  let w := vsub3 A v (pd_center d) in
  Ret (V3 (a_div A (vx w) (pd_mult d)) (a_div A (vy w) (pd_mult d)) (a_div A (vz w) (pd_mult d))).

(* src/private/ply_data.cpp:61-75 triangleIndexs *)
Definition wind (direct : bool) (f : Z * Z * Z) : Z * Z * Z :=
  let '(a, b, c) := f in if direct then (a, b, c) else (a, c, b).
Definition ply_indices (d : ply_data) (i : Z) : outcome (Z * Z * Z) :=
  f <- oread (znth (pf_faces (pd_file d)) i) ;; Ret (wind (pd_direct d) f).

(* src/private/ply_data.cpp:54-59 triangle *)
Definition ply_triangle (d : ply_data) (i : Z) : outcome (triangle F) :=
  '(a, b, c) <- ply_indices d i ;;
  va <- ply_vertex d a ;;
  vb <- ply_vertex d b ;;
  vc <- ply_vertex d c ;;
  Ret (mk_triangle A va vb vc).

Definition ply_vcount (d : ply_data) : Z := zlen (pf_verts (pd_file d)).
Definition ply_fcount (d : ply_data) : Z := zlen (pf_faces (pd_file d)).

(* ---- src/util/ply_mesh.cpp ---- *)

(* normals[i] += n *)
Definition add_normal (ns : list vec) (i : Z) (n : vec) : outcome (list vec) :=
  m <- oread (znth ns i) ;; Ret (set_nth ns (Z.to_nat i) (vadd3 A m n)).

(* ply_mesh.cpp:24-32 *)
Definition normal_step (d : ply_data) (ns : list vec) (i : Z) : outcome (list vec) :=
  '(a, b, c) <- ply_indices d i ;;
  p1 <- ply_vertex d a ;;
  p2 <- ply_vertex d b ;;
  p3 <- ply_vertex d c ;;
  let n := cross3 A (vsub3 A p2 p3) (vsub3 A p2 p1) in
  ns <- add_normal ns a n ;;
  ns <- add_normal ns b n ;;
  add_normal ns c n.

(* ply_mesh.cpp:11-51 ply2mesh *)
Definition ply2mesh (f : ply_file F) (reverse : bool) : outcome (mesh (mvert F)) :=
  let d := ply_load f in
  let d := if reverse then set_winding d false else d in
  let zero := V3 (a_ofZ A 0) (a_ofZ A 0) (a_ofZ A 0) in
  ns <- ofold (normal_step d) (zrange 0 (ply_fcount d)) (repeat zero (Z.to_nat (ply_vcount d))) ;;
  let ns := map (unit3 A) ns in
  m <- ofold (fun m i =>
        v <- ply_vertex d i ;;
        n <- oread (znth ns i) ;;
        '(m, _) <- mesh_add_vertex m (MVert v n Solid) ;; Ret m)
        (zrange 0 (ply_vcount d)) mesh_new ;;
  ofold (fun m i => '(a, b, c) <- ply_indices d i ;; mesh_add_triangle m (u32 a) (u32 b) (u32 c))
        (zrange 0 (ply_fcount d)) m.

(* ---- src/export/mesh2ply.cpp ---- *)

(* indices taken in threes; icount = indexCount () / 3 *)
Fixpoint triples (l : list Z) : list (Z * Z * Z) :=
  match l with a :: b :: c :: l' => (a, b, c) :: triples l' | _ => [] end.

(* mesh2ply.cpp:13-45: what is written, positions and indices *)
Definition mesh2ply (m : mesh (mvert F)) : ply_file F := PlyFile (map (fun v => mv_pos v) (m_verts m)) (triples (m_inds m)).

(* ---- src/field/mesh_field.cpp ---- *)

(* mesh_field.cpp:21-69 load: the new m_root *)
Definition field_load (f : ply_file F) (reverse : bool) : outcome (ttree F) :=
  let d := ply_load f in
  let d := if reverse then set_winding d false else d in
  vs <- omap (ply_vertex d) (zrange 0 (ply_vcount d)) ;;
  let b := bounds vs in
  let root := tt_new (a_div A (max_extent b) (a_ofZ A 2)) 0 (fst b) in
  ofold (fun tr i => t <- ply_triangle d i ;; tt_insert A insert_fuel tr t) (zrange 0 (ply_fcount d)) root.
End Ply.
Arguments ply_data F : clear implicits.

(* ---- src/field/mesh_field.cpp, evaluation ---- *)
Section Field.
Context {E : fpenv}.
Notation F := (fp_F E).
Notation D := (fp_D E).
Variable float_max : F.
(* float to double *)
Variable widen : F -> D.

(* mesh_field.cpp:71-76 value; None for the null pointer before load *)
Definition field_value (root : option (ttree F)) (x y z : D) : outcome D :=
  tr <- oread root ;;
  let p := V3 (fp_narrow E x) (fp_narrow E y) (fp_narrow E z) in
  let '(_, d, s) := near_triangle (fp_f E) float_max tr p in
  Ret (widen (a_mul (fp_f E) d (a_ofZ (fp_f E) s))).

(* mesh_field.cpp:78-89 grad *)
Definition field_grad (root : option (ttree F)) (x y z : D) : outcome (vec3 D) :=
  let A := fp_d E in
  tr <- oread root ;;
  let h := widen (a_div (fp_f E) (tt_half tr) (a_ofZ (fp_f E) 500)) in
  x1 <- field_value root (a_sub A x h) y z ;;
  x2 <- field_value root (a_add A x h) y z ;;
  y1 <- field_value root x (a_sub A y h) z ;;
  y2 <- field_value root x (a_add A y h) z ;;
  z1 <- field_value root x y (a_sub A z h) ;;
  z2 <- field_value root x y (a_add A z h) ;;
  let diff a b := a_div A (a_div A (a_sub A b a) (a_ofZ A 2)) h in
  Ret (V3 (diff x1 x2) (diff y1 y2) (diff z1 z2)).
End Field.
