(* Mesh (include/isomesh/data/mesh.hpp, src/data/mesh.cpp) when memory runs out: a vector that is full asks for a larger
   block before it appends, and the request can fail with std::bad_alloc. *)
From Coq Require Import ZArith List Bool.
From Verif Require Import Base MeshModel.
Import ListNotations.
Local Open Scope Z_scope.

(* The mesh and the capacities of m_vertices and m_indices, mesh.hpp:87-88 *)
Record cmesh (V : Type) := CMesh { cm_mesh : mesh V; cm_vcap : Z; cm_icap : Z }.
Arguments CMesh {V} cm_mesh cm_vcap cm_icap.
Arguments cm_mesh {V} c.
Arguments cm_vcap {V} c.
Arguments cm_icap {V} c.

(* CDone: returned; CThrow: left by std::bad_alloc; both with the number of the next request.  CErr: failed assertion *)
Inductive cres (T : Type) := CDone (s : T) (k : nat) | CThrow (s : T) (k : nat) | CErr.
Arguments CDone {T} s k.
Arguments CThrow {T} s k.
Arguments CErr {T}.
Definition cbind {T} (r : cres T) (next : T -> nat -> cres T) : cres T :=
  match r with CDone s k => next s k | CThrow s k => CThrow s k | CErr => CErr end.

Section Mesh.
Variable V : Type.
(* The capacity a full vector asks for (any policy; libstdc++ doubles it), and the requests that fail *)
Variable grow : Z -> Z.
Variable fails : nat -> bool.
Notation cmesh := (cmesh V).

(* The constructors, mesh.hpp:37-39, mesh.cpp:11-14: reserve gives at least the wanted capacities *)
Definition cmesh_new (vcap icap : Z) : cmesh := CMesh mesh_new vcap icap.

(* m_vertices.emplace_back, mesh.cpp:20: nothing changes if the request fails *)
Definition emplace_vertex (s : cmesh) (v : V) (k : nat) : cres cmesh :=
  let m := cm_mesh s in
  let m' := Mesh (m_verts m ++ [v]) (m_inds m) in
  if zlen (m_verts m) <? cm_vcap s then CDone (CMesh m' (cm_vcap s) (cm_icap s)) k
  else if fails k then CThrow s (S k)
  else CDone (CMesh m' (grow (cm_vcap s)) (cm_icap s)) (S k).

(* m_indices.emplace_back, mesh.cpp:31-33 *)
Definition emplace_index (s : cmesh) (i : Z) (k : nat) : cres cmesh :=
  let m := cm_mesh s in
  let m' := Mesh (m_verts m) (m_inds m ++ [i]) in
  if zlen (m_inds m) <? cm_icap s then CDone (CMesh m' (cm_vcap s) (cm_icap s)) k
  else if fails k then CThrow s (S k)
  else CDone (CMesh m' (cm_vcap s) (grow (cm_icap s))) (S k).

(* addVertex, mesh.cpp:16-24; its result is the position of the vertex, see MeshModel.v *)
Definition cadd_vertex (s : cmesh) (v : V) (k : nat) : cres cmesh :=
  if zlen (m_verts (cm_mesh s)) <=? u32max then emplace_vertex s v k else CErr.

(* addTriangle, mesh.cpp:26-34 *)
Definition cadd_triangle (s : cmesh) (i1 i2 i3 : Z) (k : nat) : cres cmesh :=
  let n := zlen (m_verts (cm_mesh s)) in
  if (i1 <? n) && (i2 <? n) && (i3 <? n) then
    if (i1 =? i2) || (i2 =? i3) || (i1 =? i3) then CDone s k
    else cbind (emplace_index s i1 k) (fun s k => cbind (emplace_index s i2 k) (fun s k => emplace_index s i3 k))
  else CErr.

(* clear, mesh.cpp:36-39: the vectors keep their capacities *)
Definition cclear (s : cmesh) : cmesh := CMesh (mesh_clear (cm_mesh s)) (cm_vcap s) (cm_icap s).

Definition cstep (s : cmesh) (c : mesh_call V) (k : nat) : cres cmesh :=
  match c with
  | AddVertex v => cadd_vertex s v k
  | AddTriangle i1 i2 i3 => cadd_triangle s i1 i2 i3 k
  | Clear => CDone (cclear s) k
  end.

(* A client that catches std::bad_alloc and goes on with the next call *)
Fixpoint crun (cs : list (mesh_call V)) (s : cmesh) (k : nat) : cres cmesh :=
  match cs with
  | [] => CDone s k
  | c :: cs' => match cstep s c k with CDone s k => crun cs' s k | CThrow s k => crun cs' s k | CErr => CErr end
  end.
End Mesh.
