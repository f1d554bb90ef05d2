(* Model of include/isomesh/data/mesh.hpp and src/data/mesh.cpp. *)
From Coq Require Import ZArith List Bool.
From Verif Require Import Base.
Import ListNotations.
Local Open Scope Z_scope.

(* mesh.hpp:87-88.  [V] is the vertex record of mesh.hpp:26-35 (position,
   normal, material).  m_globalPos and m_globalScale (mesh.hpp:89-90) are only
   stored and returned and are left out; reserve (mesh.cpp:12-13) has no
   observable effect. *)
Record mesh (V : Type) := Mesh { m_verts : list V; m_inds : list Z }.
Arguments Mesh {V} m_verts m_inds.
Arguments m_verts {V} m.
Arguments m_inds {V} m.

(* mesh.hpp:37, mesh.cpp:11-14 *)
Definition mesh_new {V} : mesh V := Mesh [] [].

(* mesh.cpp:16-24 *)
Definition mesh_add_vertex {V} (m : mesh V) (v : V) : outcome (mesh V * Z) :=
  _ <- oassert (zlen (m_verts m) <=? u32max) ;;
  let verts := m_verts m ++ [v] in
  Ret (Mesh verts (m_inds m), u32 (zlen verts - 1)).

(* mesh.cpp:26-34 *)
Definition mesh_add_triangle {V} (m : mesh V) (i1 i2 i3 : Z) : outcome (mesh V) :=
  _ <- oassert ((i1 <? zlen (m_verts m)) && (i2 <? zlen (m_verts m))
                && (i3 <? zlen (m_verts m))) ;;
  if (i1 =? i2) || (i2 =? i3) || (i1 =? i3) then Ret m
  else Ret (Mesh (m_verts m) (m_inds m ++ [i1; i2; i3])).

(* mesh.cpp:36-39 *)
Definition mesh_clear {V} (m : mesh V) : mesh V := Mesh [] [].

(* mesh.hpp:75, 79 *)
Definition mesh_vertex_count {V} (m : mesh V) : Z := zlen (m_verts m).
Definition mesh_index_count {V} (m : mesh V) : Z := zlen (m_inds m).

(* Calls a client can make. *)
Inductive mesh_call (V : Type) :=
| AddVertex (v : V)
| AddTriangle (i1 i2 i3 : Z)
| Clear.
Arguments AddVertex {V} v.
Arguments AddTriangle {V} i1 i2 i3.
Arguments Clear {V}.

Definition mesh_step {V} (m : mesh V) (c : mesh_call V) : outcome (mesh V) :=
  match c with
  | AddVertex v => '(m', _) <- mesh_add_vertex m v ;; Ret m'
  | AddTriangle i1 i2 i3 => mesh_add_triangle m i1 i2 i3
  | Clear => Ret (mesh_clear m)
  end.

Definition mesh_run {V} (cs : list (mesh_call V)) : outcome (mesh V) :=
  ofold mesh_step cs mesh_new.
