(* Life of MeshField objects and of the octrees they point to: include/isomesh/field/mesh_field.hpp and
   src/field/mesh_field.cpp:16-69, with files that cannot be read and failing operator new.

   Simplified: an octree is one object; that its destructor (octree.cpp:30-35) deletes all its nodes is
   C86 (TriHeap.v).  Objects and octrees are numbered. *)
From Coq Require Import ZArith List Bool.
From Verif Require Import Base.
Import ListNotations.
Local Open Scope Z_scope.

(* Memory: m_root of the MeshField objects that exist (mesh_field.hpp:39), None in it for the null pointer; the
   octrees that exist; the number of the next octree. *)
Record fstate := FState { fs_fields : Z -> option (option Z); fs_trees : list Z; fs_next : Z }.

Inductive fresult :=
| FDone (s : fstate)       (* returned *)
| FThrown (s : fstate)     (* left by an exception *)
| FUB.                     (* undefined behaviour *)

Definition fwrite (s : fstate) (o : Z) (f : option (option Z)) : fstate :=
  FState (fun x => if x =? o then f else fs_fields s x) (fs_trees s) (fs_next s).
Definition fread (s : fstate) (o : Z) (k : option Z -> fresult) : fresult :=
  match fs_fields s o with Some r => k r | None => FUB end.

(* How load ends: the file cannot be read (ply_data.cpp:21-38), the octree cannot be allocated (mesh_field.cpp:62), an
   insertion runs out of memory (:67), or it returns. *)
Inductive load_end := BadFile | NoRoot | NoInsert | Loaded.

(* The constructor, mesh_field.cpp:16-19 *)
Definition field_new (o : Z) (s : fstate) : fresult := FDone (fwrite s o (Some None)).
(* The copy constructor, implicit: copies the pointer *)
Definition field_copy (o o' : Z) (s : fstate) : fresult := fread s o (fun r => FDone (fwrite s o' (Some r))).
(* The destructor, implicit: does not delete m_root *)
Definition field_destroy (o : Z) (s : fstate) : fresult := fread s o (fun _ => FDone (fwrite s o None)).
(* load, mesh_field.cpp:21-69.  m_root keeps its old value while the new octree is allocated (:60-62). *)
Definition field_load (o : Z) (e : load_end) (s : fstate) : fresult :=
  fread s o (fun r =>
    match e with
    | BadFile => FThrown s
    | _ =>
        let deleted := match r with
          | None => Some (fs_trees s)
          | Some p => if existsb (Z.eqb p) (fs_trees s) then Some (filter (fun q => negb (q =? p)) (fs_trees s)) else None
          end in
        match deleted with
        | None => FUB
        | Some ts =>
            let s := FState (fs_fields s) ts (fs_next s) in
            match e with
            | NoRoot => FThrown s
            | _ =>
                let s := FState (fun x => if x =? o then Some (Some (fs_next s)) else fs_fields s x) (ts ++ [fs_next s]) (fs_next s + 1) in
                match e with Loaded => FDone s | _ => FThrown s end
            end
        end
    end).
(* value and grad, mesh_field.cpp:71-89: read the octree *)
Definition field_value (o : Z) (s : fstate) : fresult :=
  fread s o (fun r => match r with Some p => if existsb (Z.eqb p) (fs_trees s) then FDone s else FUB | None => FUB end).
