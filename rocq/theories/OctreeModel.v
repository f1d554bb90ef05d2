(* Octrees and the dual traversal shared by src/data/dc_octree.cpp and
   src/data/mdc_octree.cpp. *)
From Coq Require Import ZArith List Bool.
From Verif Require Import Base Tables.
Import ListNotations.
Local Open Scope Z_scope.

(* DC_OctreeNode (dc_octree_node.hpp:17-46) and MDC_OctreeNode
   (mdc_octree_node.hpp): a node is either a leaf or has eight children.  [A] is
   the data of a leaf, [B] the data of an inner node.  The children are owned
   through raw pointers; the model has them by value (no node is shared). *)
Inductive otree (A B : Type) : Type :=
| OLeaf (a : A)
| ONode (b : B) (cs : list (otree A B)).
Arguments OLeaf {A B} a.
Arguments ONode {A B} b cs.

(* isSubdivided, dc_octree_node.hpp:24 *)
Definition is_subdivided {A B} (t : otree A B) : bool := match t with OLeaf _ => false | ONode _ _ => true end.

(* children[i], dc_octree_node.hpp:28, 39 *)
Definition child {A B} (t : otree A B) (i : Z) : outcome (otree A B) :=
  match t with OLeaf _ => UB | ONode _ cs => oread (znth cs i) end.

(* leaf_data, dc_octree_node.hpp:31-38 *)
Definition leaf_data {A B} (t : otree A B) : outcome A :=
  match t with OLeaf a => Ret a | ONode _ _ => UB end.

(* kCellCornerOffset[i], src/util/tables.cpp *)
Definition corner_offset (i : Z) : ivec3 :=
  match tab [] kCellCornerOffset i with [x; y; z] => V3 x y z | _ => V3 0 0 0 end.

(* A call of faceProc<D> or edgeProc<D> on some of the eight sub-nodes. *)
Inductive pcall := PFace (d : axis) (ix : list Z) | PEdge (d : axis) (ix : list Z).

(* What distinguishes the two traversals: the tables of sub-nodes and the
   recursive calls in the order in which they are made. *)
Record procs := Procs {
  pr_edge_sub : axis -> list (Z * Z);
  pr_edge_calls : axis -> list (list Z);
  pr_face_sub : axis -> list (Z * Z);
  pr_face_calls : axis -> list pcall;
  pr_cell_calls : list pcall
}.

(* The loop filling sub[8], dc_octree.cpp:84-91, 142-149; mdc_octree.cpp:85-92, 104-111 *)
Definition sub_of {A B} (nodes : list (otree A B)) (e : Z * Z) : outcome (otree A B) :=
  n <- oread (znth nodes (fst e)) ;;
  if is_subdivided n then child n (snd e) else Ret n.

(* all_leaves / has_lesser of the same loops, negated *)
Definition some_subdivided {A B} (nodes : list (otree A B)) (table : list (Z * Z)) : bool :=
  existsb (fun e => match znth nodes (fst e) with Some n => is_subdivided n | None => false end) table.

Definition pick {T} (sub : list T) (ix : list Z) : outcome (list T) := omap (fun i => oread (znth sub i)) ix.

Section Traverse.
Variables A B St : Type.
Variable P : procs.
(* What edgeProc does with four leaves. *)
Variable act : axis -> list A -> St -> outcome St.

(* edgeProc<D>, dc_octree.cpp:55-101; mdc_octree.cpp:82-99. *)
Fixpoint edge_proc (fuel : nat) (d : axis) (nodes : list (otree A B)) (st : St) : outcome St :=
  match fuel with
  | O => NoFuel
  | S fuel' =>
      sub <- omap (sub_of nodes) (pr_edge_sub P d) ;;
      if some_subdivided nodes (pr_edge_sub P d) then
        ofold (fun st ix => q <- pick sub ix ;; edge_proc fuel' d q st) (pr_edge_calls P d) st
      else
        leaves <- omap leaf_data nodes ;;
        act d leaves st
  end.

(* faceProcX, faceProcY, faceProcZ, dc_octree.cpp:136-249; mdc_octree.cpp:101-119 *)
Fixpoint face_proc (fuel : nat) (d : axis) (nodes : list (otree A B)) (st : St) : outcome St :=
  match fuel with
  | O => NoFuel
  | S fuel' =>
      sub <- omap (sub_of nodes) (pr_face_sub P d) ;;
      if some_subdivided nodes (pr_face_sub P d) then
        ofold (fun st c =>
          match c with
          | PFace d' ix => q <- pick sub ix ;; face_proc fuel' d' q st
          | PEdge d' ix => q <- pick sub ix ;; edge_proc fuel' d' q st
          end) (pr_face_calls P d) st
      else Ret st
  end.

(* cellProc, dc_octree.cpp:251-273; mdc_octree.cpp:121-137 *)
Fixpoint cell_proc (fuel : nat) (t : otree A B) (st : St) : outcome St :=
  match fuel with
  | O => NoFuel
  | S fuel' =>
      match t with
      | OLeaf _ => Ret st
      | ONode _ cs =>
          sub <- pick cs (zseq 0 8) ;;
          st <- ofold (fun st c => cell_proc fuel' c st) sub st ;;
          ofold (fun st c =>
            match c with
            | PFace d' ix => q <- pick sub ix ;; face_proc fuel' d' q st
            | PEdge d' ix => q <- pick sub ix ;; edge_proc fuel' d' q st
            end) (pr_cell_calls P) st
      end
  end.

(* Some calls on the children, as at the end of cellProc (and of clusterCell,
   mdc_octree.cpp:252-257) *)
Definition run_calls (fuel : nat) (sub : list (otree A B)) (calls : list pcall) (st : St) : outcome St :=
  ofold (fun st c =>
    match c with
    | PFace d' ix => q <- pick sub ix ;; face_proc fuel d' q st
    | PEdge d' ix => q <- pick sub ix ;; edge_proc fuel d' q st
    end) calls st.
End Traverse.
Arguments edge_proc {A B St}.
Arguments face_proc {A B St}.
Arguments cell_proc {A B St}.
Arguments run_calls {A B St}.

Definition axis_index (d : axis) : Z := match d with AX => 0 | AY => 1 | AZ => 2 end.
Definition pairs_of (l : list (list Z)) : list (Z * Z) :=
  map (fun p => match p with [a; b] => (a, b) | _ => (0, 0) end) l.
