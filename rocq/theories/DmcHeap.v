(* Allocation of the nodes of a DMC octree: src/data/dmc_octree_node.cpp and the parts of
   src/data/dmc_octree.cpp that create and destroy nodes, with failing operator new and
   with fields that throw.

   Simplified: how buildNode decides whether a cell is split does not matter here, so it
   is an arbitrary function of the place of the node.  QefSolver4D does not allocate and
   does not throw.  Of dualVertex, normal and material only one flag is kept: whether
   generateDualVertex has returned for the node. *)
From Coq Require Import ZArith List Bool.
From Verif Require Import Base.
Import ListNotations.
Local Open Scope Z_scope.

(* DMC_OctreeNode, dmc_octree_node.hpp:14-29: children, and whether the data is written *)
Record dnode := DNode { dn_children : option Z; dn_written : bool }.

(* Memory.  new DMC_OctreeNode[8] makes a block; the nodes of the block p have the
   addresses 8 p to 8 p + 7.  m_root of the octree is not allocated by new; it has
   address 0. *)
Record dheap := DHeap {
  dh_nodes : Z -> option dnode;
  dh_next : Z;            (* next new block *)
  dh_freed : list Z       (* blocks passed to delete[], in order *)
}.

Inductive dexn := DBadAlloc | DLogicError | DField (e : Z).   (* what a field throws is one of many values *)

Inductive dresult :=
| DDone (h : dheap)               (* returned *)
| DThrown (x : dexn) (h : dheap)  (* left by an exception *)
| DUB                             (* undefined behaviour *)
| DNoFuel.

Definition dbind (r : dresult) (f : dheap -> dresult) : dresult := match r with DDone h => f h | _ => r end.
Definition dread (h : dheap) (a : Z) (f : dnode -> dresult) : dresult :=
  match dh_nodes h a with Some n => f n | None => DUB end.
Definition dwrite (h : dheap) (a : Z) (n : dnode) : dheap :=
  DHeap (fun b => if b =? a then Some n else dh_nodes h b) (dh_next h) (dh_freed h).
Definition dfold (f : Z -> dheap -> dresult) : list Z -> dheap -> dresult :=
  fix go l h := match l with [] => DDone h | a :: l' => dbind (f a h) (go l') end.

(* The constructor, dmc_octree_node.cpp:10-11 *)
Definition dfresh : dnode := DNode None false.
Definition dnodes_of (p : Z) : list Z := map (fun i => 8 * p + i) (zseq 0 8).

(* Memory without the nodes of a block *)
Definition dremove (h : dheap) (p : Z) : dheap :=
  DHeap (fun b => if b / 8 =? p then None else dh_nodes h b) (dh_next h) (dh_freed h ++ [p]).
(* Memory with a new block *)
Definition dcreate (h : dheap) : dheap :=
  DHeap (fun b => if b / 8 =? dh_next h then Some dfresh else dh_nodes h b) (dh_next h + 1) (dh_freed h).

(* collapse, dmc_octree_node.cpp:23-26.  delete[] of a block runs the destructors :13-15 of its
   nodes from the last to the first; delete[] of a null pointer does nothing. *)
Fixpoint dcollapse (fuel : nat) (a : Z) (h : dheap) : dresult :=
  match fuel with
  | O => DNoFuel
  | S fuel' =>
      dread h a (fun n =>
        dbind (match dn_children n with
               | None => DDone h
               | Some p => dbind (dfold (dcollapse fuel') (rev (dnodes_of p)) h) (fun h =>
                   dread h (8 * p) (fun _ => DDone (dremove h p)))
               end) (fun h =>
        dread h a (fun n => DDone (dwrite h a (DNode None (dn_written n))))))
  end.

Section Alloc.
(* Whether the allocation of a block succeeds. *)
Variable works : Z -> bool.
(* The exception, if any, that the field throws while buildNode decides about the node
   reached by the given numbers of children. *)
Variable probe : list Z -> option dexn.
(* Whether buildNode splits that node, given that its size is not 1; and whether it has called
   generateDualVertex before (:391-393). *)
Variable splits tried : list Z -> bool.

(* subdivide, dmc_octree_node.cpp:17-21 *)
Definition dsubdivide (a : Z) (h : dheap) : dresult :=
  dread h a (fun n =>
    match dn_children n with
    | Some _ => DThrown DLogicError h
    | None =>
        if works (dh_next h) then DDone (dwrite (dcreate h) a (DNode (Some (dh_next h)) (dn_written n)))
        else DThrown DBadAlloc h
    end).

(* generateDualVertex returns, dmc_octree.cpp:460-472 *)
Definition dgenerate (a : Z) (h : dheap) : dresult :=
  dread h a (fun n => DDone (dwrite h a (DNode (dn_children n) true))).

(* operator[] of the node, dmc_octree_node.hpp:22 *)
Definition dchild (a i : Z) (h : dheap) (f : Z -> dresult) : dresult :=
  dread h a (fun n => match dn_children n with Some p => f (8 * p + i) | None => DUB end).

(* buildNode, dmc_octree.cpp:364-401.  [levels] is the number of halvings left. *)
Fixpoint dbuild_node (levels : nat) (a : Z) (path : list Z) (h : dheap) : dresult :=
  match probe path with
  | Some x => DThrown x h
  | None =>
      match levels with
      | O => dgenerate a h
      | S levels' =>
          if splits path then
            dbind (if tried path then dgenerate a h else DDone h) (fun h =>
            dbind (dsubdivide a h)
              (dfold (fun i h => dchild a i h (fun c => dbuild_node levels' c (path ++ [i]) h)) (zseq 0 8)))
          else dgenerate a h
      end
  end.

(* build, dmc_octree.cpp:21-39 *)
Definition dmc_rebuild (levels : nat) (h : dheap) : dresult :=
  match dbind (dcollapse (S levels) 0 h) (dbuild_node levels 0 []) with
  | DThrown x h => dbind (dcollapse (S levels) 0 h) (DThrown x)
  | r => r
  end.
End Alloc.

(* The constructor of the octree *)
Definition dheap_new : dheap := DHeap (fun a => if a =? 0 then Some dfresh else None) 1 [].

(* ~DMC_Octree, which destroys m_root *)
Definition dmc_destroy (levels : nat) (h : dheap) : dresult := dcollapse (S levels) 0 h.
