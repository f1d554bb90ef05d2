(* Allocation of the nodes of an MDC octree: src/data/mdc_octree_node.cpp and the parts
   of src/data/mdc_octree.cpp that create and destroy nodes, with failing operator new.

   Simplified: of m_vertices only the size is kept; the memory of the vector belongs to
   the node and is released with it.  How many vertices a node gets and whether the
   allocations for vertices and clusters succeed are arbitrary functions of the place of
   the node. *)
From Coq Require Import ZArith List Bool.
From Verif Require Import Base.
Import ListNotations.
Local Open Scope Z_scope.

(* The union of m_children and m_corners, mdc_octree_node.hpp:55-58: after a write to
   m_corners nothing may be read from m_children. *)
Inductive bword := BNull | BPtr (p : Z) | BData.

(* MDC_OctreeNode: m_isLeaf, the union and m_vertices.size () *)
Record bnode := BNode { bn_leaf : bool; bn_word : bword; bn_verts : Z }.

(* Memory.  new MDC_OctreeNode[8] makes a block; the nodes of the block p have the
   addresses 8 p to 8 p + 7.  m_root of the octree is not allocated by new; it has
   address 0. *)
Record bheap := BHeap {
  bh_nodes : Z -> option bnode;
  bh_next : Z;            (* next new block *)
  bh_freed : list Z       (* blocks passed to delete[], in order *)
}.

Inductive bresult :=
| BDone (h : bheap)       (* returned *)
| BFailed (h : bheap)     (* left by std::bad_alloc *)
| BUB                     (* undefined behaviour *)
| BNoFuel.

Definition bbind (r : bresult) (f : bheap -> bresult) : bresult := match r with BDone h => f h | _ => r end.
Definition bread (h : bheap) (a : Z) (f : bnode -> bresult) : bresult :=
  match bh_nodes h a with Some n => f n | None => BUB end.
Definition bwrite (h : bheap) (a : Z) (n : bnode) : bheap :=
  BHeap (fun b => if b =? a then Some n else bh_nodes h b) (bh_next h) (bh_freed h).
Definition bfold (f : Z -> bheap -> bresult) : list Z -> bheap -> bresult :=
  fix go l h := match l with [] => BDone h | a :: l' => bbind (f a h) (go l') end.

(* A new node: leaf with m_children null, no vertices; mdc_octree_node.hpp:55-65 *)
Definition bfresh : bnode := BNode true BNull 0.
Definition nodes_of (p : Z) : list Z := map (fun i => 8 * p + i) (zseq 0 8).

(* Memory without the nodes of a block *)
Definition bremove (h : bheap) (p : Z) : bheap :=
  BHeap (fun b => if b / 8 =? p then None else bh_nodes h b) (bh_next h) (bh_freed h ++ [p]).
(* Memory with a new block *)
Definition bcreate (h : bheap) : bheap :=
  BHeap (fun b => if b / 8 =? bh_next h then Some bfresh else bh_nodes h b) (bh_next h + 1) (bh_freed h).

(* collapse, mdc_octree_node.cpp:70-76.  delete[] runs the destructors :56-58 of the nodes
   of the block from the last to the first. *)
Fixpoint bcollapse (fuel : nat) (a : Z) (h : bheap) : bresult :=
  match fuel with
  | O => BNoFuel
  | S fuel' =>
      bread h a (fun n =>
        if bn_leaf n then BDone h
        else
          bbind (match bn_word n with
                 | BNull => BDone h
                 | BPtr p => bbind (bfold (bcollapse fuel') (rev (nodes_of p)) h) (fun h =>
                     bread h (8 * p) (fun _ => BDone (bremove h p)))
                 | BData => BUB
                 end) (fun h =>
          bread h a (fun n => BDone (bwrite h a (BNode true BNull (bn_verts n))))))
  end.

Section Alloc.
(* Whether the allocation of a block succeeds. *)
Variable works : Z -> bool.
(* Number of vertices of the node reached by the given numbers of children. *)
Variable verts : list Z -> Z.
(* Whether m_vertices of the leaf at the given place can be resized. *)
Variable leaf_works : list Z -> bool.
(* Whether the allocations up to the call of resize for the inner node succeed, and those
   after it. *)
Variable early late : list Z -> bool.

(* subdivide, mdc_octree_node.cpp:60-68 *)
Definition bsubdivide (a : Z) (h : bheap) : bresult :=
  bread h a (fun n =>
    if bn_leaf n then
      if works (bh_next h) then
        BDone (bwrite (bcreate h) a (BNode false (BPtr (bh_next h)) (bn_verts n)))
      else BFailed h
    else BDone h).

(* buildLeaf, mdc_octree.cpp:342-400: setCorners and resize *)
Definition bleaf (a : Z) (path : list Z) (h : bheap) : bresult :=
  bread h a (fun n =>
    let h := bwrite h a (BNode (bn_leaf n) BData (bn_verts n)) in
    if leaf_works path then BDone (bwrite h a (BNode (bn_leaf n) BData (verts path))) else BFailed h).

(* node->child (i), mdc_octree_node.hpp:45 *)
Definition bchild (a i : Z) (h : bheap) (f : Z -> bresult) : bresult :=
  bread h a (fun n => match bn_word n with BPtr p => f (8 * p + i) | _ => BUB end).

(* buildNode, mdc_octree.cpp:326-340.  [levels] is the number of halvings left. *)
Fixpoint bbuild_node (levels : nat) (a : Z) (path : list Z) (h : bheap) : bresult :=
  match levels with
  | O => bleaf a path h
  | S levels' =>
      bbind (bsubdivide a h) (bfold (fun i h => bchild a i h (fun c => bbuild_node levels' c (path ++ [i]) h)) (zseq 0 8))
  end.

(* clusterCell, mdc_octree.cpp:239-292 *)
Fixpoint bcluster (fuel : nat) (a : Z) (path : list Z) (h : bheap) : bresult :=
  match fuel with
  | O => BNoFuel
  | S fuel' =>
      bread h a (fun n =>
        if bn_leaf n then BDone h
        else
          bbind (bfold (fun i h => bchild a i h (fun c => bcluster fuel' c (path ++ [i]) h)) (zseq 0 8) h) (fun h =>
          if early path then
            bread h a (fun n =>
              let h := bwrite h a (BNode (bn_leaf n) (bn_word n) (verts path)) in
              if late path then BDone h else BFailed h)
          else BFailed h))
  end.

(* build, mdc_octree.cpp:298-312 *)
Definition mdc_rebuild (levels : nat) (h : bheap) : bresult :=
  match bbind (bcollapse (S levels) 0 h) (fun h => bbind (bbuild_node levels 0 [] h) (bcluster (S levels) 0 [])) with
  | BFailed h => bbind (bcollapse (S levels) 0 h) BFailed
  | r => r
  end.
End Alloc.

(* The constructor of the octree *)
Definition bheap_new : bheap := BHeap (fun a => if a =? 0 then Some bfresh else None) 1 [].

(* ~MDC_Octree, which destroys m_root *)
Definition mdc_destroy (levels : nat) (h : bheap) : bresult := bcollapse (S levels) 0 h.
