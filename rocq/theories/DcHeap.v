(* Allocation of the nodes of a DC octree: src/data/dc_octree_node.cpp and the
   parts of src/data/dc_octree.cpp that create and destroy nodes, with failing
   operator new.

   Simplified: what build computes from the grid does not matter here, so whether a
   node is merged is an arbitrary function of the place of the node.  The functions
   called by buildNode and buildLeaf for the grid and for the QEF do not allocate
   and do not throw.  contour only writes vertex_id of leaves whose leaf_data has been
   written before; it changes nothing here. *)
From Coq Require Import ZArith List Bool.
From Verif Require Import Base.
Import ListNotations.
Local Open Scope Z_scope.

(* One of children[8], dc_octree_node.hpp:28-39.  children is in a union with
   leaf_data: after a write to leaf_data nothing may be read from children. *)
Inductive word := WNull | WPtr (a : Z) | WData.

(* DC_OctreeNode: is_leaf and the union; m_depth does not matter *)
Record hnode := HNode { hn_leaf : bool; hn_words : list word }.

(* Memory.  m_root of the octree is not allocated by new; it has address 0. *)
Record heap := Heap {
  hp_nodes : Z -> option hnode;
  hp_next : Z;            (* address of the next new node *)
  hp_freed : list Z       (* arguments of delete, in order *)
}.

Inductive hresult :=
| Done (h : heap)         (* returned *)
| BadAlloc (h : heap)     (* left by std::bad_alloc *)
| LogicErr (h : heap)     (* left by std::logic_error *)
| HUB                     (* undefined behaviour *)
| HNoFuel.

Definition hbind (r : hresult) (f : heap -> hresult) : hresult := match r with Done h => f h | _ => r end.
Definition hread (h : heap) (a : Z) (f : hnode -> hresult) : hresult :=
  match hp_nodes h a with Some n => f n | None => HUB end.

Definition hwrite (h : heap) (a : Z) (n : hnode) : heap :=
  Heap (fun b => if b =? a then Some n else hp_nodes h b) (hp_next h) (hp_freed h).
Definition set_word (h : heap) (a i : Z) (w : word) : hresult :=
  hread h a (fun n => Done (hwrite h a (HNode (hn_leaf n) (set_nth (hn_words n) (Z.to_nat i) w)))).
Definition set_leaf (h : heap) (a : Z) (b : bool) : hresult :=
  hread h a (fun n => Done (hwrite h a (HNode b (hn_words n)))).

(* A write to any member of leaf_data. *)
Definition write_data (a : Z) (h : heap) : hresult :=
  hread h a (fun n => Done (hwrite h a (HNode (hn_leaf n) (map (fun _ => WData) (hn_words n))))).

(* The constructor, dc_octree_node.cpp:11-14 *)
Definition fresh_node : hnode := HNode true (map (fun _ => WNull) (zseq 0 8)).

Definition hfold {A} (f : A -> heap -> hresult) : list A -> heap -> hresult :=
  fix go l h := match l with [] => Done h | a :: l' => hbind (f a h) (go l') end.

(* collapse, dc_octree_node.cpp:31-39, and the destructor :16-19 with the release
   of the memory by delete *)
Fixpoint collapse (fuel : nat) (a : Z) (h : heap) : hresult :=
  match fuel with
  | O => HNoFuel
  | S fuel' =>
      hread h a (fun n =>
        if hn_leaf n then LogicErr h
        else hbind (set_leaf h a true) (hfold (fun i h =>
          hread h a (fun n =>
            match znth (hn_words n) i with
            | Some WNull => set_word h a i WNull
            | Some (WPtr p) =>
                hbind (hread h p (fun c => if hn_leaf c then Done h else collapse fuel' p h)) (fun h =>
                hbind (Done (Heap (fun b => if b =? p then None else hp_nodes h b) (hp_next h) (hp_freed h ++ [p]))) (fun h =>
                set_word h a i WNull))
            | _ => HUB
            end)) (zseq 0 8)))
  end.

Section Alloc.
(* Whether the allocation of the node with the given address succeeds. *)
Variable works : Z -> bool.
(* Whether the node reached by the given numbers of children is merged. *)
Variable merges : list Z -> bool.

(* subdivide, dc_octree_node.cpp:21-29 *)
Definition subdivide (a : Z) (h : heap) : hresult :=
  hread h a (fun n =>
    if negb (hn_leaf n) then LogicErr h
    else hbind (set_leaf h a false) (hfold (fun i h =>
      let p := hp_next h in
      if works p then
        set_word (Heap (fun b => if b =? p then Some fresh_node else hp_nodes h b) (p + 1) (hp_freed h)) a i (WPtr p)
      else BadAlloc h) (zseq 0 8))).

(* operator[] with index i, dc_octree_node.hpp:28 *)
Definition child_of (a i : Z) (h : heap) (f : Z -> hresult) : hresult :=
  hread h a (fun n => match znth (hn_words n) i with Some (WPtr p) => f p | _ => HUB end).

(* node->children[i]->isSubdivided (), dc_octree.cpp:325-332 *)
Definition all_leaves (a : Z) (h : heap) (f : bool -> hresult) : hresult :=
  (fix go (l : list Z) : hresult :=
     match l with
     | [] => f true
     | i :: l' => child_of a i h (fun p => hread h p (fun c => if hn_leaf c then go l' else f false))
     end) (zseq 0 8).

(* buildNode, dc_octree.cpp:307-368.  [levels] is the number of halvings left. *)
Fixpoint build_node (levels : nat) (a : Z) (path : list Z) (h : heap) : hresult :=
  match levels with
  | O => write_data a h
  | S levels' =>
      hbind (subdivide a h) (fun h =>
      hbind (hfold (fun i h => child_of a i h (fun p => build_node levels' p (path ++ [i]) h)) (zseq 0 8) h) (fun h =>
      all_leaves a h (fun b =>
        if b && merges path then hbind (collapse (S levels) a h) (write_data a) else Done h)))
  end.

(* build, dc_octree.cpp:21-42, with the handler :38-42 *)
Definition build (levels : nat) (h : heap) : hresult :=
  let tidy h := hread h 0 (fun n => if hn_leaf n then Done h else collapse (S levels) 0 h) in
  match hbind (tidy h) (build_node levels 0 []) with
  | BadAlloc h => hbind (tidy h) BadAlloc
  | LogicErr h => hbind (tidy h) LogicErr
  | r => r
  end.
End Alloc.

(* The constructor of the octree *)
Definition heap_new : heap := Heap (fun a => if a =? 0 then Some fresh_node else None) 1 [].

(* ~DC_Octree, which destroys m_root *)
Definition destroy (levels : nat) (h : heap) : hresult :=
  hread h 0 (fun n => if hn_leaf n then Done h else collapse (S levels) 0 h).
