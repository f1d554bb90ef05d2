(* Copies of octrees.  DC_Octree, MDC_Octree and DMC_Octree declare no copy constructor
   (dc_octree.hpp:18-49, mdc_octree.hpp:18-42, dmc_octree.hpp:20-54), and neither do their nodes
   (dc_octree_node.hpp:18-46, mdc_octree_node.hpp:35-66, dmc_octree_node.hpp:14-29), so the compiler makes
   them: they copy member by member, pointers included.

   m_root of the copy has address -1, which no node made by new has.

   Simplified: that leaf_data of DC_OctreeNode can be copied with the union depends on glm and on QefSolver3D::State
   being trivially copyable, which they are in the default configuration of glm. *)
From Coq Require Import ZArith List Bool.
From Verif Require Import Base DcHeap MdcHeap DmcHeap.
Local Open Scope Z_scope.

Definition copy_addr : Z := -1.

(* DMC_Octree (const DMC_Octree &), implicit *)
Definition dmc_copy (h : dheap) : dresult := dread h 0 (fun n => DDone (dwrite h copy_addr n)).
(* The destructor of the copy *)
Definition dmc_destroy_copy (levels : nat) (h : dheap) : dresult := dcollapse (S levels) copy_addr h.
(* A copy is made; it is destroyed before the original, like local variables are. *)
Definition dmc_copied (levels : nat) (h : dheap) : dresult :=
  dbind (dmc_copy h) (fun h => dbind (dmc_destroy_copy levels h) (dmc_destroy levels)).

(* MDC_Octree (const MDC_Octree &), implicit *)
Definition mdc_copy (h : bheap) : bresult := bread h 0 (fun n => BDone (bwrite h copy_addr n)).
Definition mdc_destroy_copy (levels : nat) (h : bheap) : bresult := bcollapse (S levels) copy_addr h.
Definition mdc_copied (levels : nat) (h : bheap) : bresult :=
  bbind (mdc_copy h) (fun h => bbind (mdc_destroy_copy levels h) (mdc_destroy levels)).

(* DC_Octree (const DC_Octree &), implicit *)
Definition dc_copy (h : heap) : hresult := hread h 0 (fun n => Done (hwrite h copy_addr n)).
(* ~DC_OctreeNode of the root of the copy, dc_octree_node.cpp:16-19 *)
Definition dc_destroy_copy (levels : nat) (h : heap) : hresult :=
  hread h copy_addr (fun n => if hn_leaf n then Done h else collapse (S levels) copy_addr h).
Definition dc_copied (levels : nat) (h : heap) : hresult :=
  hbind (dc_copy h) (fun h => hbind (dc_destroy_copy levels h) (destroy levels)).
