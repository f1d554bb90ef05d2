(* Specification of dual marching cubes: the surface runs between the leaves of an octree. *)
From Coq Require Import ZArith List Bool.
From Verif Require Import Base Arith MeshModel MeshSpec MCModel GridSpec CellSpec OctreeModel OctreeSpec DmcModel.
Import ListNotations.
Local Open Scope Z_scope.

(* The other end of an edge between unit cells *)
Definition other_end (e : gedge) : ivec3 := vadd (snd e) (unit_vec (fst e)).

Section Spec.
Variable E : fpenv.
Notation leaf := (dmc_leaf (fp_F E)).
(* A tree over the cube of level [n] at [q] *)
Variables (n : nat) (q : ivec3) (root : otree leaf unit).

(* Two unit cells of the cube next to each other *)
Definition neighbours (e : gedge) : Prop := in_cube q n (snd e) /\ in_cube q n (other_end e).
(* ... that belong to the leaves [a] and [b] *)
Definition joins (e : gedge) (a b : leaf) : Prop :=
  neighbours e /\ leaf_at n root q (snd e) = Some a /\ leaf_at n root q (other_end e) = Some b.

(* The dual vertex of the leaf is inside the solid. *)
Definition node_inside (a : leaf) : bool :=
  match dn_dual a with Some (_, w) => a_le (fp_f E) w (a_ofZ (fp_f E) 0) | None => false end.
Definition opposite (a b : leaf) : Prop := node_inside a <> node_inside b.

(* Different leaves are different objects in memory. *)
Definition distinct_nodes : Prop := NoDup (map dn_addr (leaves_of root)).

(* [num] gives the numbers of the vertices of [m]: one vertex for each pair of neighbouring leaves, on different
   sides of the surface, it belongs to. *)
Record numbering (num : Z -> Z -> option Z) (m : mesh (mvert (fp_F E))) : Prop := {
  num_sym : forall x y, num x y = num y x;
  num_inj : forall x y x' y' k, num x y = Some k -> num x' y' = Some k -> (x' = x /\ y' = y) \/ (x' = y /\ y' = x);
  num_range : forall x y k, num x y = Some k -> 0 <= k < mesh_vertex_count m;
  num_from : forall k, 0 <= k < mesh_vertex_count m ->
    exists e a b v, joins e a b /\ opposite a b /\ num (dn_addr a) (dn_addr b) = Some k /\
      znth (m_verts m) k = Some v /\ dmc_vertex E a b = Ret v }.

(* The vertices [k] and [l] both lie between leaves at the same side of the cube. *)
Definition border_side (num : Z -> Z -> option Z) (k l : Z) : Prop :=
  exists d s e1 a1 b1 e2 a2 b2, (s = vget d q \/ s = vget d q + edge_len n - 1) /\
    joins e1 a1 b1 /\ opposite a1 b1 /\ edge_in_plane d s e1 /\ num (dn_addr a1) (dn_addr b1) = Some k /\
    joins e2 a2 b2 /\ opposite a2 b2 /\ edge_in_plane d s e2 /\ num (dn_addr a2) (dn_addr b2) = Some l.
End Spec.
