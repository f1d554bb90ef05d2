(* Geometry of octrees over the unit cells of a grid. *)
From Coq Require Import ZArith List Bool.
From Verif Require Import Base GridSpec CellSpec OctreeModel.
Import ListNotations.
Local Open Scope Z_scope.

(* Edge length of a cube of level [n]. *)
Definition edge_len (n : nat) : Z := 2 ^ Z.of_nat n.

(* Unit cell [c] belongs to the cube of level [n] at [q]. *)
Definition in_cube (q : ivec3) (n : nat) (c : ivec3) : Prop :=
  vx q <= vx c < vx q + edge_len n /\ vy q <= vy c < vy q + edge_len n /\ vz q <= vz c < vz q + edge_len n.

(* Grid vertex [p] belongs to the closed cube. *)
Definition in_closed_cube (q : ivec3) (n : nat) (p : ivec3) : Prop :=
  vx q <= vx p <= vx q + edge_len n /\ vy q <= vy p <= vy q + edge_len n /\ vz q <= vz p <= vz q + edge_len n.

(* One cube contains the other. *)
Definition subcube (q : ivec3) (n : nat) (q' : ivec3) (n' : nat) : Prop :=
  (vx q' <= vx q /\ vx q + edge_len n <= vx q' + edge_len n') /\
  (vy q' <= vy q /\ vy q + edge_len n <= vy q' + edge_len n') /\
  (vz q' <= vz q /\ vz q + edge_len n <= vz q' + edge_len n').

(* Position of child number [i] of a cube whose children have level [m]. *)
Definition child_pos (q : ivec3) (m : nat) (i : Z) : ivec3 := vadd q (vscale (edge_len m) (corner_offset i)).

(* [t] is a tree over the cube of level [n] at [q]: inner nodes have eight
   children which tile the cube, and each leaf satisfies [X] with the cube it
   occupies. *)
Fixpoint tree_ok {A B} (X : A -> ivec3 -> nat -> Prop) (n : nat) (t : otree A B) (q : ivec3) : Prop :=
  match t with
  | OLeaf a => X a q n
  | ONode _ cs =>
      match n with
      | O => False
      | S m => length cs = 8%nat /\
          forall i c, znth cs i = Some c -> tree_ok X m c (child_pos q m i)
      end
  end.

(* The leaf of the tree over cube (q, n) that contains the unit cell [c]. *)
Definition child_of (q : ivec3) (m : nat) (c : ivec3) : Z :=
  (if vx q + edge_len m <=? vx c then 2 else 0) + (if vy q + edge_len m <=? vy c then 4 else 0)
  + (if vz q + edge_len m <=? vz c then 1 else 0).
Fixpoint leaf_at {A B} (n : nat) (t : otree A B) (q : ivec3) (c : ivec3) : option A :=
  match t with
  | OLeaf a => Some a
  | ONode _ cs =>
      match n with
      | O => None
      | S m => let i := child_of q m c in
          match znth cs i with
          | Some t' => leaf_at m t' (child_pos q m i) c
          | None => None
          end
      end
  end.

(* The leaves of a tree in depth first order. *)
Fixpoint leaves_of {A B} (t : otree A B) : list A :=
  match t with OLeaf a => [a] | ONode _ cs => flat_map leaves_of cs end.
Fixpoint tree_map {A A' B} (f : A -> A') (t : otree A B) : otree A' B :=
  match t with OLeaf a => OLeaf (f a) | ONode b cs => ONode b (map (tree_map f) cs) end.
