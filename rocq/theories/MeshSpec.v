(* Specification of triangle meshes, independent of how they are built. *)
From Coq Require Import ZArith List Bool.
From Verif Require Import Base MeshModel.
Import ListNotations.
Local Open Scope Z_scope.

Definition triangle := (Z * Z * Z)%type.

(* The index buffer that lists the given triangles. *)
Fixpoint flatten (ts : list triangle) : list Z :=
  match ts with
  | [] => []
  | (a, b, c) :: ts' => a :: b :: c :: flatten ts'
  end.

(* A triangle that names three different existing vertices. *)
Definition good_triangle (n : Z) (t : triangle) : Prop :=
  let '(a, b, c) := t in
  0 <= a < n /\ 0 <= b < n /\ 0 <= c < n /\ a <> b /\ b <> c /\ a <> c.

(* [m] is a valid mesh whose triangles are [ts]. *)
Definition mesh_valid_with {V} (m : mesh V) (ts : list triangle) : Prop :=
  m_inds m = flatten ts /\ Forall (good_triangle (mesh_vertex_count m)) ts.

Definition mesh_valid {V} (m : mesh V) : Prop := exists ts, mesh_valid_with m ts.

(* The triangles with three different corners. *)
Definition nondegenerate (t : triangle) : bool :=
  let '(a, b, c) := t in negb ((a =? b) || (b =? c) || (a =? c)).

(* What a history has to leave behind: vertices and triangles since the last Clear. *)
Fixpoint expected {V} (cs : list (mesh_call V)) (vs : list V) (ts : list triangle)
  : list V * list triangle :=
  match cs with
  | [] => (vs, ts)
  | AddVertex v :: cs' => expected cs' (vs ++ [v]) ts
  | AddTriangle a b c :: cs' => expected cs' vs (ts ++ [(a, b, c)])
  | Clear :: cs' => expected cs' [] []
  end.

(* Histories that respect the documented contract: identifiers passed to
   addTriangle exist, and there are never more than 2^32 vertices. *)
Fixpoint respects {V} (cs : list (mesh_call V)) (n : Z) : Prop :=
  match cs with
  | [] => True
  | AddVertex v :: cs' => n + 1 <= two32 /\ respects cs' (n + 1)
  | AddTriangle a b c :: cs' => 0 <= a < n /\ 0 <= b < n /\ 0 <= c < n /\ respects cs' n
  | Clear :: cs' => respects cs' 0
  end.

(* ------------------------------------------------------------------ *)
(* Directed sides                                                      *)
(* ------------------------------------------------------------------ *)

(* The three directed sides of a triangle, in winding order. *)
Definition sides (t : triangle) : list (Z * Z) :=
  let '(a, b, c) := t in [(a, b); (b, c); (c, a)].

Definition pair_eqb (p q : Z * Z) : bool := (fst p =? fst q) && (snd p =? snd q).

Definition b2z (b : bool) : Z := if b then 1 else 0.

(* Number of elements satisfying [f]. *)
Fixpoint countZ {A} (f : A -> bool) (l : list A) : Z :=
  match l with [] => 0 | a :: l' => b2z (f a) + countZ f l' end.

(* How often the triangles run along the directed side from [a] to [b]. *)
Definition side_count (ts : list triangle) (a b : Z) : Z :=
  countZ (pair_eqb (a, b)) (flat_map sides ts).
