(* Specification of edge storages, independent of the search. *)
From Coq Require Import ZArith List Bool Permutation Sorted.
From Verif Require Import Base GridSpec EdgeModel.
Import ListNotations.
Local Open Scope Z_scope.

(* What std::sort (first, last, less) promises: a permutation in which no
   element is followed by a smaller one.  The order of equivalent elements is
   unspecified. *)
Definition sort_result {A} (less : A -> A -> bool) (l l' : list A) : Prop :=
  Permutation l l' /\ StronglySorted (fun a b => less b a = false) l'.

(* An implementation of sorting that keeps that promise. *)
Definition sorts {A} (less : A -> A -> bool) (sort : list A -> list A) : Prop :=
  forall l, sort_result less l (sort l).

(* Edges ordered by lesser endpoint, YXZ order. *)
Definition edges_sorted {F} (l : list (uedge F)) : Prop :=
  StronglySorted (fun a b => ~ yxz_lt (lesser_endpoint b) (lesser_endpoint a)) l.

(* Coordinates representable in 16 bits. *)
Definition is_i16 (z : Z) : Prop := i16min <= z <= i16max.
