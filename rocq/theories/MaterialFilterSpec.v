(* Specification vocabulary for the material filters: counting, majorities. *)
From Coq Require Import ZArith List Bool.
From Verif Require Import Base MaterialFilterModel.
Import ListNotations.
Local Open Scope Z_scope.

(* How often [m] occurs in [l]. *)
Definition occurrences (m : material) (l : list material) : Z :=
  Z.of_nat (count_occ Z.eq_dec l m).

(* Number of non-Empty entries. *)
Definition nonempty_count (l : list material) : Z :=
  zlen (filter is_solid l).

(* [m] makes up more than half of the non-Empty entries. *)
Definition strict_majority (m : material) (l : list material) : Prop :=
  m <> Empty /\ 2 * occurrences m l > nonempty_count l.

(* All materials a client has put into a filter. *)
Fixpoint materials_of (h : fast_history) : list material :=
  match h with
  | FNew => []
  | FAdd h m => materials_of h ++ [m]
  | FMerge h g => materials_of h ++ materials_of g
  end.

(* Number of merges performed. *)
Fixpoint merges_of (h : fast_history) : Z :=
  match h with
  | FNew => 0
  | FAdd h _ => merges_of h
  | FMerge h g => merges_of h + merges_of g + 1
  end.
