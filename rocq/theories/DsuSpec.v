(* Specification of disjoint set union: connectivity by the performed merges. *)
From Coq Require Import List Relations Operators_Properties.
From Verif Require Import Base DsuModel.
Import ListNotations.

(* The pairs merged by a history. *)
Fixpoint merged (cs : list dsu_call) : list (nat * nat) :=
  match cs with
  | [] => []
  | DMerge a b :: cs' => (a, b) :: merged cs'
  | _ :: cs' => merged cs'
  end.

(* [a] and [b] are connected: the least equivalence containing the pairs. *)
Definition connected (E : list (nat * nat)) : nat -> nat -> Prop :=
  clos_refl_sym_trans nat (fun a b => In (a, b) E).

(* Number of items after a history, starting from [n]. *)
Fixpoint items (n : nat) (cs : list dsu_call) : nat :=
  match cs with
  | [] => n
  | DExpand k :: cs' => items (Nat.max n k) cs'
  | DAddSet :: cs' => items (S n) cs'
  | _ :: cs' => items n cs'
  end.

(* All arguments are in range at the time of the call. *)
Fixpoint in_range (n : nat) (cs : list dsu_call) : Prop :=
  match cs with
  | [] => True
  | DExpand k :: cs' => in_range (Nat.max n k) cs'
  | DAddSet :: cs' => in_range (S n) cs'
  | DLeader i :: cs' => i < n /\ in_range n cs'
  | DMerge a b :: cs' => a < n /\ b < n /\ in_range n cs'
  | DSame a b :: cs' => a < n /\ b < n /\ in_range n cs'
  end.

(* Recursion depth of the leader lookup: number of parent links followed. *)
Fixpoint links (fuel : nat) (p : list nat) (i : nat) : nat :=
  match fuel with
  | O => 0
  | S fuel' => match nth_error p i with
               | Some q => if Nat.eqb q i then 0 else S (links fuel' p q)
               | None => 0
               end
  end.
