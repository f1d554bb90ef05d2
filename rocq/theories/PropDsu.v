(* Properties of DisjointSetUnion (C22, C23). *)
From Coq Require Import List Lia Arith Relations.
From Verif Require Import Base DsuModel DsuSpec DsuProofs.
Import ListNotations.

(* C22: every in-range history runs to completion and afterwards areInSameSet
   decides connectivity by the merges of the history. *)
Theorem C22_same_set : forall n cs a b, in_range n cs ->
  a < items n cs -> b < items n cs ->
  exists d d' r, dsu_run n cs = Ret d /\ dsu_same d a b = Ret (d', r) /\
    (r = true <-> connected (merged cs) a b).
Proof. exact dsu_same_correct. Qed.
Print Assumptions C22_same_set.

(* C22: the leader belongs to the set and is the same for all its members. *)
Theorem C22_leader : forall n cs a, in_range n cs -> a < items n cs ->
  exists d d' r, dsu_run n cs = Ret d /\ dsu_leader d a = Ret (d', r) /\
    r < items n cs /\ connected (merged cs) a r /\
    (forall b, connected (merged cs) a b -> b < items n cs ->
       exists d'', dsu_leader d b = Ret (d'', r)).
Proof. exact dsu_leader_correct. Qed.
Print Assumptions C22_leader.

(* C22: stored set sizes never exceed the number of items. *)
Theorem C22_sizes : forall n cs d, in_range n cs -> dsu_run n cs = Ret d ->
  forall r s, nth_error (d_parent d) r = Some r -> nth_error (d_size d) r = Some s ->
  s <= items n cs.
Proof. exact dsu_sizes. Qed.
Print Assumptions C22_sizes.

(* C23: the number of parent links followed from any item is at most the
   base-2 logarithm of the number of items in its set [l]. *)
Theorem C23_depth : forall n cs a, in_range n cs -> a < items n cs ->
  exists d l, dsu_run n cs = Ret d /\ NoDup l /\
    (forall j, In j l <-> j < items n cs /\ connected (merged cs) a j) /\
    2 ^ links (items n cs) (d_parent d) a <= length l.
Proof. exact dsu_depth. Qed.
Print Assumptions C23_depth.

Definition c22_history : list dsu_call :=
  [DMerge 0 1; DMerge 2 3; DMerge 1 3; DAddSet; DLeader 3; DExpand 7; DMerge 6 4; DSame 0 2].
Example c22_instance : in_range 4 c22_history /\ items 4 c22_history = 7 /\
  exists d, dsu_run 4 c22_history = Ret d /\
   (exists d', dsu_same d 0 3 = Ret (d', true)) /\ (exists d', dsu_same d 0 6 = Ret (d', false)) /\
   links 7 (d_parent d) 4 = 1.
Proof. vm_compute. repeat split; try lia. eexists; repeat split; eexists; reflexivity. Qed.
