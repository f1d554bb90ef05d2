(* Model of src/private/disjoint_set_union.hpp with the template integer type T
   made explicit: T is an unsigned type of [w] bits, every value of type T is a
   natural number below 2 ^ w, and every conversion to T is a reduction modulo
   2 ^ w.  DsuModel.v is the same class with T unbounded.  std::vector's own
   size_type stays unbounded here. *)
From Coq Require Import Arith List Bool.
From Verif Require Import Base DsuModel.
Import ListNotations.

Section Width.
Variable w : nat.

(* conversion to T *)
Definition to_T (x : nat) : nat := x mod 2 ^ w.

(* disjoint_set_union.hpp:15-20; the argument is a T *)
Definition wdsu_new (n : nat) : dsu := dsu_new (to_T n).

(* :22 *)
Definition wdsu_count (d : dsu) : nat := to_T (length (d_parent d)).

(* :24-38.  vector::resize cuts the vectors when new_size is below their length
   (possible only when size () was truncated); the loop then writes the entries
   from old_size on. *)
Definition wdsu_expand (d : dsu) (new_size : nat) : dsu :=
  let new_size := to_T new_size in
  let old_size := wdsu_count d in
  if new_size <=? old_size then d
  else Dsu (firstn old_size (d_parent d) ++ seq old_size (new_size - old_size))
           (firstn old_size (d_size d) ++ repeat 1 (new_size - old_size)).

(* :40-43; size () - 1 is computed modulo 2 ^ w *)
Definition wdsu_add_set (d : dsu) : dsu * nat :=
  let d' := wdsu_expand d (wdsu_count d + 1) in
  (d', to_T (wdsu_count d' + (2 ^ w - 1))).

(* :45-50.  The assertion compares with the truncated size; a vector access
   past the end would be undefined behaviour. *)
Fixpoint wfind_root (fuel : nat) (cnt : nat) (p : list nat) (item : nat)
  : outcome (list nat * nat) :=
  match fuel with
  | O => NoFuel
  | S fuel' =>
      if item <? cnt then
        match nth_error p item with
        | None => UB
        | Some q =>
            if q =? item then Ret (p, item)
            else '(p', r) <- wfind_root fuel' cnt p q ;; Ret (set_nth p' item r, r)
        end
      else AssertFail
  end.

Definition wdsu_leader (d : dsu) (item : nat) : outcome (dsu * nat) :=
  '(p, r) <- wfind_root (dsu_count d) (wdsu_count d) (d_parent d) (to_T item) ;;
  Ret (Dsu p (d_size d), r).

(* :52-65; the sums of set sizes wrap *)
Definition wdsu_merge (d : dsu) (a b : nat) : outcome dsu :=
  '(d, a) <- wdsu_leader d a ;;
  '(d, b) <- wdsu_leader d b ;;
  if a =? b then Ret d
  else
    sa <- oread (nth_error (d_size d) a) ;;
    sb <- oread (nth_error (d_size d) b) ;;
    if sa <? sb
    then Ret (Dsu (set_nth (d_parent d) a b) (set_nth (d_size d) b (to_T (sb + sa))))
    else Ret (Dsu (set_nth (d_parent d) b a) (set_nth (d_size d) a (to_T (sa + sb)))).

(* :67 *)
Definition wdsu_same (d : dsu) (a b : nat) : outcome (dsu * bool) :=
  '(d, a) <- wdsu_leader d a ;;
  '(d, b) <- wdsu_leader d b ;;
  Ret (d, a =? b).

(* One call of a client; cf. [dsu_step]. *)
Definition wdsu_step (d : dsu) (c : dsu_call) : outcome dsu :=
  match c with
  | DExpand n => Ret (wdsu_expand d n)
  | DAddSet => Ret (fst (wdsu_add_set d))
  | DLeader i => '(d', _) <- wdsu_leader d i ;; Ret d'
  | DMerge a b => wdsu_merge d a b
  | DSame a b => '(d', _) <- wdsu_same d a b ;; Ret d'
  end.

Definition wdsu_run (n : nat) (cs : list dsu_call) : outcome dsu :=
  ofold wdsu_step cs (wdsu_new n).

End Width.
