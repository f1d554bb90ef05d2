(* Model of src/private/disjoint_set_union.hpp (DisjointSetUnion<T>).
   Items are natural numbers.  The integer type T is assumed wide enough to
   hold the number of items (otherwise T(m_parent.size ()) already truncates);
   then no arithmetic below wraps, because a set never has more items than the
   whole structure (C22_sizes).  DsuWidthModel.v has T of w bits; C81 relates
   the two. *)
From Coq Require Import ZArith List Bool.
From Verif Require Import Base.
Import ListNotations.

(* m_parent, m_size: disjoint_set_union.hpp:68-69 *)
Record dsu := Dsu { d_parent : list nat; d_size : list nat }.

(* :15-20 *)
Definition dsu_new (n : nat) : dsu := Dsu (seq 0 n) (repeat 1 n).

(* :22 *)
Definition dsu_count (d : dsu) : nat := length (d_parent d).

(* :24-38.  Growth past the end appends singletons; smaller sizes are ignored. *)
Definition dsu_expand (d : dsu) (new_size : nat) : dsu :=
  let old_size := dsu_count d in
  if new_size <=? old_size then d
  else Dsu (d_parent d ++ seq old_size (new_size - old_size))
           (d_size d ++ repeat 1 (new_size - old_size)).

(* :40-43 *)
Definition dsu_add_set (d : dsu) : dsu * nat :=
  let d' := dsu_expand d (dsu_count d + 1) in (d', dsu_count d' - 1).

(* :45-50, the recursion with path compression; [fuel] bounds its depth *)
Fixpoint find_root (fuel : nat) (p : list nat) (item : nat) : outcome (list nat * nat) :=
  match fuel with
  | O => NoFuel
  | S fuel' =>
      match nth_error p item with
      | None => AssertFail
      | Some q =>
          if q =? item then Ret (p, item)
          else '(p', r) <- find_root fuel' p q ;; Ret (set_nth p' item r, r)
      end
  end.

Definition dsu_leader (d : dsu) (item : nat) : outcome (dsu * nat) :=
  '(p, r) <- find_root (dsu_count d) (d_parent d) item ;; Ret (Dsu p (d_size d), r).

(* :52-65 *)
Definition dsu_merge (d : dsu) (a b : nat) : outcome dsu :=
  '(d, a) <- dsu_leader d a ;;
  '(d, b) <- dsu_leader d b ;;
  if a =? b then Ret d
  else
    sa <- oread (nth_error (d_size d) a) ;;
    sb <- oread (nth_error (d_size d) b) ;;
    if sa <? sb
    then Ret (Dsu (set_nth (d_parent d) a b) (set_nth (d_size d) b (sb + sa)))
    else Ret (Dsu (set_nth (d_parent d) b a) (set_nth (d_size d) a (sa + sb))).

(* :67 *)
Definition dsu_same (d : dsu) (a b : nat) : outcome (dsu * bool) :=
  '(d, a) <- dsu_leader d a ;;
  '(d, b) <- dsu_leader d b ;;
  Ret (d, a =? b).

(* Calls a client can make on an existing structure. *)
Inductive dsu_call :=
| DExpand (n : nat)
| DAddSet
| DLeader (i : nat)
| DMerge (a b : nat)
| DSame (a b : nat).

Definition dsu_step (d : dsu) (c : dsu_call) : outcome dsu :=
  match c with
  | DExpand n => Ret (dsu_expand d n)
  | DAddSet => Ret (fst (dsu_add_set d))
  | DLeader i => '(d', _) <- dsu_leader d i ;; Ret d'
  | DMerge a b => dsu_merge d a b
  | DSame a b => '(d', _) <- dsu_same d a b ;; Ret d'
  end.

Definition dsu_run (n : nat) (cs : list dsu_call) : outcome dsu :=
  ofold dsu_step cs (dsu_new n).
