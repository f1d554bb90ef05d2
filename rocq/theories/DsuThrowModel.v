(* DisjointSetUnion (src/private/disjoint_set_union.hpp) when memory runs out: expand step by step, with the capacities of
   the two vectors.  As in DsuModel.v, T is wide enough. *)
From Coq Require Import List Bool Arith.
From Verif Require Import Base DsuModel MeshThrowModel.
Import ListNotations.

(* m_parent and m_size with their capacities, :68-69 *)
Record cdsu := CDsu { cd_dsu : dsu; cd_pcap : nat; cd_scap : nat }.

Section Dsu.
(* The requests that fail, and by how much a granted block is larger than asked for *)
Variable fails : nat -> bool.
Variable extra : nat -> nat.

(* std::vector::reserve: a request if the capacity is smaller; the elements stay as they are in any case *)
Definition reserve_parent (s : cdsu) (n k : nat) : cres cdsu :=
  if n <=? cd_pcap s then CDone s k
  else if fails k then CThrow s (S k) else CDone (CDsu (cd_dsu s) (n + extra k) (cd_scap s)) (S k).
Definition reserve_size (s : cdsu) (n k : nat) : cres cdsu :=
  if n <=? cd_scap s then CDone s k
  else if fails k then CThrow s (S k) else CDone (CDsu (cd_dsu s) (cd_pcap s) (n + extra k)) (S k).

(* std::vector::resize to a larger size: a request if the capacity is smaller; zeros are appended *)
Definition resize_to (l : list nat) (n : nat) : list nat := l ++ repeat 0 (n - length l).
Definition resize_parent (s : cdsu) (n k : nat) : cres cdsu :=
  cbind (reserve_parent s n k) (fun s k => CDone (CDsu (Dsu (resize_to (d_parent (cd_dsu s)) n) (d_size (cd_dsu s))) (cd_pcap s) (cd_scap s)) k).
Definition resize_size (s : cdsu) (n k : nat) : cres cdsu :=
  cbind (reserve_size s n k) (fun s k => CDone (CDsu (Dsu (d_parent (cd_dsu s)) (resize_to (d_size (cd_dsu s)) n)) (cd_pcap s) (cd_scap s)) k).

(* The loop :34-37 *)
Definition init_items (d : dsu) (from n : nat) : dsu :=
  fold_left (fun d i => Dsu (set_nth (d_parent d) i i) (set_nth (d_size d) i 1)) (seq from n) d.

(* expand, :24-38 *)
Definition cexpand (s : cdsu) (new_size k : nat) : cres cdsu :=
  let old_size := dsu_count (cd_dsu s) in
  if new_size <=? old_size then CDone s k
  else
    cbind (reserve_parent s new_size k) (fun s k =>
    cbind (reserve_size s new_size k) (fun s k =>
    cbind (resize_parent s new_size k) (fun s k =>
    cbind (resize_size s new_size k) (fun s k =>
    CDone (CDsu (init_items (cd_dsu s) old_size (new_size - old_size)) (cd_pcap s) (cd_scap s)) k)))).

(* The calls; those which do not grow the vectors (:45-67) are as in DsuModel.v *)
Definition cdsu_step (s : cdsu) (c : dsu_call) (k : nat) : cres cdsu :=
  match c with
  | DExpand n => cexpand s n k
  | DAddSet => cexpand s (dsu_count (cd_dsu s) + 1) k
  | _ => match dsu_step (cd_dsu s) c with Ret d => CDone (CDsu d (cd_pcap s) (cd_scap s)) k | _ => CErr end
  end.
End Dsu.
