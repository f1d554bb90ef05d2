(* The nodes of TriangleOctree (src/private/octree.{hpp,cpp}) as objects in memory: operator new may fail, reading or
   deleting an object that does not exist is undefined behaviour.  TriModel.v is the same class on trees.

   Simplified: addresses are numbers and never reused; push_back always allocates (octree.cpp:101), which only gives more
   occasions to fail. *)
From Coq Require Import ZArith List Bool.
From Verif Require Import Base Arith TriModel.
Import ListNotations.
Local Open Scope Z_scope.

Section Heap.
Context {F : Type}.
Variable A : arith F.
Variable float_max : F.
Notation vec := (vec3 F).
Notation tri := (triangle F).

(* octree.hpp:38-44 *)
Record tnode := TN { tn_pos : vec; tn_half : F; tn_leaf : bool; tn_level : Z; tn_children : list (option Z); tn_tris : list tri }.
(* Objects; the next address; the number of allocations so far *)
Record theap := TH { th_nodes : Z -> option tnode; th_next : Z; th_tick : nat }.

Inductive tresult :=
| TDone (h : theap)       (* returned *)
| TBad (h : theap)        (* left by std::bad_alloc *)
| TUB                     (* undefined behaviour *)
| TNoFuel.
Definition tbind (r : tresult) (k : theap -> tresult) : tresult := match r with TDone h => k h | _ => r end.
Definition tread (h : theap) (a : Z) (k : tnode -> tresult) : tresult :=
  match th_nodes h a with Some n => k n | None => TUB end.
Definition tput (h : theap) (a : Z) (n : option tnode) : theap :=
  TH (fun x => if x =? a then n else th_nodes h x) (th_next h) (th_tick h).
Definition ttick (h : theap) : theap := TH (th_nodes h) (th_next h) (S (th_tick h)).
Fixpoint tfold {X} (f : X -> theap -> tresult) (l : list X) (h : theap) : tresult :=
  match l with [] => TDone h | x :: l' => tbind (f x h) (tfold f l') end.

(* octree.cpp:19-28, the constructor *)
Definition tn_new (half : F) (level : Z) (pos : vec) : tnode := TN pos half true level (repeat None 8) [].

Section Alloc.
(* Which allocations succeed *)
Variable works : nat -> bool.

(* new TriangleOctree (...) *)
Definition tnew (n : tnode) (h : theap) (k : Z -> theap -> tresult) : tresult :=
  if works (th_tick h)
  then k (th_next h) (TH (fun x => if x =? th_next h then Some n else th_nodes h x) (th_next h + 1) (S (th_tick h)))
  else TBad (ttick h).

(* insertByIndex, octree.cpp:135-145, with [ins] for insert of the children *)
Definition th_by_index (ins : Z -> tri -> theap -> tresult) (a idx : Z) (t : tri) (h : theap) : tresult :=
  tread h a (fun n =>
    match znth (tn_children n) idx with
    | None => TUB
    | Some (Some c) => ins c t h
    | Some None =>
        tnew (tn_new (a_div A (tn_half n) (a_ofZ A 2)) (tn_level n + 1) (child_at A (tn_pos n) (tn_half n) idx)) h (fun c h =>
          ins c t (tput h a (Some (TN (tn_pos n) (tn_half n) (tn_leaf n) (tn_level n)
                                      (set_nth (tn_children n) (Z.to_nat idx) (Some c)) (tn_tris n)))))
    end).

(* insertAsNode, octree.cpp:121-133 *)
Definition th_as_node (ins : Z -> tri -> theap -> tresult) (a : Z) (t : tri) (h : theap) : tresult :=
  tread h a (fun n =>
    let i1 := tt_index A (tn_pos n) (tn_half n) (ta t) in
    let i2 := tt_index A (tn_pos n) (tn_half n) (tb t) in
    let i3 := tt_index A (tn_pos n) (tn_half n) (tc t) in
    tbind (th_by_index ins a i1 t h) (fun h =>
    tbind (if i2 =? i1 then TDone h else th_by_index ins a i2 t h) (fun h =>
    if (i3 =? i2) || (i3 =? i1) then TDone h else th_by_index ins a i3 t h))).

(* insert, octree.cpp:98-113.  The loop :106-107 runs over the triangles the node had when it started: insertAsNode does
   not change them. *)
Fixpoint th_insert (fuel : nat) (a : Z) (t : tri) (h : theap) {struct fuel} : tresult :=
  match fuel with
  | O => TNoFuel
  | S fuel' =>
      tread h a (fun n =>
        if tn_leaf n then
          if (zlen (tn_tris n) <? split_limit) || (max_depth <=? tn_level n) then
            if works (th_tick h)
            then TDone (tput (ttick h) a (Some (TN (tn_pos n) (tn_half n) true (tn_level n) (tn_children n) (tn_tris n ++ [t]))))
            else TBad (ttick h)
          else
            tbind (tfold (fun t' => th_as_node (th_insert fuel') a t') (tn_tris n)
                     (tput h a (Some (TN (tn_pos n) (tn_half n) false (tn_level n) (tn_children n) (tn_tris n))))) (fun h =>
            tread h a (fun n =>
              TDone (tput h a (Some (TN (tn_pos n) (tn_half n) (tn_leaf n) (tn_level n) (tn_children n) [])))))
        else th_as_node (th_insert fuel') a t h)
  end.
End Alloc.

(* delete of a node: the destructor, octree.cpp:30-35, then the memory of the node is given back *)
Fixpoint th_delete (fuel : nat) (a : Z) (h : theap) {struct fuel} : tresult :=
  match fuel with
  | O => TNoFuel
  | S fuel' =>
      tread h a (fun n =>
        tbind (if tn_leaf n then TDone h
               else tfold (fun i h => tread h a (fun n =>
                      match znth (tn_children n) i with
                      | None => TUB
                      | Some None => TDone h
                      | Some (Some c) => th_delete fuel' c h
                      end)) (zseq 0 8) h) (fun h =>
        tread h a (fun _ => TDone (tput h a None))))
  end.

(* nearTriangleImpl, octree.cpp:70-96; None is undefined behaviour.  The octree is not written. *)
Fixpoint th_near (fuel : nat) (p : vec) (h : theap) (a : Z) (s : near_state) {struct fuel} : option near_state :=
  match fuel with
  | O => None
  | S fuel' =>
      match th_nodes h a with
      | None => None
      | Some n =>
          let '(bound, _, _) := s in
          if a_lt A bound (distance_to_node A (tn_pos n) (tn_half n) p) then Some s
          else if tn_leaf n then Some (fold_left (near_step A p) (tn_tris n) s)
          else
            let idx := tt_index A (tn_pos n) (tn_half n) p in
            let visit i s := match znth (tn_children n) i with
                             | None => None
                             | Some None => Some s
                             | Some (Some c) => th_near fuel' p h c s
                             end in
            fold_left (fun o i => match o with None => None | Some s => if i =? idx then Some s else visit i s end) (zseq 0 8) (visit idx s)
      end
  end.

(* nearTriangle, octree.cpp:49-68 *)
Definition th_near_triangle (h : theap) (a : Z) (p : vec) : option (tri * F * Z) :=
  match th_near insert_fuel p h a (float_max, zero_triangle A, 0) with
  | Some (bound, ans, ansi) => Some (ans, a_sqrt A bound, ansi)
  | None => None
  end.

(* m_root = new TriangleOctree (halfSize, 0, pos), mesh_field.cpp:62, in a memory without octree nodes *)
Definition th_start (half : F) (pos : vec) : theap :=
  TH (fun x => if x =? 0 then Some (tn_new half 0 pos) else None) 1 O.
End Heap.
Arguments tnode F : clear implicits.
Arguments theap F : clear implicits.
Arguments tresult F : clear implicits.
