(* Model of src/private/triangle.hpp and src/private/octree.{hpp,cpp}: distance from a
   point to a triangle, the octree of triangles behind MeshField. *)
From Coq Require Import ZArith List Bool.
From Verif Require Import Base Arith.
Import ListNotations.
Local Open Scope Z_scope.

(* src/private/triangle.hpp:8-22 *)
Record triangle (F : Type) := Tri { ta : vec3 F; tb : vec3 F; tc : vec3 F; tn : vec3 F }.
Arguments Tri {F} ta tb tc tn.
Arguments ta {F} t.
Arguments tb {F} t.
Arguments tc {F} t.
Arguments tn {F} t.

(* src/private/octree.hpp:36-37 SPLIT_TRIANGLES_LIMIT, MAX_DEPTH *)
Definition split_limit : Z := 60.
Definition max_depth : Z := 15.

Section Tri.
Context {F : Type}.
Variable A : arith F.
(* std::numeric_limits<float>::max () *)
Variable float_max : F.
Notation vec := (vec3 F).

(* glm::cross *)
Definition cross3 (u v : vec) : vec :=
  V3 (a_sub A (a_mul A (vy u) (vz v)) (a_mul A (vy v) (vz u)))
     (a_sub A (a_mul A (vz u) (vx v)) (a_mul A (vz v) (vx u)))
     (a_sub A (a_mul A (vx u) (vy v)) (a_mul A (vx v) (vy u))).
(* glm::normalize (v) = v * inversesqrt (dot (v, v)) *)
Definition unit3 (v : vec) : vec := vscale3 A v (a_div A (a_ofZ A 1) (a_sqrt A (dot3 A v v))).

(* src/private/triangle.hpp:12-17 Triangle (a, b, c) *)
Definition mk_triangle (a b c : vec) : triangle F := Tri a b c (unit3 (cross3 (vsub3 A a b) (vsub3 A a c))).
(* new Triangle (): all members zero *)
Definition zero_triangle : triangle F :=
  let o := V3 (a_ofZ A 0) (a_ofZ A 0) (a_ofZ A 0) in Tri o o o o.

(* src/private/octree.cpp:11-13 sign; the float 1 or -1 becomes an int in the callers *)
Definition sign (x : F) : Z := if a_lt A (a_ofZ A 0) x then 1 else -1.
(* src/private/octree.cpp:15-17 *)
Definition distance2 (a b : vec) : F :=
  let sq u v := a_mul A (a_sub A u v) (a_sub A u v) in
  a_add A (a_add A (sq (vx a) (vx b)) (sq (vy a) (vy b))) (sq (vz a) (vz b)).

(* src/private/octree.cpp:157-196 TriangleOctree::distance.  glm's float * vec3 multiplies
   each component. *)
Definition tri_distance (P : vec) (t : triangle F) : F * Z :=
  let zero := a_ofZ A 0 in
  let one := a_ofZ A 1 in
  let '(Tri a b c n) := t in
  let AB := vsub3 A b a in
  let CA := vsub3 A a c in
  let d_ab := a_div A (dot3 A AB (vsub3 A P a)) (dot3 A AB AB) in
  let d_ca := a_div A (dot3 A CA (vsub3 A P c)) (dot3 A CA CA) in
  if a_le A one d_ca && a_le A d_ab zero then (distance2 a P, sign (dot3 A (vsub3 A P a) n)) else
  let BC := vsub3 A c b in
  let d_bc := a_div A (dot3 A BC (vsub3 A P b)) (dot3 A BC BC) in
  if a_le A one d_ab && a_le A d_bc zero then (distance2 b P, sign (dot3 A (vsub3 A P b) n)) else
  if a_le A one d_bc && a_le A d_ca zero then (distance2 c P, sign (dot3 A (vsub3 A P c) n)) else
  if (a_le A zero d_ab && a_le A d_ab one) && a_le A zero (dot3 A (cross3 AB n) (vsub3 A P a)) then
    let K := vadd3 A a (vscale3 A AB d_ab) in (distance2 K P, sign (dot3 A (vsub3 A P K) n)) else
  if (a_le A zero d_bc && a_le A d_bc one) && a_le A zero (dot3 A (cross3 BC n) (vsub3 A P b)) then
    let K := vadd3 A b (vscale3 A BC d_bc) in (distance2 K P, sign (dot3 A (vsub3 A P K) n)) else
  if (a_le A zero d_ca && a_le A d_ca one) && a_le A zero (dot3 A (cross3 CA n) (vsub3 A P c)) then
    let K := vadd3 A c (vscale3 A CA d_ca) in (distance2 K P, sign (dot3 A (vsub3 A P K) n)) else
  let K := vsub3 A P (vscale3 A n (dot3 A (vsub3 A P a) n)) in
  (distance2 K P, sign (dot3 A (vsub3 A P K) n)).

(* ------------------------------------------------------------------ *)
(* The octree                                                          *)
(* ------------------------------------------------------------------ *)

(* src/private/octree.hpp:38-44.  A node with m_isLeaf set has triangles and no children,
   another one has children, some of them null, and no triangles. *)
Inductive ttree :=
| TLeaf (pos : vec) (half : F) (level : Z) (tris : list (triangle F))
| TNode (pos : vec) (half : F) (level : Z) (children : list (option ttree)).

Definition tt_pos (t : ttree) : vec := match t with TLeaf p _ _ _ | TNode p _ _ _ => p end.
Definition tt_half (t : ttree) : F := match t with TLeaf _ h _ _ | TNode _ h _ _ => h end.
Definition tt_level (t : ttree) : Z := match t with TLeaf _ _ l _ | TNode _ _ l _ => l end.

(* src/private/octree.cpp:19-28, the constructor *)
Definition tt_new (half : F) (level : Z) (pos : vec) : ttree := TLeaf pos half level [].

(* src/private/octree.cpp:37-47 index *)
Definition tt_index (pos : vec) (half : F) (p : vec) : Z :=
  let bit c k := if a_le A (a_add A (c pos) half) (c p) then k else 0 in
  Z.lor (Z.lor (bit vx 1) (bit vy 2)) (bit vz 4).

(* src/private/octree.cpp:137-142: position of a new child *)
Definition child_at (pos : vec) (half : F) (idx : Z) : vec :=
  let part c k := a_add A (c pos) (a_mul A (a_ofZ A (if Z.land idx k =? 0 then 0 else 1)) half) in
  V3 (part vx 1) (part vy 2) (part vz 4).

(* src/private/octree.cpp:121-145: insertAsNode and insertByIndex, with [ins] for insert
   of the children *)
Definition insert_by_index (ins : ttree -> triangle F -> outcome ttree) (pos : vec) (half : F) (level : Z)
    (cs : list (option ttree)) (idx : Z) (t : triangle F) : outcome (list (option ttree)) :=
  c <- match znth cs idx with
       | None => UB
       | Some None => Ret (tt_new (a_div A half (a_ofZ A 2)) (level + 1) (child_at pos half idx))
       | Some (Some c) => Ret c
       end ;;
  c' <- ins c t ;;
  Ret (set_nth cs (Z.to_nat idx) (Some c')).

Definition insert_as_node (ins : ttree -> triangle F -> outcome ttree) (pos : vec) (half : F) (level : Z)
    (cs : list (option ttree)) (t : triangle F) : outcome (list (option ttree)) :=
  let i1 := tt_index pos half (ta t) in
  let i2 := tt_index pos half (tb t) in
  let i3 := tt_index pos half (tc t) in
  cs1 <- insert_by_index ins pos half level cs i1 t ;;
  cs2 <- (if i2 =? i1 then Ret cs1 else insert_by_index ins pos half level cs1 i2 t) ;;
  if (i3 =? i2) || (i3 =? i1) then Ret cs2 else insert_by_index ins pos half level cs2 i3 t.

(* src/private/octree.cpp:98-113 insert.  The recursion goes down one level of the tree at
   each call. *)
Fixpoint tt_insert (fuel : nat) (tr : ttree) (t : triangle F) {struct fuel} : outcome ttree :=
  match fuel with
  | O => NoFuel
  | S fuel' =>
      match tr with
      | TLeaf pos half level tris =>
          if (zlen tris <? split_limit) || (max_depth <=? level) then Ret (TLeaf pos half level (tris ++ [t]))
          else
            cs <- ofold (fun cs t' => insert_as_node (tt_insert fuel') pos half level cs t') tris (repeat None 8) ;;
            Ret (TNode pos half level cs)
      | TNode pos half level cs =>
          cs' <- insert_as_node (tt_insert fuel') pos half level cs t ;;
          Ret (TNode pos half level cs')
      end
  end.

(* Levels go from 0 to MAX_DEPTH. *)
Definition insert_fuel : nat := 16.
Definition insert_all (tr : ttree) (ts : list (triangle F)) : outcome ttree := ofold (tt_insert insert_fuel) ts tr.

(* src/private/octree.cpp:198-205 distanceToNode; glm::clamp (x, a, b) = min (max (x, a), b),
   called with m_pos for x and p for a *)
Definition distance_to_node (pos : vec) (half : F) (p : vec) : F :=
  let near c := glm_min A (glm_max A (c pos) (c p)) (a_add A (c pos) (a_mul A (a_ofZ A 2) half)) in
  distance2 (V3 (near vx) (near vy) (near vz)) p.

(* *bound, *ans and *ansi *)
Definition near_state : Type := F * triangle F * Z.

(* src/private/octree.cpp:76-86, the loop over the triangles of a leaf *)
Definition near_step (p : vec) (s : near_state) (t : triangle F) : near_state :=
  let '(bound, _, _) := s in
  let '(d, sg) := tri_distance p t in
  if a_lt A d bound || (a_eq A d bound && (0 <? sg)) then (d, t, sg) else s.

(* src/private/octree.cpp:70-96 nearTriangleImpl *)
Fixpoint near_impl (p : vec) (tr : ttree) (s : near_state) {struct tr} : near_state :=
  let '(bound, _, _) := s in
  if a_lt A bound (distance_to_node (tt_pos tr) (tt_half tr) p) then s
  else match tr with
  | TLeaf _ _ _ tris => fold_left (near_step p) tris s
  | TNode pos half _ cs =>
      let visits := map (fun c s => match c with Some c' => near_impl p c' s | None => s end) cs in
      let idx := tt_index pos half p in
      let visit i s := match znth visits i with Some f => f s | None => s end in
      fold_left (fun s i => if i =? idx then s else visit i s) (zseq 0 8) (visit idx s)
  end.

(* src/private/octree.cpp:49-68 nearTriangle *)
Definition near_triangle (tr : ttree) (p : vec) : triangle F * F * Z :=
  let '(bound, ans, ansi) := near_impl p tr (float_max, zero_triangle, 0) in (ans, a_sqrt A bound, ansi).
End Tri.
Arguments ttree F : clear implicits.
