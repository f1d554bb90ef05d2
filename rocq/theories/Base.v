(* Vocabulary shared by all model files: outcomes of C++ calls, fixed width
   integers, vectors, indexed lists. *)
From Coq Require Import ZArith List Bool Lia.
Import ListNotations.
Local Open Scope Z_scope.

(* ------------------------------------------------------------------ *)
(* Outcomes                                                            *)
(* ------------------------------------------------------------------ *)

(* Exceptions thrown by the library (src/data/grid.cpp:14-19,
   src/data/dc_octree.cpp:17-18, src/data/dc_octree_node.cpp:22-23). *)
Inductive exn := InvalidArgument | LengthError | LogicError | BadAlloc.

(* Result of a C++ call.  [AssertFail]: an assert of the source is violated.
   [UB]: undefined behaviour (out of bounds access, read of an uninitialised
   object, signed overflow, ...).  [NoFuel]: the model ran out of fuel; no C++
   counterpart, theorems show that it does not arise. *)
Inductive outcome (A : Type) : Type :=
| Ret (a : A)
| Throw (e : exn)
| AssertFail
| UB
| NoFuel.
Arguments Ret {A} a.
Arguments Throw {A} e.
Arguments AssertFail {A}.
Arguments UB {A}.
Arguments NoFuel {A}.

Definition obind {A B} (x : outcome A) (k : A -> outcome B) : outcome B :=
  match x with
  | Ret a => k a
  | Throw e => Throw e
  | AssertFail => AssertFail
  | UB => UB
  | NoFuel => NoFuel
  end.

Declare Scope outcome_scope.
Notation "x <- e ;; k" := (obind e (fun x => k))
  (at level 61, e at next level, right associativity) : outcome_scope.
Notation "' p <- e ;; k" := (obind e (fun x => let 'p := x in k))
  (at level 61, p pattern, e at next level, right associativity) : outcome_scope.
Open Scope outcome_scope.

(* assert (b) *)
Definition oassert (b : bool) : outcome unit := if b then Ret tt else AssertFail.

(* Read of an object that may be absent or uninitialised. *)
Definition oread {A} (x : option A) : outcome A :=
  match x with Some a => Ret a | None => UB end.

Fixpoint ofold {A S} (f : S -> A -> outcome S) (l : list A) (s : S) : outcome S :=
  match l with
  | [] => Ret s
  | a :: l' => s' <- f s a ;; ofold f l' s'
  end.

Fixpoint omap {A B} (f : A -> outcome B) (l : list A) : outcome (list B) :=
  match l with
  | [] => Ret []
  | a :: l' => b <- f a ;; bs <- omap f l' ;; Ret (b :: bs)
  end.

(* ------------------------------------------------------------------ *)
(* Fixed width integers                                                *)
(* ------------------------------------------------------------------ *)

Definition two32 : Z := 4294967296.
Definition u32max : Z := 4294967295.
Definition i32max : Z := 2147483647.
Definition i32min : Z := -2147483648.
Definition i16max : Z := 32767.
Definition i16min : Z := -32768.

(* Conversion to uint32_t / result of unsigned arithmetic. *)
Definition u32 (z : Z) : Z := z mod two32.

(* Conversion to int32_t, int16_t (two's complement). *)
Definition i32 (z : Z) : Z := (z + 2147483648) mod two32 - 2147483648.
Definition i16 (z : Z) : Z := (z + 32768) mod 65536 - 32768.

Definition is_u32 (z : Z) : Prop := 0 <= z < two32.
Definition is_i32 (z : Z) : Prop := i32min <= z <= i32max.

(* include/isomesh/common.hpp:30 *)
Definition kBadIndex : Z := u32max.

(* ------------------------------------------------------------------ *)
(* Materials, include/isomesh/common.hpp:18-26.  The enumeration has an
   underlying uint8_t; the model uses its numeric value.               *)
(* ------------------------------------------------------------------ *)

Notation material := Z (only parsing).
Definition Empty : material := 0.
Definition Solid : material := 1.
Definition Stone : material := 2.
Definition Soil : material := 3.
Definition material_count : Z := 4.
Definition is_solid (m : material) : bool := negb (m =? Empty).

(* ------------------------------------------------------------------ *)
(* Vectors (glm::vec<3,T>)                                             *)
(* ------------------------------------------------------------------ *)

Record vec3 (A : Type) : Type := V3 { vx : A; vy : A; vz : A }.
Arguments V3 {A} vx vy vz.
Arguments vx {A} v.
Arguments vy {A} v.
Arguments vz {A} v.

Definition ivec3 := vec3 Z.

Definition vadd (p q : ivec3) : ivec3 := V3 (vx p + vx q) (vy p + vy q) (vz p + vz q).
Definition vscale (k : Z) (p : ivec3) : ivec3 := V3 (k * vx p) (k * vy p) (k * vz p).
Definition veqb (p q : ivec3) : bool :=
  (vx p =? vx q) && (vy p =? vy q) && (vz p =? vz q).

(* Coordinate axes in GLM order, the template parameter D / the axis field. *)
Inductive axis := AX | AY | AZ.
Definition axis_eqb (a b : axis) : bool :=
  match a, b with AX, AX | AY, AY | AZ, AZ => true | _, _ => false end.
Definition vget {A} (d : axis) (p : vec3 A) : A :=
  match d with AX => vx p | AY => vy p | AZ => vz p end.
Definition unit_vec (d : axis) : ivec3 :=
  match d with AX => V3 1 0 0 | AY => V3 0 1 0 | AZ => V3 0 0 1 end.

(* ------------------------------------------------------------------ *)
(* Lists indexed by Z                                                  *)
(* ------------------------------------------------------------------ *)

Definition zlen {A} (l : list A) : Z := Z.of_nat (length l).
Definition znth {A} (l : list A) (i : Z) : option A :=
  if i <? 0 then None else nth_error l (Z.to_nat i).
(* Lookup in a constant table whose indices are known to be in range. *)
Definition tab {A} (d : A) (l : list A) (i : Z) : A := nth (Z.to_nat i) l d.

Fixpoint set_nth {A} (l : list A) (n : nat) (a : A) : list A :=
  match l, n with
  | [], _ => []
  | _ :: l', O => a :: l'
  | x :: l', S n' => x :: set_nth l' n' a
  end.

(* a, a+1, ..., a+n-1 *)
Fixpoint zseq (a : Z) (n : nat) : list Z :=
  match n with O => [] | S n' => a :: zseq (a + 1) n' end.

(* the integers of [a, b), the loop for (i = a; i < b; i++) *)
Definition zrange (a b : Z) : list Z := zseq a (Z.to_nat (b - a)).
