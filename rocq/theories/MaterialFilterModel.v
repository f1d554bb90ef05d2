(* Model of include/isomesh/util/material_filter.hpp and
   src/util/material_filter.cpp. *)
From Coq Require Import ZArith List Bool.
From Verif Require Import Base.
Import ListNotations.
Local Open Scope Z_scope.

(* ---- MaterialFilterFast, material_filter.hpp:42-64 ---- *)

(* m_candidate and m_count, material_filter.hpp:61-63 *)
Record fast_filter := FF { ff_cand : material; ff_count : Z }.

(* material_filter.hpp:44, and reset, :53-56 *)
Definition fast_new : fast_filter := FF Empty 0.

(* material_filter.cpp:24-35; m_count is a uint32_t *)
Definition fast_add (f : fast_filter) (mat : material) : fast_filter :=
  if mat =? Empty then f
  else if mat =? ff_cand f then FF (ff_cand f) (u32 (ff_count f + 1))
  else if ff_count f >? 1 then FF (ff_cand f) (u32 (ff_count f - 1))
  else FF mat 1.

(* material_filter.hpp:47-50 *)
Definition fast_add_all (f : fast_filter) (mats : list material) : fast_filter :=
  fold_left fast_add mats f.

(* material_filter.cpp:37-46 *)
Definition fast_merge (f g : fast_filter) : fast_filter :=
  if ff_cand f =? ff_cand g then FF (ff_cand f) (u32 (ff_count f + ff_count g))
  else if ff_count f >? ff_count g then FF (ff_cand f) (u32 (ff_count f - ff_count g))
  else FF (ff_cand g) (Z.max 1 (u32 (ff_count g - ff_count f))).

(* material_filter.hpp:57 *)
Definition fast_select (f : fast_filter) : material := ff_cand f.

(* ---- MaterialFilterPrecise, material_filter.hpp:20-40 ---- *)

(* m_counts, material_filter.hpp:39 *)
Definition precise_filter := list Z.

(* material_filter.hpp:22, reset :35 *)
Definition precise_new : precise_filter := repeat 0 (Z.to_nat material_count).

(* material_filter.hpp:24; an enumerator outside the array is out of bounds *)
Definition precise_add (f : precise_filter) (mat : material) : outcome precise_filter :=
  n <- oread (znth f mat) ;; Ret (set_nth f (Z.to_nat mat) (u32 (n + 1))).

(* material_filter.hpp:25-28 *)
Definition precise_add_all (f : precise_filter) (mats : list material) : outcome precise_filter :=
  ofold precise_add mats f.

(* material_filter.hpp:29-32 *)
Fixpoint precise_merge (f g : precise_filter) : precise_filter :=
  match f, g with
  | a :: f', b :: g' => u32 (a + b) :: precise_merge f' g'
  | _, _ => f
  end.

(* std::max_element: position of the first maximum, starting at position
   [pos] with the current best [best] at [bpos] *)
Fixpoint max_element (l : list Z) (pos best bpos : Z) : Z * Z :=
  match l with
  | [] => (best, bpos)
  | a :: l' => if best <? a then max_element l' (pos + 1) a pos
               else max_element l' (pos + 1) best bpos
  end.

(* material_filter.cpp:14-21 *)
Definition precise_select (f : precise_filter) : outcome material :=
  match f with
  | _ :: a :: l =>
      let '(best, bpos) := max_element l 2 a 1 in
      Ret (if best =? 0 then Empty else bpos)
  | _ => UB
  end.

(* ---- Histories ---- *)

(* Every way a client can obtain a fast filter: a fresh or reset filter, adding
   one material (adding an array is adding its elements), merging another filter. *)
Inductive fast_history :=
| FNew
| FAdd (h : fast_history) (m : material)
| FMerge (h g : fast_history).

Fixpoint run_fast (h : fast_history) : fast_filter :=
  match h with
  | FNew => fast_new
  | FAdd h m => fast_add (run_fast h) m
  | FMerge h g => fast_merge (run_fast h) (run_fast g)
  end.
