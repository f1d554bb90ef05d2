(* Properties of the material filters (C19, C20, C21). *)
From Coq Require Import ZArith List Bool Lia.
From Verif Require Import Base MaterialFilterModel MaterialFilterSpec MaterialFilterProofs.
Import ListNotations.
Local Open Scope Z_scope.

(* C19 *)
Theorem C19_fast_majority : forall l m, zlen l < two32 -> strict_majority m l ->
  fast_select (fast_add_all fast_new l) = m.
Proof. exact fast_majority. Qed.
Print Assumptions C19_fast_majority.

Theorem C19_fast_member : forall l, zlen l < two32 ->
  (fast_select (fast_add_all fast_new l) = Empty <-> forall m, In m l -> m = Empty) /\
  (fast_select (fast_add_all fast_new l) <> Empty ->
   In (fast_select (fast_add_all fast_new l)) l).
Proof. exact fast_member. Qed.
Print Assumptions C19_fast_member.

Example c19_instance : let l := [Stone; Empty; Soil; Stone; Empty; Solid; Stone; Stone] in
  strict_majority Stone l /\ fast_select (fast_add_all fast_new l) = Stone.
Proof. vm_compute. repeat split; congruence. Qed.

(* C20, as stated, is false: merging can lose a strict majority. *)
Theorem C20_merge_majority_refuted : exists l1 l2 m,
  zlen (l1 ++ l2) < two32 /\ strict_majority m (l1 ++ l2) /\
  fast_select (fast_merge (fast_add_all fast_new l1) (fast_add_all fast_new l2)) <> m.
Proof.
  exists [Solid], [Solid; Stone], Solid. vm_compute. repeat split; congruence.
Qed.
Print Assumptions C20_merge_majority_refuted.

(* C20, the part that holds: for any tree of additions and merges a material
   that exceeds the others by more than the number of merges is selected, the
   selection is always one of the materials put in, and is Empty only if
   nothing else was put in.  Missing: a bare strict majority after a merge. *)
Theorem C20_merge_majority_partial : forall h m,
  nonempty_count (materials_of h) < two32 -> m <> Empty ->
  2 * occurrences m (materials_of h) > nonempty_count (materials_of h) + merges_of h ->
  fast_select (run_fast h) = m.
Proof. exact run_fast_select. Qed.
Print Assumptions C20_merge_majority_partial.

Theorem C20_merge_member : forall h, nonempty_count (materials_of h) < two32 ->
  (fast_select (run_fast h) = Empty <-> forall m, In m (materials_of h) -> m = Empty) /\
  (fast_select (run_fast h) <> Empty -> In (fast_select (run_fast h)) (materials_of h)).
Proof. exact run_fast_member. Qed.
Print Assumptions C20_merge_member.

Example c20_instance : let h := FMerge (FAdd (FAdd FNew Stone) Stone) (FAdd (FAdd FNew Stone) Soil) in
  2 * occurrences Stone (materials_of h) > nonempty_count (materials_of h) + merges_of h /\
  fast_select (run_fast h) = Stone.
Proof. vm_compute. split; reflexivity. Qed.

(* The bound is tight in the number of merges: exceeding by exactly one merge is
   not enough. *)
Theorem C20_merge_bound_tight_refuted : exists h m, m <> Empty /\
  2 * occurrences m (materials_of h) = nonempty_count (materials_of h) + merges_of h /\
  fast_select (run_fast h) <> m.
Proof.
  exists (FMerge (FAdd FNew Solid) (FAdd (FAdd FNew Solid) Stone)), Solid.
  vm_compute. repeat split; congruence.
Qed.
Print Assumptions C20_merge_bound_tight_refuted.

(* C21 *)
Theorem C21_precise : forall l,
  (forall m, In m l -> 0 <= m < material_count) -> zlen l < two32 ->
  exists f s, precise_add_all precise_new l = Ret f /\ precise_select f = Ret s /\
    (s = Empty <-> forall m, In m l -> m = Empty) /\
    (s <> Empty -> forall m, m <> Empty -> occurrences m l <= occurrences s l
                             /\ (occurrences m l = occurrences s l -> s <= m)).
Proof. exact precise_correct. Qed.
Print Assumptions C21_precise.

Theorem C21_precise_merge : forall l1 l2,
  (forall m, In m (l1 ++ l2) -> 0 <= m < material_count) -> zlen (l1 ++ l2) < two32 ->
  exists f g h, precise_add_all precise_new l1 = Ret f /\
    precise_add_all precise_new l2 = Ret g /\
    precise_add_all precise_new (l1 ++ l2) = Ret h /\ precise_merge f g = h.
Proof. exact precise_merge_correct. Qed.
Print Assumptions C21_precise_merge.

Example c21_instance : exists f, precise_add_all precise_new [Soil; Empty; Empty; Empty; Stone; Soil; Stone] = Ret f
  /\ precise_select f = Ret Stone.
Proof. vm_compute. eexists; split; reflexivity. Qed.
