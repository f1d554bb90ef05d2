(* C88: a grid before its first fill.  The constructor does not initialise the materials (src/data/grid.cpp:21, new
   Material[]), the edge storages are empty. *)
From Coq Require Import ZArith List Bool Lia Permutation.
From Verif Require Import Base Arith Tables GridModel EdgeModel FillModel MeshModel MCModel UdcModel OctreeModel DcModel MdcModel.
From Verif Require Import GridSpec GridProofs FloatArith PropMC.
Import ListNotations.
Local Open Scope Z_scope.

Section NewGrid.
Variable E : fpenv.

(* Reading a material, whichever vertex it is, reads uninitialised memory. *)
Theorem C88_at : forall n (pos : vec3 (fp_D E)) (step : fp_D E) p, valid_size n -> vertex_in n p ->
  grid_at n (g_mat (new_grid n pos step)) p = UB.
Proof.
  intros n pos step p V P. destruct (valid_even n V) as (h & Hn & Hb & E1 & E2). destruct (is_vertex_in_grid_ok n p V) as (b & B1 & B2).
  { apply (vertex_in_iff n h) in P; [|assumption]. unfold safe_pos, safe_i32, i32min, i32max. lia. }
  apply B2 in P as P'. subst b. destruct (point_to_index_ok n p V P) as (I & _). unfold grid_at. rewrite B1. cbn [obind oassert]. rewrite I. reflexivity.
Qed.

(* The two algorithms which work on the grid return an empty mesh: there are no edges, and no material is read. *)
Theorem C88_grid_meshes : forall n (pos : vec3 (fp_D E)) (step : fp_D E) sort dsort qef,
  (forall l, Permutation l (sort l)) -> (forall l, Permutation l (dsort l)) ->
  marching_cubes sort (new_grid n pos step) = Ret mesh_new /\ dual_contouring (E := E) dsort qef (new_grid n pos step) = Ret mesh_new.
Proof.
  intros n pos step sort dsort qef H K.
  assert (H0 : sort [] = []) by (apply Permutation_nil; apply H). assert (K0 : dsort [] = []) by (apply Permutation_nil; apply K).
  split.
  - unfold marching_cubes, collect_cell_edges. cbn [new_grid g_edges g_ex g_ey g_ez ofold obind map]. rewrite H0. reflexivity.
  - unfold dual_contouring, dc_collect. cbn [new_grid g_edges g_ex g_ey g_ez ofold obind]. rewrite K0. reflexivity.
Qed.

Lemma no_material : forall n (pos : vec3 (fp_D E)) (step : fp_D E) c, materials_of_cell n (g_mat (new_grid n pos step)) c = UB.
Proof. intros. unfold materials_of_cell, adjacent_vertices_for_cell. reflexivity. Qed.

Lemma first_corner : forall q s, vadd q (vscale s (corner_offset 0)) = q.
Proof. intros [x y z] s. unfold vadd, vscale. cbn. f_equal; lia. Qed.
Lemma min_corner_index : forall n, valid_size n -> exists i, point_to_index n (dc_min_corner n) = Ret i.
Proof.
  intros n V. destruct (point_to_index_ok n (dc_min_corner n) V) as (I & _); [|eauto].
  destruct (valid_even n V) as (h & Hn & Hb & _). apply (vertex_in_iff n h); [exact Hn|]. unfold dc_min_corner. cbn [vx vy vz].
  replace (Z.quot (- n) 2) with (- h) by (subst n; replace (- (2 * h)) with (- h * 2) by lia; now rewrite Z.quot_mul by lia). lia.
Qed.
Lemma half_pow : forall k, Z.quot (2 ^ Z.of_nat (S k)) 2 = 2 ^ Z.of_nat k.
Proof. intros. rewrite Nat2Z.inj_succ, Z.pow_succ_r by lia. rewrite Z.mul_comm. apply Z.quot_mul. lia. Qed.
Lemma pow_not_one : forall k, (2 ^ Z.of_nat (S k) =? 1) = false.
Proof. intros. apply Z.eqb_neq. rewrite Nat2Z.inj_succ, Z.pow_succ_r by lia. assert (0 < 2 ^ Z.of_nat k) by (apply Z.pow_pos_nonneg; lia). lia. Qed.

Section Octrees.
Variables Q S : Type.
Variable ops : qef_ops (fp_F E) Q S.

(* The octrees are built from the materials of all cells. *)
Lemma dc_node_ub : forall n pos step eps simplify q i, point_to_index n q = Ret i -> forall k l sol,
  build_node ops (Datatypes.S k) (DcArgs (new_grid n pos step) eps simplify) (OLeaf l) q (2 ^ Z.of_nat k) sol = UB.
Proof.
  intros n pos step eps simplify q i Hi. induction k as [|k IH]; intros l sol.
  - cbn [build_node]. change (2 ^ Z.of_nat 0 =? 1) with true. cbn [leaf_data obind]. unfold build_leaf. cbn [da_grid new_grid g_size].
    rewrite Hi. cbn [obind]. rewrite (no_material n pos step). reflexivity.
  - pose proof (pow_not_one k) as Z1. pose proof (half_pow k) as Z2. remember (2 ^ Z.of_nat (Datatypes.S k)) as z. remember (Datatypes.S k) as m eqn:Hm.
    cbn [build_node]. rewrite Z1. cbn [dc_subdivide obind]. rewrite Z2.
    match goal with |- context [ofold _ (zseq 0 8) _] => change (zseq 0 8) with (0 :: zseq 1 7) at 2 end.
    cbn [ofold]. rewrite first_corner. cbn [child]. match goal with |- context [znth (map ?f (zseq 0 8)) 0] => change (znth (map f (zseq 0 8)) 0) with (Some (f 0)) end.
    cbn [oread obind]. rewrite IH. reflexivity.
Qed.
(* Building a new octree from it reads uninitialised memory, for every size. *)
Theorem C88_dc : forall n pos step eps simplify scale t sol, valid_size n -> dc_new (E := E) (S := S) n scale = Ret t ->
  dc_build ops (new_grid n pos step) eps simplify t sol = UB.
Proof.
  intros n pos step eps simplify scale t sol V T. destruct (min_corner_index n V) as (i & Hi).
  unfold dc_new in T. destruct (_ || _); [discriminate|]. injection T as <-. unfold dc_build. cbn [ot_root ot_size ot_scale is_subdivided obind].
  destruct V as (k & Hk & ->). unfold dc_fuel. rewrite Z.log2_pow2 by lia.
  replace (2 ^ k) with (2 ^ Z.of_nat (Z.to_nat k)) in * by (rewrite Z2Nat.id by lia; reflexivity).
  rewrite (dc_node_ub _ _ _ _ _ _ _ Hi). reflexivity.
Qed.

Lemma mdc_node_ub : forall n pos step q i, point_to_index n q = Ret i -> forall k l st sol, 0 <= ml_depth l -> ml_depth l + Z.of_nat k <= 255 ->
  mdc_build_node ops (Datatypes.S k) (new_grid n pos step) (OLeaf l) q (2 ^ Z.of_nat k) st sol = UB.
Proof.
  intros n pos step q i Hi. induction k as [|k IH]; intros l st sol D0 D1.
  - cbn [mdc_build_node]. change (2 ^ Z.of_nat 0 =? 1) with true. cbn [leaf_data obind]. unfold mdc_build_leaf. cbn [new_grid g_size].
    rewrite Hi. cbn [obind]. rewrite (no_material n pos step). reflexivity.
  - pose proof (pow_not_one k) as Z1. pose proof (half_pow k) as Z2. remember (2 ^ Z.of_nat (Datatypes.S k)) as z. remember (Datatypes.S k) as m eqn:Hm.
    cbn [mdc_build_node]. rewrite Z1. cbn [mdc_subdivide].
    replace (ml_depth l =? 255) with false by (symmetry; apply Z.eqb_neq; lia). cbn [negb oassert obind]. rewrite Z2.
    match goal with |- context [ofold _ (zseq 0 8) _] => change (zseq 0 8) with (0 :: zseq 1 7) at 2 end.
    cbn [ofold]. rewrite first_corner. cbn [child]. match goal with |- context [znth (map ?f (zseq 0 8)) 0] => change (znth (map f (zseq 0 8)) 0) with (Some (f 0)) end.
    cbn [oread obind]. rewrite IH; [reflexivity | cbn; lia | cbn; lia].
Qed.
Theorem C88_mdc : forall n pos step scale t sol, valid_size n -> mdc_new (E := E) (S := S) n scale = Ret t ->
  mdc_build ops (new_grid n pos step) t sol = UB.
Proof.
  intros n pos step scale t sol V T. destruct (min_corner_index n V) as (i & Hi).
  unfold mdc_new in T. destruct (_ || _); [discriminate|]. injection T as <-. unfold mdc_build. cbn [mo_root mo_size mo_scale mo_store mdc_collapse].
  destruct V as (k & Hk & ->). unfold dc_fuel. rewrite Z.log2_pow2 by lia.
  replace (2 ^ k) with (2 ^ Z.of_nat (Z.to_nat k)) in * by (rewrite Z2Nat.id by lia; reflexivity).
  rewrite (mdc_node_ub _ _ _ _ _ Hi); [reflexivity | cbn; lia | cbn; lia].
Qed.
End Octrees.
End NewGrid.
Print Assumptions C88_at.
Print Assumptions C88_grid_meshes.
Print Assumptions C88_dc.
Print Assumptions C88_mdc.

(* So a new grid is not an empty one. *)
Theorem C88_refuted : exists n p (g : ugrid envIEEE), valid_size n /\ vertex_in n p /\
  g = new_grid (E := envIEEE) n (V3 (f64 0 0) (f64 0 0) (f64 0 0)) (f64 1 0) /\ grid_at n (g_mat g) p <> Ret Empty.
Proof.
  exists 4, (V3 0 1 (-2)), (new_grid (E := envIEEE) 4 (V3 (f64 0 0) (f64 0 0) (f64 0 0)) (f64 1 0)).
  assert (V : valid_size 4) by (exists 2; split; [split; discriminate|reflexivity]).
  assert (P : vertex_in 4 (V3 0 1 (-2))) by (unfold vertex_in; cbn; lia).
  split; [exact V|]. split; [exact P|]. split; [reflexivity|]. rewrite (C88_at envIEEE 4 _ _ _ V P). discriminate.
Qed.
Print Assumptions C88_refuted.

(* Octrees of size 4 exist, and insertion sort permutes. *)
Example C88_ex : (exists t, dc_new (E := envIEEE) (S := unit) 4 (f64 1 0) = Ret t) /\ (exists t, mdc_new (E := envIEEE) (S := unit) 4 (f64 1 0) = Ret t) /\
  (forall l, Permutation l (isort entry_less l)).
Proof. split; [eexists; reflexivity|]. split; [eexists; reflexivity|]. apply isort_entries. Qed.
