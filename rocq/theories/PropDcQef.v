(* Dual contouring with the QEF solver of the library: C71 *)
From Coq Require Import ZArith List Bool Lia Reals Lra.
From Flocq Require Import IEEE754.BinarySingleNaN.
From Verif Require Import Base Arith RealArith MeshModel MeshSpec GridModel GridSpec EdgeModel EdgeSpec FillModel FillSpec FillProofs MCModel CellSpec UdcModel
  OctreeModel OctreeSpec OctreeProofs OctreeFlux DcModel DcSpec DcBuild DcContour QefModel QefSpec QefProofs SolverModel DcQef
  FloatArith PropFillNum PropMC PropDc PropQef PropQefSolve PropDmcExact.
Import ListNotations.
Local Open Scope R_scope.

(* Position in the closed cube of level [n] at [q]. *)
Definition point_in_cube (q : ivec3) (n : nat) (p : vec3 R) : Prop :=
  forall d, IZR (vget d q) <= vget d p <= IZR (vget d q + edge_len n).

(* Signed distance to the plane through the surface point of an edge, and the sum of squares for a list of edges. *)
Definition plane_distance (e : uedge R) (p : vec3 R) : R :=
  let n := surface_normal envR e in let c := surface_point envR e in
  vx n * (vx p - vx c) + vy n * (vy p - vy c) + vz n * (vz p - vz c).
Definition squares_sum (es : list (uedge R)) (p : vec3 R) : R := fold_right (fun e s => plane_distance e p * plane_distance e p + s) 0 es.

Lemma squares_planes : forall es p, planes_error 3 (map (@plane_at envR) es) (fvec_of p) = squares_sum es p.
Proof.
  intros es p. unfold planes_error, squares_sum. induction es as [|e es IH]; [reflexivity|]. cbn [map fold_right]. rewrite IH. f_equal.
  unfold plane_error, plane_distance, plane_at. cbn [total fst snd fvec_of]. ring.
Qed.

(* The crossing edges of a unit cell. *)
Definition crossing_edges (solid : ivec3 -> bool) (c : ivec3) : list gedge := filter (edge_crosses solid) (map (cell_edge c) (zseq 0 12)).

Lemma compressions_bound : forall n, INR (compressions n) <= 16 * 8 ^ n - 3.
Proof.
  induction n as [|n IH]; [cbn; lra|]. cbn [compressions]. rewrite plus_INR, mult_INR, plus_INR.
  replace (INR 8) with 8 by (cbn; lra). replace (INR 2) with 2 by (cbn; lra). replace (INR 1) with 1 by reflexivity. cbn [pow].
  assert (1 <= 8 ^ n) by (apply pow_R1_Rle; lra). lra.
Qed.
Lemma sqrt_least : sqrt least_normal = / 2 ^ 63.
Proof.
  unfold least_normal. replace (IZR (2 ^ 126)) with (2 ^ 63 * 2 ^ 63).
  - rewrite sqrt_inv, sqrt_square; [reflexivity|]. apply pow_le. lra.
  - rewrite <- pow_add. cbn [Nat.add]. change 2 with (IZR 2). rewrite pow_IZR. reflexivity.
Qed.

(* The vertices of a contour are those of the leaves with corners of both kinds. *)
Lemma contour_leaf : forall E Q S (ops : qef_ops (fp_F E) Q S) size t g solid eps simplify sol t1 sol1 t2 m,
  dc_reached ops size t -> filled g solid -> (size <= g_size g)%Z -> dc_build ops g eps simplify t sol = Ret (t1, sol1) ->
  dc_contour t1 = Ret (t2, m) -> forall u, In u (m_verts m) ->
  exists q n nrm s, subcube q n (dc_min_corner size) (root_level size) /\ mixed solid q n = true /\ cube_in_grid (g_size g) q n /\
    one_sheet (grid_material g) solid q n /\ measured ops g solid (tolerance t eps) q n (mv_pos u) nrm s /\
    mv_normal u = nrm /\ (simplify = false -> n = O).
Proof.
  intros E Q S ops size t g solid eps simplify sol t1 sol1 t2 m Hr Hf Hs Hb Hm u Hu.
  destruct (contour_reached _ _ _ _ _ _ _ _ _ _ _ _ _ Hr Hf Hs Hb) as (Hz & t2' & m' & ts & H1 & H2 & H3 & H4 & H5 & Hlt & H6 & _).
  rewrite Hm in H1. injection H1 as <- <-. rewrite H4 in Hu. apply in_flat_map in Hu as (l & Hl & Hu).
  assert (H3' : tree_ok (fun l q n => subcube q n (dc_min_corner size) (root_level size) /\ numbered ops g solid (tolerance t eps) simplify (root_level size) (m_verts m) l q n)
    (root_level size) (ot_root t2) (dc_min_corner size)).
  { revert H3. apply tree_ok_impl. intros a q n Hq _ Ha. split; assumption. }
  destruct (tree_leaves _ _ _ _ _ _ H3' l Hl) as (q & n & Hsub & Hnb).
  pose proof (nb_leaf _ _ _ _ _ _ _ _ _ _ Hnb) as Hk.
  assert (Hx : mixed solid q n = true).
  { destruct (mixed solid q n) eqn:X; [reflexivity|exfalso]. pose proof (nb_grid _ _ _ _ _ _ _ _ _ _ Hnb) as Hg.
    unfold leaf_vertex in Hu. rewrite (lk_corners _ _ _ _ _ _ _ _ _ Hk) in Hu.
    rewrite homogenous_kind, (kinds_cube g solid (filled_ok _ _ _ Hf) q n Hg) in Hu. unfold mixed in X. apply negb_false_iff in X. rewrite X in Hu.
    destruct (lf_vertex l), (lf_normal l); destruct Hu. }
  destruct (lk_mixed _ _ _ _ _ _ _ _ _ Hk Hx) as (v & nrm & s & V1 & V2 & V3 & V4).
  assert (Pu : mv_pos u = v /\ mv_normal u = nrm).
  { unfold leaf_vertex in Hu. rewrite (lk_corners _ _ _ _ _ _ _ _ _ Hk), V1, V2 in Hu. destruct (corners_homogenous _); [destruct Hu|].
    destruct Hu as [<-|[]]. split; reflexivity. }
  destruct Pu as [-> Pn]. exists q, n, nrm, s. split; [exact Hsub|]. split; [exact Hx|]. split; [exact (nb_grid _ _ _ _ _ _ _ _ _ _ Hnb)|].
  split; [exact (lk_sheet _ _ _ _ _ _ _ _ _ Hk)|]. split; [exact V4|]. split; [exact Pn|].
  intro Es. destruct n as [|n]; [reflexivity|]. exfalso. pose proof (lk_fine _ _ _ _ _ _ _ _ _ Hk Es ltac:(discriminate)) as U.
  apply uniform_not_mixed in U. congruence.
Qed.

(* The position comes from solve with the bounds of the cube. *)
Lemma measured_solve : forall E Q S (ops : qef_ops (fp_F E) Q S) g solid eps q n v nrm s, measured ops g solid eps q n v nrm s ->
  exists sol0 sol1, qo_solve ops sol0 (cube_low q) (cube_high q n) = (sol1, v).
Proof. intros E Q S ops g solid eps q n v nrm s H. inversion H; eauto. Qed.

(* Every vertex of a contour made in exact arithmetic belongs to a leaf of the octree and lies in
   its cube.  If the cube consists of more than one cell, but of not more than 256 along each
   side, the sum of the squared distances of the vertex to the planes of the sign-changing edges
   of all cells in the cube does not exceed the tolerance, up to a small term that stands for the columns
   which the solver drops if all entries are less than 2^-63. *)
Theorem C71_exact : forall hypot copysign msin mcos matan tune size t (g : ugrid envR) solid (eps : R) simplify sol t1 sol1 t2 m,
  let ops : qef_ops (fp_F envR) (solver R) (qstate R) := solver3_ops arithR least_normal hypot copysign msin mcos matan tune in
  dc_reached ops size t -> filled g solid -> (size <= g_size g)%Z -> dc_build ops g eps simplify t sol = Ret (t1, sol1) ->
  dc_contour t1 = Ret (t2, m) -> forall u, In u (m_verts m) ->
  exists q n, subcube q n (dc_min_corner size) (root_level size) /\ mixed solid q n = true /\ point_in_cube q n (mv_pos u) /\
    ((n <= 8)%nat -> exists es cs,
       NoDup cs /\ (forall c, In c cs <-> in_cube q n c) /\
       map edge_key es = flat_map (crossing_edges solid) cs /\ (forall e, In e es -> In e (g_edges (fst (edge_key e)) g)) /\
       (n <> O -> sqrt (squares_sum es (mv_pos u)) <=
          sqrt (eps / (ot_scale t * ot_scale t)) + 8 ^ n * (Rabs (vx (mv_pos u)) + Rabs (vy (mv_pos u)) + Rabs (vz (mv_pos u)) + 1) / 2 ^ 58)).
Proof.
  intros hypot copysign msin mcos matan tune size t g solid eps simplify sol t1 sol1 t2 m ops Hr Hf Hs Hb Hm u Hu.
  destruct (contour_leaf envR _ _ ops _ _ _ _ _ _ _ _ _ _ _ Hr Hf Hs Hb Hm u Hu) as (q & n & nrm & s & Hsub & Hx & Hg & Hk & V4 & _).
  set (v := mv_pos u) in *. exists q, n. split; [exact Hsub|]. split; [exact Hx|]. split.
  - destruct (measured_solve _ _ _ _ _ _ _ _ _ _ _ _ V4) as (s0 & s1 & X). unfold ops in X. cbn [solver3_ops qo_solve] in X. unfold s3_solve in X.
    pose proof (C31_box hypot copysign msin mcos matan 3 tune s0 (fvec_of (cube_low (E := envR) q)) (fvec_of (cube_high (E := envR) q n))) as B.
    destruct (solve _ _ _ _ _ _ _ _ _ _ _ _) as [z s']. injection X as _ X. cbn [fst] in B.
    assert (HB : forall c, fvec_of (cube_low (E := envR) q) c <= fvec_of (cube_high (E := envR) q n) c).
    { pose proof (edge_len_pos n) as He. intro c. unfold cube_low, cube_high, vofZ3. destruct c as [|[|c]]; cbn [fvec_of vx vy vz envR fp_f arithR a_ofZ]; apply IZR_le; lia. }
    specialize (B HB). clearbody v. subst v. intro d. destruct d; [exact (B 0%nat)|exact (B 1%nat)|exact (B 2%nat)].
  - intro Hn.
    destruct (@measured_known envR _ _ _ _ _ _ _ g solid _ (no_tiny_column least_normal 3) _ _ _ _ _ V4 Hn Hk)
      as (sol3 & es & k & K1 & K2 & K3 & K4 & _ & _ & _ & K8).
    { intros p Hp. apply (mat_solid g solid (filled_ok _ _ _ Hf)). apply Hg. exact Hp. }
    exists es, (cells n q). split; [apply cells_nodup|]. split; [intro c; apply cells_in|]. split; [exact K3|]. split; [exact K4|].
    intro Hn0. specialize (K8 Hn0).
    pose proof (C29_partial hypot copysign msin mcos matan 3 8 (2 ^ 30)%Z sol3 _ k ltac:(left; auto) K1 (fvec_of v)) as B.
    rewrite squares_planes, sqrt_least in B.
    assert (T : taxi 3 (fvec_of v) = Rabs (vx v) + Rabs (vy v) + Rabs (vz v)) by (unfold taxi; cbn [total fvec_of]; ring). rewrite T in B.
    set (w := Rabs (vx v) + Rabs (vy v) + Rabs (vz v) + 1) in *.
    assert (W : 0 <= w) by (unfold w; pose proof (Rabs_pos (vx v)); pose proof (Rabs_pos (vy v)); pose proof (Rabs_pos (vz v)); lra).
    assert (Z : sqrt (eval arithR 3 sol3 (fvec_of v)) <= sqrt (eps / (ot_scale t * ot_scale t))).
    { apply sqrt_le_1_alt. cbn [envR fp_f arithR a_lt] in K8. apply Rltb_false in K8. exact K8. }
    assert (Y : 2 * INR k * / 2 ^ 63 * w <= 8 ^ n * w / 2 ^ 58).
    { replace (8 ^ n * w / 2 ^ 58) with (2 * (16 * 8 ^ n) * / 2 ^ 63 * w) by (field; apply pow_nonzero; lra).
      apply Rmult_le_compat_r; [exact W|]. apply Rmult_le_compat_r; [left; apply Rinv_0_lt_compat, pow_lt; lra|].
      apply Rmult_le_compat_l; [lra|]. apply le_INR in K2. pose proof (compressions_bound n). lra. }
    assert (B' : sqrt (squares_sum es v) - sqrt (eval arithR 3 sol3 (fvec_of v)) <= 2 * INR k * / 2 ^ 63 * w).
    { eapply Rle_trans; [|exact B]. rewrite Rabs_minus_sym. apply Rle_abs. }
    lra.
Qed.
Print Assumptions C71_exact.

(* In single precision each coordinate of a vertex is in the range of the cube or is a NaN. *)
Theorem C71_float : forall float_min hypot copysign msin mcos matan tune size t (g : ugrid envIEEE) solid eps simplify sol t1 sol1 t2 m,
  let ops : qef_ops (fp_F envIEEE) (solver b32) (qstate b32) := solver3_ops arith32 float_min hypot copysign msin mcos matan tune in
  dc_reached ops size t -> filled g solid -> (size <= g_size g)%Z -> dc_build ops g eps simplify t sol = Ret (t1, sol1) ->
  dc_contour t1 = Ret (t2, m) -> forall u, In u (m_verts m) ->
  exists q n, subcube q n (dc_min_corner size) (root_level size) /\ mixed solid q n = true /\
    forall d, vget d (mv_pos u) = B754_nan \/
      (a_le arith32 (a_ofZ arith32 (vget d q)) (vget d (mv_pos u)) = true /\
       a_le arith32 (vget d (mv_pos u)) (a_ofZ arith32 (vget d q + edge_len n)) = true).
Proof.
  intros float_min hypot copysign msin mcos matan tune size t g solid eps simplify sol t1 sol1 t2 m ops Hr Hf Hs Hb Hm u Hu.
  destruct (contour_leaf envIEEE _ _ ops _ _ _ _ _ _ _ _ _ _ _ Hr Hf Hs Hb Hm u Hu) as (q & n & nrm & s & Hsub & Hx & Hg & Hk & V4 & _).
  set (v := mv_pos u) in *. exists q, n. split; [exact Hsub|]. split; [exact Hx|].
  assert (Hsz : (0 <= g_size g <= 1024)%Z).
  { destruct (rep_size _ _ (rep_base _ _ (filled_ok _ _ _ Hf))) as (k & Hk1 & ->). split; [apply Z.pow_nonneg; lia|]. change 1024%Z with (2 ^ 10)%Z. apply Z.pow_le_mono_r; lia. }
  pose proof (edge_len_pos n) as He.
  assert (R1 : vertex_in (g_size g) q) by (apply Hg; unfold in_closed_cube; lia).
  assert (R2 : vertex_in (g_size g) (V3 (vx q + edge_len n) (vy q + edge_len n) (vz q + edge_len n))%Z) by (apply Hg; unfold in_closed_cube; cbn [vx vy vz]; lia).
  unfold vertex_in in R1, R2. cbn [vx vy vz] in R2.
  destruct (measured_solve _ _ _ _ _ _ _ _ _ _ _ _ V4) as (s0 & s1 & X). unfold ops in X. cbn [solver3_ops qo_solve] in X. unfold s3_solve in X.
  pose proof (C31_box_float float_min hypot copysign msin mcos matan 3 tune s0 (fvec_of (cube_low (E := envIEEE) q)) (fvec_of (cube_high (E := envIEEE) q n))) as B.
  change (fp_f envIEEE) with arith32 in *.
  destruct (solve _ _ _ _ _ _ _ _ _ _ _ _) as [z s']. injection X as _ X. cbn [fst] in B.
  assert (HB : forall c, a_le arith32 (fvec_of (cube_low (E := envIEEE) q) c) (fvec_of (cube_high (E := envIEEE) q n) c) = true).
  { intro c. unfold cube_low, cube_high, vofZ3. change (fp_f envIEEE) with arith32.
    destruct c as [|[|c]]; cbn [fvec_of vx vy vz]; apply ofZ_le; lia. }
  specialize (B HB). cbv zeta in B. clearbody v. subst v. intro d. destruct d; [exact (B 0%nat)|exact (B 1%nat)|exact (B 2%nat)].
Qed.
Print Assumptions C71_float.

(* A half space in exact arithmetic: the octree is built and contoured, and the mesh has vertices. *)
Definition half_field : field envR := @Field envR (fun p : vec3 R => vy p - / 2) (fun _ => V3 0 1 0) (fun _ _ => Solid).
Definition grid4R : ugrid envR := @new_grid envR 4 (V3 0 0 0) 1.
Definition tuningR : tuning R := Tuning (/ 10) (/ 100) 15 true.
Definition exact_ops : qef_ops (fp_F envR) (solver R) (qstate R) := solver3_ops arithR least_normal (fun x y => sqrt (x * x + y * y)) (fun x y => if Rltb y 0 then - Rabs x else Rabs x) sin cos atan tuningR.

Lemma half_low : le0 envR (sample grid4R half_field (V3 0 0 0)%Z) = true.
Proof. unfold le0. cbn [envR fp_d fp_D arithR a_le a_ofZ]. apply Rleb_iff. unfold sample, half_field, sample_pos. cbn. unfold Pos.to_nat. cbn. lra. Qed.
Lemma half_high : le0 envR (sample grid4R half_field (V3 0 1 0)%Z) = false.
Proof. unfold le0. cbn [envR fp_d fp_D arithR a_le a_ofZ]. apply Rleb_false. unfold sample, half_field, sample_pos. cbn. unfold Pos.to_nat. cbn. lra. Qed.

Example C71_ex : forall (zf : zero_finder envR) simplify, exists calls t (g : ugrid envR) solid t1 sol1 t2 m, fill grid4R half_field zf = Ret (g, calls) /\
  dc_reached exact_ops 4 t /\ filled g solid /\ (4 <= g_size g)%Z /\ dc_build exact_ops g 1 simplify t (q_new arithR) = Ret (t1, sol1) /\
  dc_contour t1 = Ret (t2, m) /\ m_verts m <> [].
Proof.
  intros zf simplify. assert (Hv : valid_size (g_size grid4R)) by (exists 2%Z; split; [lia|reflexivity]).
  assert (Hn : nan_free grid4R half_field).
  { intros p _. unfold gt0, le0. cbn [envR fp_d fp_D arithR a_lt a_le a_ofZ]. destruct (Rleb _ 0) eqn:X; cbn [negb].
    - apply Rleb_iff in X. apply Rltb_false. exact X.
    - apply Rleb_false in X. apply Rltb_iff. exact X. }
  assert (Hs : solid_inside grid4R half_field) by (intros p Hp Hl; discriminate).
  destruct (fill_represents envR grid4R half_field zf Hv Hn Hs) as (g & calls & Hf & Hsz & _).
  assert (HF : filled g (fun p => le0 envR (sample grid4R half_field p))) by (apply (filled_by grid4R half_field _ _ _ Hv Hn Hs Hf)).
  assert (Hle : (4 <= g_size g)%Z) by (rewrite Hsz; discriminate).
  set (t0 := @DcOctree envR (qstate R) 1 4 (OLeaf (@dc_fresh envR (qstate R) 0))).
  assert (R0 : dc_reached exact_ops 4 t0) by (apply (@reached_new envR _ _ exact_ops 4 1); reflexivity).
  destruct (build_reached _ _ _ exact_ops 4 t0 g _ 1 simplify (q_new arithR) R0 HF Hle) as (t1 & sol1 & Hb & _ & _ & _ & Hok).
  destruct (contour_reached _ _ _ _ _ _ _ _ _ _ _ _ _ R0 HF Hle Hb) as (_ & t2 & m & ts & Hm & _).
  exists calls, t0, g, (fun p => le0 envR (sample grid4R half_field p)), t1, sol1, t2, m.
  split; [exact Hf|]. split; [exact R0|]. split; [exact HF|]. split; [exact Hle|]. split; [exact Hb|]. split; [exact Hm|]. intro X.
  destruct (C35_vertices _ _ _ _ _ _ _ _ _ _ _ _ _ _ _ R0 HF Hle Hb Hm) as (T1 & T2 & _).
  pose proof (contour_reached _ _ _ _ _ _ _ _ _ _ _ _ _ R0 HF Hle Hb) as (_ & t2' & m' & ts' & Hm' & _ & Hnb & _).
  rewrite Hm in Hm'. injection Hm' as <- <-.
  assert (Hc : in_cube (dc_min_corner 4) (root_level 4) (V3 0 0 0)%Z) by (vm_compute; repeat split; discriminate).
  destruct (leaf_at_ok _ _ _ _ _ _ _ Hnb Hc) as (l & q & n & _ & Hl & Hin & _).
  assert (Hmix : mixed (fun p => le0 envR (sample grid4R half_field p)) q n = true).
  { destruct (mixed _ q n) eqn:Y; [reflexivity|]. destruct (lk_uniform _ _ _ _ _ _ _ _ _ (nb_leaf _ _ _ _ _ _ _ _ _ _ Hl) Y) as (b & U).
    unfold in_cube in Hin. cbn [vx vy vz] in Hin.
    pose proof (U (V3 0 0 0)%Z ltac:(unfold in_closed_cube; cbn [vx vy vz]; lia)) as U0. pose proof (U (V3 0 1 0)%Z ltac:(unfold in_closed_cube; cbn [vx vy vz]; lia)) as U1.
    cbv beta in U0, U1. rewrite half_low in U0. rewrite half_high in U1. congruence. }
  destruct (nb_mixed _ _ _ _ _ _ _ _ _ _ Hl Hmix) as (id & v & nrm & _ & _ & _ & Z). rewrite X in Z. unfold znth in Z. destruct (id <? 0)%Z; [discriminate|].
  destruct (Z.to_nat id); discriminate.
Qed.

(* A run in single precision with the default options of the solver: 29 vertices, some of them in leaves of eight cells, all in the root cube. *)
Definition hypot32 (x y : b32) : b32 := a_sqrt arith32 (a_add arith32 (a_mul arith32 x x) (a_mul arith32 y y)).
Definition copysign32 (x y : b32) : b32 := if a_lt arith32 y (f32 0 0) then a_neg arith32 (a_abs arith32 x) else a_abs arith32 x.
Definition float_ops : qef_ops (fp_F envIEEE) (solver b32) (qstate b32) :=
  solver3_ops arith32 least_normal32 hypot32 copysign32 (fun x => x) (fun x => x) (fun x => x) default_tuning.
Definition float_run (size : Z) (simplify : bool) (eps : b32) (f : field envIEEE) (g0 : ugrid envIEEE) : option (list Z * nat * nat * bool) :=
  match fill g0 f c10_solver with
  | Ret (g, _) =>
      match @dc_new envIEEE (qstate b32) size (f64 1 0) with
      | Ret t =>
          match dc_build float_ops g eps simplify t (q_new arith32) with
          | Ret (t1, _) => match dc_contour t1 with
              | Ret (t2, m) => Some (map lf_depth (leaves_of (ot_root t2)), length (m_verts m), length (m_inds m),
                  forallb (fun u => forallb (fun d => a_le arith32 (f32 (-2) 0) (vget d (mv_pos u)) && a_le arith32 (vget d (mv_pos u)) (f32 2 0))%bool [AX; AY; AZ]) (m_verts m))
              | _ => None end
          | _ => None end
      | _ => None end
  | _ => None end.
Example C71_float_ex : float_run 4 true (f32 1 2) big_field grid4 = Some ([1%Z] ++ repeat 2%Z 32 ++ [1%Z; 1%Z; 1%Z], 29%nat, 132%nat, true).
Proof. vm_cast_no_check (@eq_refl (option (list Z * nat * nat * bool)) (Some ([1%Z] ++ repeat 2%Z 32 ++ [1%Z; 1%Z; 1%Z], 29%nat, 132%nat, true))). Qed.
