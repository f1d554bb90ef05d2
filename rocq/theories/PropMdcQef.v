(* Manifold dual contouring with the QEF solver of the library: C75 *)
From Coq Require Import ZArith List Bool Lia Reals Lra.
From Flocq Require Import IEEE754.BinarySingleNaN.
From Verif Require Import Base Arith RealArith Tables CellTables MeshModel MeshSpec GridModel GridSpec GridProofs EdgeModel EdgeSpec FillModel FillSpec FillProofs MCModel MCProofs CellSpec DualSpec UdcModel
  UdcProofs OctreeModel OctreeSpec OctreeSums OctreeProofs OctreeFlux DcModel DcSpec DcBuild DcContour QefModel QefSpec QefProofs SolverModel DcQef
  MdcModel MdcSpec MdcTables MdcLeaf MdcTrav MdcForest MdcContour PropMdc MdcQef FloatArith PropFillNum PropMC PropDc PropQef PropQefSolve PropDmcExact PropDcQef.
Import ListNotations.
Local Open Scope Z_scope.

Lemma some_same : forall T (o : option T) x y, o = Some x -> o = Some y -> x = y.
Proof. congruence. Qed.

(* The node of a mesh vertex, and the quads which use the vertex. *)
Lemma mesh_vertex_node : forall E Q S (ops : qef_ops (fp_F E) Q S) size t g solid eps t' m i w,
  mdc_reached ops size (Some (g, solid)) t -> mdc_contour eps t = Ret (t', m) -> znth (m_verts m) i = Some w ->
  let q := dc_min_corner size in let n := root_level size in
  good ops g solid (mo_store t') n (mo_root t') q /\
  exists b v, In b (tree_verts (mo_root t')) /\ vs_at (mo_store t') b = Some v /\ w = MVert (xv_pos v) (xv_normal v) (xv_mat v) /\
    ((exists c' s', in_cube q n c' /\ leaf_vertex_at n (mo_root t') q c' s' b) \/ a_le (fp_f E) (xv_error v) (scaled t eps) = true) /\
    forall c e, in_cube q n c -> mesh_vertex solid t' c e i <-> exists a, leaf_vertex_at n (mo_root t') q c (sheet solid c e) a /\ ancestor (mo_store t') a b.
Proof.
  intros E Q S ops size t g solid eps t' m i w Hr Hm Hi q n.
  pose proof (mdc_reached_contour ops size _ _ _ _ _ Hr Hm) as Hr'. destruct (built_of ops size g solid t' Hr') as [Hz B']. pose proof (bt_good _ _ _ _ _ B') as G. rewrite <- Hz in G.
  split; [exact G|].
  destruct (C39_numbers _ _ _ _ _ _ _ _ _ _ _ Hr Hm) as [N1 N2]. destruct (N2 i w Hi) as (c & s & a & b & [Hc Ha] & Hb & (v & V1 & V2)).
  destruct (C60_error _ _ _ _ _ _ _ _ _ _ _ _ _ _ _ Hr Hm Hc Ha Hb) as (v' & V1' & K & _). rewrite V1 in V1'. injection V1' as <-.
  exists b, v. split; [eapply closed_anc; [exact (good_closed _ _ _ _ _ _ _ G)|eapply leaf_vertex_in; exact Ha|exact (proj1 Hb)]|].
  split; [exact V1|]. split; [|split; [exact K|]].
  - destruct (built_of ops size g solid t Hr) as [Hz0 B]. destruct (contour_built ops g solid _ t eps t' m B Hm) as [C _]. pose proof (bt_good _ _ _ _ _ B) as G0.
    pose proof (built_small _ _ _ _ _ B) as Hn. rewrite <- Hz0 in G0. destruct (ct_mark _ _ _ _ _ _ _ C) as (m0 & rs & M & Hv). rewrite (ct_root _ _ _ _ _ _ _ C) in Ha.
    destruct (leaf_index ops g solid _ (mo_root t) _ (mo_store t) (scaled t eps) (Datatypes.S (root_level size)) G0 ltac:(lia) Hn (mo_store t') m0 rs M c s a Ha) as (b1 & k1 & w1 & _ & X1 & X2 & X3 & X4 & X5).
    pose proof (MdcContour.top_unique _ _ _ _ Hb X1). subst b1. rewrite V1 in X3. injection X3 as <-. rewrite Hv, <- V2, X4 in Hi. unfold znth in Hi.
    destruct (Z.ltb_spec (Z.of_nat k1) 0); [lia|]. rewrite Nat2Z.id, X5 in Hi. injection Hi as <-. reflexivity.
  - assert (Hs : mo_size t' = size) by (rewrite (bt_size _ _ _ _ _ B'); symmetry; exact Hz).
    intros c1 e Hc1. unfold mesh_vertex. rewrite Hs. fold q n. split.
    + intros (a1 & b1 & v1 & H1 & H2 & H3 & H4). exists a1. split; [exact H1|].
      assert (b1 = b); [|subst b1; exact (proj1 H2)].
      eapply (N1 c1 _ a1 b1 c s a b i); [split; eassumption|split; assumption|exact H2|exact Hb|eauto|eauto].
    + intros (a1 & H1 & H2). exists a1, b, v. split; [exact H1|]. split; [|auto]. split; [exact H2|exact (proj2 Hb)].
Qed.


Lemma in_sheet_edges : forall solid c s e, In e (sheet_edges solid (c, s)) <-> In c (cells_around (fst e) (snd e)) /\ edge_crosses solid e = true /\ sheet solid c e = s.
Proof.
  intros solid c s e. unfold sheet_edges. cbn [fst snd]. rewrite filter_In, andb_true_iff, Z.eqb_eq. split.
  - intros [H [H1 H2]]. apply in_map_iff in H as (i & <- & Hi). apply in_zseq in Hi. split; [apply cell_edge_around; lia|auto].
  - intros (H & H1 & H2). split; [|auto]. destruct (around_cell_edge c e H) as (i & Hi & He). apply in_map_iff. exists i. split; [exact He|apply in_zseq; lia].
Qed.

Lemma sheet_edges_keys : forall solid ls, flat_map (sheet_edges solid) ls = map snd (flat_map (fun cs : ivec3 * Z => map (fun e => (fst cs, e)) (sheet_edges solid cs)) ls).
Proof. intros solid ls. induction ls as [|[c s] ls IH]; [reflexivity|]. cbn [flat_map]. rewrite map_app, map_map, <- IH. cbn [snd]. rewrite map_id. reflexivity. Qed.

Lemma nodup_corners : forall solid ls, NoDup ls -> NoDup (flat_map (fun cs : ivec3 * Z => map (fun e => (fst cs, e)) (sheet_edges solid cs)) ls).
Proof.
  intros solid ls Hn. induction Hn as [|[c s] ls Hx Hn IH]; [constructor|]. cbn [flat_map]. apply NoDup_app_intro; [|exact IH|].
  - cbn [fst]. apply nodup_map_in; [intros x y _ _ H; injection H; auto|]. unfold sheet_edges. cbn [fst snd]. apply NoDup_filter. apply cell_edges_distinct.
  - intros [c' e] H1 H2. apply in_map_iff in H1 as (e1 & X1 & Y1). injection X1 as <- <-. apply in_flat_map in H2 as ([c2 s2] & Z1 & Z2).
    apply in_map_iff in Z2 as (e2 & X2 & Y2). cbn [fst] in *. injection X2 as -> ->. apply in_sheet_edges in Y1 as (_ & _ & Y1). apply in_sheet_edges in Y2 as (_ & _ & Y2). apply Hx. congruence.
Qed.

(* Every vertex of a contour made in exact arithmetic lies in a cube of the octree, together with all cells whose quads use it.
   If the cube has not more than 256 cells along each side, the planes of the vertex are those of the corners of quads
   that use the vertex: of a sign-changing edge and a cell at this edge.  If the cube is not a cell,
   the sum of the squared distances of the vertex to these planes does not exceed the tolerance, up to a
   small term that stands for the columns which the solver drops if all entries are less than 2^-63. *)
Theorem C75_exact : forall hypot copysign msin mcos matan tune size t (g : ugrid envR) solid (eps : R) t' (m : mesh (mvert R)) i w,
  let ops : qef_ops (fp_F envR) (solver R) (qstate R) := solver3_ops arithR least_normal hypot copysign msin mcos matan tune in
  mdc_reached ops size (Some (g, solid)) t -> @mdc_contour envR (qstate R) eps t = Ret (t', m) -> znth (m_verts m) i = Some w ->
  let root := in_cube (dc_min_corner size) (root_level size) in
  exists q k, subcube q k (dc_min_corner size) (root_level size) /\ point_in_cube q k (mv_pos w) /\
    (forall c e, root c -> mesh_vertex solid t' c e i -> in_cube q k c) /\
    ((k <= 8)%nat -> exists es corners,
       NoDup corners /\
       (forall c e, In (c, e) corners <-> root c /\ In c (cells_around (fst e) (snd e)) /\ edge_crosses solid e = true /\ mesh_vertex solid t' c e i) /\
       map edge_key es = map snd corners /\ (forall e, In e es -> In e (g_edges (fst (edge_key e)) g)) /\ es <> [] /\
       (k <> O -> (sqrt (squares_sum es (mv_pos w)) <= sqrt (eps / (mo_scale t * mo_scale t)) +
          INR (3 * k + 2) * INR (length es) * (Rabs (vx (mv_pos w)) + Rabs (vy (mv_pos w)) + Rabs (vz (mv_pos w)) + 1) / 2 ^ 62)%R)).
Proof.
  intros hypot copysign msin mcos matan tune size t g solid eps t' m i w ops Hr Hm Hi root.
  destruct (mesh_vertex_node envR _ _ ops _ _ _ _ _ _ _ _ _ Hr Hm Hi) as [G (b & v & Hb & V1 & Hw & Ke & Hq)].
  assert (Hp : mv_pos w = xv_pos v) by (rewrite Hw; reflexivity). clear Hw.
  destruct (verts_part _ _ _ _ _ (gd_shape _ _ _ _ _ _ _ G) Hb) as (k & u & q' & P & Hu).
  assert (Hbu : In b (tree_verts u)) by (destruct u; cbn [node_verts tree_verts] in *; [exact Hu|apply in_or_app; left; exact Hu]).
  assert (Box : forall q2 k2 sol0 sol1, qo_solve ops sol0 (cube_low q2) (cube_high q2 k2) = (sol1, xv_pos v) -> point_in_cube q2 k2 (mv_pos w)).
  { clear - Hp. intros q2 k2 s0 s1 X. unfold ops in X. cbn [solver3_ops qo_solve] in X. unfold s3_solve in X. rewrite Hp. clear Hp. set (z := xv_pos v) in *. clearbody z.
    pose proof (C31_box hypot copysign msin mcos matan 3 tune s0 (fvec_of (cube_low (E := envR) q2)) (fvec_of (cube_high (E := envR) q2 k2))) as B.
    destruct (solve _ _ _ _ _ _ _ _ _ _ _ _) as [z' s']. injection X as _ X. cbn [fst] in B.
    assert (HB : forall c, (fvec_of (cube_low (E := envR) q2) c <= fvec_of (cube_high (E := envR) q2 k2) c)%R).
    { pose proof (edge_len_pos k2) as He. intro c. unfold cube_low, cube_high, vofZ3. destruct c as [|[|c]]; cbn [fvec_of vx vy vz envR fp_f arithR a_ofZ]; apply IZR_le; lia. }
    specialize (B HB). subst z. intro d. destruct d; [exact (B 0%nat)|exact (B 1%nat)|exact (B 2%nat)]. }
  assert (In_cells : forall q2 k2 u2, part (root_level size) (mo_root t') (dc_min_corner size) k2 u2 q2 -> In b (tree_verts u2) ->
    forall c e, root c -> mesh_vertex solid t' c e i -> in_cube q2 k2 c).
  { intros q2 k2 u2 P2 Hb2 c e Hc He. apply (Hq c e Hc) in He as (a & Ha & An). eapply (leaf_in_cube _ _ _ _ _ _ _ _ _ _ _ _ _ G); [exact Hc|exact Ha|exact P2|].
    eapply (below_inside _ _ _ _ _ _ _ _ _ _ _ _ _ G); [exact An|eapply leaf_vertex_in; exact Ha|exact P2|exact Hb2]. }
  exists q', k. split; [exact (proj1 (part_sub _ _ _ _ _ _ _ _ _ P (gd_shape _ _ _ _ _ _ _ G)))|].
  split. { destruct (node_solved _ _ _ _ _ _ _ _ _ _ _ _ _ G k u q' b P Hu) as (v' & s0 & s1 & V1' & X). assert (v' = v) by (exact (some_same _ _ _ _ V1' V1)). subst v'. exact (Box _ _ _ _ X). }
  split; [exact (In_cells q' k u P Hbu)|]. intro Hk.
  destruct (@known_all envR _ _ _ _ _ _ _ g solid (no_tiny_column least_normal 3) _ _ _ _ G (fun _ _ _ _ => True) (fun _ _ _ _ _ _ _ _ _ => I) (fun _ _ _ _ _ _ _ _ _ _ _ _ => I) k u q' P Hk b Hbu) as (k2 & q2 & Hk2 & Hsub & v' & s & sol1 & es & ls & _ & X1 & X2 & (cnt & sol2 & X3 & X4 & _ & _) & X5 & X6 & X7 & [X8 X9] & X10 & X11 & _ & X12).
  assert (k2 = k) by (eapply vert_at_unique; [exact (gd_nodup _ _ _ _ _ _ _ G)|exact X12|exact (part_vert_at _ _ _ _ _ _ _ P Hu)]). subst k2. apply subcube_same in Hsub. subst q2.
  assert (v' = v) by (exact (some_same _ _ _ _ X1 V1)). subst v'.
  exists es, (flat_map (fun cs : ivec3 * Z => map (fun e => (fst cs, e)) (sheet_edges solid cs)) ls).
  split; [apply nodup_corners; exact X8|]. split.
  { intros c e. rewrite in_flat_map. split.
    - intros ([c1 s1] & H1 & H2). apply in_map_iff in H2 as (e1 & H2 & H3). cbn [fst] in H2. injection H2 as -> ->. apply in_sheet_edges in H3 as (H3 & H4 & H5).
      apply X9 in H1 as [H1 H6]. split; [exact H1|]. split; [exact H3|]. split; [exact H4|]. apply Hq; [exact H1|]. rewrite H5. exact H6.
    - intros (H1 & H2 & H3 & H4). exists (c, sheet solid c e). split; [apply X9; split; [exact H1|apply Hq; assumption]|]. apply in_map_iff. exists e. split; [reflexivity|]. apply in_sheet_edges. auto. }
  split. { etransitivity; [exact X6|]. apply sheet_edges_keys. }
  split; [exact X7|]. split; [exact X5|]. intro Hk0. destruct Ke as [(c' & s' & Hc' & (l & L1 & L2))|Ke].
  { exfalso. apply Hk0. eapply vert_at_unique; [exact (gd_nodup _ _ _ _ _ _ _ G)|exact X12|]. apply znth_in in L2.
    exact (leaf_vert_at _ _ _ _ _ _ _ (gd_shape _ _ _ _ _ _ _ G) (fun l c k H => leaf_ok_level _ _ _ _ _ H) L1 L2). }
  rewrite Hp. set (z := xv_pos v) in *.
  pose proof (C29_partial hypot copysign msin mcos matan 3 8 (2 ^ 30)%Z sol1 _ cnt ltac:(left; auto) X3 (fvec_of z)) as B.
  rewrite squares_planes, sqrt_least in B.
  assert (T : taxi 3 (fvec_of z) = (Rabs (vx z) + Rabs (vy z) + Rabs (vz z))%R) by (unfold taxi; cbn [total fvec_of]; ring). rewrite T in B.
  assert (Ke' : (eval arithR 3 sol1 (fvec_of z) <= eps / (mo_scale t * mo_scale t))%R).
  { pose proof (eq_ind _ (fun r : R => Rleb r (scaled t eps) = true) Ke _ X11) as Ke2. cbv beta in Ke2. apply Rleb_iff in Ke2. exact Ke2. }
  clear - B X4 Ke'.
  set (y := (Rabs (vx z) + Rabs (vy z) + Rabs (vz z) + 1)%R) in *.
  assert (W : (0 <= y)%R) by (unfold y; pose proof (Rabs_pos (vx z)); pose proof (Rabs_pos (vy z)); pose proof (Rabs_pos (vz z)); lra).
  assert (Z : (sqrt (eval arithR 3 sol1 (fvec_of z)) <= sqrt (eps / (mo_scale t * mo_scale t)))%R) by (apply sqrt_le_1_alt; exact Ke').
  assert (Y : (2 * INR cnt * / 2 ^ 63 * y <= INR (3 * k + 2) * INR (length es) * y / 2 ^ 62)%R).
  { replace (INR (3 * k + 2) * INR (length es) * y / 2 ^ 62)%R with (2 * (INR (3 * k + 2) * INR (length es)) * / 2 ^ 63 * y)%R by (field; apply pow_nonzero; lra).
    apply Rmult_le_compat_r; [exact W|]. apply Rmult_le_compat_r; [left; apply Rinv_0_lt_compat, pow_lt; lra|].
    apply Rmult_le_compat_l; [lra|]. apply le_INR in X4. rewrite mult_INR in X4. exact X4. }
  assert (B' : (sqrt (squares_sum es z) - sqrt (eval arithR 3 sol1 (fvec_of z)) <= 2 * INR cnt * / 2 ^ 63 * y)%R).
  { eapply Rle_trans; [|exact B]. rewrite Rabs_minus_sym. apply Rle_abs. }
  assert (B2 : forall a b c d e : R, (a - b <= c -> b <= d -> c <= e -> a <= d + e)%R) by (intros; lra).
  exact (B2 _ _ _ _ _ B' Z Y).
Qed.
Print Assumptions C75_exact.

(* In single precision each coordinate of a vertex is in the range of the cube or is a NaN. *)
Theorem C75_float : forall float_min hypot copysign msin mcos matan tune size t (g : ugrid envIEEE) solid eps t' (m : mesh (mvert b32)) i w,
  let ops : qef_ops (fp_F envIEEE) (solver b32) (qstate b32) := solver3_ops arith32 float_min hypot copysign msin mcos matan tune in
  mdc_reached ops size (Some (g, solid)) t -> @mdc_contour envIEEE (qstate b32) eps t = Ret (t', m) -> znth (m_verts m) i = Some w ->
  let root := in_cube (dc_min_corner size) (root_level size) in
  exists q k, subcube q k (dc_min_corner size) (root_level size) /\ (forall c e, root c -> mesh_vertex solid t' c e i -> in_cube q k c) /\
    forall d, vget d (mv_pos w) = B754_nan \/
      (a_le arith32 (a_ofZ arith32 (vget d q)) (vget d (mv_pos w)) = true /\
       a_le arith32 (vget d (mv_pos w)) (a_ofZ arith32 (vget d q + edge_len k)) = true).
Proof.
  intros float_min hypot copysign msin mcos matan tune size t g solid eps t' m i w ops Hr Hm Hi root.
  destruct (mesh_vertex_node envIEEE _ _ ops _ _ _ _ _ _ _ _ _ Hr Hm Hi) as [G (b & v & Hb & V1 & Hw & Ke & Hq)].
  assert (Hp : mv_pos w = xv_pos v) by (rewrite Hw; reflexivity). clear Hw.
  destruct (verts_part _ _ _ _ _ (gd_shape _ _ _ _ _ _ _ G) Hb) as (k & u & q' & P & Hu).
  assert (Hbu : In b (tree_verts u)) by (destruct u; cbn [node_verts tree_verts] in *; [exact Hu|apply in_or_app; left; exact Hu]).
  pose proof (proj1 (part_sub _ _ _ _ _ _ _ _ _ P (gd_shape _ _ _ _ _ _ _ G))) as Hsub.
  exists q', k. split; [exact Hsub|]. split.
  { intros c e Hc He. apply (Hq c e Hc) in He as (a & Ha & An). eapply (leaf_in_cube _ _ _ _ _ _ _ _ _ _ _ _ _ G); [exact Hc|exact Ha|exact P|].
    eapply (below_inside _ _ _ _ _ _ _ _ _ _ _ _ _ G); [exact An|eapply leaf_vertex_in; exact Ha|exact P|exact Hbu]. }
  destruct (node_solved _ _ _ _ _ _ _ _ _ _ _ _ _ G k u q' b P Hu) as (v' & s0 & s1 & V1' & X). assert (v' = v) by (exact (some_same _ _ _ _ V1' V1)). subst v'.
  destruct (built_of ops size g solid t Hr) as [Hz B]. pose proof (bt_grid _ _ _ _ _ B) as Hg. pose proof (edge_len_pos k) as He.
  assert (Hs : size <= 1024).
  { destruct (rep_size _ _ (rep_base _ _ (filled_ok _ _ _ (bt_filled _ _ _ _ _ B)))) as (j & Hj & Hj2). rewrite <- Hz, Hj2 in Hg.
    assert (2 ^ j <= 2 ^ 10) by (apply Z.pow_le_mono_r; lia). change (2 ^ 10) with 1024 in *. lia. }
  pose proof (edge_len_pos (root_level size)) as H0. unfold subcube in Hsub. rewrite <- Hz in *. unfold dc_min_corner in Hsub. cbn [vx vy vz] in Hsub. rewrite <- Z.quot_opp_l in Hsub || idtac.
  pose proof (Z.quot_le_upper_bound size 2 size ltac:(lia) ltac:(lia)) as Hquot. pose proof (Z.quot_pos size 2 ltac:(lia) ltac:(lia)). rewrite Z.quot_opp_l in Hsub by lia.
  change (fp_f envIEEE) with arith32 in *. cbn [solver3_ops qo_solve] in X. unfold s3_solve in X. 
  pose proof (C31_box_float float_min hypot copysign msin mcos matan 3 tune s0 (fvec_of (cube_low (E := envIEEE) q')) (fvec_of (cube_high (E := envIEEE) q' k))) as Bx.
  change (fp_f envIEEE) with arith32 in *.
  destruct (solve _ _ _ _ _ _ _ _ _ _ _ _) as [z' s']. injection X as _ X. cbn [fst] in Bx.
  assert (HB : forall c, a_le arith32 (fvec_of (cube_low (E := envIEEE) q') c) (fvec_of (cube_high (E := envIEEE) q' k) c) = true).
  { intro c. unfold cube_low, cube_high, vofZ3. change (fp_f envIEEE) with arith32.
    destruct c as [|[|c]]; cbn [fvec_of vx vy vz]; apply ofZ_le; lia. }
  specialize (Bx HB). cbv zeta in Bx.
  assert (Hw : mv_pos w = V3 (z' 0%nat) (z' 1%nat) (z' 2%nat)) by (transitivity (xv_pos v); [exact Hp|symmetry; exact X]).
  rewrite Hw. intro d. destruct d; [exact (Bx 0%nat)|exact (Bx 1%nat)|exact (Bx 2%nat)].
Qed.
Print Assumptions C75_float.

(* The half space of PropDcQef.v. *)
Example C75_ex : forall (zf : zero_finder envR) (eps : R), exists calls (g : ugrid envR) solid t t' m w, fill grid4R half_field zf = Ret (g, calls) /\
  mdc_reached exact_ops 4 (Some (g, solid)) t /\ @mdc_contour envR (qstate R) eps t = Ret (t', m) /\ znth (m_verts m) 0 = Some w.
Proof.
  intros zf eps. assert (Hv : valid_size (g_size grid4R)) by (exists 2%Z; split; [lia|reflexivity]).
  assert (Hn : nan_free grid4R half_field).
  { intros p _. unfold gt0, le0. cbn [envR fp_d fp_D arithR a_lt a_le a_ofZ]. destruct (Rleb _ 0) eqn:X; cbn [negb].
    - apply Rleb_iff in X. apply Rltb_false. exact X.
    - apply Rleb_false in X. apply Rltb_iff. exact X. }
  assert (Hs : solid_inside grid4R half_field) by (intros p Hp Hl; discriminate).
  destruct (fill_represents envR grid4R half_field zf Hv Hn Hs) as (g & calls & Hf & Hsz & _).
  assert (HF : filled g (fun p => le0 envR (sample grid4R half_field p))) by (apply (filled_by grid4R half_field _ _ _ Hv Hn Hs Hf)).
  assert (Hle : (4 <= g_size g)%Z) by (rewrite Hsz; discriminate).
  destruct (C33_mdc_sizes envR (qstate R) 4 1%R) as [(_ & t0 & N & _)|[X _]]; [|exfalso; apply X; exists 2%nat; reflexivity].
  pose proof (mdc_reached_new exact_ops 4 1%R t0 N) as R0.
  destruct (C39_build envR _ _ exact_ops 4 None t0 g _ (q_new arithR) R0 HF Hle) as (t & sol' & Hb).
  pose proof (mdc_reached_build exact_ops 4 _ _ _ _ _ _ _ R0 HF Hle Hb) as R'.
  destruct (C39_contour envR _ _ exact_ops 4 _ t eps R') as (t' & m & Hm & _).
  assert (Hc : in_cube (dc_min_corner 4) (root_level 4) (V3 0 0 0)%Z) by (vm_compute; repeat split; discriminate).
  assert (He : edge_crosses (fun p => le0 envR (sample grid4R half_field p)) (AY, V3 0 0 0) = true).
  { unfold edge_crosses. cbn [fst snd unit_vec]. change (vadd (V3 0 0 0) (V3 0 1 0)) with (V3 0 1 0). rewrite half_low, half_high. reflexivity. }
  destruct (C39_vertices _ _ _ _ _ _ _ _ _ _ _ (V3 0 0 0) (AY, V3 0 0 0) R' Hm Hc ltac:(cbn; auto) He) as (a & b & v & i & _ & _ & _ & _ & Hi & _).
  assert (exists w, znth (m_verts m) 0 = Some w) as (w & Hw).
  { destruct (m_verts m) as [|w l]; [unfold znth in Hi; destruct (i <? 0); [discriminate|destruct (Z.to_nat i); discriminate]|]. exists w. reflexivity. }
  exists calls, g, (fun p => le0 envR (sample grid4R half_field p)), t, t', m, w. auto.
Qed.

(* A run in single precision with the default options of the solver: vertices of the mesh and whether all are in the root cube, for two bounds. *)
Definition mdc_float_run (size : Z) (f : field envIEEE) (g0 : ugrid envIEEE) (errors : list b32) : option (list (Z * bool)) :=
  match fill g0 f c10_solver with
  | Ret (g, _) =>
      match @mdc_new envIEEE (qstate b32) size (f64 1 0) with
      | Ret t =>
          match mdc_build float_ops g t (q_new arith32) with
          | Ret (t1, _) => Some (flat_map (fun e => match mdc_contour e t1 with
              | Ret (t2, m) => [(mesh_vertex_count m, forallb (fun u => forallb (fun d => a_le arith32 (f32 (-2) 0) (vget d (mv_pos u)) && a_le arith32 (vget d (mv_pos u)) (f32 2 0))%bool [AX; AY; AZ]) (m_verts m))]
              | _ => [] end) errors)
          | _ => None end
      | _ => None end
  | _ => None end.
Example C75_float_ex : mdc_float_run 4 big_field grid4 [f32 0 0; f32 1 3] = Some [(31, true); (10, true)].
Proof. vm_cast_no_check (@eq_refl (option (list (Z * bool))) (Some [(31, true); (10, true)])). Qed.
