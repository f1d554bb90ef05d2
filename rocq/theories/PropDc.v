(* Adaptive dual contouring: C33 - C37, C55, C56 *)
From Coq Require Import ZArith List Bool Lia Permutation.
From Verif Require Import Base Arith Tables MeshModel MeshSpec MeshProofs MaterialFilterModel GridModel GridSpec GridProofs
  EdgeModel EdgeSpec FillModel FillSpec LoopLemmas FillProofs MCModel CellSpec UdcModel DualSpec DualProofs
  OctreeModel OctreeSpec OctreeSums OctreeProofs OctreeFlux DcModel DcSpec DcBuild DcContour FloatArith PropFillNum PropMC.
Import ListNotations.
Local Open Scope Z_scope.

(* ---- C33 ---- *)

Lemma edge_len_exists : forall n, (exists k, 0 <= k /\ n = 2 ^ k) <-> exists m, n = edge_len m.
Proof.
  intro n. unfold edge_len. split.
  - intros (k & Hk & ->). exists (Z.to_nat k). rewrite Z2Nat.id by assumption. reflexivity.
  - intros (m & ->). exists (Z.of_nat m). split; [lia|reflexivity].
Qed.

Lemma new_size : forall n, (n <=? 0) || negb (Z.land n (n - 1) =? 0) = false <-> exists m, n = edge_len m.
Proof.
  intro n. rewrite orb_false_iff, negb_false_iff, Z.leb_gt, Z.eqb_eq. split.
  - intros [Hp Hl]. apply pow2_land in Hl; [|assumption]. apply edge_len_exists. exact Hl.
  - intros (m & ->). pose proof (edge_len_pos m). split; [lia|]. apply pow2_land; [lia|]. apply edge_len_exists. eauto.
Qed.

(* The constructor of DC_Octree accepts the positive powers of two and throws for
   the other sizes; the root cube gets the size asked for and is centred at the
   origin unless it is a single cell. *)
Theorem C33_dc_sizes : forall E S (size : Z) (scale : fp_D E),
  ((exists m, size = edge_len m) /\ exists t : dc_octree E S, dc_new size scale = Ret t /\ ot_size t = size /\
     is_subdivided (ot_root t) = false) \/
  ((~ exists m, size = edge_len m) /\ @dc_new E S size scale = Throw InvalidArgument).
Proof.
  intros E S size scale. unfold dc_new. destruct ((size <=? 0) || negb (Z.land size (size - 1) =? 0)) eqn:X.
  - right. split; [|reflexivity]. intro H. apply new_size in H. congruence.
  - left. split; [apply new_size; exact X|]. eexists. split; [reflexivity|]. split; reflexivity.
Qed.
Print Assumptions C33_dc_sizes.

Theorem C33_dc_centre : forall m, (m <> 0)%nat ->
  let c := dc_min_corner (edge_len m) in 2 * vx c = - edge_len m /\ vy c = vx c /\ vz c = vx c.
Proof.
  intros [|m] H; [congruence|]. unfold dc_min_corner. cbn [vx vy vz]. split; [|auto].
  replace (- edge_len (S m)) with (- edge_len m * 2) by (rewrite edge_len_S; ring). rewrite Z.quot_mul by lia. ring.
Qed.
Print Assumptions C33_dc_centre.

Example C33_ex : (exists t : dc_octree envIEEE unit, @dc_new envIEEE unit 8 (f64 1 0) = Ret t) /\
  @dc_new envIEEE unit 12 (f64 1 0) = Throw InvalidArgument /\ @dc_new envIEEE unit (-2147483648) (f64 1 0) = Throw InvalidArgument.
Proof. split; [eexists; reflexivity|]. split; reflexivity. Qed.

(* ---- histories ---- *)

Lemma filled_ok : forall E (g : ugrid E) solid, filled g solid -> represents g solid.
Proof.
  intros E g solid H. destruct H as [g0 f solver g calls Hv Hn Hs Hf]. apply (filled_represents _ _ _ _ _ _ Hv Hn Hs Hf).
Qed.

Lemma make_vertices_depth : forall E S fuel (t t' : dc_tree E S) m m', make_vertices fuel t m = Ret (t', m') -> node_depth t' = node_depth t.
Proof.
  intros E S [|fuel] t t' m m' H; [discriminate|]. destruct t as [l|d cs]; cbn [make_vertices] in H.
  - destruct (make_vertex l m) as [[l' m1]| | | |] eqn:X; try discriminate. cbn [obind] in H. injection H as <- <-. cbn.
    unfold make_vertex in X. destruct (leaf_homogenous l) as [[|]| | | |]; cbn [obind] in X; try discriminate.
    + injection X as <- <-. reflexivity.
    + destruct (lf_vertex l), (lf_normal l), (lf_corners l); cbn [oread obind] in X; try discriminate.
      destruct (mesh_add_vertex _ _) as [[m2 id]| | | |]; try discriminate. cbn [obind] in X. injection X as <- <-. reflexivity.
  - destruct (ofold _ _ _) as [[cs' m1]| | | |]; try discriminate. cbn [obind] in H. injection H as <- <-. reflexivity.
Qed.

Lemma reached_inv : forall E Q S (ops : qef_ops (fp_F E) Q S) size t, dc_reached ops size t ->
  exists m, size = edge_len m /\ ot_size t = edge_len m /\ node_depth (ot_root t) = 0.
Proof.
  intros E Q S ops size t H. induction H as [scale t H|t g solid eps simplify sol t' sol' H IH Hf Hs Hb|t t' m H IH Hc].
  - unfold dc_new in H. destruct ((size <=? 0) || negb (Z.land size (size - 1) =? 0)) eqn:X; [discriminate|]. injection H as <-.
    apply new_size in X as (m & ->). exists m. auto.
  - destruct IH as (m & -> & Ht & Hd). exists m. split; [reflexivity|].
    destruct (dc_build_ok E Q S ops g solid eps simplify t sol m (filled_ok _ _ _ Hf) Ht Hs Hd) as (t1 & s1 & Hb' & H1 & _ & H3 & _).
    rewrite Hb in Hb'. injection Hb' as <- <-. rewrite H1. auto.
  - destruct IH as (n & -> & Ht & Hd). exists n. split; [reflexivity|]. unfold dc_contour in Hc.
    destruct (make_vertices _ _ _) as [[r m1]| | | |] eqn:X; try discriminate. cbn [obind] in Hc.
    destruct (cell_proc _ _ _ _ _) as [m2| | | |]; try discriminate. cbn [obind] in Hc. injection Hc as <- <-. cbn.
    split; [assumption|]. rewrite (make_vertices_depth _ _ _ _ _ _ _ X). assumption.
Qed.

(* The tolerance build uses: divided by the square of the grid scale. *)
Definition tolerance {E S} (t : dc_octree E S) (eps : fp_F E) : fp_F E :=
  a_div (fp_f E) eps (fp_narrow E (a_mul (fp_d E) (ot_scale t) (ot_scale t))).
(* Levels below the root and lower corner of the root cube. *)
Definition root_corner (size : Z) : ivec3 := dc_min_corner size.

Lemma build_reached : forall E Q S (ops : qef_ops (fp_F E) Q S) size t g solid eps simplify sol,
  dc_reached ops size t -> filled g solid -> size <= g_size g ->
  exists t' sol', dc_build ops g eps simplify t sol = Ret (t', sol') /\ size = edge_len (root_level size) /\ ot_size t' = size /\
    ot_scale t' = ot_scale t /\
    tree_ok (leaf_ok ops g solid (tolerance t eps) (root_level size) simplify) (root_level size) (ot_root t') (dc_min_corner size).
Proof.
  intros E Q S ops size t g solid eps simplify sol Hr Hf Hs. destruct (reached_inv _ _ _ _ _ _ Hr) as (m & -> & Ht & Hd).
  destruct (root_size m) as [_ ->].
  destruct (dc_build_ok E Q S ops g solid eps simplify t sol m (filled_ok _ _ _ Hf) Ht Hs Hd) as (t1 & s1 & Hb & H1 & H2 & H3 & H4).
  exists t1, s1. rewrite Ht in *. auto 10.
Qed.

(* ---- C34 ---- *)

(* Building ends normally whatever the QEF solver answers.  The leaves tile the
   root cube: each cell has the leaf [leaf_at] finds.  A leaf of the cube (q, n)
   has the materials of the grid at the corners of the cube; if these are of one
   kind, so are all grid vertices of the cube.  Without simplification bigger
   leaves have no sign change at all. *)
Theorem C34_leaves : forall E Q S (ops : qef_ops (fp_F E) Q S) size t g solid eps simplify sol,
  dc_reached ops size t -> filled g solid -> size <= g_size g ->
  exists t' sol', dc_build ops g eps simplify t sol = Ret (t', sol') /\ ot_size t' = size /\ size = edge_len (root_level size) /\
    tree_ok (fun l q n =>
        lf_corners l = Some (map (grid_material g) (cube_corners q n)) /\
        (mixed solid q n = false -> uniform solid q n) /\
        (simplify = false -> n <> O -> uniform solid q n))
      (root_level size) (ot_root t') (dc_min_corner size) /\
    forall c, in_cube (dc_min_corner size) (root_level size) c ->
      exists l, leaf_at (root_level size) (ot_root t') (dc_min_corner size) c = Some l.
Proof.
  intros E Q S ops size t g solid eps simplify sol Hr Hf Hs.
  destruct (build_reached _ _ _ _ _ _ _ _ eps simplify sol Hr Hf Hs) as (t' & sol' & Hb & Hz & H1 & H2 & H3).
  exists t', sol'. split; [exact Hb|]. split; [exact H1|]. split; [exact Hz|]. split.
  - revert H3. apply tree_ok_impl. intros l q n _ _ Hl. split; [apply (lk_corners _ _ _ _ _ _ _ _ _ Hl)|].
    split; [apply (lk_uniform _ _ _ _ _ _ _ _ _ Hl)|apply (lk_fine _ _ _ _ _ _ _ _ _ Hl)].
  - intros c Hc. destruct (leaf_at_ok _ _ _ _ _ _ c H3 Hc) as (l & _ & _ & Hl & _). eauto.
Qed.
Print Assumptions C34_leaves.

(* ---- C37 ---- *)

(* Each leaf with corners of both kinds has a vertex, a normal and a QEF state
   which, in a cell, come from the planes at the stored edges of the cell, and in
   a bigger cube from the states of the octants; then the error of the merged QEF
   at the vertex is not greater than the tolerance. *)
Theorem C37_tolerance : forall E Q S (ops : qef_ops (fp_F E) Q S) size t g solid eps simplify sol t' sol',
  dc_reached ops size t -> filled g solid -> size <= g_size g -> dc_build ops g eps simplify t sol = Ret (t', sol') ->
  tree_ok (fun l q n => mixed solid q n = true ->
      exists v nrm s, lf_vertex l = Some v /\ lf_normal l = Some nrm /\ lf_qef l = Some s /\
        measured ops g solid (tolerance t eps) q n v nrm s)
    (root_level size) (ot_root t') (dc_min_corner size).
Proof.
  intros E Q S ops size t g solid eps simplify sol t' sol' Hr Hf Hs Hb.
  destruct (build_reached _ _ _ _ _ _ _ _ eps simplify sol Hr Hf Hs) as (t1 & sol1 & Hb' & _ & _ & _ & H3).
  rewrite Hb in Hb'. injection Hb' as <- <-. revert H3. apply tree_ok_impl. intros l q n _ _ Hl. apply (lk_mixed _ _ _ _ _ _ _ _ _ Hl).
Qed.
Print Assumptions C37_tolerance.

(* In particular a bigger leaf has the vertex found by solving some QEF whose
   error there is not greater than the tolerance. *)
Theorem C37_error : forall E Q S (ops : qef_ops (fp_F E) Q S) size t g solid eps simplify sol t' sol' c l,
  dc_reached ops size t -> filled g solid -> size <= g_size g -> dc_build ops g eps simplify t sol = Ret (t', sol') ->
  in_cube (dc_min_corner size) (root_level size) c ->
  leaf_at (root_level size) (ot_root t') (dc_min_corner size) c = Some l ->
  exists q n, in_cube q n c /\ lf_depth l = Z.of_nat (root_level size) - Z.of_nat n /\
    (n = O \/ uniform solid q n \/
     exists v sol0 sol1, lf_vertex l = Some v /\ qo_solve ops sol0 (cube_low q) (cube_high q n) = (sol1, v) /\
       a_lt (fp_f E) (tolerance t eps) (qo_eval ops sol1 v) = false).
Proof.
  intros E Q S ops size t g solid eps simplify sol t' sol' c l Hr Hf Hs Hb Hc Hl.
  destruct (build_reached _ _ _ _ _ _ _ _ eps simplify sol Hr Hf Hs) as (t1 & sol1 & Hb' & _ & _ & _ & H3).
  rewrite Hb in Hb'. injection Hb' as <- <-.
  destruct (leaf_at_ok _ _ _ _ _ _ c H3 Hc) as (l' & q & n & Hl' & Hok & Hin & _). rewrite Hl in Hl'. injection Hl' as <-.
  exists q, n. split; [assumption|]. split; [apply (lk_depth _ _ _ _ _ _ _ _ _ Hok)|].
  destruct n as [|n]; [auto|]. right. destruct (mixed solid q (Datatypes.S n)) eqn:X.
  - right. destruct (lk_mixed _ _ _ _ _ _ _ _ _ Hok X) as (v & nrm & s & Hv & _ & _ & Hm). inversion Hm; subst. eauto 10.
  - left. apply (lk_uniform _ _ _ _ _ _ _ _ _ Hok X).
Qed.
Print Assumptions C37_error.

(* ---- C55, C56 ---- *)

(* The table isManifold answers whether the solid corners of a cube are connected
   along its edges and the empty corners are too. *)
Theorem C55_table : forall kind, is_manifold (kind_mask kind) = true <-> two_pieces kind.
Proof. exact manifold_kinds. Qed.
Print Assumptions C55_table.

(* A leaf bigger than a cell with corners of both kinds has just one piece of
   surface: its corners fall into two connected pieces. *)
Theorem C56_one_sheet : forall E Q S (ops : qef_ops (fp_F E) Q S) size t g solid eps simplify sol t' sol',
  dc_reached ops size t -> filled g solid -> size <= g_size g -> dc_build ops g eps simplify t sol = Ret (t', sol') ->
  tree_ok (fun l q n => n <> O -> mixed solid q n = true -> two_pieces (fun i => solid (cube_corner q n i)))
    (root_level size) (ot_root t') (dc_min_corner size).
Proof.
  intros E Q S ops size t g solid eps simplify sol t' sol' Hr Hf Hs Hb.
  destruct (build_reached _ _ _ _ _ _ _ _ eps simplify sol Hr Hf Hs) as (t1 & sol1 & Hb' & _ & _ & _ & H3).
  rewrite Hb in Hb'. injection Hb' as <- <-. revert H3. apply tree_ok_impl. intros l q n _ _ Hl. apply (lk_simple _ _ _ _ _ _ _ _ _ Hl).
Qed.
Print Assumptions C56_one_sheet.

(* More than that: every test of checkTopoSafety holds in it and, recursively, in
   its octants. *)
Theorem C57_one_sheet_inside : forall E Q S (ops : qef_ops (fp_F E) Q S) size t g solid eps simplify sol t' sol',
  dc_reached ops size t -> filled g solid -> size <= g_size g -> dc_build ops g eps simplify t sol = Ret (t', sol') ->
  tree_ok (fun l q n => one_sheet (grid_material g) solid q n) (root_level size) (ot_root t') (dc_min_corner size).
Proof.
  intros E Q S ops size t g solid eps simplify sol t' sol' Hr Hf Hs Hb.
  destruct (build_reached _ _ _ _ _ _ _ _ eps simplify sol Hr Hf Hs) as (t1 & sol1 & Hb' & _ & _ & _ & H3).
  rewrite Hb in Hb'. injection Hb' as <- <-. revert H3. apply tree_ok_impl. intros l q n _ _ Hl. apply (lk_sheet _ _ _ _ _ _ _ _ _ Hl).
Qed.
Print Assumptions C57_one_sheet_inside.

(* ---- C35 ---- *)

Lemma contour_reached : forall E Q S (ops : qef_ops (fp_F E) Q S) size t g solid eps simplify sol t1 sol1,
  dc_reached ops size t -> filled g solid -> size <= g_size g -> dc_build ops g eps simplify t sol = Ret (t1, sol1) ->
  size = edge_len (root_level size) /\
  exists t2 m ts, dc_contour t1 = Ret (t2, m) /\ mesh_valid_with m ts /\
    tree_ok (numbered ops g solid (tolerance t eps) simplify (root_level size) (m_verts m)) (root_level size) (ot_root t2) (dc_min_corner size) /\
    m_verts m = flat_map leaf_vertex (leaves_of (ot_root t2)) /\
    flat_map leaf_number (leaves_of (ot_root t2)) = zseq 0 (length (m_verts m)) /\ zlen (m_verts m) < u32max /\
    tree_map without_id (ot_root t2) = tree_map without_id (ot_root t1) /\
    forall w, alternating w ->
      gsum w ts = gsum (fun e => weight solid e * cell_val (leaf_at (root_level size) (ot_root t2) (dc_min_corner size)) w e)
        (inner_edges (dc_min_corner size) size).
Proof.
  intros E Q S ops size t g solid eps simplify sol t1 sol1 Hr Hf Hs Hb.
  destruct (build_reached _ _ _ _ _ _ _ _ eps simplify sol Hr Hf Hs) as (t1' & sol1' & Hb' & Hz & H1 & H2 & H3).
  rewrite Hb in Hb'. injection Hb' as <- <-. split; [exact Hz|].
  rewrite <- H1 in H3 at 3.
  destruct (dc_contour_ok ops g solid (filled_ok _ _ _ Hf) (tolerance t eps) simplify (root_level size) t1) as
    (t2 & m & ts & C1 & C2 & C3 & C4 & C5 & C6 & C7 & C8 & C9 & C10 & C11).
  { congruence. } { rewrite <- Hz. assumption. } { exact H3. }
  rewrite H1 in *. rewrite <- Hz in C11. exists t2, m, ts. auto 10.
Qed.

(* Contouring ends normally with a valid mesh. *)
Theorem C35_valid : forall E Q S (ops : qef_ops (fp_F E) Q S) size t g solid eps simplify sol,
  dc_reached ops size t -> filled g solid -> size <= g_size g ->
  exists t1 sol1 t2 m, dc_build ops g eps simplify t sol = Ret (t1, sol1) /\ dc_contour t1 = Ret (t2, m) /\ mesh_valid m.
Proof.
  intros E Q S ops size t g solid eps simplify sol Hr Hf Hs.
  destruct (build_reached _ _ _ _ _ _ _ _ eps simplify sol Hr Hf Hs) as (t1 & sol1 & Hb & _).
  destruct (contour_reached _ _ _ _ _ _ _ _ _ _ _ _ _ Hr Hf Hs Hb) as (_ & t2 & m & ts & H1 & H2 & _).
  exists t1, sol1, t2, m. split; [assumption|]. split; [assumption|]. exists ts. assumption.
Qed.
Print Assumptions C35_valid.

(* The leaves with corners of both kinds are numbered in depth first order; the
   mesh vertex with the number of such a leaf has the position and the normal of
   the leaf and the filtered material of its corners, and there are no other
   vertices.  The other leaves have the invalid number. *)
Theorem C35_vertices : forall E Q S (ops : qef_ops (fp_F E) Q S) size t g solid eps simplify sol t1 sol1 t2 m,
  dc_reached ops size t -> filled g solid -> size <= g_size g -> dc_build ops g eps simplify t sol = Ret (t1, sol1) ->
  dc_contour t1 = Ret (t2, m) ->
  tree_map without_id (ot_root t2) = tree_map without_id (ot_root t1) /\
  tree_ok (fun l q n =>
      if mixed solid q n then
        exists id v nrm, lf_id l = Some id /\ lf_vertex l = Some v /\ lf_normal l = Some nrm /\
          znth (m_verts m) id = Some (MVert v nrm (fast_select (fast_add_all fast_new (map (grid_material g) (cube_corners q n)))))
      else lf_id l = Some u32max)
    (root_level size) (ot_root t2) (dc_min_corner size) /\
  flat_map (fun l => match lf_id l with Some id => if id =? u32max then [] else [id] | None => [] end) (leaves_of (ot_root t2)) =
  zseq 0 (length (m_verts m)).
Proof.
  intros E Q S ops size t g solid eps simplify sol t1 sol1 t2 m Hr Hf Hs Hb Hm.
  destruct (contour_reached _ _ _ _ _ _ _ _ _ _ _ _ _ Hr Hf Hs Hb) as (Hz & t2' & m' & ts & H1 & H2 & H3 & H4 & H5 & Hlt & H6 & _).
  rewrite Hm in H1. injection H1 as <- <-. split; [exact H6|]. split.
  - revert H3. apply tree_ok_impl. intros l q n _ _ Hl. destruct (mixed solid q n) eqn:X.
    + apply (nb_mixed _ _ _ _ _ _ _ _ _ _ Hl X).
    + apply (nb_other _ _ _ _ _ _ _ _ _ _ Hl X).
  - rewrite <- H5. pose proof (tree_leaves _ _ _ _ _ _ H3) as HL. revert HL. generalize (leaves_of (ot_root t2)).
    induction l as [|a l IH]; intro HL; [reflexivity|]. cbn [flat_map]. rewrite IH by (intros; apply HL; right; assumption).
    destruct (HL a (or_introl eq_refl)) as (q & n & Ha).
    rewrite (numbered_number ops g solid (filled_ok _ _ _ Hf) _ _ _ _ _ _ _ Ha Hlt). reflexivity.
Qed.
Print Assumptions C35_vertices.

(* contour only depends on the leaves without their numbers *)
Lemma make_vertex_again : forall E S (l l' : dc_leaf (fp_F E) S) m, without_id l = without_id l' -> make_vertex l m = make_vertex l' m.
Proof. intros E S [d1 v1 n1 c1 q1 i1] [d2 v2 n2 c2 q2 i2] m H. unfold without_id in H. cbn in H. injection H as -> -> -> -> ->. reflexivity. Qed.

Lemma make_vertices_again : forall E S fuel (t t' : dc_tree E S) m, tree_map without_id t = tree_map without_id t' ->
  make_vertices fuel t m = make_vertices fuel t' m.
Proof.
  intros E S fuel. induction fuel as [|fuel IH]; intros t t' m H; [reflexivity|].
  destruct t as [l|d cs], t' as [l'|d' cs']; cbn [tree_map] in H; try discriminate; cbn [make_vertices].
  - injection H as H. rewrite (make_vertex_again _ _ l l' m); [reflexivity|]. unfold without_id. congruence.
  - injection H as -> H. apply (f_equal (fun f => f)) in H.
    assert (Hc : forall i, match znth cs i, znth cs' i with
                           | Some c, Some c' => tree_map without_id c = tree_map without_id c'
                           | None, None => True | _, _ => False end).
    { intro i. unfold znth. destruct (i <? 0); [exact I|]. pose proof (map_nth_error (tree_map without_id) (Z.to_nat i) cs) as A.
      pose proof (map_nth_error (tree_map without_id) (Z.to_nat i) cs') as A'. rewrite H in A.
      destruct (nth_error cs (Z.to_nat i)) eqn:X, (nth_error cs' (Z.to_nat i)) eqn:Y; try exact I.
      - specialize (A _ eq_refl). specialize (A' _ eq_refl). congruence.
      - apply nth_error_None in Y. assert (Z : nth_error cs (Z.to_nat i) <> None) by congruence. apply nth_error_Some in Z.
        apply (f_equal (@length _)) in H. rewrite !map_length in H. lia.
      - apply nth_error_None in X. assert (Z : nth_error cs' (Z.to_nat i) <> None) by congruence. apply nth_error_Some in Z.
        apply (f_equal (@length _)) in H. rewrite !map_length in H. lia. }
    match goal with |- obind ?x _ = obind ?y _ => assert (Heq : x = y); [|rewrite Heq; reflexivity] end.
    match goal with |- ofold ?f _ _ = ofold ?h _ _ => assert (G : forall l acc m, ofold f l (acc, m) = ofold h l (acc, m)); [|apply G] end.
    induction l as [|i l IHl]; intros acc m0; [reflexivity|].
    cbn [ofold child]. specialize (Hc i). destruct (znth cs i) as [c|], (znth cs' i) as [c'|]; try contradiction; [|reflexivity].
    cbn [oread obind]. rewrite (IH c c' m0 Hc). destruct (make_vertices fuel c' m0) as [[c1 m1]| | | |]; cbn [obind]; try reflexivity. apply IHl.
Qed.

(* Contouring again gives the same mesh. *)
Theorem C35_repeat : forall E Q S (ops : qef_ops (fp_F E) Q S) size t g solid eps simplify sol t1 sol1 t2 m,
  dc_reached ops size t -> filled g solid -> size <= g_size g -> dc_build ops g eps simplify t sol = Ret (t1, sol1) ->
  dc_contour t1 = Ret (t2, m) -> dc_contour t2 = Ret (t2, m).
Proof.
  intros E Q S ops size t g solid eps simplify sol t1 sol1 t2 m Hr Hf Hs Hb Hm.
  destruct (C35_vertices _ _ _ _ _ _ _ _ _ _ _ _ _ _ _ Hr Hf Hs Hb Hm) as [Hw _].
  rewrite <- Hm. unfold dc_contour in Hm |- *.
  assert (Hsz : ot_size t2 = ot_size t1 /\ ot_scale t2 = ot_scale t1).
  { destruct (make_vertices _ _ _) as [[r m1]| | | |]; try discriminate. cbn [obind] in Hm.
    destruct (cell_proc _ _ _ _ _); try discriminate. cbn [obind] in Hm. injection Hm as <- <-. auto. }
  destruct Hsz as [-> ->]. rewrite (make_vertices_again _ _ _ _ _ _ Hw). reflexivity.
Qed.
Print Assumptions C35_repeat.

(* contour may not be called before build: it reads leaf_data of the root. *)
Theorem C35_before_build : forall E S size (scale : fp_D E) (t : dc_octree E S), dc_new size scale = Ret t -> dc_contour t = UB.
Proof.
  intros E S size scale t H. unfold dc_new in H. destruct (_ || _); [discriminate|]. injection H as <-. reflexivity.
Qed.
Print Assumptions C35_before_build.

(* ---- C36 ---- *)

Lemma turns_gsum : forall ts x y z, turns ts x y z = gsum (turn x y z) ts.
Proof. intros. unfold turns. induction ts as [|t ts IH]; [reflexivity|]. cbn [map fold_right]. rewrite gsum_cons, IH. reflexivity. Qed.

Lemma turn_alternating : forall x y z, x <> y -> y <> z -> x <> z -> alternating (turn x y z).
Proof.
  intros x y z H1 H2 H3. split.
  - intros a b c. unfold turn. cbn [existsb].
    destruct (Z.eqb_spec a x), (Z.eqb_spec a y), (Z.eqb_spec a z), (Z.eqb_spec b x), (Z.eqb_spec b y), (Z.eqb_spec b z),
      (Z.eqb_spec c x), (Z.eqb_spec c y), (Z.eqb_spec c z); try (exfalso; congruence); reflexivity.
  - intros a b. unfold turn. cbn [existsb].
    destruct (Z.eqb_spec a x), (Z.eqb_spec a y), (Z.eqb_spec a z), (Z.eqb_spec b x), (Z.eqb_spec b y), (Z.eqb_spec b z);
      try (exfalso; congruence); reflexivity.
Qed.

Lemma net_alternating : forall a b, alternating (fun t => gsum (signed a b) (sides t)).
Proof.
  intros a b. split.
  - intros x y z. cbn [sides]. rewrite !gsum_cons, !gsum_nil. pose proof (signed_flip a b x y). pose proof (signed_flip a b y z).
    pose proof (signed_flip a b x z). lia.
  - intros x y. cbn [sides]. rewrite !gsum_cons, !gsum_nil. pose proof (signed_flip a b x x). pose proof (signed_flip a b x y). lia.
Qed.

Lemma cell_id_vertex : forall E S n (t : dc_tree E S) q c, cell_id (leaf_at n t q) c = vertex_of n t q c.
Proof. reflexivity. Qed.

Lemma fan_val : forall E S n (t : dc_tree E S) q solid w e, alternating w -> edge_crosses solid e = true ->
  gsum w (fan_around (vertex_of n t q) solid e) = weight solid e * cell_val (leaf_at n t q) w e.
Proof.
  intros E S n t q solid w [d p] [Hw _] Hc. unfold fan_around, cell_val, cells_around. cbn [fst snd map].
  unfold weight, edge_crosses in *. cbn [fst snd] in *. unfold quad_val. rewrite !(cell_id_vertex E S).
  generalize (vertex_of n t q (vsub (vsub p (unit_vec (next_axis d))) (unit_vec (next_axis (next_axis d))))).
  generalize (vertex_of n t q (vsub p (unit_vec (next_axis (next_axis d))))). generalize (vertex_of n t q p).
  generalize (vertex_of n t q (vsub p (unit_vec (next_axis d)))). intros i3 i2 i1 i0.
  destruct (solid p), (solid (vadd p (unit_vec d))); try discriminate; rewrite !gsum_cons, gsum_nil; cbn [b2z]; [ring|].
  rewrite (Hw i0 i1 i2), (Hw i0 i2 i3). ring.
Qed.

Lemma contour_chain : forall E Q S (ops : qef_ops (fp_F E) Q S) size t g solid eps simplify sol t1 sol1 t2 m ts w,
  dc_reached ops size t -> filled g solid -> size <= g_size g -> dc_build ops g eps simplify t sol = Ret (t1, sol1) ->
  dc_contour t1 = Ret (t2, m) -> mesh_valid_with m ts -> alternating w ->
  size = edge_len (root_level size) /\
  gsum w ts = gsum (fun e => weight solid e * cell_val (leaf_at (root_level size) (ot_root t2) (dc_min_corner size)) w e)
    (inner_edges (dc_min_corner size) size).
Proof.
  intros E Q S ops size t g solid eps simplify sol t1 sol1 t2 m ts w Hr Hf Hs Hb Hm [Hts _] Hw.
  destruct (contour_reached _ _ _ _ _ _ _ _ _ _ _ _ _ Hr Hf Hs Hb) as (Hz & t2' & m' & ts' & H1 & [H2 _] & H3 & H4 & H5 & Hlt & H6 & H7).
  rewrite Hm in H1. injection H1 as <- <-. split; [exact Hz|]. rewrite Hts in H2. apply flatten_inj in H2. subst ts'. apply H7. exact Hw.
Qed.

Lemma gsum_crossing : forall solid (f : gedge -> Z) L,
  gsum (fun e => weight solid e * f e) L = gsum (fun e => weight solid e * f e) (filter (edge_crosses solid) L).
Proof.
  intros solid f L. induction L as [|e L IH]; [reflexivity|]. cbn [filter]. rewrite gsum_cons.
  destruct (edge_crosses solid e) eqn:X; [rewrite gsum_cons; lia|].
  assert (weight solid e = 0); [|nia]. unfold edge_crosses, weight in *.
  destruct (solid (snd e)), (solid (vadd (snd e) (unit_vec (fst e)))); try discriminate; reflexivity.
Qed.

(* The surface is the one uniform dual contouring makes of the same cells, with
   the vertices of the cells of a leaf drawn together: counted with their
   orientation, the triangles are those around the sign-changing edges inside the
   root cube. *)
Theorem C36_same_surface : forall E Q S (ops : qef_ops (fp_F E) Q S) size t g solid eps simplify sol t1 sol1 t2 m ts es,
  dc_reached ops size t -> filled g solid -> size <= g_size g -> dc_build ops g eps simplify t sol = Ret (t1, sol1) ->
  dc_contour t1 = Ret (t2, m) -> mesh_valid_with m ts ->
  NoDup es -> (forall e, In e es <-> edge_crosses solid e = true /\
    Forall (in_cube (dc_min_corner size) (root_level size)) (cells_around (fst e) (snd e))) ->
  forall x y z, x <> y -> y <> z -> x <> z ->
    turns ts x y z =
    turns (flat_map (fan_around (vertex_of (root_level size) (ot_root t2) (dc_min_corner size)) solid) es) x y z.
Proof.
  intros E Q S ops size t g solid eps simplify sol t1 sol1 t2 m ts es Hr Hf Hs Hb Hm Hts Hnd Hes x y z H1 H2 H3.
  pose proof (turn_alternating x y z H1 H2 H3) as Hw. rewrite !turns_gsum.
  destruct (contour_chain _ _ _ _ _ _ _ _ _ _ _ _ _ _ _ _ _ Hr Hf Hs Hb Hm Hts Hw) as [Hz Hch].
  etransitivity; [exact Hch|].
  rewrite gsum_flat_map, gsum_crossing.
  assert (P : Permutation (filter (edge_crosses solid) (inner_edges (dc_min_corner size) size)) es).
  { apply NoDup_Permutation; [apply NoDup_filter, inner_edges_nodup|assumption|]. intro e. rewrite filter_In, Hes.
    rewrite Hz at 2. rewrite in_inner_edges. tauto. }
  rewrite (gsum_perm _ _ _ _ P). apply gsum_ext. intros e He. symmetry. apply fan_val; [assumption|]. apply Hes. assumption.
Qed.
Print Assumptions C36_same_surface.

Definition in_cube_b (q : ivec3) (n : nat) (c : ivec3) : bool :=
  (vx q <=? vx c) && (vx c <? vx q + edge_len n) && ((vy q <=? vy c) && (vy c <? vy q + edge_len n)) &&
  ((vz q <=? vz c) && (vz c <? vz q + edge_len n)).
Lemma in_cube_b_ok : forall q n c, in_cube_b q n c = true <-> in_cube q n c.
Proof. intros. unfold in_cube_b, in_cube. rewrite !andb_true_iff, !Z.leb_le, !Z.ltb_lt. tauto. Qed.

Definition inner_cube_b (q : ivec3) (n : nat) (e : gedge) : bool := forallb (in_cube_b q n) (cells_around (fst e) (snd e)).
Lemma inner_cube_b_ok : forall q n e, inner_cube_b q n e = true <-> Forall (in_cube q n) (cells_around (fst e) (snd e)).
Proof.
  intros. unfold inner_cube_b. rewrite forallb_forall, Forall_forall. split; intros H c Hc; apply in_cube_b_ok, H; assumption.
Qed.

(* Sides run as often forth as back unless they connect the vertices of two
   cells of the root cube whose common face has a sign-changing edge on the border of
   the root cube. *)
Theorem C36_closed : forall E Q S (ops : qef_ops (fp_F E) Q S) size t g solid eps simplify sol t1 sol1 t2 m ts,
  dc_reached ops size t -> filled g solid -> size <= g_size g -> dc_build ops g eps simplify t sol = Ret (t1, sol1) ->
  dc_contour t1 = Ret (t2, m) -> mesh_valid_with m ts ->
  let q := dc_min_corner size in let n := root_level size in let id := vertex_of n (ot_root t2) q in
  forall a b,
    side_count ts a b = side_count ts b a \/
    exists face e, (id (face_low face) = a /\ id (face_high face) = b \/ id (face_low face) = b /\ id (face_high face) = a) /\
      in_cube q n (face_low face) /\ in_cube q n (face_high face) /\
      In e (face_edges face) /\ edge_crosses solid e = true /\ ~ Forall (in_cube q n) (cells_around (fst e) (snd e)).
Proof.
  intros E Q S ops size t g solid eps simplify sol t1 sol1 t2 m ts Hr Hf Hs Hb Hm Hts q n id a b.
  destruct (contour_chain _ _ _ _ _ _ _ _ _ _ _ _ _ _ _ _ _ Hr Hf Hs Hb Hm Hts (net_alternating a b)) as [Hz Hnet].
  rewrite <- net_gsum in Hnet. fold n q in Hnet. set (L := inner_edges q size) in *.
  assert (HL : forall e, In e L <-> inner_cube_b q n e = true).
  { intro e. unfold L. rewrite Hz at 1. fold n. rewrite in_inner_edges, inner_cube_b_ok. tauto. }
  rewrite (gsum_ext _ (fun e => weight solid e * cell_val (leaf_at n (ot_root t2) q) (fun t => gsum (signed a b) (sides t)) e)
    (fun e => weight solid e * edge_flux (face_delta id a b) e)) in Hnet.
  2:{ intros [d p] _. f_equal.
      assert (Hc : exists c0 c1 c2 c3, cells_around d p = [c0; c1; c2; c3]) by (unfold cells_around; eauto).
      destruct Hc as (c0 & c1 & c2 & c3 & Hc). rewrite (flux_cells id a b d p c0 c1 c2 c3 Hc).
      unfold cell_val. cbn [fst snd]. rewrite Hc. unfold quad_val. rewrite !(cell_id_vertex E S). fold id. cbn [sides].
      rewrite !gsum_cons, !gsum_nil. pose proof (signed_flip a b (id c0) (id c2)). lia. }
  destruct (Z.eq_dec (net ts a b) 0) as [Z0|NZ]; [left; unfold net in Z0; lia|]. right.
  set (ok := fun e' => negb (edge_crosses solid e') || inner_cube_b q n e').
  set (test := fun e => existsb (fun face => negb (face_delta id a b face =? 0) && negb (forallb ok (face_edges face))) (map snd (crossings e))).
  assert (Hex : exists e face e', In e L /\ In e (face_edges face) /\ face_delta id a b face <> 0 /\ In e' (face_edges face) /\
      edge_crosses solid e' = true /\ inner_cube_b q n e' = false).
  { destruct (existsb test L) eqn:T.
    - apply existsb_exists in T as (e & He & Ht). unfold test in Ht. apply existsb_exists in Ht as (face & Hface & Ht).
      apply andb_true_iff in Ht as [Hd Hbad]. apply negb_true_iff in Hd, Hbad. apply Z.eqb_neq in Hd.
      destruct (forallb_neg _ _ _ Hbad) as (e' & He' & Hi). exists e, face, e'. split; [assumption|]. split.
      + apply in_map_iff in Hface as (c & <- & Hc). apply crossings_face. assumption.
      + unfold ok in Hi. apply orb_false_iff in Hi as [Hi1 Hi2]. apply negb_false_iff in Hi1. auto.
    - exfalso. apply NZ. rewrite Hnet. apply stokes; [apply inner_edges_nodup|]. intros e face He Hface Hd e' He' Hc'.
      apply HL. destruct (inner_cube_b q n e') eqn:I'; [reflexivity|]. exfalso.
      assert (Y : existsb test L = true); [|congruence].
      apply existsb_exists. exists e. split; [assumption|]. unfold test. apply existsb_exists. exists face.
      split; [apply face_crossings; assumption|].
      apply andb_true_iff. split; [apply negb_true_iff, Z.eqb_neq; assumption|].
      apply negb_true_iff. destruct (forallb ok (face_edges face)) eqn:Z; [|reflexivity].
      rewrite forallb_forall in Z. specialize (Z e' He'). unfold ok in Z. rewrite Hc', I' in Z. discriminate. }
  destruct Hex as (e & face & e' & He & Hface & Hd & He' & Hc' & Hi').
  exists face, e'. apply HL, inner_cube_b_ok in He. rewrite Forall_forall in He.
  destruct (face_cells_around _ _ Hface) as [Hlo Hhi]. split.
  - apply signed_nonzero in Hd as [[Ha Hb']|[Hb' Ha]]; auto.
  - split; [auto|]. split; [auto|]. split; [assumption|]. split; [assumption|]. intro X. apply inner_cube_b_ok in X. congruence.
Qed.
Print Assumptions C36_closed.

(* So the surface is watertight if no edge on the border of the root cube has a
   sign change. *)
Theorem C36_watertight : forall E Q S (ops : qef_ops (fp_F E) Q S) size t g solid eps simplify sol t1 sol1 t2 m ts,
  dc_reached ops size t -> filled g solid -> size <= g_size g -> dc_build ops g eps simplify t sol = Ret (t1, sol1) ->
  dc_contour t1 = Ret (t2, m) -> mesh_valid_with m ts ->
  (forall e c c', In c (cells_around (fst e) (snd e)) -> In c' (cells_around (fst e) (snd e)) ->
     in_cube (dc_min_corner size) (root_level size) c -> ~ in_cube (dc_min_corner size) (root_level size) c' ->
     edge_crosses solid e = false) ->
  forall a b, side_count ts a b = side_count ts b a.
Proof.
  intros E Q S ops size t g solid eps simplify sol t1 sol1 t2 m ts Hr Hf Hs Hb Hm Hts Hborder a b.
  destruct (C36_closed _ _ _ _ _ _ _ _ _ _ _ _ _ _ _ _ Hr Hf Hs Hb Hm Hts a b) as [H|(face & e & _ & Hlo & Hhi & He & Hc & Hn)]; [assumption|].
  exfalso. destruct (inner_cube_b (dc_min_corner size) (root_level size) e) eqn:I; [apply inner_cube_b_ok in I; contradiction|].
  destruct (forallb_neg _ _ _ I) as (c' & Hc' & Hi). destruct (face_cells_around _ _ He) as [Flo _].
  rewrite (Hborder e _ c' Flo Hc' Hlo) in Hc; [discriminate|]. intro X. apply in_cube_b_ok in X. congruence.
Qed.
Print Assumptions C36_watertight.

(* ---- examples ---- *)

(* A QEF solver that answers with the lower corner and has no error. *)
Definition lower_ops : qef_ops (fp_F envIEEE) unit unit :=
  @QefOps b32 unit unit (fun q => q) (fun q _ _ => q) (fun q _ => q) (fun q lo _ => (q, lo)) (fun _ _ => f32 0 0) (fun q => (q, tt)).
Definition dc_try (size : Z) (simplify : bool) (f : field envIEEE) (g0 : ugrid envIEEE) : option (list (Z * bool) * Z * list Z) :=
  match fill g0 f c10_solver with
  | Ret (g, _) =>
      match @dc_new envIEEE unit size (f64 1 0) with
      | Ret t =>
          match dc_build lower_ops g (f32 0 0) simplify t tt with
          | Ret (t1, _) => match dc_contour t1 with
              | Ret (t2, m) => Some (map (fun l => (lf_depth l, match lf_vertex l with Some _ => true | None => false end)) (leaves_of (ot_root t2)),
                                     mesh_vertex_count m, m_inds m)
              | _ => None end
          | _ => None end
      | _ => None end
  | _ => None end.

(* The ball of PropMC.v: eight cells around the only solid point. *)
Example C35_C36_ex : dc_try 2 true ball_field c53_grid =
  Some (repeat (1, true) 8, 8,
    [0; 5; 4; 0; 1; 5; 0; 3; 1; 0; 2; 3; 0; 6; 2; 0; 4; 6; 2; 6; 7; 2; 7; 3;
     4; 5; 7; 4; 7; 6; 1; 3; 7; 1; 7; 5]).
Proof. vm_compute. reflexivity. Qed.

(* A bigger ball with its centre at (-1, -1, -1): leaves of different sizes meet. *)
Definition big_field : field envIEEE :=
  @Field envIEEE (fun p : vec3 b64 =>
      let sq x := let y := a_add arith64 x (f64 1 0) in a_mul arith64 y y in
      a_sub arith64 (a_add arith64 (a_add arith64 (sq (vx p)) (sq (vy p))) (sq (vz p))) (f64 9 (-1)))
    (fun p => p) (fun _ _ => Solid).
Definition grid4 : ugrid envIEEE := @new_grid envIEEE 4 (V3 (f64 0 0) (f64 0 0) (f64 0 0)) (f64 1 0).

Example C34_C37_C56_ex : dc_try 4 true big_field grid4 =
  Some ([(1, false)] ++ repeat (2, true) 16 ++ [(1, true)] ++ repeat (2, true) 8 ++ [(1, true); (1, true); (1, true)], 28,
   [0; 5; 4; 0; 1; 5; 0; 3; 1; 0; 2; 3; 2; 6; 7; 2; 7; 3; 4; 5; 7; 4; 7; 6; 1; 3; 7; 1; 7; 5; 8; 11; 9; 8; 10; 11; 8; 14; 10; 8; 12;
    14; 10; 14; 15; 10; 15; 11; 12; 13; 15; 12; 15; 14; 9; 11; 15; 9; 15; 13; 17; 22; 21; 17; 18; 22; 17; 23; 19; 17; 21; 23; 19; 23;
    24; 19; 24; 20; 21; 22; 24; 21; 24; 23; 18; 20; 24; 18; 24; 22; 19; 20; 26; 4; 6; 25; 9; 13; 16; 2; 16; 6; 12; 26; 13; 18; 25;
    20; 13; 26; 27; 13; 27; 16; 20; 25; 27; 20; 27; 26; 6; 16; 27; 6; 27; 25]).
Proof. vm_compute. reflexivity. Qed.

Example big_ok : exists (g : ugrid envIEEE) solid t, filled g solid /\ 4 <= g_size g /\ dc_reached lower_ops 4 t.
Proof.
  assert (Hv : valid_size (g_size grid4)) by (exists 2; split; [split; discriminate|reflexivity]).
  assert (Hn : nan_free grid4 big_field).
  { intros p Hp. apply (all_points_ok _ _ Hv) in Hp.
    assert (T : forallb (fun p => eqb (gt0 envIEEE (sample grid4 big_field p))
       (negb (le0 envIEEE (sample grid4 big_field p)))) (all_points 4) = true) by (vm_compute; reflexivity).
    rewrite forallb_forall in T. apply eqb_prop. apply T. assumption. }
  assert (Hs : solid_inside grid4 big_field) by (intros p Hp Hl; discriminate).
  destruct (fill_represents envIEEE grid4 big_field c10_solver Hv Hn Hs) as (g & calls & Hf & Hsz & _).
  exists g, (fun p => le0 envIEEE (sample grid4 big_field p)).
  assert (HF : filled g (fun p => le0 envIEEE (sample grid4 big_field p))) by (apply (filled_by grid4 big_field _ _ _ Hv Hn Hs Hf)).
  assert (Hle : 4 <= g_size g) by (rewrite Hsz; discriminate).
  assert (R : dc_reached lower_ops 4 (@DcOctree envIEEE unit (f64 1 0) 4 (OLeaf (@dc_fresh envIEEE unit 0)))) by (apply (@reached_new envIEEE unit unit lower_ops 4 (f64 1 0)); reflexivity).
  destruct (C34_leaves envIEEE unit unit lower_ops 4 _ g _ (f32 0 0) true tt R HF Hle) as (t' & sol' & Hb & _).
  exists t'. split; [exact HF|]. split; [exact Hle|].
  exact (reached_build lower_ops 4 _ _ _ _ _ _ _ _ R HF Hle Hb).
Qed.

Example C55_ex : is_manifold (kind_mask (fun i => i =? 7)) = true /\ is_manifold (kind_mask (fun i => (i =? 0) || (i =? 7))) = false.
Proof. split; reflexivity. Qed.
