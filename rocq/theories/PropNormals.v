(* C80: the normals of the vertices *)
From Coq Require Import ZArith List Bool Lia Reals Lra Psatz Permutation.
From Flocq Require Import IEEE754.BinarySingleNaN.
From Verif Require Import LoopLemmas Arith RealArith FloatArith MeshModel MeshSpec MaterialFilterModel GridModel GridSpec EdgeModel EdgeSpec FillModel FillSpec FillProofs ZeroModel ZeroReal
  CellSpec CellTables DualSpec MCModel MCProofs UdcModel UdcProofs QefModel QefSpec QefLin QefProofs QefFlat SolverModel
  PropFill PropFillNum PropZero PropMC PropUdc DcModel OctreeModel OctreeSpec OctreeProofs OctreeFlux DcSpec DcBuild DcQef DcContour PropDc PropQef PropDcQef PropFlat PropPlane QefPlane PlaneMerge PropDcPlane
  MdcModel MdcSpec MdcTables MdcLeaf MdcTrav MdcForest MdcContour PropMdc MdcQef PropMdcQef PropMdcPlane Base.
Import ListNotations.
Local Open Scope R_scope.

(* The gradient has a component of the sign of [s] along axis [d] everywhere: with [d] = Y and [s] = 1 the field is that
   of a terrain. *)
Definition leans (f : field envR) (d : axis) (s : R) : Prop := forall p, 0 < s * vget d (fl_grad f p).
(* A unit vector, to the same side *)
Definition unit_towards (d : axis) (s : R) (n : vec3 R) : Prop := norm2 n = 1 /\ 0 < s * vget d n.

Lemma stored_towards : forall d s G, 0 < s * vget d G -> unit_towards d s (stored_normal G).
Proof.
  intros d s G H. split; [apply stored_normal_unit|]. unfold stored_normal. cbv zeta. destruct (normal_xz G) as (Hlt & _). cbv zeta in Hlt.
  assert (K : 0 < sqrt (norm2 G) + / 2 ^ 52) by (pose proof (sqrt_pos (norm2 G)); assert (0 < / 2 ^ 52) by (apply Rinv_0_lt_compat; apply pow_lt; lra); lra).
  assert (Q : forall x, 0 < s * x -> 0 < s * (x / (sqrt (norm2 G) + / 2 ^ 52))).
  { intros x Hx. replace (s * (x / (sqrt (norm2 G) + / 2 ^ 52))) with (s * x * / (sqrt (norm2 G) + / 2 ^ 52)) by (unfold Rdiv; ring). apply Rmult_lt_0_compat; [exact Hx|apply Rinv_0_lt_compat; exact K]. }
  destruct d; cbn [vget vx vy vz] in *; [apply Q; exact H| |apply Q; exact H].
  set (x := vx G / _) in *. set (z := vz G / _) in *. unfold sqr in Hlt. assert (S : 0 < sqrt (1 - x * x - z * z)) by (apply sqrt_lt_R0; lra).
  destruct (Rltb (vy G) 0) eqn:E; [apply Rltb_iff in E|apply Rltb_false in E]; nra.
Qed.

Lemma field_edges : forall (g0 : ugrid envR) f solver g calls d e, valid_size (g_size g0) -> g_step g0 <> 0 -> fill g0 f solver = Ret (g, calls) -> In e (g_edges d g) ->
  surface_normal envR e = stored_normal (fl_grad f (global g0 (surface_point envR e))).
Proof.
  intros g0 f solver g calls d e Hv Hs Hf Hd.
  destruct (stored_zero g0 f _ g calls d e Hv Hs Hf Hd) as (c & mat & _ & _ & _ & _ & _ & Hpt & Hmk). rewrite Hpt.
  destruct (make_edgeR _ _ _ _ _ _ _ _ _ Hmk) as (Hx & Hz & Hy & _). set (G := fl_grad f _) in *.
  unfold surface_normal, stored_normal. change (fp_F envR) with R in *. rewrite Hx, Hy, Hz. cbn [fp_f envR arithR a_sub a_mul a_ofZ a_sqrt a_neg].
  destruct (normal_xz G) as (Hlt & _). cbv zeta in Hlt. change (fp_D envR) with R in *. set (x := vx G / (sqrt (norm2 G) + / 2 ^ 52)) in *. set (z := vz G / (sqrt (norm2 G) + / 2 ^ 52)) in *. unfold sqr in Hlt.
  unfold glm_max. cbn [arithR a_lt]. change (fp_F envR) with R.
  replace (Rltb 0 (1 - x * x - z * z)) with true by (symmetry; apply Rltb_iff; lra). reflexivity.
Qed.

Lemma sum_component : forall d l (s0 : vec3 R), vget d (fold_left (vadd3 arithR) l s0) = vget d s0 + fold_right (fun n x => vget d n + x) 0 l.
Proof.
  intros d. induction l as [|n l IH]; intros s0; cbn [fold_left fold_right]; [lra|]. rewrite IH. destruct d; unfold vadd3; cbn [vget vx vy vz arithR a_add]; lra.
Qed.

Lemma normalize_towards : forall d s (v : vec3 R), 0 < s * vget d v -> unit_towards d s (normalize3 (E := envR) v).
Proof.
  intros d s [x y z] P. unfold normalize3, vscale3, dot3. cbn [fp_f fp_F envR arithR a_add a_mul a_div a_sqrt a_ofZ vx vy vz].
  set (L := x * x + y * y + z * z).
  assert (PL : 0 < L).
  { assert (vget d (V3 x y z) <> 0) by (intro Z; rewrite Z in P; lra). unfold L. pose proof (Rle_0_sqr x). pose proof (Rle_0_sqr y). pose proof (Rle_0_sqr z). unfold Rsqr in *.
    destruct d; cbn [vget vx vy vz] in *; [assert (0 < x * x) by (apply Rsqr_pos_lt; assumption)|assert (0 < y * y) by (apply Rsqr_pos_lt; assumption)|assert (0 < z * z) by (apply Rsqr_pos_lt; assumption)]; lra. }
  pose proof (sqrt_lt_R0 L PL) as S. pose proof (sqrt_sqrt L (Rlt_le _ _ PL)) as SS. split.
  - unfold norm2, sqr. cbn [vx vy vz]. transitivity ((x * x + y * y + z * z) * / (sqrt L * sqrt L)); [set (k := sqrt L) in *; field; lra|]. rewrite SS. fold L. apply Rinv_r. lra.
  - replace (s * vget d {| vx := x * (1 / sqrt L); vy := y * (1 / sqrt L); vz := z * (1 / sqrt L) |}) with (s * vget d (V3 x y z) * / sqrt L) by (destruct d; cbn [vget vx vy vz]; unfold Rdiv; ring).
    apply Rmult_lt_0_compat; [exact P|apply Rinv_0_lt_compat; exact S].
Qed.

(* The sum of such vectors, normalized *)
Lemma sum_towards : forall d s (l : list (vec3 R)), l <> [] -> Forall (unit_towards d s) l -> unit_towards d s (normalize3 (E := envR) (sum3 (E := envR) l)).
Proof.
  intros d s l Hne H. apply normalize_towards. unfold sum3. change (fp_f envR) with arithR. change (fp_F envR) with R. rewrite sum_component.
  replace (vget d (V3 (a_ofZ arithR 0) (a_ofZ arithR 0) (a_ofZ arithR 0))) with 0 by (destruct d; reflexivity). rewrite Rplus_0_l.
  induction H as [|n l [_ Hn] H IH]; [congruence|]. cbn [fold_right]. rewrite Rmult_plus_distr_l. destruct l as [|n' l]; [cbn [fold_right]; lra|].
  assert (0 < s * fold_right (fun n x => vget d n + x) 0 (n' :: l)) by (apply IH; discriminate). lra.
Qed.

Lemma edges_towards : forall (g0 : ugrid envR) f solver g calls c s, valid_size (g_size g0) -> g_step g0 <> 0 -> leans f c s -> fill g0 f solver = Ret (g, calls) ->
  forall d e, In e (g_edges d g) -> unit_towards c s (surface_normal envR e).
Proof. intros g0 f solver g calls c s Hv Hs Hl Hf d e He. pose proof (field_edges g0 f solver g calls d e Hv Hs Hf He) as H. change (fp_F envR) with R in *. rewrite H. apply stored_towards. apply Hl. Qed.

(* ---- C80: normals ---- *)
(* Marching cubes, any field: all normals are unit vectors; the X and Z components are those of the gradient at the vertex
   divided by its length (plus 2^-52), and Y has the sign of the gradient. *)
Theorem C80_mc : forall (g0 : ugrid envR) f solver sort g calls m,
  valid_size (g_size g0) -> g_step g0 <> 0 -> solid_inside g0 f -> sorts entry_less sort ->
  fill g0 f solver = Ret (g, calls) -> marching_cubes sort g = Ret m ->
  forall v, In v (m_verts m) -> let G : vec3 R := fl_grad f (global g0 (mv_pos v)) in let N : vec3 R := mv_normal v in
    norm2 N = 1 /\ vx N * (sqrt (norm2 G) + / 2 ^ 52) = vx G /\ vz N * (sqrt (norm2 G) + / 2 ^ 52) = vz G /\ (vy N < 0 <-> vy G < 0) /\
    forall d s, 0 < s * vget d G -> 0 < s * vget d N.
Proof.
  intros g0 f solver sort g calls m Hv Hs Hsol Hsort Hf Hm v Hin.
  destruct (C13_valid _ _ _ solver _ Hv (nan_freeR g0 f) Hsol Hsort) as (g' & calls' & m' & Hf' & Hm' & ts & Ht).
  rewrite Hf in Hf'. injection Hf' as <- <-. rewrite Hm in Hm'. injection Hm' as <-.
  destruct (C14_vertices _ _ _ _ _ _ _ _ _ Hv (nan_freeR g0 f) Hsol Hsort Hf Hm Ht) as [Hvs _].
  rewrite Hvs in Hin. apply in_map_iff in Hin as (e & <- & He). cbn [mv_pos mv_normal].
  assert (Hd : exists d, In e (g_edges d g)) by (unfold stored_edges in He; rewrite !in_app_iff in He; destruct He as [He|[He|He]]; eauto).
  destruct Hd as (d & Hd). pose proof (field_edges g0 f solver g calls d e Hv Hs Hf Hd) as HN. cbv zeta. set (G := fl_grad f _) in *. clearbody G.
  change (fp_F envR) with R in *. change (fp_D envR) with R in *. rewrite HN. clear HN.
  assert (K : 0 < sqrt (norm2 G) + / 2 ^ 52) by (pose proof (sqrt_pos (norm2 G)); assert (0 < / 2 ^ 52) by (apply Rinv_0_lt_compat; apply pow_lt; lra); lra).
  split; [apply stored_normal_unit|].
  split; [unfold stored_normal; cbn [vx]; field; lra|]. split; [unfold stored_normal; cbn [vz]; field; lra|]. split; [|intros d' s H; apply (stored_towards d' s G H)].
  assert (S : 0 < sqrt (1 - vx (stored_normal G) * vx (stored_normal G) - vz (stored_normal G) * vz (stored_normal G))).
  { apply sqrt_lt_R0. destruct (normal_xz G) as (Hlt & _). cbv zeta in Hlt. unfold sqr in Hlt. unfold stored_normal. cbn [vx vz]. lra. }
  unfold stored_normal in *. cbv zeta in *. cbn [vx vy vz] in *.
  destruct (Rltb (vy G) 0) eqn:E; [apply Rltb_iff in E|apply Rltb_false in E]; split; intro; lra.
Qed.
Print Assumptions C80_mc.

(* Uniform dual contouring, if the gradient of the field always points to one side of a coordinate plane:
   so do the normals, and they are unit vectors.  The function for the position is arbitrary. *)
Theorem C80_udc : forall cell (g0 : ugrid envR) f c s solver sort g calls m,
  valid_size (g_size g0) -> g_step g0 <> 0 -> leans f c s -> sorts dc_less sort ->
  fill g0 f solver = Ret (g, calls) -> @dual_contouring envR sort cell g = Ret m ->
  forall v, In v (m_verts m) -> unit_towards c s (mv_normal v).
Proof.
  intros cell g0 f c s solver sort g calls m Hv Hs Hl Hsort Hf Hm v Hin.
  pose proof (edges_towards g0 f solver g calls c s Hv Hs Hl Hf) as HE.
  destruct (udc_hypotheses_met _ _ _ _ _ _ Hv Hf) as (qs & _ & _ & Hqs & _).
  pose proof (C16_vertices _ _ _ _ _ _ _ _ _ _ Hv Hsort Hf Hm Hqs) as H.
  destruct (filled_edges _ _ _ _ _ _ Hv Hf) as [Hsz Hr].
  assert (X : exists q, In q qs /\ exists es,
      Permutation es (filter (fun e => edge_of_cell q (edge_key e)) (stored_edges g)) /\
      mv_normal v = normalize3 (fold_left (fun s e => vadd3 (fp_f envR) s (surface_normal envR e)) es (vofZ3 (fp_f envR) (V3 0 0 0)%Z))).
  { revert Hin H. clear. generalize (m_verts m). intros vs Hin H. induction H as [|q u l l' H1 H2 IH]; [destruct Hin|].
    destruct Hin as [->|Hin]; [exists q; split; [left; reflexivity|]; destruct H1 as (es & mats & P1 & _ & ->); exists es; split; [exact P1|reflexivity]|].
    destruct (IH Hin) as (q' & Q1 & Q2). exists q'. split; [right; exact Q1|exact Q2]. }
  clear H Hin. destruct X as (q & Hq & es & Hes & Hn).
  assert (Hne : es <> []).
  { destruct Hqs as [_ Hqs]. apply Hqs in Hq as [Hc (i & Hi & Hcr)].
    rewrite <- Hsz in Hc.
    destruct (crossing_stored g _ Hr (fst (cell_edge q i)) (snd (cell_edge q i))) as (e & He & Hk).
    { apply (cell_edge_in g); assumption. }
    { destruct (cell_edge q i); exact Hcr. }
    intro X. subst es. apply Permutation_nil in Hes.
    assert (Y : In e (filter (fun e => edge_of_cell q (edge_key e)) (stored_edges g))).
    { apply filter_In. split; [exact He|]. unfold edge_of_cell. apply existsb_exists. exists q. split; [|apply veqb_eq; reflexivity].
      rewrite Hk. cbn [fst snd]. apply cells_around_cell_edge. exists i. split; [exact Hi|]. destruct (cell_edge q i); reflexivity. }
    rewrite Hes in Y. destruct Y. }
  assert (E : forall l s, fold_left (fun s e => vadd3 (fp_f envR) s (surface_normal envR e)) l s = fold_left (vadd3 arithR) (map (surface_normal envR) l) s).
  { clear. induction l as [|e l IH]; intro s; [reflexivity|]. cbn [fold_left map]. apply IH. }
  rewrite E in Hn. change (fp_F envR) with R in *. rewrite Hn. apply (sum_towards c s (map (surface_normal envR) es)); [destruct es; [congruence|discriminate]|].
  apply Forall_forall. intros n Hi. apply in_map_iff in Hi as (e & <- & He). apply (Permutation_in _ Hes) in He. apply filter_In in He as [He _].
  unfold stored_edges in He. rewrite !in_app_iff in He. destruct He as [He|[He|He]]; eapply HE; exact He.
Qed.
Print Assumptions C80_udc.

(* Dual contouring of the octree, simplified or not, with any QEF solver. *)
Lemma measured_towards : forall Q S (ops : qef_ops (fp_F envR) Q S) g solid (eps : fp_F envR) c s, (forall d e, In e (g_edges d g) -> unit_towards c s (surface_normal envR e)) ->
  forall q n v nrm st, measured ops g solid eps q n v nrm st -> mixed solid q n = true ->
  one_sheet (grid_material g) solid q n -> (forall p, in_closed_cube q n p -> is_solid (grid_material g p) = solid p) -> unit_towards c s nrm.
Proof.
  intros Q S ops g solid eps c s HE q n v nrm st H. induction H as [q es sol0 sol1 sol2 v st H1 H2 H3 H4|q m parts sol0 sol1 sol2 v st H1 H2 IH H3 H4 H5]; intros Hx Hsh Hm.
  - apply sum_towards.
    + destruct es; [|discriminate]. cbn [map] in H1. rewrite mixed_edges, <- H1 in Hx. discriminate.
    + apply Forall_forall. intros k Hk. apply in_map_iff in Hk as (e & <- & He). eapply HE. apply H2. exact He.
  - apply sum_towards.
    + destruct parts; [|discriminate]. cbn [map] in H1. exfalso. apply (some_child g solid q m Hsh Hm Hx). symmetry. exact H1.
    + apply Forall_forall. intros k Hk. apply in_map_iff in Hk as ([i [[v' nrm'] s']] & <- & Hi). cbn [fst snd].
      pose proof Hi as Hi'. apply (in_map fst) in Hi'. rewrite H1 in Hi'. apply filter_In in Hi' as [Hi' Hx']. apply in_zseq in Hi'. cbn [fst] in Hi', Hx'.
      apply (IH i v' nrm' s' Hi).
      * exact Hx'.
      * apply one_sheet_sub; [exact Hsh|]. lia.
      * intros p Hp. apply Hm. eapply octant_closed; [|exact Hp]. lia.
Qed.

Theorem C80_dc : forall Q S (ops : qef_ops (fp_F envR) Q S) (g0 : ugrid envR) f c s solver g calls size t (eps : R) simplify sol t1 sol1 t2 m,
  valid_size (g_size g0) -> g_step g0 <> 0 -> leans f c s -> solid_inside g0 f ->
  fill g0 f solver = Ret (g, calls) -> (size <= g_size g0)%Z ->
  dc_reached ops size t -> dc_build ops g eps simplify t sol = Ret (t1, sol1) -> dc_contour t1 = Ret (t2, m) ->
  forall v, In v (m_verts m) -> unit_towards c s (mv_normal v).
Proof.
  intros Q S ops g0 f c s solver g calls size t eps simplify sol t1 sol1 t2 m Hv Hs Hl Hsol Hf Hsize Hreach Hb Hm v Hin.
  pose proof (filled_by g0 f _ _ _ Hv (nan_freeR g0 f) Hsol Hf) as HF.
  destruct (filled_represents _ _ _ _ _ _ Hv (nan_freeR g0 f) Hsol Hf) as [Hsz _].
  assert (Hsize' : (size <= g_size g)%Z) by (rewrite Hsz; exact Hsize).
  destruct (contour_leaf envR _ _ ops _ _ _ _ _ _ _ _ _ _ _ Hreach HF Hsize' Hb Hm v Hin) as (q & n & nrm & st & Hsub & Hx & Hg & Hk & V4 & Hnrm & Hfine).
  change (fp_F envR) with R in *. rewrite Hnrm.
  apply (measured_towards Q S ops g _ _ c s (edges_towards g0 f solver g calls c s Hv Hs Hl Hf) _ _ _ _ _ V4 Hx Hk).
  intros p Hp. apply (mat_solid g _ (filled_ok _ _ _ HF)). apply Hg. exact Hp.
Qed.
Print Assumptions C80_dc.

(* Manifold dual contouring with any tolerance and any QEF solver. *)
Lemma vertices_towards : forall Q S (ops : qef_ops (fp_F envR) Q S) g solid st n t q c s, good ops g solid st n t q -> (forall d e, In e (g_edges d g) -> unit_towards c s (surface_normal envR e)) ->
  forall k u q', part n t q k u q' -> forall a, In a (tree_verts u) -> exists v, vs_at st a = Some v /\ unit_towards c s (xv_normal v).
Proof.
  intros Q S ops g solid st n t q c s G HE.
  induction k as [|m IH]; intros u q' Hp a Ha; pose proof (part_tree_ok _ _ _ _ _ _ _ _ _ Hp (gd_shape _ _ _ _ _ _ _ G)) as Hok;
    destruct u as [l|b cs]; cbn [tree_ok] in Hok; try contradiction.
  - destruct (part_sub _ _ _ _ _ _ _ _ _ Hp (gd_shape _ _ _ _ _ _ _ G)) as [P1 P2]. cbn [tree_verts] in Ha. destruct (in_znth _ _ _ Ha) as (i & Hi).
    assert (Hq : OctreeSpec.in_cube q' 0 q') by (apply unit_cube_self). pose proof (in_cube_sub _ _ _ _ _ P1 Hq) as Hq'.
    assert (Hl : leaf_vertex_at n t q q' i a) by (exists l; split; [rewrite (P2 q' Hq); reflexivity|exact Hi]).
    destruct (gd_leaf _ _ _ _ _ _ _ G q' i a Hq' Hl) as (v & V1 & es & mats & sol0 & E1 & E2 & E3 & E4 & (sol1 & sol2 & s' & _ & _ & _ & _ & E5 & _)).
    assert (Hne : es <> []).
    { intro X. subst es. destruct mats as [|x mats]; [congruence|]. destruct (E4 x (or_introl eq_refl)) as (e & [] & _). }
    exists v. split; [exact V1|]. change (fp_F envR) with R in *. rewrite E5. apply sum_towards; [destruct es; [congruence|discriminate]|].
    apply Forall_forall. intros k Hk. apply in_map_iff in Hk as (e & <- & He). eapply HE. apply E2. exact He.
  - apply leaf_ok_level in Hok. discriminate.
  - destruct Hok as [H8 Hok]. cbn [tree_verts] in Ha.
    assert (Hch : forall h, In h (flat_map tree_verts cs) -> exists v, vs_at st h = Some v /\ unit_towards c s (xv_normal v)).
    { intros h Hh. apply in_flat_map in Hh as (c0 & Hc & Hh). destruct (in_znth _ _ _ Hc) as (i & Hi).
      exact (IH c0 (child_pos q' m i) (part_child _ _ _ _ _ _ _ _ _ Hp Hi) h Hh). }
    apply in_app_or in Ha as [Ha|Ha]; [|exact (Hch a Ha)].
    destruct (gd_merged _ _ _ _ _ _ _ G m b cs q' Hp a Ha) as (v & hs & V1 & Hnd & Hne & Hhs & (parts & sol0 & F2 & (sol1 & sol2 & s' & _ & _ & _ & _ & E5 & _))).
    exists v. split; [exact V1|]. change (fp_F envR) with R in *. rewrite E5. apply sum_towards.
    + destruct parts; [|discriminate]. inversion F2; congruence.
    + assert (Hsub : forall h, In h hs -> In h (flat_map tree_verts cs)) by (intros h Hh; apply Hhs; exact Hh). clear - F2 Hsub Hch.
      induction F2 as [|h p hs parts [Y1 Y2] F2 IHf]; [constructor|]. cbn [map]. constructor; [|apply IHf; intros; apply Hsub; right; assumption].
      destruct (Hch h (Hsub h (or_introl eq_refl))) as (v' & Z1 & Z2). rewrite Y1 in Z1. injection Z1 as <-. exact Z2.
Qed.

Theorem C80_mdc : forall Q S (ops : qef_ops (fp_F envR) Q S) (g0 : ugrid envR) f c s solver g calls solid size t (eps : R) t' (m : mesh (mvert R)) w,
  valid_size (g_size g0) -> g_step g0 <> 0 -> leans f c s -> fill g0 f solver = Ret (g, calls) ->
  mdc_reached ops size (Some (g, solid)) t -> @mdc_contour envR S eps t = Ret (t', m) -> In w (m_verts m) -> unit_towards c s (mv_normal w).
Proof.
  intros Q S ops g0 f c s solver g calls solid size t eps t' m w Hv Hs Hl Hf Hr Hm Hin.
  destruct (in_znth _ _ _ Hin) as (i & Hi).
  destruct (mesh_vertex_node envR _ _ ops _ _ _ _ _ _ _ _ _ Hr Hm Hi) as [Gd (bv & v & Hb & V1 & Hw & _)].
  destruct (vertices_towards Q S ops g solid _ _ _ _ c s Gd (edges_towards g0 f solver g calls c s Hv Hs Hl Hf) _ _ _ (part_self _ _ _) bv Hb) as (v' & V2 & H).
  assert (v' = v) by (exact (some_same _ _ _ _ V2 V1)). subst v'. rewrite Hw. exact H.
Qed.
Print Assumptions C80_mdc.

(* Binary floating point, uniform dual contouring of two crossing vertical planes, f = -(x - 1/2)(z - 1/2): in the cell with the crossing the
   normals cancel out, and the normal of its vertex is not a number. *)
Definition saddle : field envIEEE :=
  @Field envIEEE (fun p : vec3 b64 => a_neg arith64 (a_mul arith64 (a_sub arith64 (vx p) (f64 1 (-1))) (a_sub arith64 (vz p) (f64 1 (-1)))))
        (fun p : vec3 b64 => V3 (a_neg arith64 (a_sub arith64 (vz p) (f64 1 (-1)))) (f64 0 0) (a_neg arith64 (a_sub arith64 (vx p) (f64 1 (-1))))) (fun _ _ => Solid).
Definition nan_normal (o : outcome (mesh (mvert b32))) : bool :=
  match o with Ret m => existsb (fun v => is_nan (vx (mv_normal v)) && is_nan (vy (mv_normal v)) && is_nan (vz (mv_normal v))) (m_verts m) | _ => false end.
Lemma saddle_run : forall cell, nan_normal (match fill c53_grid saddle (regula_falsi 5) with Ret (g, _) => @dual_contouring envIEEE (isort dc_less) cell g | _ => UB end) = true.
Proof. intro cell. vm_compute. reflexivity. Qed.

Theorem C80_ieee_refuted : forall cell, exists (g0 : ugrid envIEEE) f g calls m v,
  valid_size (g_size g0) /\ nan_free g0 f /\ fill g0 f (regula_falsi 5) = Ret (g, calls) /\ @dual_contouring envIEEE (isort dc_less) cell g = Ret m /\
  In v (m_verts m) /\ is_nan (vx (mv_normal v) : b32) = true /\ is_nan (vy (mv_normal v) : b32) = true /\ is_nan (vz (mv_normal v) : b32) = true.
Proof.
  intro cell. pose proof (saddle_run cell) as H. exists c53_grid, saddle.
  destruct (fill c53_grid saddle (regula_falsi 5)) as [[g calls]| | | |] eqn:Hf; try discriminate H. exists g, calls.
  unfold nan_normal in H. destruct (@dual_contouring envIEEE (isort dc_less) cell g) as [m| | | |] eqn:Hm; try discriminate H.
  apply existsb_exists in H as (v & Hv & H). apply andb_prop in H as [H H3]. apply andb_prop in H as [H1 H2].
  exists m, v. split; [exists 1%Z; split; [split; discriminate|reflexivity]|]. split; [|auto 8].
  assert (K : forallb (fun x => forallb (fun y => forallb (fun z => eqb (gt0 envIEEE (sample c53_grid saddle (V3 x y z))) (negb (le0 envIEEE (sample c53_grid saddle (V3 x y z))))) [-1; 0; 1]%Z) [-1; 0; 1]%Z) [-1; 0; 1]%Z = true) by (vm_compute; reflexivity).
  intros [x y z] Hp. unfold vertex_in in Hp. change (g_size c53_grid) with 2%Z in Hp. cbn [vx vy vz] in Hp.
  assert (R1 : forall k, (-1 <= k <= 1)%Z -> In k [-1; 0; 1]%Z) by (intros k Hk; cbn; lia).
  rewrite forallb_forall in K. specialize (K x (R1 x ltac:(lia))). rewrite forallb_forall in K. specialize (K y (R1 y ltac:(lia))). rewrite forallb_forall in K. specialize (K z (R1 z ltac:(lia))).
  apply eqb_prop. exact K.
Qed.
Print Assumptions C80_ieee_refuted.

(* The flat floor of C74 leans towards Y, and its meshes have vertices. *)
Lemma half_leans : leans half_field AY 1.
Proof. intro p. cbn. lra. Qed.
Example C80_ex : exists g calls m v, fill grid4R half_field (regula_falsi 5) = Ret (g, calls) /\ marching_cubes (isort entry_less) g = Ret m /\ In v (m_verts m) /\ unit_towards AY 1 (mv_normal v).
Proof.
  destruct C74_mc_ex as (g & calls & m & Hf & Hm & Hn). destruct half_setup as (Hv & Hs & _ & _ & Hsol & _).
  destruct (m_verts m) as [|v l] eqn:X; [congruence|]. assert (Hin : In v (m_verts m)) by (rewrite X; left; reflexivity).
  exists g, calls, m, v. split; [exact Hf|]. split; [exact Hm|]. split; [rewrite X; left; reflexivity|].
  destruct (C80_mc grid4R half_field _ _ g calls m Hv Hs Hsol isort_entries Hf Hm v Hin) as (H1 & _ & _ & _ & H2). split; [exact H1|]. apply H2. apply half_leans.
Qed.
Example C80_udc_ex : forall hypot copysign msin mcos matan tune, exists g calls m, fill grid4R half_field (regula_falsi 5) = Ret (g, calls) /\
  @dual_contouring envR (isort dc_less) (solver3_cell arithR least_normal hypot copysign msin mcos matan tune) g = Ret m /\ m_verts m <> [].
Proof. exact C74_udc_ex. Qed.
Example C80_dc_ex : forall simplify, exists calls t g solid t1 sol1 t2 m, fill grid4R half_field (regula_falsi 5) = Ret (g, calls) /\
  let ops : qef_ops (fp_F envR) (solver R) (qstate R) := solver3_ops arithR least_normal true_hypot true_copysign sin cos atan tuningR in
  dc_reached ops 4 t /\ filled g solid /\ (4 <= g_size g)%Z /\ dc_build ops g 1 simplify t (q_new arithR) = Ret (t1, sol1) /\
  dc_contour t1 = Ret (t2, m) /\ m_verts m <> [].
Proof. exact C74_dc_all_ex. Qed.
Example C80_mdc_ex : forall (eps : R), exists calls (g : ugrid envR) solid t t' m w, fill grid4R half_field (regula_falsi 5) = Ret (g, calls) /\
  let ops : qef_ops (fp_F envR) (solver R) (qstate R) := solver3_ops arithR least_normal true_hypot true_copysign sin cos atan tuningR in
  mdc_reached ops 4 (Some (g, solid)) t /\ @mdc_contour envR (qstate R) eps t = Ret (t', m) /\ znth (m_verts m) 0 = Some w.
Proof. exact C74_mdc_ex. Qed.
