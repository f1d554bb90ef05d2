(* Manifold dual contouring: C33, C39 - C41, C58 - C62 *)
From Coq Require Import ZArith List Bool Lia Permutation FunctionalExtensionality.
From Verif Require Import Base Arith Tables MeshModel MeshSpec MeshProofs MaterialFilterModel GridModel GridSpec GridProofs
  EdgeModel EdgeSpec FillModel FillSpec LoopLemmas FillProofs MCModel CellSpec UdcModel DualSpec DualProofs
  OctreeModel OctreeSpec OctreeSums OctreeProofs OctreeFlux DcModel DcSpec DcBuild DcContour FloatArith PropFillNum PropMC PropDc
  MdcModel MdcSpec MdcTables MdcFlux MdcLeaf MdcTrav MdcForest MdcBuild MdcCluster MdcContour.
Import ListNotations.
Local Open Scope Z_scope.

(* ---- C33 ---- *)

(* The constructor of MDC_Octree accepts the positive powers of two and throws for
   the other sizes.  The root cube has its lower corner where DC_Octree has it:
   C33_dc_centre. *)
Theorem C33_mdc_sizes : forall E S (size : Z) (scale : fp_D E),
  ((exists m, size = edge_len m) /\ exists t : mdc_octree E S, mdc_new size scale = Ret t /\ mo_size t = size /\
     is_subdivided (mo_root t) = false) \/
  ((~ exists m, size = edge_len m) /\ @mdc_new E S size scale = Throw InvalidArgument).
Proof.
  intros E S size scale. unfold mdc_new. destruct ((size <=? 0) || negb (Z.land size (size - 1) =? 0)) eqn:X.
  - right. split; [|reflexivity]. intro H. apply new_size in H. congruence.
  - left. split; [apply new_size; exact X|]. eexists. split; [reflexivity|]. split; reflexivity.
Qed.
Print Assumptions C33_mdc_sizes.

Example C33_mdc_ex : (exists t : mdc_octree envIEEE unit, @mdc_new envIEEE unit 8 (f64 1 0) = Ret t) /\
  @mdc_new envIEEE unit 12 (f64 1 0) = Throw InvalidArgument /\ @mdc_new envIEEE unit 0 (f64 1 0) = Throw InvalidArgument.
Proof. split; [eexists; reflexivity|]. split; reflexivity. Qed.

(* ---- histories ---- *)

Section Reach.
Context {E : fpenv} {Q S : Type}.
Variable ops : qef_ops (fp_F E) Q S.
Notation store := (vstore (mdc_vertex (fp_F E) S)).

Record built (g : ugrid E) (solid : ivec3 -> bool) (n : nat) (t : mdc_octree E S) : Prop := {
  bt_filled : filled g solid;
  bt_grid : edge_len n <= g_size g;
  bt_size : mo_size t = edge_len n;
  bt_good : good ops g solid (mo_store t) n (mo_root t) (dc_min_corner (edge_len n));
  bt_next : forall a, In a (tree_verts (mo_root t)) -> a < vs_next (mo_store t);
  bt_depth : depth_of (mo_root t) = 0
}.

Lemma filled_valid : forall (g : ugrid E) solid, filled g solid -> valid_size (g_size g).
Proof. intros g solid H. exact (rep_size _ _ (rep_base _ _ (filled_ok _ _ _ H))). Qed.

Lemma built_small : forall g solid n t, built g solid n t -> (n <= 10)%nat.
Proof. intros g solid n t H. eapply level_small; [eapply filled_valid, bt_filled, H|apply (bt_grid _ _ _ _ H)]. Qed.

Lemma built_mats : forall (g : ugrid E) solid n, filled g solid -> edge_len n <= g_size g ->
  forall c, in_cube (dc_min_corner (edge_len n)) n c -> forall p, In p (cell_corners c) -> is_solid (grid_material g p) = solid p.
Proof.
  intros g solid n Hf Hg c Hc p Hp. apply (mat_solid g solid (filled_ok _ _ _ Hf)).
  apply (root_in_grid _ _ (filled_valid _ _ Hf) Hg). unfold in_cube in Hc. unfold in_closed_cube. unfold cell_corners in Hp. cbn [In] in Hp.
  decompose [or] Hp; try contradiction; subst p; unfold vadd; cbn [vx vy vz]; lia.
Qed.

(* ---- build ---- *)

Lemma build_any : forall n (t : mdc_octree E S) g solid sol, mo_size t = edge_len n -> filled g solid -> edge_len n <= g_size g ->
  (forall a, In a (tree_verts (mo_root t)) -> a < vs_next (mo_store t)) -> depth_of (mo_root t) = 0 ->
  NoDup (tree_verts (mo_root t)) -> (forall a, In a (node_verts (mo_root t)) -> idle (mo_store t) a) ->
  exists t' sol', mdc_build ops g t sol = Ret (t', sol') /\ built g solid n t' /\ mo_scale t' = mo_scale t.
Proof.
  intros n t g solid sol Hs Hf Hg Hnx Hd Hnd Hid. pose proof (filled_valid _ _ Hf) as Hv. pose proof (level_small _ _ Hv Hg) as Hn.
  unfold mdc_build. rewrite Hs. destruct (root_size n) as [-> _]. set (q := dc_min_corner (edge_len n)).
  assert (Hcol : exists l st, mdc_collapse (mo_root t) (mo_store t) = (l, st) /\ ml_depth l = 0 /\ NoDup (ml_verts l) /\
    forall a, In a (ml_verts l) -> idle st a /\ a < vs_next st).
  { destruct (mo_root t) as [l|b cs]; cbn [mdc_collapse depth_of node_verts tree_verts] in *; eexists _, _; (split; [reflexivity|]).
    - split; [exact Hd|]. split; [exact Hnd|]. intros a Ha. split; [apply Hid; exact Ha|apply Hnx; exact Ha].
    - cbn [ml_depth ml_verts vs_delete vs_next]. split; [exact Hd|]. apply nodup_app in Hnd as (N1 & N2 & N3). split; [exact N1|]. intros a Ha.
      split; [|apply Hnx, in_or_app; auto]. destruct (Hid a Ha) as (v & V1 & V2). exists v. split; [|exact V2]. unfold vs_delete. cbn [vs_at].
      destruct (existsb (Z.eqb a) (flat_map tree_verts cs)) eqn:X; [|exact V1]. exfalso. apply existsb_exists in X as (b' & B1 & B2). apply Z.eqb_eq in B2. subst b'.
      eapply N3; eassumption. }
  destruct Hcol as (l & st & -> & Hl1 & Hl2 & Hl3).
  destruct (MdcBuild.build_node_ok ops g solid (filled_ok _ _ _ Hf) n (Datatypes.S n) l q st sol ltac:(lia) (root_in_grid _ _ Hv Hg) ltac:(lia) ltac:(lia) Hl3 Hl2)
    as (t1 & st1 & sol1 & -> & P1 & P2 & P3 & P4 & P5). cbn [obind].
  destruct (cluster_cell_ok ops g solid n (Datatypes.S n) (Datatypes.S n) t1 q st1 sol1 ltac:(lia) ltac:(lia) P1) as (t2 & st2 & sol2 & -> & G1 & G2 & G3 & G4 & G5). cbn [obind].
  eexists _, _. split; [reflexivity|]. split; [|reflexivity]. constructor; cbn [mo_size mo_store mo_root]; [exact Hf|exact Hg|reflexivity|exact G1| |congruence].
  intros a Ha. apply G3. exact Ha.
Qed.

Lemma built_again : forall g solid n t, built g solid n t -> NoDup (tree_verts (mo_root t)) /\ forall a, In a (node_verts (mo_root t)) -> idle (mo_store t) a.
Proof.
  intros g solid n t H. pose proof (bt_good _ _ _ _ H) as G. split; [exact (gd_nodup _ _ _ _ _ _ _ G)|]. intros a Ha.
  assert (Hv : vert_at n (mo_root t) n a) by (revert Ha; destruct (mo_root t) as [l|b cs]; destruct n; cbn [vert_at node_verts]; auto).
  destruct (gd_live _ _ _ _ _ _ _ G n a Hv) as (v & V1 & V2 & _ & V3). exists v. split; [exact V1|]. split; [|exact V2].
  destruct (xv_parent v) as [p|] eqn:Hp; [|reflexivity]. destruct (V3 p eq_refl) as (m & M1 & M2). apply vert_at_le in M2. lia.
Qed.

(* ---- contour ---- *)

Definition scaled (t : mdc_octree E S) (eps : fp_F E) : fp_F E :=
  a_div (fp_f E) eps (fp_narrow E (a_mul (fp_d E) (mo_scale t) (mo_scale t))).

(* the number of the mesh vertex *)
Definition the_index (n : nat) (t : mdc_tree) (q : ivec3) (afuel : nat) (st : store) (solid : ivec3 -> bool) (c : ivec3) (e : gedge) : Z :=
  match leaf_at n t q c with
  | Some l => match znth (ml_verts l) (sheet solid c e) with
      | Some a => match highest_collapsible_ancestor afuel st a with
          | Ret (Some b) => match vs_at st b with Some v => xv_index v | None => -1 end
          | _ => -1 end
      | None => -1 end
  | None => -1
  end.

Record contoured (g : ugrid E) (solid : ivec3 -> bool) (n : nat) (eps : fp_F E) (t t' : mdc_octree E S) (m : mesh (mvert (fp_F E))) : Prop := {
  ct_scale : mo_scale t' = mo_scale t;
  ct_size : mo_size t' = mo_size t;
  ct_root : mo_root t' = mo_root t;
  ct_mark : exists m0 rs, minv (mo_root t) (mo_store t) (scaled t eps) (tree_verts (mo_root t)) (mo_store t') m0 rs /\ m_verts m = m_verts m0;
  ct_mesh : forall id, (forall c e, in_cube (dc_min_corner (edge_len n)) n c -> In c (cells_around (fst e) (snd e)) -> edge_crosses solid e = true ->
      vert_index solid n (mo_root t) (dc_min_corner (edge_len n)) (mo_store t') c e (id c e)) ->
    exists es, NoDup es /\ (forall e, In e es <-> inner_quad solid (dc_min_corner (edge_len n)) n e) /\
      mesh_valid_with m (filter nondegenerate (flat_map (quad_tris solid id) es))
}.

Lemma contour_any : forall g solid n t eps, built g solid n t ->
  exists t' m id, mdc_contour eps t = Ret (t', m) /\ contoured g solid n eps t t' m /\
   (forall c e, in_cube (dc_min_corner (edge_len n)) n c -> In c (cells_around (fst e) (snd e)) -> edge_crosses solid e = true ->
      vert_index solid n (mo_root t) (dc_min_corner (edge_len n)) (mo_store t') c e (id c e)) /\
   forall c e e', sheet solid c e = sheet solid c e' -> id c e = id c e'.
Proof.
  intros g solid n t eps H. pose proof (built_small _ _ _ _ H) as Hn. pose proof (bt_good _ _ _ _ H) as G. set (q := dc_min_corner (edge_len n)) in *.
  unfold mdc_contour. rewrite (bt_size _ _ _ _ H). destruct (root_size n) as [-> _]. fold (scaled t eps).
  destruct (mark_all ops g solid n (mo_root t) q (mo_store t) (scaled t eps) (Datatypes.S n) G ltac:(lia) Hn (Datatypes.S n) ltac:(lia)) as (st & m0 & rs & -> & M). cbn [obind].
  set (id := the_index n (mo_root t) q (Datatypes.S n) st solid).
  assert (Hid : forall c e, in_cube q n c -> In c (cells_around (fst e) (snd e)) -> edge_crosses solid e = true -> vert_index solid n (mo_root t) q st c e (id c e)).
  { intros c e Hc Hin He. destruct (sheet_vertex ops g solid n (mo_root t) q (mo_store t) (Datatypes.S n) G ltac:(lia) Hn c e Hc Hin He) as (a & Ha).
    destruct (leaf_index ops g solid n (mo_root t) q (mo_store t) (scaled t eps) (Datatypes.S n) G ltac:(lia) Hn st m0 rs M c _ a Ha) as (b & k & v & B1 & B2 & B3 & B4 & B5 & B6).
    exists a, b, v. split; [exact Ha|]. split; [exact B2|]. split; [exact B4|]. destruct Ha as (l & L1 & L2). unfold id, the_index. rewrite L1, L2, B1, B4. reflexivity. }
  pose proof (built_mats g solid n (bt_filled _ _ _ _ H) (bt_grid _ _ _ _ H)) as Hm. fold q in Hm.
  pose proof (fun id' Hid' => quads_ok ops g solid n (mo_root t) q (mo_store t) (scaled t eps) (Datatypes.S n) G ltac:(lia) Hn st m0 rs M Hm id' Hid' (Datatypes.S n) ltac:(lia)) as QK.
  destruct (QK id Hid) as (es & ts & Q1 & Q2 & Q3 & Q4 & Q5). rewrite Q4. cbn [obind]. eexists _, _, id. split; [reflexivity|].
  split; [|split; [exact Hid|intros c e e' Hsh; unfold id, the_index; rewrite Hsh; reflexivity]]. constructor; cbn [mo_scale mo_size mo_root mo_store m_verts]; [reflexivity|symmetry; exact (bt_size _ _ _ _ H)|reflexivity|eauto|].
  intros id' Hid'. destruct (QK id' Hid') as (es' & ts' & R1 & R2 & R3 & R4 & R5). rewrite R4 in Q4. injection Q4 as Q4. rewrite <- Q4. exists es'.
  split; [exact R1|]. split; [exact R2|]. rewrite <- R3. exact R5.
Qed.

Lemma contour_built : forall g solid n t eps t' m, built g solid n t -> mdc_contour eps t = Ret (t', m) ->
  contoured g solid n eps t t' m /\ built g solid n t'.
Proof.
  intros g solid n t eps t' m H Hc. destruct (contour_any g solid n t eps H) as (t1 & m1 & id & C1 & C2 & _ & _). rewrite Hc in C1. injection C1 as <- <-.
  split; [exact C2|]. destruct (ct_mark _ _ _ _ _ _ _ C2) as (m0 & rs & M & _). pose proof (mi_sim _ _ _ _ _ _ _ M) as Hs. constructor.
  - apply (bt_filled _ _ _ _ H).
  - apply (bt_grid _ _ _ _ H).
  - rewrite (ct_size _ _ _ _ _ _ _ C2). apply (bt_size _ _ _ _ H).
  - rewrite (ct_root _ _ _ _ _ _ _ C2). eapply sim_good; [apply (bt_good _ _ _ _ H)|exact Hs].
  - rewrite (ct_root _ _ _ _ _ _ _ C2), (proj1 Hs). apply (bt_next _ _ _ _ H).
  - rewrite (ct_root _ _ _ _ _ _ _ C2). apply (bt_depth _ _ _ _ H).
Qed.

Lemma contour_new : forall eps (t : mdc_octree E S) d, mo_root t = OLeaf (mdc_fresh d) -> mdc_contour eps t = Ret (t, mesh_new).
Proof. intros eps [scale size root st] d H. cbn in H. subst root. unfold mdc_contour. cbn [mo_size mo_root mo_store mo_scale]. reflexivity. Qed.

Definition reach_inv (size : Z) (last : option (ugrid E * (ivec3 -> bool))) (t : mdc_octree E S) : Prop :=
  exists n, size = edge_len n /\ mo_size t = size /\
    match last with
    | None => mo_root t = OLeaf (mdc_fresh 0)
    | Some (g, solid) => built g solid n t
    end.

Lemma reach_ready : forall size last t n, reach_inv size last t -> size = edge_len n ->
  mo_size t = edge_len n /\ (forall a, In a (tree_verts (mo_root t)) -> a < vs_next (mo_store t)) /\ depth_of (mo_root t) = 0 /\
  NoDup (tree_verts (mo_root t)) /\ (forall a, In a (node_verts (mo_root t)) -> idle (mo_store t) a).
Proof.
  intros size last t n (n' & Hn & Hs & H) Hn'. split; [congruence|]. destruct last as [[g solid]|].
  - destruct (built_again _ _ _ _ H) as [H1 H2]. split; [apply (bt_next _ _ _ _ H)|]. split; [apply (bt_depth _ _ _ _ H)|]. auto.
  - rewrite H. split; [intros a []|]. split; [reflexivity|]. split; [constructor|intros a []].
Qed.

Lemma mdc_inv : forall size last t, mdc_reached ops size last t -> reach_inv size last t.
Proof.
  intros size last t H. induction H as [scale t H|last t g solid sol t' sol' H IH Hf Hs Hb|last t eps t' m H IH Hc].
  - unfold mdc_new in H. destruct ((size <=? 0) || negb (Z.land size (size - 1) =? 0)) eqn:X; [discriminate|]. injection H as <-.
    apply new_size in X as (n & ->). exists n. auto.
  - destruct IH as (n & Hn & IH). destruct (reach_ready size last t n (ex_intro _ n (conj Hn IH)) Hn) as (R1 & R2 & R3 & R4 & R5). rewrite Hn in Hs.
    destruct (build_any n t g solid sol R1 Hf Hs R2 R3 R4 R5) as (t1 & s1 & B1 & B2 & _). rewrite Hb in B1. injection B1 as <- <-.
    exists n. split; [exact Hn|]. split; [rewrite Hn; apply (bt_size _ _ _ _ B2)|exact B2].
  - destruct IH as (n & Hn & Hs & IH). exists n. split; [exact Hn|]. destruct last as [[g solid]|].
    + destruct (contour_built _ _ _ _ _ _ _ IH Hc) as [_ B]. split; [rewrite Hn; apply (bt_size _ _ _ _ B)|exact B].
    + rewrite (contour_new eps t 0 IH) in Hc. injection Hc as <- <-. auto.
Qed.

Lemma built_of : forall size g solid t, mdc_reached ops size (Some (g, solid)) t -> size = edge_len (root_level size) /\ built g solid (root_level size) t.
Proof.
  intros size g solid t H. destruct (mdc_inv _ _ _ H) as (n & -> & _ & B). destruct (root_size n) as [_ ->]. auto.
Qed.

End Reach.

(* ---- C39 ---- *)

(* Building ends normally whatever the QEF solver answers, again and again. *)
Theorem C39_build : forall E Q S (ops : qef_ops (fp_F E) Q S) size last t g solid sol,
  mdc_reached ops size last t -> filled g solid -> size <= g_size g -> exists t' sol', mdc_build ops g t sol = Ret (t', sol').
Proof.
  intros E Q S ops size last t g solid sol Hr Hf Hs. destruct (mdc_inv ops size last t Hr) as (n & Hn & Hi).
  destruct (reach_ready ops size last t n (ex_intro _ n (conj Hn Hi)) Hn) as (R1 & R2 & R3 & R4 & R5). rewrite Hn in Hs.
  destruct (build_any ops n t g solid sol R1 Hf Hs R2 R3 R4 R5) as (t1 & s1 & B1 & _). eauto.
Qed.
Print Assumptions C39_build.

(* Contouring ends normally with a valid mesh, for every error bound. *)
Theorem C39_contour : forall E Q S (ops : qef_ops (fp_F E) Q S) size last t eps,
  mdc_reached ops size last t -> exists t' m, mdc_contour eps t = Ret (t', m) /\ mesh_valid m.
Proof.
  intros E Q S ops size last t eps Hr. destruct (mdc_inv ops size last t Hr) as (n & Hn & Hs & Hi). destruct last as [[g solid]|].
  - destruct (contour_any ops g solid n t eps Hi) as (t' & m & id & C1 & C2 & C3 & _). exists t', m. split; [exact C1|].
    destruct (ct_mesh _ _ _ _ _ _ _ C2 id C3) as (es & _ & _ & Hv). eexists. exact Hv.
  - exists t, mesh_new. split; [exact (contour_new eps t 0 Hi)|]. exists []. split; [reflexivity|constructor].
Qed.
Print Assumptions C39_contour.

(* Before the first call of build the mesh is empty. *)
Theorem C39_before_build : forall E Q S (ops : qef_ops (fp_F E) Q S) size t eps,
  mdc_reached ops size None t -> mdc_contour eps t = Ret (t, mesh_new).
Proof.
  intros E Q S ops size t eps Hr. destruct (mdc_inv ops size None t Hr) as (n & _ & _ & Hi). exact (contour_new eps t 0 Hi).
Qed.
Print Assumptions C39_before_build.

(* The leaves of the octree are the unit cells of the root cube.  A cell has the
   vertex the table names for each of its sign-changing edges. *)
Theorem C39_cells : forall E Q S (ops : qef_ops (fp_F E) Q S) size t g solid c,
  mdc_reached ops size (Some (g, solid)) t -> in_cube (dc_min_corner size) (root_level size) c ->
  exists l, leaf_at (root_level size) (mo_root t) (dc_min_corner size) c = Some l /\
    ml_corners l = Some (map (grid_material g) (cell_corners c)) /\
    forall e, In c (cells_around (fst e) (snd e)) ->
      if edge_crosses solid e then exists a, znth (ml_verts l) (sheet solid c e) = Some a else sheet solid c e = -1.
Proof.
  intros E Q S ops size t g solid c Hr Hc. destruct (built_of ops size g solid t Hr) as [Hz B]. pose proof (bt_good _ _ _ _ _ B) as G. rewrite <- Hz in G.
  destruct (shape_leaf_at _ _ _ _ _ _ (gd_shape _ _ _ _ _ _ _ G) Hc) as (l & L1 & (_ & _ & L2 & L3)). exists l. split; [exact L1|]. split; [exact L2|].
  intros e He. destruct (sheet_range solid c e He) as [R1 R2]. destruct (edge_crosses solid e) eqn:X.
  - destruct (znth_some _ (ml_verts l) (sheet solid c e)) as (a & Ha); [|eauto]. rewrite L3. assert (0 <= sheet solid c e) by (apply R1; reflexivity). lia.
  - destruct (Z_le_gt_dec 0 (sheet solid c e)) as [Y|Y]; [apply R1 in Y; discriminate|lia].
Qed.
Print Assumptions C39_cells.

(* In each cell next to a sign-changing edge, the vertex of the quad around the
   edge has exactly one highest collapsible ancestor; it is a vertex of the mesh. *)
Theorem C39_vertices : forall E Q S (ops : qef_ops (fp_F E) Q S) size t g solid eps t' m c e,
  mdc_reached ops size (Some (g, solid)) t -> mdc_contour eps t = Ret (t', m) ->
  in_cube (dc_min_corner size) (root_level size) c -> In c (cells_around (fst e) (snd e)) -> edge_crosses solid e = true ->
  exists a b v i, leaf_vertex_at (root_level size) (mo_root t') (dc_min_corner size) c (sheet solid c e) a /\
    top_collapsible (mo_store t') a b /\ vs_at (mo_store t') b = Some v /\ xv_index v = i /\
    znth (m_verts m) i = Some (MVert (xv_pos v) (xv_normal v) (xv_mat v)) /\
    forall j, mesh_vertex solid t' c e j <-> j = i.
Proof.
  intros E Q S ops size t g solid eps t' m c e Hr Hm Hc Hin He. destruct (built_of ops size g solid t Hr) as [Hz B].
  destruct (contour_built ops g solid _ t eps t' m B Hm) as [C B']. pose proof (bt_good _ _ _ _ _ B) as G. pose proof (built_small _ _ _ _ _ B) as Hn. rewrite <- Hz in G.
  destruct (ct_mark _ _ _ _ _ _ _ C) as (m0 & rs & M & Hv). rewrite (ct_root _ _ _ _ _ _ _ C).
  destruct (sheet_vertex ops g solid _ (mo_root t) _ (mo_store t) (Datatypes.S (root_level size)) G ltac:(lia) Hn c e Hc Hin He) as (a & Ha).
  destruct (leaf_index ops g solid _ (mo_root t) _ (mo_store t) (scaled t eps) (Datatypes.S (root_level size)) G ltac:(lia) Hn (mo_store t') m0 rs M c _ a Ha) as (b & k & v & _ & B2 & B3 & B4 & B5 & B6).
  exists a, b, v, (Z.of_nat k). split; [exact Ha|]. split; [exact B2|]. split; [exact B4|]. split; [exact B5|].
  split. { rewrite Hv. unfold znth. destruct (Z.ltb_spec (Z.of_nat k) 0); [lia|]. rewrite Nat2Z.id. exact B6. }
  assert (Hx : vert_index solid (root_level size) (mo_root t) (dc_min_corner size) (mo_store t') c e (Z.of_nat k)) by (exists a, b, v; auto).
  assert (Heq : forall j, mesh_vertex solid t' c e j <-> vert_index solid (root_level size) (mo_root t) (dc_min_corner size) (mo_store t') c e j).
  { intro j. unfold mesh_vertex, vert_index. rewrite (bt_size _ _ _ _ _ B'), <- Hz, (ct_root _ _ _ _ _ _ _ C). reflexivity. }
  intro j. rewrite Heq. split; [intro Hj; exact (index_unique _ _ _ _ _ _ _ _ _ Hj Hx)|intros ->; exact Hx].
Qed.
Print Assumptions C39_vertices.

(* Different vertices of the octree have different numbers, and each vertex of the
   mesh is the highest collapsible ancestor of some vertex of a cell. *)
Theorem C39_numbers : forall E Q S (ops : qef_ops (fp_F E) Q S) size t g solid eps t' m,
  mdc_reached ops size (Some (g, solid)) t -> mdc_contour eps t = Ret (t', m) ->
  let at_cell c s a := in_cube (dc_min_corner size) (root_level size) c /\ leaf_vertex_at (root_level size) (mo_root t') (dc_min_corner size) c s a in
  let number b i := exists v, vs_at (mo_store t') b = Some v /\ xv_index v = i in
  (forall c s a b c' s' a' b' i, at_cell c s a -> at_cell c' s' a' -> top_collapsible (mo_store t') a b -> top_collapsible (mo_store t') a' b' ->
     number b i -> number b' i -> b = b') /\
  (forall i w, znth (m_verts m) i = Some w -> exists c s a b, at_cell c s a /\ top_collapsible (mo_store t') a b /\ number b i).
Proof.
  intros E Q S ops size t g solid eps t' m Hr Hm at_cell number. destruct (built_of ops size g solid t Hr) as [Hz B].
  destruct (contour_built ops g solid _ t eps t' m B Hm) as [C B']. pose proof (bt_good _ _ _ _ _ B) as G. pose proof (built_small _ _ _ _ _ B) as Hn. rewrite <- Hz in G.
  destruct (ct_mark _ _ _ _ _ _ _ C) as (m0 & rs & M & Hv). unfold at_cell, number. rewrite (ct_root _ _ _ _ _ _ _ C). split.
  - intros c s a b c' s' a' b' i [_ Ha] [_ Ha'] Hb Hb' (v & V1 & V2) (v' & V1' & V2').
    destruct (leaf_index ops g solid _ (mo_root t) _ (mo_store t) (scaled t eps) (Datatypes.S (root_level size)) G ltac:(lia) Hn (mo_store t') m0 rs M c s a Ha) as (b1 & k1 & w1 & _ & X1 & X2 & X3 & X4 & _).
    destruct (leaf_index ops g solid _ (mo_root t) _ (mo_store t) (scaled t eps) (Datatypes.S (root_level size)) G ltac:(lia) Hn (mo_store t') m0 rs M c' s' a' Ha') as (b2 & k2 & w2 & _ & Y1 & Y2 & Y3 & Y4 & _).
    pose proof (MdcContour.top_unique _ _ _ _ Hb X1). pose proof (MdcContour.top_unique _ _ _ _ Hb' Y1). subst b1 b2.
    rewrite X3 in V1. injection V1 as ->. rewrite Y3 in V1'. injection V1' as ->. assert (k1 = k2) by lia. subst k2. congruence.
  - intros i w Hw. rewrite Hv in Hw. unfold znth in Hw. destruct (Z.ltb_spec i 0); [discriminate|]. assert (Hk : exists b, nth_error rs (Z.to_nat i) = Some b).
    { pose proof (mi_mesh _ _ _ _ _ _ _ M) as F2. apply Forall2_len in F2. destruct (nth_error rs (Z.to_nat i)) eqn:X; [eauto|].
      apply nth_error_None in X. assert (Y : nth_error (m_verts m0) (Z.to_nat i) <> None) by congruence. apply nth_error_Some in Y. lia. }
    destruct Hk as (b & Hk). pose proof (nth_error_In _ _ Hk) as Hb. apply (mi_reps _ _ _ _ _ _ _ M) in Hb as [Hb Hrep].
    destruct (in_vert_at _ _ _ _ _ (gd_shape _ _ _ _ _ _ _ G) Hb) as (k & Hk').
    destruct (leaf_below ops g solid _ (mo_root t) _ (mo_store t) (Datatypes.S (root_level size)) G ltac:(lia) Hn k b Hk') as (a & A1 & A2).
    destruct (vorder_cell _ _ _ _ _ (gd_shape _ _ _ _ _ _ _ G) (fun l c k H => leaf_ok_level _ _ _ _ _ H) A2) as (c & l & Hc & Hl & Ha).
    destruct (in_znth _ _ _ Ha) as (s & Hs). exists c, s, a, b. split; [split; [exact Hc|exists l; auto]|].
    split; [eapply top_of_rep; [exact G|exact M|eapply leaf_verts_in; eassumption|exact A1|exact Hrep]|].
    destruct (mi_index _ _ _ _ _ _ _ M _ _ Hk) as (v & V1 & V2). exists v. split; [exact V1|]. rewrite V2. apply Z2Nat.id. assumption.
Qed.
Print Assumptions C39_numbers.

(* ---- C40 ---- *)

Lemma perm_filter : forall T (f : T -> bool) l l', Permutation l l' -> Permutation (filter f l) (filter f l').
Proof.
  intros T f l l' H. induction H as [|x l l' H IH|x y l|l l' l'' H1 IH1 H2 IH2]; cbn [filter].
  - constructor.
  - destruct (f x); [constructor|]; exact IH.
  - destruct (f x), (f y); try apply Permutation_refl. apply perm_swap.
  - eapply perm_trans; eassumption.
Qed.

(* The triangles of the mesh are those of the quads around the sign-changing edges
   inside the root cube, each cell giving the vertex [mesh_vertex] names; triangles
   with equal corners are left out. *)
Theorem C40_triangles : forall E Q S (ops : qef_ops (fp_F E) Q S) size t g solid eps t' m ts es id,
  mdc_reached ops size (Some (g, solid)) t -> mdc_contour eps t = Ret (t', m) -> mesh_valid_with m ts ->
  NoDup es -> (forall e, In e es <-> edge_crosses solid e = true /\
    Forall (in_cube (dc_min_corner size) (root_level size)) (cells_around (fst e) (snd e))) ->
  (forall c e, in_cube (dc_min_corner size) (root_level size) c -> In c (cells_around (fst e) (snd e)) -> edge_crosses solid e = true ->
     mesh_vertex solid t' c e (id c e)) ->
  Permutation ts (filter nondegenerate (flat_map (fun e => fan_around (fun c => id c e) solid e) es)).
Proof.
  intros E Q S ops size t g solid eps t' m ts es id Hr Hm [Hts _] Hnd Hes Hid. destruct (built_of ops size g solid t Hr) as [Hz B].
  destruct (contour_built ops g solid _ t eps t' m B Hm) as [C B'].
  destruct (ct_mesh _ _ _ _ _ _ _ C id) as (es' & H1 & H2 & [H3 _]).
  { intros c e Hc Hin He. rewrite <- Hz in *. specialize (Hid c e Hc Hin He). unfold mesh_vertex in Hid. rewrite (bt_size _ _ _ _ _ B'), <- Hz, (ct_root _ _ _ _ _ _ _ C) in Hid. exact Hid. }
  rewrite Hts in H3. apply flatten_inj in H3. subst ts. rewrite <- Hz in H2.
  assert (P : Permutation es' es).
  { apply NoDup_Permutation; [assumption|assumption|]. intro e. rewrite H2, Hes. reflexivity. }
  change (quad_tris solid id) with (fun e => fan_around (fun c => id c e) solid e).
  apply perm_filter. apply Permutation_flat_map. exact P.
Qed.
Print Assumptions C40_triangles.

Lemma fan_val2 : forall id solid w e, alternating w -> edge_crosses solid e = true ->
  forall c0 c1 c2 c3, cells_around (fst e) (snd e) = [c0; c1; c2; c3] ->
  gsum w (fan_around id solid e) = weight solid e * quad_val w (id c0) (id c1) (id c2) (id c3).
Proof.
  intros id solid w [d p] [Hw _] Hc c0 c1 c2 c3 Hcs. unfold fan_around. rewrite Hcs. cbn [fst snd map].
  unfold weight, edge_crosses in *. cbn [fst snd] in *. unfold quad_val.
  destruct (solid p), (solid (vadd p (unit_vec d))); try discriminate; rewrite !gsum_cons, gsum_nil; cbn [b2z]; [ring|].
  rewrite (Hw (id c0) (id c1) (id c2)), (Hw (id c0) (id c2) (id c3)). ring.
Qed.

(* Sides run as often forth as back unless they connect the vertices which two
   cells of the root cube have for a sign-changing edge of their common face, and
   another edge of the face with a sign change is on the border of the root
   cube. *)
Theorem C40_closed : forall E Q S (ops : qef_ops (fp_F E) Q S) size t g solid eps t' m ts,
  mdc_reached ops size (Some (g, solid)) t -> mdc_contour eps t = Ret (t', m) -> mesh_valid_with m ts ->
  let q := dc_min_corner size in let n := root_level size in
  forall a b,
    side_count ts a b = side_count ts b a \/
    exists face e e',
      (mesh_vertex solid t' (face_low face) e a /\ mesh_vertex solid t' (face_high face) e b \/
       mesh_vertex solid t' (face_low face) e b /\ mesh_vertex solid t' (face_high face) e a) /\
      In e (face_edges face) /\ edge_crosses solid e = true /\ Forall (in_cube q n) (cells_around (fst e) (snd e)) /\
      In e' (face_edges face) /\ edge_crosses solid e' = true /\ ~ Forall (in_cube q n) (cells_around (fst e') (snd e')).
Proof.
  intros E Q S ops size t g solid eps t' m ts Hr Hm Hts q n a b. destruct (built_of ops size g solid t Hr) as [Hz B].
  destruct (contour_any ops g solid _ t eps B) as (t1 & m1 & id & C1 & C2 & C3 & C4). rewrite Hm in C1. injection C1 as <- <-.
  destruct (contour_built ops g solid _ t eps t' m B Hm) as [C B']. rewrite <- Hz in C3. fold n q in C3.
  assert (Hid : forall c e, in_cube q n c -> In c (cells_around (fst e) (snd e)) -> edge_crosses solid e = true -> mesh_vertex solid t' c e (id c e)).
  { intros c e Hc Hin He. specialize (C3 c e Hc Hin He). unfold mesh_vertex. rewrite (bt_size _ _ _ _ _ B'), <- Hz, (ct_root _ _ _ _ _ _ _ C). exact C3. }
  set (L := filter (edge_crosses solid) (inner_edges q size)).
  assert (HL : forall e, In e L <-> edge_crosses solid e = true /\ Forall (in_cube q n) (cells_around (fst e) (snd e))).
  { intro e. unfold L. rewrite filter_In. rewrite Hz at 1. fold n. rewrite in_inner_edges. tauto. }
  assert (HLnd : NoDup L) by (apply NoDup_filter, inner_edges_nodup).
  pose proof (C40_triangles _ _ _ _ _ _ _ _ _ _ _ _ _ _ Hr Hm Hts HLnd HL Hid) as HP.
  assert (Hnet : net ts a b = gsum (fun e => weight solid e * edge_flux2 (face_delta2 id a b) e) L).
  { rewrite net_gsum, (gsum_perm _ _ _ _ HP), (gsum_nondegenerate _ _ (net_alternating a b)), gsum_flat_map. apply gsum_ext. intros [d p] He.
    assert (Hc : exists c0 c1 c2 c3, cells_around d p = [c0; c1; c2; c3]) by (unfold cells_around; eauto).
    destruct Hc as (c0 & c1 & c2 & c3 & Hc). apply HL in He as [He _].
    rewrite (fan_val2 _ solid _ (d, p) (net_alternating a b) He c0 c1 c2 c3 Hc), (flux2_cells id a b d p c0 c1 c2 c3 Hc). f_equal.
    unfold quad_val. cbn [sides]. rewrite !gsum_cons, !gsum_nil. pose proof (signed_flip a b (id c0 (d, p)) (id c2 (d, p))). lia. }
  destruct (Z.eq_dec (net ts a b) 0) as [Z0|NZ]; [left; unfold net in Z0; lia|]. right.
  set (ok := fun e' => negb (edge_crosses solid e') || inner_cube_b q n e').
  set (test := fun e => existsb (fun face => negb (face_delta2 id a b face e =? 0) && negb (forallb ok (face_edges face))) (map snd (crossings e))).
  assert (Hex : exists e face e', In e L /\ In e (face_edges face) /\ face_delta2 id a b face e <> 0 /\ In e' (face_edges face) /\
      edge_crosses solid e' = true /\ inner_cube_b q n e' = false).
  { destruct (existsb test L) eqn:T.
    - apply existsb_exists in T as (e & He & Ht). unfold test in Ht. apply existsb_exists in Ht as (face & Hface & Ht).
      apply andb_true_iff in Ht as [Hd Hbad]. apply negb_true_iff in Hd, Hbad. apply Z.eqb_neq in Hd.
      destruct (forallb_neg _ _ _ Hbad) as (e' & He' & Hi). exists e, face, e'. split; [assumption|]. split.
      + apply in_map_iff in Hface as (c & <- & Hc). apply crossings_face. assumption.
      + unfold ok in Hi. apply orb_false_iff in Hi as [Hi1 Hi2]. apply negb_false_iff in Hi1. auto.
    - exfalso. apply NZ. rewrite Hnet. apply stokes2; [exact HLnd| |].
      + intros e face He Hface _ Hd e' He' Hc'.
        apply HL. split; [exact Hc'|]. apply inner_cube_b_ok. destruct (inner_cube_b q n e') eqn:I'; [reflexivity|]. exfalso.
        assert (Y : existsb test L = true); [|congruence].
        apply existsb_exists. exists e. split; [assumption|]. unfold test. apply existsb_exists. exists face.
        split; [apply face_crossings; assumption|].
        apply andb_true_iff. split; [apply negb_true_iff, Z.eqb_neq; assumption|].
        apply negb_true_iff. destruct (forallb ok (face_edges face)) eqn:Z; [|reflexivity].
        rewrite forallb_forall in Z. specialize (Z e' He'). unfold ok in Z. rewrite Hc', I' in Z. discriminate.
      + intros e face _ _. apply face_balance. intros e1 e2 H12. unfold face_delta2.
        rewrite (C4 (face_low face) e1 e2) by (apply curve_sheet with (f := face); auto).
        rewrite (C4 (face_high face) e1 e2) by (apply curve_sheet with (f := face); auto). reflexivity. }
  destruct Hex as (e & face & e' & He & Hface & Hd & He' & Hc' & Hi').
  exists face, e, e'. apply HL in He as [He1 He2]. destruct (face_cells_around _ _ Hface) as [Hlo Hhi].
  pose proof (proj1 (Forall_forall _ _) He2) as He3. split.
  - apply signed_nonzero in Hd as [[<- <-]|[<- <-]]; [left|right]; auto.
  - split; [assumption|]. split; [assumption|]. split; [assumption|]. split; [assumption|]. split; [assumption|]. intro X. apply inner_cube_b_ok in X. congruence.
Qed.
Print Assumptions C40_closed.

(* So the surface is watertight if no edge on the border of the root cube has a
   sign change. *)
Theorem C40_watertight : forall E Q S (ops : qef_ops (fp_F E) Q S) size t g solid eps t' m ts,
  mdc_reached ops size (Some (g, solid)) t -> mdc_contour eps t = Ret (t', m) -> mesh_valid_with m ts ->
  (forall e c c', In c (cells_around (fst e) (snd e)) -> In c' (cells_around (fst e) (snd e)) ->
     in_cube (dc_min_corner size) (root_level size) c -> ~ in_cube (dc_min_corner size) (root_level size) c' ->
     edge_crosses solid e = false) ->
  forall a b, side_count ts a b = side_count ts b a.
Proof.
  intros E Q S ops size t g solid eps t' m ts Hr Hm Hts Hborder a b.
  destruct (C40_closed _ _ _ _ _ _ _ _ _ _ _ _ Hr Hm Hts a b) as [H|(face & e & e' & _ & He & _ & Hin & He' & Hc' & Hn)]; [assumption|].
  exfalso. destruct (inner_cube_b (dc_min_corner size) (root_level size) e') eqn:I; [apply inner_cube_b_ok in I; contradiction|].
  destruct (forallb_neg _ _ _ I) as (c' & Hcc' & Hi). destruct (face_cells_around _ _ He) as [Flo _]. destruct (face_cells_around _ _ He') as [Flo' _].
  rewrite (Hborder e' _ c' Flo' Hcc') in Hc'; [discriminate| |].
  - exact (proj1 (Forall_forall _ _) Hin _ Flo).
  - intro X. apply in_cube_b_ok in X. congruence.
Qed.
Print Assumptions C40_watertight.

(* ---- C41 ---- *)

Lemma unit_cube_self : forall q, in_cube q 0 q.
Proof. intro q. unfold in_cube. change (edge_len 0) with 1. lia. Qed.

Lemma up_in : forall t a p, up t a p -> In p (tree_verts t).
Proof.
  intros t a p H. induction H as [b cs a p Hp Ha|b cs c a p Hc H IH]; cbn [tree_verts]; apply in_or_app; [left; exact Hp|right].
  apply in_flat_map. exists c. auto.
Qed.

Lemma up_inside : forall t h a, up t h a -> forall n q m b cs q', part n t q (S m) (ONode b cs) q' -> NoDup (tree_verts t) -> In a (mi_verts b) ->
  In h (flat_map tree_verts cs).
Proof.
  intros t h a H. induction H as [b0 cs0 h a Ha Hh|b0 cs0 c h a Hc H IH]; intros n q m b cs q' Hp Hnd Hb.
  - destruct n as [|n]; [apply part_zero in Hp; destruct Hp; discriminate|]. apply part_inv in Hp as [(_ & X & _)|(i & c & Hi & Hp)]; [injection X as -> ->; exact Hh|].
    exfalso. cbn [tree_verts] in Hnd. apply nodup_app in Hnd as (_ & _ & N). apply (N a Ha). apply in_flat_map. exists c. split; [eapply znth_in; eassumption|].
    eapply part_verts; [exact Hp|]. cbn [tree_verts]. apply in_or_app. left. exact Hb.
  - destruct n as [|n]; [apply part_zero in Hp; destruct Hp; discriminate|]. cbn [tree_verts] in Hnd. apply nodup_app in Hnd as (_ & N2 & N).
    apply part_inv in Hp as [(_ & X & _)|(i & c' & Hi & Hp)].
    + injection X as -> ->. exfalso. apply (N a Hb). apply in_flat_map. exists c. split; [exact Hc|eapply up_in; exact H].
    + destruct (in_znth _ _ _ Hc) as (j & Hj). assert (Ha' : In a (tree_verts c')) by (eapply part_verts; [exact Hp|]; cbn [tree_verts]; apply in_or_app; left; exact Hb).
      assert (X : i = j) by (eapply (nodup_flat_znth _ _ tree_verts); [exact N2|exact Hi|exact Hj|exact Ha'|eapply up_in; exact H]). subst j.
      assert (X2 : Some c' = Some c) by (transitivity (znth cs0 i); [symmetry; exact Hi|exact Hj]). injection X2 as ->. eapply IH; [exact Hp|eapply nodup_flat_part; eassumption|exact Hb].
Qed.

(* Material of a solid grid point of the closed cube of level [n] at [q] *)
Definition solid_material_in {E} (g : ugrid E) (solid : ivec3 -> bool) (q : ivec3) (n : nat) (m : material) : Prop :=
  m <> Empty /\ exists p, in_closed_cube q n p /\ solid p = true /\ m = grid_material g p.

Lemma edge_ends : forall c i, 0 <= i < 12 -> In (snd (cell_edge c i)) (cell_corners c) /\
  In (vadd (snd (cell_edge c i)) (unit_vec (fst (cell_edge c i)))) (cell_corners c).
Proof.
  intros [x y z] i Hi. rewrite !in_cell_corners.
  assert (H : In i (zseq 0 12)) by (apply in_zseq; cbn; lia). cbn in H. decompose [or] H; try contradiction; subst i; edges; unfold vadd; cbn [fst snd vx vy vz unit_vec]; lia.
Qed.

Lemma leaf_material : forall E Q S (ops : qef_ops (fp_F E) Q S) g solid c s v, edges_carry g solid -> leaf_solution ops g solid c s v ->
  xv_mat v <> Empty /\ exists p, In p (cell_corners c) /\ solid p = true /\ xv_mat v = grid_material g p.
Proof.
  intros E Q S ops g solid c s v Hcar (es & mats & sol0 & K1 & K2 & K3 & K4 & (s1 & s2 & s3 & _ & _ & _ & _ & _ & K5)).
  assert (Hm : In (xv_mat v) mats).
  { rewrite K5. apply fast_selected; [exact K3|]. apply Forall_forall. intros m Hm. destruct (K4 m Hm) as (e & He & ->). exact (proj2 (Hcar _ e (K2 e He))). }
  destruct (K4 _ Hm) as (e & He & Hv). destruct (Hcar _ e (K2 e He)) as [H1 H2]. rewrite Hv. split; [exact H2|].
  assert (Hk : In (edge_key e) (map edge_key es)) by (apply in_map; exact He). rewrite K1 in Hk. apply filter_In in Hk as [Hk Hx].
  apply in_map_iff in Hk as (i & Hi & Hin). apply in_zseq in Hin. destruct (edge_ends c i ltac:(lia)) as [E1 E2]. rewrite Hi in E1, E2.
  change (snd (edge_key e)) with (lesser_endpoint e) in E1, E2. apply andb_true_iff in Hx as [Hx _]. unfold edge_crosses in Hx.
  change (snd (edge_key e)) with (lesser_endpoint e) in Hx. rewrite H1.
  destruct (solid (lesser_endpoint e)) eqn:X; [exists (lesser_endpoint e); auto|].
  eexists. split; [exact E2|]. split; [|reflexivity]. rewrite xorb_false_l in Hx. exact Hx.
Qed.

(* The vertices of a cell have the material of a solid corner of the cell. *)
Theorem C41_cells : forall E Q S (ops : qef_ops (fp_F E) Q S) size t g solid c s a,
  mdc_reached ops size (Some (g, solid)) t -> in_cube (dc_min_corner size) (root_level size) c ->
  leaf_vertex_at (root_level size) (mo_root t) (dc_min_corner size) c s a ->
  exists v, vs_at (mo_store t) a = Some v /\ xv_mat v <> Empty /\
    exists p, In p (cell_corners c) /\ solid p = true /\ xv_mat v = grid_material g p.
Proof.
  intros E Q S ops size t g solid c s a Hr Hc Ha. destruct (built_of ops size g solid t Hr) as [Hz B]. pose proof (bt_good _ _ _ _ _ B) as G. rewrite <- Hz in G.
  destruct (gd_leaf _ _ _ _ _ _ _ G c s a Hc Ha) as (v & V1 & V2). exists v. split; [exact V1|].
  eapply leaf_material; [exact (filled_carry _ _ _ (bt_filled _ _ _ _ _ B))|exact V2].
Qed.
Print Assumptions C41_cells.

Lemma verts_material : forall E Q S (ops : qef_ops (fp_F E) Q S) g solid (st : vstore (mdc_vertex (fp_F E) S)) n t q, edges_carry g solid -> good ops g solid st n t q ->
  forall m t' q', part n t q m t' q' -> forall a, In a (tree_verts t') -> exists v, vs_at st a = Some v /\ solid_material_in g solid q' m (xv_mat v).
Proof.
  intros E Q S ops g solid st n t q Hcar G. induction m as [|m IH]; intros t' q' Hp a Ha;
    pose proof (part_tree_ok _ _ _ _ _ _ _ _ _ Hp (gd_shape _ _ _ _ _ _ _ G)) as Hok; destruct t' as [l|b cs]; cbn [tree_ok] in Hok; try contradiction.
  - destruct (part_sub _ _ _ _ _ _ _ _ _ Hp (gd_shape _ _ _ _ _ _ _ G)) as [P1 P2]. cbn [tree_verts] in Ha. destruct (in_znth _ _ _ Ha) as (s & Hs).
    assert (Hq : in_cube q' 0 q') by (apply unit_cube_self).
    assert (Hl : leaf_vertex_at n t q q' s a) by (exists l; split; [rewrite (P2 q' Hq); reflexivity|exact Hs]).
    destruct (gd_leaf _ _ _ _ _ _ _ G q' s a (in_cube_sub _ _ _ _ _ P1 Hq) Hl) as (v & V1 & V2). exists v. split; [exact V1|].
    destruct (leaf_material _ _ _ _ _ _ _ _ _ Hcar V2) as (M1 & p & M2 & M3 & M4). split; [exact M1|]. exists p. split; [|auto].
    apply in_cell_corners in M2. unfold in_closed_cube. change (edge_len 0) with 1. lia.
  - apply leaf_ok_level in Hok. discriminate.
  - destruct Hok as [H8 Hok]. cbn [tree_verts] in Ha.
    assert (Hch : forall c h, In c cs -> In h (tree_verts c) -> exists v, vs_at st h = Some v /\ solid_material_in g solid q' (Datatypes.S m) (xv_mat v)).
    { intros c h Hc Hh. destruct (in_znth _ _ _ Hc) as (i & Hi). destruct (IH c (child_pos q' m i) (part_child _ _ _ _ _ _ _ _ _ Hp Hi) h Hh) as (v & V1 & M1 & p & M2 & M3).
      exists v. split; [exact V1|]. split; [exact M1|]. exists p. split; [|exact M3]. eapply octant_closed; [eapply znth_bound; eassumption|exact M2]. }
    apply in_app_or in Ha as [Ha|Ha]; [|apply in_flat_map in Ha as (c & Hc & Ha); exact (Hch c a Hc Ha)].
    destruct (gd_merged _ _ _ _ _ _ _ G m b cs q' Hp a Ha) as (v & hs & V1 & _ & Hne & Hhs & (parts & sol0 & F2 & (s1 & s2 & s3 & _ & _ & _ & _ & _ & K5))).
    exists v. split; [exact V1|].
    assert (Hall : forall x, In x (map (fun p => xv_mat (fst p)) parts) -> solid_material_in g solid q' (Datatypes.S m) x).
    { intros x Hx. apply in_map_iff in Hx as (p & <- & Hp'). clear -Hch Hhs F2 Hp'.
      assert (Hh : exists h, In h hs /\ vs_at st h = Some (fst p)).
      { clear Hhs Hch. induction F2 as [|h y hs ps [Y1 _] F2 IHf]; [destruct Hp'|]. destruct Hp' as [<-|Hp']; [exists h; split; [left; reflexivity|exact Y1]|].
        destruct (IHf Hp') as (h' & W1 & W2). exists h'. split; [right; exact W1|exact W2]. }
      destruct Hh as (h & Hh & Hv). apply Hhs in Hh as [Hh _]. apply in_flat_map in Hh as (c & Hc & Hh). destruct (Hch c h Hc Hh) as (w & W1 & W2). congruence. }
    apply Hall. rewrite K5. apply fast_selected.
    + destruct hs; [contradiction|]. inversion F2. discriminate.
    + apply Forall_forall. intros x Hx. apply Hall. exact Hx.
Qed.

(* So have the vertices of every node, and those of the mesh. *)
Theorem C41_nodes : forall E Q S (ops : qef_ops (fp_F E) Q S) size t g solid m t' q' a,
  mdc_reached ops size (Some (g, solid)) t -> part (root_level size) (mo_root t) (dc_min_corner size) m t' q' -> In a (node_verts t') ->
  exists v, vs_at (mo_store t) a = Some v /\ solid_material_in g solid q' m (xv_mat v).
Proof.
  intros E Q S ops size t g solid m t' q' a Hr Hp Ha. destruct (built_of ops size g solid t Hr) as [Hz B]. pose proof (bt_good _ _ _ _ _ B) as G. rewrite <- Hz in G.
  eapply verts_material; [exact (filled_carry _ _ _ (bt_filled _ _ _ _ _ B))|exact G|exact Hp|]. destruct t'; cbn [node_verts tree_verts] in *; [exact Ha|apply in_or_app; auto].
Qed.
Print Assumptions C41_nodes.

Theorem C41_mesh : forall E Q S (ops : qef_ops (fp_F E) Q S) size t g solid eps t' m w,
  mdc_reached ops size (Some (g, solid)) t -> mdc_contour eps t = Ret (t', m) -> In w (m_verts m) ->
  solid_material_in g solid (dc_min_corner size) (root_level size) (mv_mat w).
Proof.
  intros E Q S ops size t g solid eps t' m w Hr Hm Hw. destruct (built_of ops size g solid t Hr) as [Hz B].
  destruct (contour_built ops g solid _ t eps t' m B Hm) as [C B']. pose proof (bt_good _ _ _ _ _ B') as G. rewrite <- Hz in G.
  destruct (ct_mark _ _ _ _ _ _ _ C) as (m0 & rs & M & Hv). rewrite Hv in Hw. pose proof (mi_mesh _ _ _ _ _ _ _ M) as F2.
  assert (X : exists a v, In a rs /\ vs_at (mo_store t') a = Some v /\ w = vdata v).
  { clear -F2 Hw. induction F2 as [|a y rs ws (v & Y1 & Y2) F2 IHf]; [destruct Hw|]. destruct Hw as [<-|Hw]; [exists a, v; split; [left; reflexivity|auto]|].
    destruct (IHf Hw) as (a' & v' & W1 & W2). exists a', v'. split; [right; exact W1|exact W2]. }
  destruct X as (a & v & A1 & A2 & ->). apply (mi_reps _ _ _ _ _ _ _ M) in A1 as [A1 _]. rewrite <- (ct_root _ _ _ _ _ _ _ C) in A1.
  destruct (verts_material _ _ _ _ _ _ _ _ _ _ (filled_carry _ _ _ (bt_filled _ _ _ _ _ B)) G _ _ _ (part_self _ _ _) a A1) as (v' & V1 & V2).
  rewrite A2 in V1. injection V1 as <-. exact V2.
Qed.
Print Assumptions C41_mesh.

(* ---- C58 ---- *)

(* The vertices of a cell stand for the connected pieces of the surface in the
   cell: two sign-changing edges have the same vertex if curves in the faces of
   the cell connect them, ... *)
Theorem C58_pieces : forall solid c e e', one_piece solid c e e' -> sheet solid c e = sheet solid c e'.
Proof. exact piece_sheet. Qed.
Print Assumptions C58_pieces.

(* ... and only then, unless exactly two opposite corners of the cell are empty. *)
Theorem C58_separate_partial : forall solid c e e', In c (cells_around (fst e) (snd e)) -> In c (cells_around (fst e') (snd e')) ->
  edge_crosses solid e = true -> edge_crosses solid e' = true -> two_holes solid c = false ->
  (one_piece solid c e e' <-> sheet solid c e = sheet solid c e').
Proof. intros. split; [apply piece_sheet|]. apply sheet_piece; assumption. Qed.
Print Assumptions C58_separate_partial.

Definition holes_field (p : ivec3) : bool := negb (veqb p (V3 0 0 0) || veqb p (V3 1 1 1)).

(* In this case one vertex stands for both pieces. *)
Theorem C58_separate_refuted : exists solid c e e', In c (cells_around (fst e) (snd e)) /\ In c (cells_around (fst e') (snd e')) /\
  edge_crosses solid e = true /\ edge_crosses solid e' = true /\ sheet solid c e = sheet solid c e' /\ ~ one_piece solid c e e'.
Proof.
  exists holes_field, (V3 0 0 0), (AX, V3 0 0 0), (AX, V3 0 1 1). split; [vm_compute; tauto|]. split; [vm_compute; tauto|]. split; [reflexivity|]. split; [reflexivity|]. split; [reflexivity|].
  set (touches := fun e : gedge => veqb (snd e) (V3 0 0 0)).
  assert (H : forall e e' f, (face_low f = V3 0 0 0 \/ face_high f = V3 0 0 0) -> on_one_curve holes_field f e e' -> touches e = touches e').
  { intros e e' f Hf (k & l & Hin & Hk & Hl). destruct (cell_face_local _ _ Hf) as (f0 & Hf0 & ->). rewrite shift_zero in *.
    cbn in Hf0. decompose [or] Hf0; try contradiction; subst f0; vm_compute in Hin; decompose [or] Hin; try contradiction;
    match goal with X : (_, _) = (k, l) |- _ => injection X as <- <- end; vm_compute in Hk, Hl; injection Hk as <-; injection Hl as <-; reflexivity. }
  intro P. assert (X : touches (AX, V3 0 0 0) = touches (AX, V3 0 1 1)); [|vm_compute in X; discriminate].
  induction P as [e|e e' e'' f P IH Hf Hc|e e' e'' f P IH Hf Hc]; [reflexivity| |].
  - rewrite IH. eapply H; eassumption.
  - rewrite IH. symmetry. eapply H; eassumption.
Qed.
Print Assumptions C58_separate_refuted.

(* ---- C59 ---- *)

(* Two cell vertices in a node have a common ancestor among the vertices of the
   node and of the nodes below it if and only if quads inside the cube of the node
   connect them. *)
Theorem C59_clusters : forall E Q S (ops : qef_ops (fp_F E) Q S) size t g solid m t' q' c s a c' s' a',
  mdc_reached ops size (Some (g, solid)) t -> part (root_level size) (mo_root t) (dc_min_corner size) m t' q' ->
  in_cube q' m c -> leaf_vertex_at m t' q' c s a -> in_cube q' m c' -> leaf_vertex_at m t' q' c' s' a' ->
  ((exists u, In u (tree_verts t') /\ ancestor (mo_store t) a u /\ ancestor (mo_store t) a' u) <-> quad_linked solid m t' q' q' m a a').
Proof.
  intros E Q S ops size t g solid m t' q' c s a c' s' a' Hr Hp Hc Ha Hc' Ha'. destruct (built_of ops size g solid t Hr) as [Hz B].
  pose proof (bt_good _ _ _ _ _ B) as G. rewrite <- Hz in G. apply (gd_linked _ _ _ _ _ _ _ G m t' q' Hp); [exists c, s|exists c', s']; auto.
Qed.
Print Assumptions C59_clusters.

(* So a contour merges cell vertices only if the surface in the root cube
   connects them. *)
Theorem C59_mesh : forall E Q S (ops : qef_ops (fp_F E) Q S) size t g solid eps t' m c s a c' s' a' b,
  mdc_reached ops size (Some (g, solid)) t -> mdc_contour eps t = Ret (t', m) ->
  let q := dc_min_corner size in let n := root_level size in
  in_cube q n c -> leaf_vertex_at n (mo_root t') q c s a -> in_cube q n c' -> leaf_vertex_at n (mo_root t') q c' s' a' ->
  top_collapsible (mo_store t') a b -> top_collapsible (mo_store t') a' b -> quad_linked solid n (mo_root t') q q n a a'.
Proof.
  intros E Q S ops size t g solid eps t' m c s a c' s' a' b Hr Hm q n Hc Ha Hc' Ha' [Hb _] [Hb' _].
  pose proof (mdc_reached_contour ops size _ _ _ _ _ Hr Hm) as Hr'. destruct (built_of ops size g solid t' Hr') as [Hz B]. pose proof (bt_good _ _ _ _ _ B) as G. rewrite <- Hz in G.
  apply (C59_clusters _ _ _ ops size t' g solid n (mo_root t') q c s a c' s' a' Hr' (part_self _ _ _) Hc Ha Hc' Ha').
  exists b. split; [|auto]. eapply closed_anc; [exact (good_closed _ _ _ _ _ _ _ G)|eapply leaf_vertex_in; exact Ha|exact Hb].
Qed.
Print Assumptions C59_mesh.

(* ---- C60 ---- *)

(* The bound contour compares errors with: the argument in units of the scaled grid *)
Notation bound := scaled.

(* After a contour the vertices of cells are marked collapsible, and the others exactly
   if their error does not exceed the bound. *)
Theorem C60_marks : forall E Q S (ops : qef_ops (fp_F E) Q S) size t g solid eps t' m k u q' a,
  mdc_reached ops size (Some (g, solid)) t -> mdc_contour eps t = Ret (t', m) ->
  part (root_level size) (mo_root t') (dc_min_corner size) k u q' -> In a (node_verts u) ->
  exists v, vs_at (mo_store t') a = Some v /\
    xv_collapsible v = (if is_subdivided u then a_le (fp_f E) (xv_error v) (bound t eps) else true).
Proof.
  intros E Q S ops size t g solid eps t' m k u q' a Hr Hm Hp Ha. destruct (built_of ops size g solid t Hr) as [Hz B].
  destruct (contour_built ops g solid _ t eps t' m B Hm) as [C B']. pose proof (bt_good _ _ _ _ _ B) as G. rewrite <- Hz in G.
  destruct (ct_mark _ _ _ _ _ _ _ C) as (m0 & rs & M & Hv). rewrite (ct_root _ _ _ _ _ _ _ C) in Hp.
  assert (Hin : In (a, negb (is_subdivided u)) (vorder u)).
  { destruct u as [l|b cs]; cbn [node_verts vorder is_subdivided negb] in *; [|apply in_or_app; left]; apply in_map_iff; exists a; auto. }
  assert (Hsub : incl (vorder u) (vorder (mo_root t))).
  { clear -Hp. induction Hp as [|n' b cs q' i c Hp IH Hi]; [apply incl_refl|]. intros x Hx. apply IH. cbn [vorder]. apply in_or_app. right.
    apply in_flat_map. exists c. split; [eapply znth_in; eassumption|exact Hx]. }
  apply Hsub in Hin. assert (HaV : In a (tree_verts (mo_root t))).
  { rewrite <- (vorder_verts _ _ _ _ (gd_shape _ _ _ _ _ _ _ G)). apply in_map_iff. exists (a, negb (is_subdivided u)). auto. }
  destruct (good_live _ _ _ _ _ _ _ a G HaV) as (v0 & V0). destruct (mi_mark _ _ _ _ _ _ _ M a HaV) as (v & V1 & V2). exists v. split; [exact V1|].
  rewrite V2, (step_coll ops g solid _ _ _ _ _ G a _ v0 Hin V0). destruct (proj2 (proj2 (mi_sim _ _ _ _ _ _ _ M)) a v0 HaV V0) as (c & i & V3).
  rewrite V1 in V3. injection V3 as ->. destruct (is_subdivided u); reflexivity.
Qed.
Print Assumptions C60_marks.

Lemma verts_part : forall X n (t : mdc_tree) q a, tree_ok X n t q -> In a (tree_verts t) -> exists k u q', part n t q k u q' /\ In a (node_verts u).
Proof.
  intros X. induction n as [|n IH]; intros t q a Ht H; destruct t as [l|b cs]; cbn [tree_verts tree_ok] in *; try contradiction;
    try (eexists _, _, _; split; [constructor|exact H]; fail).
  apply in_app_or in H as [H|H]; [eexists _, _, _; split; [constructor|exact H]|]. apply in_flat_map in H as (c & Hc & H). destruct (in_znth _ _ _ Hc) as (i & Hi).
  destruct (IH c _ a (proj2 Ht i c Hi) H) as (k & u & q' & P & Hu). exists k, u, q'. split; [eapply part_in; eassumption|exact Hu].
Qed.

(* Each vertex used in the mesh is the vertex of a cell or has an error within the
   bound, and all clusters above it exceed the bound. *)
Theorem C60_error : forall E Q S (ops : qef_ops (fp_F E) Q S) size t g solid eps t' m c s a b,
  mdc_reached ops size (Some (g, solid)) t -> mdc_contour eps t = Ret (t', m) ->
  let q := dc_min_corner size in let n := root_level size in
  in_cube q n c -> leaf_vertex_at n (mo_root t') q c s a -> top_collapsible (mo_store t') a b ->
  exists v, vs_at (mo_store t') b = Some v /\
    ((exists c' s', in_cube q n c' /\ leaf_vertex_at n (mo_root t') q c' s' b) \/ a_le (fp_f E) (xv_error v) (bound t eps) = true) /\
    forall b' v', ancestor (mo_store t') b b' -> b' <> b -> vs_at (mo_store t') b' = Some v' -> a_le (fp_f E) (xv_error v') (bound t eps) = false.
Proof.
  intros E Q S ops size t g solid eps t' m c s a b Hr Hm q n Hc Ha (Hb & (v & V1 & V2) & Hmax).
  pose proof (mdc_reached_contour ops size _ _ _ _ _ Hr Hm) as Hr'. destruct (built_of ops size g solid t' Hr') as [Hz B]. pose proof (bt_good _ _ _ _ _ B) as G. rewrite <- Hz in G.
  assert (Hmk : forall b, In b (tree_verts (mo_root t')) -> exists k u q', part n (mo_root t') q k u q' /\ In b (node_verts u) /\
    exists v, vs_at (mo_store t') b = Some v /\ xv_collapsible v = (if is_subdivided u then a_le (fp_f E) (xv_error v) (bound t eps) else true)).
  { intros x Hx. destruct (verts_part _ _ _ _ _ (gd_shape _ _ _ _ _ _ _ G) Hx) as (k & u & q' & P & Hu). exists k, u, q'. split; [exact P|]. split; [exact Hu|].
    exact (C60_marks _ _ _ _ _ _ _ _ _ _ _ _ _ _ _ Hr Hm P Hu). }
  assert (HbV : In b (tree_verts (mo_root t'))) by (eapply closed_anc; [exact (good_closed _ _ _ _ _ _ _ G)|eapply leaf_vertex_in; exact Ha|exact Hb]).
  exists v. split; [exact V1|]. split.
  - destruct (Hmk b HbV) as (k & u & q' & P & Hu & w & W1 & W2). rewrite V1 in W1. injection W1 as <-. destruct u as [l|bb cs]; cbn [is_subdivided] in W2; [left|right; congruence].
    pose proof (part_tree_ok _ _ _ _ _ _ _ _ _ P (gd_shape _ _ _ _ _ _ _ G)) as Hl. assert (Hl' : MdcForest.leaf_ok g solid l q' k) by (destruct k; exact Hl).
    pose proof (leaf_ok_level _ _ _ _ _ Hl'). subst k. destruct (part_sub _ _ _ _ _ _ _ _ _ P (gd_shape _ _ _ _ _ _ _ G)) as [P1 P2].
    destruct (in_znth _ _ _ Hu) as (s' & Hs'). pose proof (unit_cube_self q') as Hq. exists q', s'. split; [eapply in_cube_sub; eassumption|].
    exists l. split; [rewrite (P2 q' Hq); reflexivity|exact Hs'].
  - intros b' v' Hb' Hne Hv'. specialize (Hmax b' v' Hb' Hne Hv').
    assert (Hb'V : In b' (tree_verts (mo_root t'))) by (eapply closed_anc; [exact (good_closed _ _ _ _ _ _ _ G)|exact HbV|exact Hb']).
    destruct (Hmk b' Hb'V) as (k & u & q' & P & Hu & w & W1 & W2). rewrite Hv' in W1. injection W1 as <-. rewrite Hmax in W2. destruct (is_subdivided u); congruence.
Qed.
Print Assumptions C60_error.

(* ---- C61 ---- *)

(* The vertices of a cell minimise the error functions of their pieces of the surface. *)
Theorem C61_cells : forall E Q S (ops : qef_ops (fp_F E) Q S) size t g solid c s a,
  mdc_reached ops size (Some (g, solid)) t -> in_cube (dc_min_corner size) (root_level size) c ->
  leaf_vertex_at (root_level size) (mo_root t) (dc_min_corner size) c s a ->
  exists v, vs_at (mo_store t) a = Some v /\ leaf_solution ops g solid c s v.
Proof.
  intros E Q S ops size t g solid c s a Hr Hc Ha. destruct (built_of ops size g solid t Hr) as [Hz B]. pose proof (bt_good _ _ _ _ _ B) as G. rewrite <- Hz in G.
  exact (gd_leaf _ _ _ _ _ _ _ G c s a Hc Ha).
Qed.
Print Assumptions C61_cells.

(* Those of an inner node minimise the sum of the error functions of exactly
   the vertices hanging below. *)
Theorem C61_nodes : forall E Q S (ops : qef_ops (fp_F E) Q S) size t g solid m b cs q' a,
  mdc_reached ops size (Some (g, solid)) t -> part (root_level size) (mo_root t) (dc_min_corner size) (Datatypes.S m) (ONode b cs) q' -> In a (mi_verts b) ->
  exists v hs, vs_at (mo_store t) a = Some v /\ NoDup hs /\ hs <> [] /\
    (forall h, In h hs <-> In h (tree_verts (mo_root t)) /\ parent_of (mo_store t) h = Some a) /\
    merge_solution ops (mo_store t) q' (Datatypes.S m) hs v.
Proof.
  intros E Q S ops size t g solid m b cs q' a Hr Hp Ha. destruct (built_of ops size g solid t Hr) as [Hz B]. pose proof (bt_good _ _ _ _ _ B) as G. rewrite <- Hz in G.
  destruct (gd_merged _ _ _ _ _ _ _ G m b cs q' Hp a Ha) as (v & hs & V1 & V2 & V3 & V4 & V5). exists v, hs. do 3 (split; [assumption|]). split; [|exact V5].
  intro h. rewrite V4. split.
  - intros [H1 H2]. split; [|exact H2]. eapply part_verts; [exact Hp|]. cbn [tree_verts]. apply in_or_app. right. exact H1.
  - intros [H1 H2]. split; [|exact H2]. exact (up_inside _ _ _ (gd_up _ _ _ _ _ _ _ G h a H1 H2) _ _ _ _ _ _ Hp (gd_nodup _ _ _ _ _ _ _ G) Ha).
Qed.
Print Assumptions C61_nodes.

(* ---- C62 ---- *)

(* Contours made in between do not matter. *)
Inductive contours {E S} (t : mdc_octree E S) : mdc_octree E S -> Prop :=
| contours_none : contours t t
| contours_more : forall t1 eps t2 m, contours t t1 -> mdc_contour eps t1 = Ret (t2, m) -> contours t t2.

Theorem C62_repeat : forall E Q S (ops : qef_ops (fp_F E) Q S) size last t t1 eps,
  mdc_reached ops size last t -> contours t t1 -> mdc_contour eps t1 = mdc_contour eps t.
Proof.
  intros E Q S ops size last t t1 eps Hr Hc. destruct last as [[g solid]|].
  2: { destruct (mdc_inv ops size None t Hr) as (n & _ & _ & Hi). assert (X : t1 = t); [|subst; reflexivity].
    induction Hc as [|t1 eps' t2 m Hc IH Hm]; [reflexivity|]. subst t1. rewrite (contour_new eps' t 0 Hi) in Hm. injection Hm as <- <-. reflexivity. }
  destruct (built_of ops size g solid t Hr) as [Hz B]. clear Hr. set (n := root_level size) in *. clearbody n.
  assert (X : built ops g solid n t1 /\ mo_scale t1 = mo_scale t /\ mo_root t1 = mo_root t /\ sim (mo_root t) (mo_store t) (mo_store t1)).
  { induction Hc as [|t1 eps' t2 m Hc IH Hm].
    - split; [exact B|]. split; [reflexivity|]. split; [reflexivity|]. split; [reflexivity|]. split; [auto|]. intros a v Ha Hv. exists (xv_collapsible v), (xv_index v). rewrite Hv. destruct v; reflexivity.
    - destruct IH as (B1 & I1 & I2 & I3). destruct (contour_built ops g solid n t1 eps' t2 m B1 Hm) as [C B2]. split; [exact B2|].
      rewrite (ct_scale _ _ _ _ _ _ _ C), (ct_root _ _ _ _ _ _ _ C). split; [exact I1|]. split; [exact I2|].
      destruct (ct_mark _ _ _ _ _ _ _ C) as (m0 & rs & M & _). pose proof (mi_sim _ _ _ _ _ _ _ M) as J. rewrite I2 in J. destruct J as (J1 & J2 & J3), I3 as (K1 & K2 & K3).
      split; [congruence|]. split; [intros b Hb; rewrite J2 by exact Hb; auto|]. intros a v Ha Hv. destruct (K3 a v Ha Hv) as (c & i & W). destruct (J3 a _ Ha W) as (c' & i' & W'). exists c', i'. exact W'. }
  destruct X as (B1 & X1 & X2 & X3). pose proof (built_small _ _ _ _ _ B) as Hn. pose proof (bt_good _ _ _ _ _ B) as G. pose proof (bt_good _ _ _ _ _ B1) as G1.
  unfold mdc_contour. rewrite (bt_size _ _ _ _ _ B), (bt_size _ _ _ _ _ B1). destruct (root_size n) as [-> _]. rewrite X1. fold (scaled t eps).
  destruct (mark_all ops g solid n (mo_root t) _ (mo_store t) (scaled t eps) (Datatypes.S n) G ltac:(lia) Hn (Datatypes.S n) ltac:(lia)) as (st & m0 & rs & -> & M).
  destruct (mark_all ops g solid n (mo_root t1) _ (mo_store t1) (scaled t eps) (Datatypes.S n) G1 ltac:(lia) Hn (Datatypes.S n) ltac:(lia)) as (st1 & m1 & rs1 & -> & M1).
  cbn [obind]. rewrite X2 in *. destruct (marks_unique ops g solid _ _ _ _ _ _ _ _ _ _ _ _ G X3 M M1) as (U1 & U2 & ->).
  assert (U : st1 = st); [|rewrite U; reflexivity]. apply functional_extensionality in U1. destruct st, st1. cbn in *. congruence.
Qed.
Print Assumptions C62_repeat.

(* ---- examples ---- *)

(* A QEF solver that answers with the lower corner and takes the number of planes for the error. *)
Definition count_ops : qef_ops (fp_F envIEEE) Z Z :=
  @QefOps b32 Z Z (fun _ => 0) (fun q _ _ => q + 1) (fun q s => q + s) (fun q lo _ => (q, lo)) (fun q _ => f32 q 0) (fun q => (q, q)).
Definition mdc_try (size : Z) (f : field envIEEE) (g0 : ugrid envIEEE) (errors : list b32) : option (Z * list (Z * list Z)) :=
  match fill g0 f c10_solver with
  | Ret (g, _) =>
      match @mdc_new envIEEE Z size (f64 1 0) with
      | Ret t =>
          match mdc_build count_ops g t 0 with
          | Ret (t1, _) => Some (vs_next (mo_store t1), flat_map (fun e => match mdc_contour e t1 with
              | Ret (t2, m) => [(mesh_vertex_count m, m_inds m)]
              | _ => [] end) errors)
          | _ => None end
      | _ => None end
  | _ => None end.

(* One solid point: its eight cells have a vertex each.  The root has one vertex
   for all of them, made of 24 planes. *)
Example C39_C40_ex : mdc_try 2 ball_field c53_grid [f32 0 0; f32 23 0; f32 24 0] =
  let mesh := [0; 5; 4; 0; 1; 5; 2; 6; 7; 2; 7; 3; 0; 3; 1; 0; 2; 3; 4; 5; 7; 4; 7; 6; 0; 6; 2; 0; 4; 6; 1; 3; 7; 1; 7; 5] in
  Some (9, [(8, mesh); (8, mesh); (1, [])]).
Proof. vm_compute. reflexivity. Qed.

(* The ball of PropDc.v: with the bigger bound, octants have their own vertices. *)
Example C39_C60_ex : mdc_try 4 big_field grid4 [f32 30 0; f32 72 0] =
  Some (35, [
   (31, [0; 5; 4; 0; 1; 5; 2; 6; 7; 2; 7; 3; 0; 3; 1; 0; 2; 3; 4; 5; 7; 4; 7; 6; 1; 3; 7; 1; 7; 5; 10; 14; 15; 10; 15; 11; 8; 11; 9; 8;
     10; 11; 12; 13; 15; 12; 15; 14; 8; 14; 10; 8; 12; 14; 9; 11; 15; 9; 15; 13; 18; 23; 22; 18; 19; 23; 20; 24; 25; 20; 25; 21; 22;
     23; 25; 22; 25; 24; 18; 24; 20; 18; 22; 24; 19; 21; 25; 19; 25; 23; 2; 16; 17; 2; 17; 6; 20; 21; 29; 20; 29; 28; 4; 6; 27; 4;
     27; 26; 12; 28; 29; 12; 29; 13; 9; 13; 17; 9; 17; 16; 19; 26; 27; 19; 27; 21; 13; 29; 30; 13; 30; 17; 21; 27; 30; 21; 30; 29;
     6; 17; 30; 6; 30; 27]);
   (10, [0; 2; 3; 4; 8; 7; 0; 6; 5; 1; 7; 8; 1; 3; 2; 4; 5; 6; 1; 8; 9; 1; 9; 3; 4; 6; 9; 4; 9; 8; 0; 3; 9; 0; 9; 6])]).
Proof. vm_compute. reflexivity. Qed.

(* Octrees for these fields are reached and contoured. *)
Lemma mdc_example : forall size (f : field envIEEE) g0 eps, valid_size (g_size g0) -> g_size g0 = size -> (exists m, size = edge_len m) ->
  forallb (fun p => eqb (gt0 envIEEE (sample g0 f p)) (negb (le0 envIEEE (sample g0 f p)))) (all_points size) = true ->
  (forall a b, fl_material f a b <> Empty) ->
  exists (g : ugrid envIEEE) t t' m, mdc_reached count_ops size (Some (g, fun p => le0 envIEEE (sample g0 f p))) t /\ mdc_contour eps t = Ret (t', m) /\ mesh_valid m.
Proof.
  intros size f g0 eps Hv Hsize Hpow T Hmat.
  assert (Hn : nan_free g0 f).
  { intros p Hp. rewrite Hsize in *. apply (all_points_ok _ _ Hv) in Hp. rewrite forallb_forall in T. apply eqb_prop. apply T. assumption. }
  assert (Hs : solid_inside g0 f) by (intros p Hp Hl; apply Hmat).
  destruct (fill_represents envIEEE g0 f c10_solver Hv Hn Hs) as (g & calls & Hf & Hsz & _).
  assert (HF : filled g (fun p => le0 envIEEE (sample g0 f p))) by (apply (filled_by g0 f _ _ _ Hv Hn Hs Hf)).
  assert (Hle : size <= g_size g) by (rewrite Hsz, Hsize; apply Z.le_refl).
  destruct (C33_mdc_sizes envIEEE Z size (f64 1 0)) as [(_ & t0 & N & _)|[X _]]; [|contradiction].
  pose proof (mdc_reached_new count_ops size (f64 1 0) t0 N) as R.
  destruct (C39_build envIEEE Z Z count_ops size None t0 g _ 0 R HF Hle) as (t & sol' & Hb).
  pose proof (mdc_reached_build count_ops size _ _ _ _ _ _ _ R HF Hle Hb) as R'.
  destruct (C39_contour envIEEE Z Z count_ops size _ t eps R') as (t' & m & Hm & Hval).
  exists g, t, t', m. auto.
Qed.

Example mdc_big_ex : exists (g : ugrid envIEEE) solid t t' m, mdc_reached count_ops 4 (Some (g, solid)) t /\ @mdc_contour envIEEE Z (f32 72 0) t = Ret (t', m) /\ mesh_valid m.
Proof.
  destruct (mdc_example 4 big_field grid4 (f32 72 0)) as (g & t & t' & m & H).
  - exists 2. split; [split; discriminate|reflexivity].
  - reflexivity.
  - exists 2%nat. reflexivity.
  - vm_compute. reflexivity.
  - intros a b. discriminate.
  - exists g, (fun p => le0 envIEEE (sample grid4 big_field p)), t, t', m. exact H.
Qed.

(* The border of the root cube is empty for the small ball. *)
Example C40_watertight_ex : exists (g : ugrid envIEEE) solid t t' m, mdc_reached count_ops 2 (Some (g, solid)) t /\ @mdc_contour envIEEE Z (f32 0 0) t = Ret (t', m) /\ mesh_valid m /\ solid (V3 0 0 0) = true /\ forall e c c', In c (cells_around (fst e) (snd e)) -> In c' (cells_around (fst e) (snd e)) ->
     in_cube (dc_min_corner 2) (root_level 2) c -> ~ in_cube (dc_min_corner 2) (root_level 2) c' -> edge_crosses solid e = false.
Proof.
  assert (Hv : valid_size (g_size c53_grid)) by (exists 1; split; [split; discriminate|reflexivity]).
  destruct (mdc_example 2 ball_field c53_grid (f32 0 0) Hv eq_refl) as (g & t & t' & m & H1 & H2 & H3).
  - exists 1%nat. reflexivity.
  - vm_compute. reflexivity.
  - intros a b. discriminate.
  - set (solid := fun p => le0 envIEEE (sample c53_grid ball_field p)) in *. exists g, solid, t, t', m. split; [exact H1|]. split; [exact H2|]. split; [exact H3|].
    split; [vm_compute; reflexivity|]. clear -Hv.
    assert (T : forallb (fun p => veqb p (V3 0 0 0) || negb (solid p)) (all_points 2) = true) by (vm_compute; reflexivity).
    assert (Hout : forall p, vertex_in 2 p -> p <> V3 0 0 0 -> solid p = false).
    { intros p Hp Hne. apply (all_points_ok 2 p Hv) in Hp. rewrite forallb_forall in T. specialize (T p Hp). apply orb_true_iff in T as [T|T].
      - exfalso. apply Hne. unfold veqb in T. destruct p as [x y z]. cbn [vx vy vz] in T. apply V3_eq; cbn [vx vy vz]; lia.
      - apply negb_true_iff. exact T. }
    intros [d [x y z]] c c' Hc Hc' Hin Hnin. change (dc_min_corner 2) with (V3 (-1) (-1) (-1)) in *. change (root_level 2) with 1%nat in *.
    unfold in_cube in Hin, Hnin. change (edge_len 1) with 2 in *. cbn [vx vy vz fst snd] in *.
    unfold edge_crosses. cbn [fst snd]. rewrite (Hout (V3 x y z)), (Hout (vadd (V3 x y z) (unit_vec d))); [reflexivity| | | |];
      unfold vertex_in, vadd; cbn [vx vy vz]; try (intro X; injection X as X1 X2 X3); destruct d; unfold cells_around, vsub, vadd in Hc, Hc'; cbn [unit_vec next_axis vx vy vz In] in *;
      decompose [or] Hc; try contradiction; subst c; decompose [or] Hc'; try contradiction; subst c'; cbn [vx vy vz] in *; lia.
Qed.

Example C58_ex : two_holes holes_field (V3 0 0 0) = true /\ two_holes (fun p => veqb p (V3 0 0 0)) (V3 0 0 0) = false /\ (* opposite solid corners have their own vertices *)
  sheet (fun p => negb (holes_field p)) (V3 0 0 0) (AX, V3 0 0 0) <> sheet (fun p => negb (holes_field p)) (V3 0 0 0) (AX, V3 0 1 1).
Proof. split; [reflexivity|]. split; [reflexivity|]. discriminate. Qed.
