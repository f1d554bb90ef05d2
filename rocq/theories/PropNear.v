(* Meshes stay close to the surface and miss no part of it that the samples show, in exact arithmetic: C77 *)
From Coq Require Import ZArith List Bool Lia Reals Lra Psatz Permutation.
From Verif Require Import LoopLemmas Arith RealArith MeshModel MeshSpec MaterialFilterModel GridModel GridSpec EdgeModel EdgeSpec FillModel FillSpec FillProofs ZeroModel ZeroReal
  CellSpec CellTables DualSpec MCModel MCProofs UdcModel UdcProofs QefModel QefSpec QefLin QefProofs SolverModel
  DualProofs PropFill PropFillNum PropZero PropMC PropUdc DcModel OctreeModel OctreeSpec OctreeSums OctreeProofs OctreeFlux DcSpec DcBuild DcQef DcContour PropDc PropQef PropQefSolve PropDcQef PropFlat PropPlane
  MdcModel MdcSpec MdcTables MdcLeaf MdcTrav MdcForest MdcContour PropMdc MdcQef PropMdcQef Base.
Import ListNotations.
Local Open Scope R_scope.

(* Squared distance of two points given in the coordinates of the grid, measured in space. *)
Definition apart (g : ugrid envR) (a b : vec3 R) : R :=
  let a := global g a in let b := global g b in norm2 (V3 (vx a - vx b) (vy a - vy b) (vz a - vz b)).

Lemma sqr_le : forall x y, Rabs x <= y -> sqr x <= y * y.
Proof. intros x y H. unfold sqr. rewrite <- (Rabs_pos_eq (x * x)), Rabs_mult by nra. pose proof (Rabs_pos x). nra. Qed.

Lemma apart_eq : forall (g : ugrid envR) a b, apart g a b = (g_step g * g_step g) * (sqr (vx a - vx b) + sqr (vy a - vy b) + sqr (vz a - vz b)).
Proof.
  intros g a b. unfold apart, norm2, sqr, global, local_to_global, vadd3, vscale3. cbn [fp_d fp_D envR arithR a_add a_mul vx vy vz]. change (fp_D envR) with R. ring.
Qed.

(* Points of one cube of [n] levels. *)
Lemma cube_apart : forall (g : ugrid envR) q n a b, point_in_cube q n a -> point_in_cube q n b ->
  apart g a b <= 3 * ((IZR (edge_len n) * g_step g) * (IZR (edge_len n) * g_step g)).
Proof.
  intros g q n a b Ha Hb. rewrite apart_eq. set (L := IZR (edge_len n)).
  assert (H : forall d, sqr (vget d a - vget d b) <= L * L).
  { intro d. apply sqr_le. specialize (Ha d). specialize (Hb d). rewrite plus_IZR in Ha, Hb. fold L in Ha, Hb. apply Rabs_le. lra. }
  pose proof (H AX) as H1. pose proof (H AY) as H2. pose proof (H AZ) as H3. cbn [vget] in *. clear H Ha Hb.
  generalize dependent (sqr (vx a - vx b)). generalize dependent (sqr (vy a - vy b)). generalize dependent (sqr (vz a - vz b)). intros z Hz y Hy x Hx.
  change (fp_D envR) with R in *. generalize (g_step g). intro s. assert (0 <= s * s) by nra. nra.
Qed.

Lemma edge_apart : forall (g : ugrid envR) d p s t, 0 <= s <= 1 -> 0 <= t <= 1 -> apart g (edge_point d p s) (edge_point d p t) <= g_step g * g_step g.
Proof.
  intros g d p s t Hs Ht. rewrite apart_eq.
  assert (H : sqr (vx (edge_point d p s) - vx (edge_point d p t)) + sqr (vy (edge_point d p s) - vy (edge_point d p t)) + sqr (vz (edge_point d p s) - vz (edge_point d p t)) <= 1).
  { unfold edge_point, sqr. cbn [vx vy vz]. assert (- 1 <= s - t <= 1) by lra. destruct d; cbn [unit_vec vx vy vz]; nra. }
  generalize dependent (sqr (vx (edge_point d p s) - vx (edge_point d p t)) + sqr (vy (edge_point d p s) - vy (edge_point d p t)) + sqr (vz (edge_point d p s) - vz (edge_point d p t))).
  change (fp_D envR) with R in *. generalize (g_step g). intros r x Hx. assert (0 <= r * r) by nra. nra.
Qed.

(* Continuity along the lines parallel to the axes is enough for a zero between two points of different sign on such a line. *)
Section Zeros.
Variable g0 : ugrid envR.
Variable f : field envR.
Hypothesis Hv : valid_size (g_size g0).
Hypothesis Hcont : forall d p c0 c1, continuous_between (along f d p) c0 c1.
Notation inside := (fun p => le0 envR (sample g0 f p)).

Lemma edge_point_0 : forall d p, edge_point d p 0 = vofZ3 arithR p.
Proof. intros d [x y z]. unfold edge_point, vofZ3. cbn [vx vy vz arithR a_ofZ]. f_equal; ring. Qed.
Lemma edge_point_L : forall d p L, edge_point d p (IZR L) = vofZ3 arithR (vadd p (vscale L (unit_vec d))).
Proof. intros d [x y z] L. unfold edge_point, vofZ3, vadd, vscale. cbn [vx vy vz arithR a_ofZ]. rewrite !plus_IZR, !mult_IZR. reflexivity. Qed.

Lemma line_zero : forall d p L, (0 <= L)%Z -> vertex_in (g_size g0) p -> vertex_in (g_size g0) (vadd p (vscale L (unit_vec d))) ->
  inside p <> inside (vadd p (vscale L (unit_vec d))) -> exists s, 0 <= s <= IZR L /\ fl_value f (global g0 (edge_point d p s)) = 0.
Proof.
  intros d p L HL H1 H2 H. set (F := fun s => fl_value f (global g0 (edge_point d p s))).
  set (st := global g0 (vofZ3 arithR p)).
  assert (E : forall s, F s = along f d st (vget d st + s * g_step g0)) by (intro s; unfold F; rewrite global_edge, along_vset; reflexivity).
  assert (V0 : F 0 = sample g0 f p).
  { unfold F, sample. rewrite edge_point_0, sample_posR by assumption. reflexivity. }
  assert (VL : F (IZR L) = sample g0 f (vadd p (vscale L (unit_vec d)))).
  { unfold F, sample. rewrite edge_point_L, sample_posR by assumption. reflexivity. }
  assert (Sg : F 0 * F (IZR L) <= 0).
  { cbv beta in H. rewrite <- V0 in H. rewrite <- VL in H. unfold le0 in H. cbn [envR fp_d fp_D arithR a_le a_ofZ] in H.
    change (fp_D envR) with R in *. destruct (Rleb (F 0) 0) eqn:X, (Rleb (F (IZR L)) 0) eqn:Y; try congruence.
    - apply Rleb_iff in X. apply Rleb_false in Y. nra.
    - apply Rleb_iff in Y. apply Rleb_false in X. nra. }
  assert (C : continuous_between F 0 (IZR L)).
  { intros x _. assert (D : continuity_pt (comp (along f d st) (fun s => vget d st + s * g_step g0)) x).
    { apply continuity_pt_comp.
      - apply continuity_pt_plus; [apply continuity_pt_const; intros u v; reflexivity|]. apply continuity_pt_mult; [apply derivable_continuous_pt, derivable_pt_id|apply continuity_pt_const; intros u v; reflexivity].
      - apply (Hcont d st (vget d st + x * g_step g0) (vget d st + x * g_step g0)). unfold between. lra. }
    eapply (continuity_pt_locally_ext _ F 1); [lra| |exact D]. intros s _. unfold comp. symmetry. apply E. }
  destruct (zero_exists F 0 (IZR L) C Sg) as (s & Hb & Hz). exists s. split; [|exact Hz].
  apply IZR_le in HL. unfold between in Hb. lra.
Qed.
End Zeros.

Lemma corners_cross : forall (S : ivec3 -> bool) i, (0 <= i < 12)%Z ->
  crossing [S (corner_offset 0); S (corner_offset 1); S (corner_offset 2); S (corner_offset 3); S (corner_offset 4); S (corner_offset 5); S (corner_offset 6); S (corner_offset 7)] i = true ->
  S (snd (local_edge i)) <> S (vadd (snd (local_edge i)) (unit_vec (fst (local_edge i)))).
Proof.
  intros S i Hi Hc X.
  assert (D : (i = 0 \/ i = 1 \/ i = 2 \/ i = 3 \/ i = 4 \/ i = 5 \/ i = 6 \/ i = 7 \/ i = 8 \/ i = 9 \/ i = 10 \/ i = 11)%Z) by lia.
  unfold crossing in Hc. enough (Y : xorb (S (snd (local_edge i))) (S (vadd (snd (local_edge i)) (unit_vec (fst (local_edge i))))) = true) by (rewrite X, xorb_nilpotent in Y; discriminate).
  rewrite <- Hc. clear Hc X Hi. decompose [or] D; subst i; reflexivity.
Qed.

Section Zeros2.
Variable g0 : ugrid envR.
Variable f : field envR.
Hypothesis Hv : valid_size (g_size g0).
Hypothesis Hcont : forall d p c0 c1, continuous_between (along f d p) c0 c1.
Notation inside := (fun p => le0 envR (sample g0 f p)).

Lemma vscale_1 : forall v : ivec3, vscale 1 v = v.
Proof. intros [x y z]. unfold vscale. cbn [vx vy vz]. f_equal; lia. Qed.

Lemma crossing_zero : forall d p, edge_in (g_size g0) d p -> edge_crosses inside (d, p) = true -> exists s, 0 <= s <= 1 /\ fl_value f (global g0 (edge_point d p s)) = 0.
Proof.
  intros d p He Hc. apply (line_zero g0 f Hv Hcont d p 1); [lia|apply He; left; reflexivity|rewrite vscale_1; apply He; right; left; reflexivity|].
  rewrite vscale_1. unfold edge_crosses in Hc. cbn [fst snd] in Hc. cbv beta in *. intro X. rewrite X, xorb_nilpotent in Hc. discriminate.
Qed.

(* A cube with corners of both kinds contains a zero. *)
Lemma mixed_zero : forall q n, cube_in_grid (g_size g0) q n -> mixed inside q n = true -> exists z, point_in_cube q n z /\ fl_value f (global g0 z) = 0.
Proof.
  intros q n Hg Hx. unfold mixed in Hx. apply negb_true_iff in Hx. unfold cube_corners in Hx.
  change (zseq 0 8) with [0; 1; 2; 3; 4; 5; 6; 7]%Z in Hx. cbn [map] in Hx. rewrite kind_crossing in Hx.
  destruct (DualProofs.forallb_neg _ _ _ Hx) as (i & Hi & Hc). apply negb_false_iff in Hc. clear Hx.
  pose proof (edge_len_pos n) as HL.
  assert (Hin : forall o, (0 <= vx o <= 1 -> 0 <= vy o <= 1 -> 0 <= vz o <= 1 -> vertex_in (g_size g0) (vadd q (vscale (edge_len n) o)))%Z).
  { intros o H1 H2 H3. apply Hg. unfold in_closed_cube, vadd, vscale. cbn [vx vy vz]. nia. }
  assert (K : exists d o, (0 <= vx o <= 1 /\ 0 <= vy o <= 1 /\ 0 <= vz o <= 1)%Z /\ vget d o = 0%Z /\
    inside (vadd q (vscale (edge_len n) o)) <> inside (vadd q (vscale (edge_len n) (vadd o (unit_vec d))))).
  { apply in_zseq in Hi. unfold crossing in Hc.
    assert (D : (i = 0 \/ i = 1 \/ i = 2 \/ i = 3 \/ i = 4 \/ i = 5 \/ i = 6 \/ i = 7 \/ i = 8 \/ i = 9 \/ i = 10 \/ i = 11)%Z) by lia.
    exists (fst (local_edge i)), (snd (local_edge i)).
    split; [|split; [|apply (corners_cross (fun o => inside (vadd q (vscale (edge_len n) o)))); [cbn in Hi; lia|exact Hc]]]; decompose [or] D; subst i; vm_compute; repeat split; discriminate. }
  destruct K as (d & o & (O1 & O2 & O3) & O4 & K).
  assert (P : vadd q (vscale (edge_len n) (vadd o (unit_vec d))) = vadd (vadd q (vscale (edge_len n) o)) (vscale (edge_len n) (unit_vec d))).
  { unfold vadd, vscale. cbn [vx vy vz]. f_equal; lia. }
  rewrite P in K.
  destruct (line_zero g0 f Hv Hcont d (vadd q (vscale (edge_len n) o)) (edge_len n)) as (s & Hs & Hz); [lia|apply Hin; assumption| |exact K|].
  { rewrite <- P. apply Hin; destruct d, o; cbn in *; lia. }
  exists (edge_point d (vadd q (vscale (edge_len n) o)) s). split; [|exact Hz].
  intro a. rewrite plus_IZR. set (L := edge_len n) in *. clearbody L. clear - Hs HL O1 O2 O3 O4.
  assert (HL' : 0 <= IZR L) by (apply IZR_le; lia).
  assert (W : forall b, vget b (edge_point d (vadd q (vscale L o)) s) = IZR (vget b q) + (IZR L * IZR (vget b o) + s * IZR (vget b (unit_vec d)))).
  { intros []; unfold edge_point, vadd, vscale; cbn [vget vx vy vz]; rewrite plus_IZR, mult_IZR; ring. }
  rewrite W.
  assert (B : 0 <= IZR L * IZR (vget a o) + s * IZR (vget a (unit_vec d)) <= IZR L); [|lra].
  assert (U : (vget a o = 0 \/ vget a o = 1)%Z) by (destruct a; cbn [vget]; lia).
  destruct (Z.eq_dec (vget a (unit_vec d)) 0) as [Y|Y].
  - rewrite Y. destruct U as [-> | ->]; lra.
  - assert (a = d) by (destruct a, d; cbn in Y; congruence). subst a. rewrite O4. replace (vget d (unit_vec d)) with 1%Z by (destruct d; reflexivity). lra.
Qed.

(* Points of an edge are points of the cells at the edge. *)
Lemma edge_point_cell : forall q i d p s, (0 <= i < 12)%Z -> cell_edge q i = (d, p) -> 0 <= s <= 1 -> point_in_cube q 0 (edge_point d p s).
Proof.
  intros q i d p s Hi He Hs a. destruct (cell_edge_range q i d p Hi He a) as [R1 R2]. change (edge_len 0) with 1%Z.
  apply IZR_le in R1, R2. rewrite !plus_IZR in R2. rewrite !plus_IZR.
  assert (0 <= s * IZR (vget a (unit_vec d)) <= IZR (vget a (unit_vec d))) by (destruct d, a; cbn; lra).
  unfold edge_point. destruct a; cbn [vget vx vy vz] in *; lra.
Qed.
Lemma point_sub : forall q n c z, OctreeSpec.in_cube q n c -> point_in_cube c 0 z -> point_in_cube q n z.
Proof.
  intros q n c z Hc Hz d. specialize (Hz d). change (edge_len 0) with 1%Z in Hz.
  assert (B : (vget d q <= vget d c /\ vget d c + 1 <= vget d q + edge_len n)%Z) by (destruct Hc as (? & ? & ?), d; cbn [vget]; lia).
  destruct B as [B1 B2]. apply IZR_le in B1, B2. lra.
Qed.

(* Every edge that the filled grid stores has a zero. *)
Lemma stored_has_zero : forall zf g calls d e, g_step g0 <> 0 -> fill g0 f zf = Ret (g, calls) -> In e (g_edges d g) ->
  exists s, 0 <= s <= 1 /\ fl_value f (global g0 (edge_point d (lesser_endpoint e) s)) = 0.
Proof.
  intros zf g calls d e Hs Hf He.
  destruct (stored_zero g0 f zf g calls d e Hv Hs Hf He) as (c & mat & Hca & Hax & Hed & _ & Hst & _).
  destruct (C10_exact _ _ _ _ _ _ Hv Hf Hca) as (E0 & E1 & E2 & Hsg & _). rewrite Hax in *.
  assert (Sg : along f d (zc_start c) (vget d (zc_start c)) * along f d (zc_start c) (zc_end c) <= 0) by (rewrite !along_vset, vset_self, <- E1, <- E0; exact Hsg).
  destruct (zero_exists _ _ _ (Hcont d (zc_start c) _ _) Sg) as (z & Hb & Hz). rewrite E2 in Hb.
  exists ((z - vget d (zc_start c)) / g_step g0). split; [apply on_edge; assumption|].
  rewrite global_edge, <- Hst. rewrite along_vset in Hz. rewrite <- Hz. do 2 f_equal. change (fp_D envR) with R. field. exact Hs.
Qed.
End Zeros2.

(* ---- marching cubes ---- *)
(* Vertices are points of sign-changing edges, and every sign-changing edge of the grid has a vertex.  The answers of
   the zero finder lie between the ends of the edges. *)
Theorem C77_mc : forall (g0 : ugrid envR) f zf sort g calls m,
  valid_size (g_size g0) -> g_step g0 <> 0 -> solid_inside g0 f -> sorts entry_less sort ->
  (forall d p c0 c1, continuous_between (along f d p) c0 c1) ->
  fill g0 f zf = Ret (g, calls) -> marching_cubes sort g = Ret m ->
  (forall c, In c calls -> between (vget (zc_axis c) (zc_start c)) (zc_end c) (zf c f)) ->
  (forall v, In v (m_verts m) -> exists z, fl_value f (global g0 z) = 0 /\ apart g0 (mv_pos v) z <= g_step g0 * g_step g0) /\
  (forall d p, edge_in (g_size g0) d p -> edge_crosses (fun p => le0 envR (sample g0 f p)) (d, p) = true ->
     exists v, In v (m_verts m) /\ forall s, 0 <= s <= 1 -> apart g0 (mv_pos v) (edge_point d p s) <= g_step g0 * g_step g0).
Proof.
  intros g0 f zf sort g calls m Hv Hs Hsol Hsort Hc Hf Hm Hzf.
  destruct (C13_valid _ _ _ zf _ Hv (nan_freeR g0 f) Hsol Hsort) as (g' & calls' & m' & Hf' & Hm' & ts & Ht).
  rewrite Hf in Hf'. injection Hf' as <- <-. rewrite Hm in Hm'. injection Hm' as <-.
  destruct (C14_vertices _ _ _ _ _ _ _ _ _ Hv (nan_freeR g0 f) Hsol Hsort Hf Hm Ht) as [Hvs _].
  assert (P : forall d e, In e (g_edges d g) -> exists s, 0 <= s <= 1 /\ surface_point envR e = edge_point d (lesser_endpoint e) s).
  { intros d e He. destruct (stored_zero g0 f _ g calls d e Hv Hs Hf He) as (c & mat & Hca & Hax & _ & _ & Hst & _ & Hmk).
    destruct (C10_exact _ _ _ _ _ _ Hv Hf Hca) as (_ & _ & E2 & _). pose proof (Hzf c Hca) as B. rewrite Hax in *. rewrite E2 in B.
    destruct (C12_point_on_edge _ _ _ _ (zf c f) (vget d (zc_start c)) (g_step g0) d _ _ e Hs Hmk) as (t & T1 & T2); [|exists t; split; [exact T1|exact T2]].
    unfold between in B. destruct B as [B|B]; [rewrite Rmin_left, Rmax_right by lra|rewrite Rmin_right, Rmax_left by lra]; exact B. }
  split.
  - intros v Hin. rewrite Hvs in Hin. apply in_map_iff in Hin as (e & <- & He). cbn [mv_pos].
    assert (Hd : exists d, In e (g_edges d g)) by (unfold stored_edges in He; rewrite !in_app_iff in He; destruct He as [He|[He|He]]; eauto).
    destruct Hd as (d & Hd). destruct (P d e Hd) as (s & S1 & S2). destruct (stored_has_zero g0 f Hv Hc zf g calls d e Hs Hf Hd) as (t & T1 & T2).
    exists (edge_point d (lesser_endpoint e) t). split; [exact T2|]. change (fp_F envR) with R in *. rewrite S2. apply edge_apart; assumption.
  - intros d p Hed Hcr. destruct (filled_edges _ _ _ _ _ _ Hv Hf) as [Hsz Hr]. rewrite <- Hsz in Hed.
    destruct (crossing_stored g _ Hr d p Hed Hcr) as (e & He & Hk). change (In e (stored_edges g)) in He.
    eexists. split; [rewrite Hvs; apply in_map; exact He|]. cbn [mv_pos]. intros s Hs1.
    assert (Hd : exists d', In e (g_edges d' g)) by (unfold stored_edges in He; rewrite !in_app_iff in He; destruct He as [He|[He|He]]; eauto).
    destruct Hd as (d' & Hd). destruct (P d' e Hd) as (t & T1 & T2).
    destruct (stored_zero g0 f _ g calls d' e Hv Hs Hf Hd) as (c & mat & _ & _ & _ & Hk' & _). rewrite Hk in Hk'. injection Hk' as -> ->.
    change (fp_F envR) with R in *. rewrite T2. apply edge_apart; assumption.
Qed.
Print Assumptions C77_mc.

(* ---- uniform dual contouring ---- *)
Theorem C77_udc : forall hypot copysign msin mcos matan tune (g0 : ugrid envR) f zf sort g calls m,
  valid_size (g_size g0) -> sorts dc_less sort -> (forall d p c0 c1, continuous_between (along f d p) c0 c1) ->
  fill g0 f zf = Ret (g, calls) ->
  @dual_contouring envR sort (solver3_cell arithR least_normal hypot copysign msin mcos matan tune) g = Ret m ->
  (forall v, In v (m_verts m) -> exists q z, cell_in (g_size g0) q /\ point_in_cube q 0 (mv_pos v) /\ point_in_cube q 0 z /\
     fl_value f (global g0 z) = 0 /\ apart g0 (mv_pos v) z <= 3 * (g_step g0 * g_step g0)) /\
  (forall d p q, cell_in (g_size g0) q -> In q (cells_around d p) -> edge_crosses (fun p => le0 envR (sample g0 f p)) (d, p) = true ->
     exists v, In v (m_verts m) /\ point_in_cube q 0 (mv_pos v) /\
       forall s, 0 <= s <= 1 -> apart g0 (mv_pos v) (edge_point d p s) <= 3 * (g_step g0 * g_step g0)).
Proof.
  intros hypot copysign msin mcos matan tune g0 f zf sort g calls m Hv Hsort Hc Hf Hm.
  destruct (udc_hypotheses_met _ _ _ _ _ _ Hv Hf) as (qs & _ & _ & Hqs & _).
  pose proof (C72_exact _ _ _ _ _ _ _ _ _ _ _ _ _ _ Hv Hsort Hf Hm Hqs) as F. destruct Hqs as [_ Hqs].
  assert (Box : forall q v, PropUdc.in_cube q v -> point_in_cube q 0 v).
  { intros q v H d. specialize (H d). change (edge_len 0) with 1%Z. rewrite plus_IZR. destruct d; cbn in H |- *; lra. }
  assert (One : forall q a b, point_in_cube q 0 a -> point_in_cube q 0 b -> apart g0 a b <= 3 * (g_step g0 * g_step g0)).
  { intros q a b Ha Hb. pose proof (cube_apart g0 q 0 a b Ha Hb) as X. change (edge_len 0) with 1%Z in X. rewrite Rmult_1_l in X. exact X. }
  split.
  - intros v Hin. destruct (Forall2_in_r _ _ _ _ _ _ F Hin) as (q & Hq & Hb). apply Box in Hb. apply Hqs in Hq as (Hcell & i & Hi & Hcr).
    destruct (cell_edge q i) as [d p] eqn:He. 
    assert (Hed : edge_in (g_size g0) d p).
    { assert (Hq : In q (cells_around d p)) by (apply cells_around_cell_edge; eauto).
      pose proof (cell_edge_range q i d p Hi He) as Rg. intros x Hx. unfold edge_corners in Hx. unfold cell_in, element_in in Hcell.
      assert (G : forall y : ivec3, (forall a, vget a q <= vget a y <= vget a q + 1)%Z -> vertex_in (g_size g0) y).
      { intros y Hy. pose proof (Hcell (vadd q (V3 0 0 0)%Z) (or_introl eq_refl)) as C0.
        pose proof (Hcell (vadd q (V3 1 1 1)%Z) ltac:(unfold cell_corners; cbn [In]; tauto)) as C7.
        pose proof (Hy AX). pose proof (Hy AY). pose proof (Hy AZ). unfold vertex_in, vadd in *. cbn [vx vy vz vget] in *. lia. }
      apply G. intro a. destruct (Rg a) as [R1 R2]. assert (0 <= vget a (unit_vec d))%Z by (destruct d, a; cbn; lia).
      destruct Hx as [<-|[<-|[]]]; [lia|]. replace (vget a (vadd p (unit_vec d))) with (vget a p + vget a (unit_vec d))%Z by (destruct a; reflexivity). lia. }
    destruct (crossing_zero g0 f Hv Hc d p Hed Hcr) as (s & S1 & S2).
    pose proof (edge_point_cell q i d p s Hi He S1) as S3.
    exists q, (edge_point d p s). split; [exact Hcell|]. split; [exact Hb|]. split; [exact S3|]. split; [exact S2|]. exact (One q _ _ Hb S3).
  - intros d p q Hcell Hq Hcr. apply cells_around_cell_edge in Hq as (i & Hi & He).
    assert (Hin : In q qs) by (apply Hqs; split; [exact Hcell|exists i; rewrite He; auto]).
    destruct (Forall2_in_l _ _ _ _ _ _ F Hin) as (v & Hvin & Hb). apply Box in Hb.
    exists v. split; [exact Hvin|]. split; [exact Hb|]. intros s Hs. apply (One q); [exact Hb|]. apply (edge_point_cell q i); assumption.
Qed.
Print Assumptions C77_udc.

(* ---- dual contouring ---- *)
Theorem C77_dc : forall hypot copysign msin mcos matan tune (g0 : ugrid envR) f zf g calls size t (eps : R) simplify sol t1 sol1 t2 m,
  let ops : qef_ops (fp_F envR) (solver R) (qstate R) := solver3_ops arithR least_normal hypot copysign msin mcos matan tune in
  valid_size (g_size g0) -> solid_inside g0 f -> (forall d p c0 c1, continuous_between (along f d p) c0 c1) ->
  fill g0 f zf = Ret (g, calls) -> (size <= g_size g0)%Z ->
  dc_reached ops size t -> dc_build ops g eps simplify t sol = Ret (t1, sol1) -> dc_contour t1 = Ret (t2, m) ->
  (forall v, In v (m_verts m) -> exists q n z, subcube q n (dc_min_corner size) (root_level size) /\ (simplify = false -> n = O) /\
     point_in_cube q n (mv_pos v) /\ point_in_cube q n z /\ fl_value f (global g0 z) = 0 /\
     apart g0 (mv_pos v) z <= 3 * ((IZR (edge_len n) * g_step g0) * (IZR (edge_len n) * g_step g0))) /\
  (forall d p c, OctreeSpec.in_cube (dc_min_corner size) (root_level size) c -> In c (cells_around d p) -> edge_crosses (fun p => le0 envR (sample g0 f p)) (d, p) = true ->
     exists v q n, In v (m_verts m) /\ subcube q n (dc_min_corner size) (root_level size) /\ (simplify = false -> n = O) /\
       OctreeSpec.in_cube q n c /\ point_in_cube q n (mv_pos v) /\
       forall s, 0 <= s <= 1 -> apart g0 (mv_pos v) (edge_point d p s) <= 3 * ((IZR (edge_len n) * g_step g0) * (IZR (edge_len n) * g_step g0))).
Proof.
  intros hypot copysign msin mcos matan tune g0 f zf g calls size t eps simplify sol t1 sol1 t2 m ops Hv Hsol Hc Hf Hsize Hreach Hb Hm.
  pose proof (filled_by g0 f _ _ _ Hv (nan_freeR g0 f) Hsol Hf) as HF.
  destruct (filled_represents _ _ _ _ _ _ Hv (nan_freeR g0 f) Hsol Hf) as [Hsz _].
  assert (Hsize' : (size <= g_size g)%Z) by (rewrite Hsz; exact Hsize).
  assert (Box : forall sol0 sol2 q n v, qo_solve ops sol0 (cube_low q) (cube_high q n) = (sol2, v) -> point_in_cube q n v).
  { intros s0 s1 q n v X. unfold ops in X. cbn [solver3_ops qo_solve] in X. unfold s3_solve in X.
    pose proof (C31_box hypot copysign msin mcos matan 3 tune s0 (fvec_of (cube_low (E := envR) q)) (fvec_of (cube_high (E := envR) q n))) as B.
    destruct (solve _ _ _ _ _ _ _ _ _ _ _ _) as [z s']. injection X as _ X. cbn [fst] in B.
    assert (HB : forall c, fvec_of (cube_low (E := envR) q) c <= fvec_of (cube_high (E := envR) q n) c).
    { pose proof (edge_len_pos n) as He. intro c. unfold cube_low, cube_high, vofZ3. destruct c as [|[|c]]; cbn [fvec_of vx vy vz envR fp_f arithR a_ofZ]; apply IZR_le; lia. }
    specialize (B HB). subst v. intro d. destruct d; [exact (B 0%nat)|exact (B 1%nat)|exact (B 2%nat)]. }
  split.
  - intros v Hin.
    destruct (contour_leaf envR _ _ ops _ _ _ _ _ _ _ _ _ _ _ Hreach HF Hsize' Hb Hm v Hin) as (q & n & nrm & s & Hsub & Hx & Hg & Hk & V4 & Hnrm & Hfine).
    destruct (measured_solve _ _ _ _ _ _ _ _ _ _ _ _ V4) as (s0 & s1 & X). apply Box in X. rewrite Hsz in Hg.
    destruct (mixed_zero g0 f Hv Hc q n Hg Hx) as (z & Z1 & Z2).
    exists q, n, z. split; [exact Hsub|]. split; [exact Hfine|]. split; [exact X|]. split; [exact Z1|]. split; [exact Z2|]. exact (cube_apart g0 q n _ _ X Z1).
  - intros d p c Hcin Hca Hcr. apply cells_around_cell_edge in Hca as (i & Hi & He).
    destruct (contour_reached _ _ _ _ _ _ _ _ _ _ _ _ _ Hreach HF Hsize' Hb) as (_ & t2' & m' & ts' & Hm' & _ & Hnb & _).
    rewrite Hm in Hm'. injection Hm' as <- <-.
    destruct (leaf_at_ok _ _ _ _ _ _ _ Hnb Hcin) as (l & q & n & _ & Hl & Hin & Hsub).
    pose proof (nb_leaf _ _ _ _ _ _ _ _ _ _ Hl) as Hk.
    pose proof (cell_edge_range c i d p Hi He) as Rg.
    assert (Hcl : forall y : ivec3, (forall a, vget a c <= vget a y <= vget a c + 1)%Z -> in_closed_cube q n y).
    { intros y Hy. pose proof (Hy AX). pose proof (Hy AY). pose proof (Hy AZ). cbn [vget] in *. unfold OctreeSpec.in_cube in Hin. unfold in_closed_cube. lia. }
    assert (U1 : (0 <= vget AX (unit_vec d) /\ 0 <= vget AY (unit_vec d) /\ 0 <= vget AZ (unit_vec d))%Z) by (destruct d; cbn; lia).
    assert (P0 : in_closed_cube q n p) by (apply Hcl; intro a; specialize (Rg a); destruct a, U1 as (? & ? & ?); lia).
    assert (P1 : in_closed_cube q n (vadd p (unit_vec d))) by (apply Hcl; intro a; specialize (Rg a); destruct a, U1 as (? & ? & ?), p; cbn in *; lia).
    assert (Hmix : mixed (fun p => le0 envR (sample g0 f p)) q n = true).
    { destruct (mixed _ q n) eqn:Y; [reflexivity|]. destruct (lk_uniform _ _ _ _ _ _ _ _ _ Hk Y) as (b & U).
      unfold edge_crosses in Hcr. cbn [fst snd] in Hcr. pose proof (U _ P0) as U0. pose proof (U _ P1) as U2. cbv beta in U0, U2, Hcr. rewrite U0, U2, xorb_nilpotent in Hcr. discriminate. }
    destruct (nb_mixed _ _ _ _ _ _ _ _ _ _ Hl Hmix) as (id & v & nrm & _ & V1 & V2 & Z).
    destruct (lk_mixed _ _ _ _ _ _ _ _ _ Hk Hmix) as (v' & nrm' & s & W1 & W2 & W3 & W4). rewrite W1 in V1. injection V1 as ->.
    destruct (measured_solve _ _ _ _ _ _ _ _ _ _ _ _ W4) as (s0 & s1 & X). apply Box in X.
    apply znth_in in Z. eexists _, q, n. split; [exact Z|]. split; [exact Hsub|]. split.
    { intro Es. destruct n as [|n]; [reflexivity|]. exfalso. pose proof (lk_fine _ _ _ _ _ _ _ _ _ Hk Es ltac:(discriminate)) as U. apply uniform_not_mixed in U. congruence. }
    split; [exact Hin|]. cbn [mv_pos]. split; [exact X|]. intros s' Hs'. apply (cube_apart g0 q n); [exact X|]. eapply point_sub; [exact Hin|]. apply (edge_point_cell c i); assumption.
Qed.
Print Assumptions C77_dc.

(* ---- manifold dual contouring ---- *)
Theorem C77_mdc : forall hypot copysign msin mcos matan tune (g0 : ugrid envR) f zf g calls solid size t (eps : R) t' (m : mesh (mvert R)),
  let ops : qef_ops (fp_F envR) (solver R) (qstate R) := solver3_ops arithR least_normal hypot copysign msin mcos matan tune in
  valid_size (g_size g0) -> g_step g0 <> 0 -> solid_inside g0 f -> (forall d p c0 c1, continuous_between (along f d p) c0 c1) ->
  fill g0 f zf = Ret (g, calls) ->
  mdc_reached ops size (Some (g, solid)) t -> @mdc_contour envR (qstate R) eps t = Ret (t', m) ->
  (forall v, In v (m_verts m) -> exists q n z, subcube q n (dc_min_corner size) (root_level size) /\
     point_in_cube q n (mv_pos v) /\ point_in_cube q n z /\ fl_value f (global g0 z) = 0 /\
     apart g0 (mv_pos v) z <= 3 * ((IZR (edge_len n) * g_step g0) * (IZR (edge_len n) * g_step g0))) /\
  (forall d p c, OctreeSpec.in_cube (dc_min_corner size) (root_level size) c -> In c (cells_around d p) -> edge_crosses (fun p => le0 envR (sample g0 f p)) (d, p) = true ->
     exists v q n, In v (m_verts m) /\ subcube q n (dc_min_corner size) (root_level size) /\ OctreeSpec.in_cube q n c /\ point_in_cube q n (mv_pos v) /\
       forall s, 0 <= s <= 1 -> apart g0 (mv_pos v) (edge_point d p s) <= 3 * ((IZR (edge_len n) * g_step g0) * (IZR (edge_len n) * g_step g0))).
Proof.
  intros hypot copysign msin mcos matan tune g0 f zf g calls solid size t eps t' m ops Hv Hs Hsol Hc Hf Hr Hm.
  split.
  - intros w Hin. destruct (in_znth _ _ _ Hin) as (i & Hi).
    destruct (C75_exact hypot copysign msin mcos matan tune _ _ _ _ _ _ _ _ _ Hr Hm Hi) as (q & k & Hsub & Hp & Hq & _).
    destruct (mesh_vertex_node envR _ _ ops _ _ _ _ _ _ _ _ _ Hr Hm Hi) as [G _].
    destruct (C39_numbers _ _ _ _ _ _ _ _ _ _ _ Hr Hm) as [_ N]. destruct (N i w Hi) as (c & s & a & b & [Hcin Ha] & Hb & Hn).
    destruct (gd_leaf _ _ _ _ _ _ _ G c s a Hcin Ha) as (v & V1 & es & mats & sol0 & E1 & E2 & E3 & E4 & E5).
    destruct mats as [|x mats]; [congruence|]. destruct (E4 x (or_introl eq_refl)) as (e & He & _). clear E3 E4 E5.
    assert (Hk : In (edge_key e) (filter (fun e => edge_crosses solid e && (sheet solid c e =? s)%Z)%bool (map (cell_edge c) (zseq 0 12)))) by (rewrite <- E1; apply in_map; exact He).
    apply filter_In in Hk as [Hk Hx]. apply andb_true_iff in Hx as [_ Hx]. apply Z.eqb_eq in Hx. apply in_map_iff in Hk as (j & Hj & Hj2). apply in_zseq in Hj2.
    assert (Hcq : OctreeSpec.in_cube q k c).
    { apply (Hq c (edge_key e) Hcin). unfold mesh_vertex. destruct Hn as (vb & B1 & B2).
      destruct (built_of ops size g solid t' (mdc_reached_contour ops size _ _ _ _ _ Hr Hm)) as [Hz B'].
      assert (Hsz : mo_size t' = size) by (rewrite (bt_size _ _ _ _ _ B'); symmetry; exact Hz).
      rewrite Hsz, Hx. exists a, b, vb. auto. }
    destruct (stored_has_zero g0 f Hv Hc zf g calls _ e Hs Hf (E2 e He)) as (r & R1 & R2).
    assert (Hz : point_in_cube q k (edge_point (fst (edge_key e)) (lesser_endpoint e) r)).
    { eapply point_sub; [exact Hcq|]. apply (edge_point_cell c j); [cbn in Hj2; lia|rewrite Hj; reflexivity|exact R1]. }
    eexists q, k, _. split; [exact Hsub|]. split; [exact Hp|]. split; [exact Hz|]. split; [exact R2|]. exact (cube_apart g0 q k _ _ Hp Hz).
  - intros d p c Hcin Hca Hcr.
    destruct (built_of ops size g solid t Hr) as [Hz B]. pose proof (bt_filled _ _ _ _ _ B) as HF.
    pose proof (filled_by g0 f _ _ _ Hv (nan_freeR g0 f) Hsol Hf) as HF'.
    pose proof Hca as Hca2. apply cells_around_cell_edge in Hca2 as (j & Hj & He).
    assert (Hgrid : cube_in_grid (g_size g) (dc_min_corner size) (root_level size)).
    { pose proof (root_in_grid _ _ (filled_valid g solid HF) (bt_grid _ _ _ _ _ B)) as X. rewrite <- Hz in X. exact X. }
    pose proof (cell_edge_range c j d p Hj He) as Rg.
    assert (Hcl : forall y : ivec3, (forall a, vget a c <= vget a y <= vget a c + 1)%Z -> solid y = le0 envR (sample g0 f y)).
    { intros y Hy. assert (V : vertex_in (g_size g) y).
      { apply Hgrid. pose proof (Hy AX). pose proof (Hy AY). pose proof (Hy AZ). cbn [vget] in *. unfold OctreeSpec.in_cube in Hcin. unfold in_closed_cube. lia. }
      rewrite <- (mat_solid g solid (filled_ok _ _ _ HF) y V). apply (mat_solid g _ (filled_ok _ _ _ HF') y V). }
    assert (U1 : (0 <= vget AX (unit_vec d) /\ 0 <= vget AY (unit_vec d) /\ 0 <= vget AZ (unit_vec d))%Z) by (destruct d; cbn; lia).
    assert (Hcr' : edge_crosses solid (d, p) = true).
    { unfold edge_crosses in *. cbn [fst snd] in *. rewrite !Hcl; [exact Hcr| |].
      - intro a; specialize (Rg a); destruct a, U1 as (? & ? & ?), p; cbn in *; lia.
      - intro a; specialize (Rg a); destruct a, U1 as (? & ? & ?); lia. }
    destruct (C39_vertices _ _ _ _ _ _ _ _ _ _ _ c (d, p) Hr Hm Hcin Hca Hcr') as (a & b & v & i & _ & _ & _ & _ & Hi & Hmv).
    destruct (C75_exact hypot copysign msin mcos matan tune _ _ _ _ _ _ _ _ _ Hr Hm Hi) as (q & k & Hsub & Hp & Hq & _).
    pose proof (Hq c (d, p) Hcin (proj2 (Hmv i) eq_refl)) as Hcq.
    eexists _, q, k. split; [eapply znth_in; exact Hi|]. split; [exact Hsub|]. split; [exact Hcq|]. split; [exact Hp|].
    intros s Hs1. apply (cube_apart g0 q k); [exact Hp|]. eapply point_sub; [exact Hcq|]. apply (edge_point_cell c j); assumption.
Qed.
Print Assumptions C77_mdc.

(* A half space: the field is continuous, a zero finder stays between the ends, and the meshes have vertices. *)
Example C77_mc_ex : (forall d p c0 c1, continuous_between (along half_field d p) c0 c1) /\
  exists g calls m, fill grid4R half_field (bisection 5) = Ret (g, calls) /\ marching_cubes (isort entry_less) g = Ret m /\ m_verts m <> [] /\
  forall c, In c calls -> between (vget (zc_axis c) (zc_start c)) (zc_end c) (bisection 5 c half_field).
Proof.
  destruct half_setup as (Hv & Hs & _ & _ & Hsol & Hc). split; [exact Hc|]. destruct C73_ex as (g & calls & m & Hf & Hm & Hne). exists g, calls, m. do 3 (split; [assumption|]).
  intros c Hca. destruct (C10_exact _ _ _ _ _ _ Hv Hf Hca) as (E0 & E1 & E2 & Hsg & _). destruct c as [d start stop v0 v1]. cbn [zc_axis zc_start zc_end zc_f0 zc_f1] in *. rewrite E0, E1.
  assert (X : fl_value half_field start = along half_field d start (vget d start)) by (rewrite along_vset, vset_self; reflexivity).
  assert (Sg : along half_field d start (vget d start) * along half_field d start stop <= 0) by (rewrite E0, E1 in Hsg; clear X; destruct d, start as [x y z]; exact Hsg).
  pose proof (C24_accuracy half_field d start stop 5 (Hc _ _ _ _) Sg ltac:(lia)) as [A _]. clear X. destruct d, start as [x y z]; exact A.
Qed.
Example C77_udc_ex : forall hypot copysign msin mcos matan tune, exists g calls m, fill grid4R half_field (regula_falsi 5) = Ret (g, calls) /\
  @dual_contouring envR (isort dc_less) (solver3_cell arithR least_normal hypot copysign msin mcos matan tune) g = Ret m /\ m_verts m <> [].
Proof. exact C74_udc_ex. Qed.
Example C77_dc_ex : forall (zf : zero_finder envR) simplify, exists calls t (g : ugrid envR) solid t1 sol1 t2 m, fill grid4R half_field zf = Ret (g, calls) /\
  dc_reached exact_ops 4 t /\ filled g solid /\ (4 <= g_size g)%Z /\ dc_build exact_ops g 1 simplify t (q_new arithR) = Ret (t1, sol1) /\
  dc_contour t1 = Ret (t2, m) /\ m_verts m <> [].
Proof. exact C71_ex. Qed.
Example C77_mdc_ex : forall (zf : zero_finder envR) (eps : R), exists calls (g : ugrid envR) solid t t' m w, fill grid4R half_field zf = Ret (g, calls) /\
  mdc_reached exact_ops 4 (Some (g, solid)) t /\ @mdc_contour envR (qstate R) eps t = Ret (t', m) /\ znth (m_verts m) 0 = Some w.
Proof. exact C75_ex. Qed.
