(* Whole runs, from the field to the mesh, in exact arithmetic: C72, C73, C74 *)
From Coq Require Import ZArith List Bool Lia Reals Lra Permutation.
From Flocq Require Import IEEE754.BinarySingleNaN.
From Verif Require Import LoopLemmas Base Arith RealArith MeshModel MeshSpec GridModel GridSpec EdgeModel EdgeSpec FillModel FillSpec FillProofs ZeroModel ZeroReal
  CellSpec MCModel UdcModel DualSpec OctreeModel OctreeSpec OctreeProofs DcModel DcSpec DcBuild QefModel QefSpec QefLin QefProofs SolverModel
  FloatArith PropFill PropFillNum PropZero PropMC PropUdc PropDc PropQef PropQefSolve PropDcQef.
Import ListNotations.
Import Base.
Local Open Scope R_scope.

(* ---- C72: uniform dual contouring with the QEF solver ---- *)
Lemma cell_box : forall q, vadd3 (fp_f envR) (vofZ3 (fp_f envR) q) (vofZ3 (fp_f envR) (V3 1 1 1)%Z) = V3 (IZR (vx q) + 1) (IZR (vy q) + 1) (IZR (vz q) + 1).
Proof. intros [x y z]. reflexivity. Qed.

Definition position (m : mesh (mvert R)) (k : Z) : vec3 R := match znth (m_verts m) k with Some v => mv_pos v | None => V3 0 0 0 end.

Lemma solver_box : forall hypot copysign msin mcos matan tune planes (lo hi : vec3 R), (forall d, vget d lo <= vget d hi) ->
  forall d, vget d lo <= vget d (solver3_cell arithR least_normal hypot copysign msin mcos matan tune planes lo hi) <= vget d hi.
Proof.
  intros hypot copysign msin mcos matan tune planes lo hi H d. unfold solver3_cell, s3_solve. set (s := fold_left _ _ _).
  assert (B : forall c, fvec_of lo c <= fvec_of hi c).
  { intros c. unfold fvec_of. destruct c as [|[|c]]; [apply (H AX)|apply (H AY)|apply (H AZ)]. }
  pose proof (C31_box hypot copysign msin mcos matan 3 tune s _ _ B) as X.
  destruct (solve _ _ _ _ _ _ _ _ _ _ _ _) as [z s'] in *. cbn [fst] in X. cbn [snd].
  destruct d; [apply (X 0%nat)|apply (X 1%nat)|apply (X 2%nat)].
Qed.

(* Every vertex lies in its cell. *)
Theorem C72_exact : forall hypot copysign msin mcos matan tune (g0 : ugrid envR) f solver sort g calls m qs,
  valid_size (g_size g0) -> sorts dc_less sort -> fill g0 f solver = Ret (g, calls) ->
  @dual_contouring envR sort (solver3_cell arithR least_normal hypot copysign msin mcos matan tune) g = Ret m ->
  surface_cells (g_size g0) (fun p => le0 envR (sample g0 f p)) qs ->
  Forall2 (fun q v => PropUdc.in_cube q (mv_pos v)) qs (m_verts m).
Proof.
  intros hypot copysign msin mcos matan tune g0 f solver sort g calls m qs Hv Hs Hf Hm Hqs.
  pose proof (C16_vertices _ _ _ _ _ _ _ _ _ _ Hv Hs Hf Hm Hqs) as H. revert H. generalize (m_verts m).
  clear Hqs. induction qs as [|q qs IH]; intros vs H; inversion H as [|? v ? vs' H1 H2]; subst; constructor; [|apply IH; assumption].
  destruct H1 as (es & mats & _ & _ & ->). cbn [mv_pos]. rewrite cell_box. intro d.
  pose proof (solver_box hypot copysign msin mcos matan tune (map (fun e => (surface_point envR e, surface_normal envR e)) es)
    (vofZ3 (fp_f envR) q) (V3 (IZR (vx q) + 1) (IZR (vy q) + 1) (IZR (vz q) + 1))) as B.
  specialize (B ltac:(intros []; cbn; lra) d). destruct d; cbn in B |- *; lra.
Qed.
Print Assumptions C72_exact.

(* So the quads face outward; C18_outward without its hypothesis. *)
Theorem C72_outward : forall hypot copysign msin mcos matan tune (g0 : ugrid envR) f solver sort g calls m ts,
  valid_size (g_size g0) -> sorts dc_less sort -> fill g0 f solver = Ret (g, calls) ->
  @dual_contouring envR sort (solver3_cell arithR least_normal hypot copysign msin mcos matan tune) g = Ret m -> mesh_valid_with m ts ->
  exists quads : list (gedge * (triangle * triangle)),
    ts = flat_map (fun eq => [fst (snd eq); snd (snd eq)]) quads /\
    forall d p t1 t2, In ((d, p), (t1, t2)) quads ->
      edge_crosses (fun p => le0 envR (sample g0 f p)) (d, p) = true /\
      0 <= (if le0 envR (sample g0 f p) then 1 else -1) * area_along (position m) d [t1; t2].
Proof.
  intros hypot copysign msin mcos matan tune g0 f solver sort g calls m ts Hv Hs Hf Hm Ht.
  destruct (udc_hypotheses_met _ _ _ _ _ _ Hv Hf) as (qs & _ & _ & Hqs & _).
  pose proof (C72_exact _ _ _ _ _ _ _ _ _ _ _ _ _ _ Hv Hs Hf Hm Hqs) as Hin.
  destruct (C18_outward _ _ _ _ _ _ _ _ _ _ _ (position m) Hv Hs Hf Hm Ht Hqs) as (quads & H1 & H2).
  - intros k q Hk. unfold position. change (fp_F envR) with R in *.
    assert (X : exists v, znth (m_verts m) k = Some v /\ PropUdc.in_cube q (mv_pos v)).
    { clear - Hin Hk. unfold znth in *. destruct (k <? 0)%Z; [discriminate|]. revert Hk. generalize (Z.to_nat k). induction Hin as [|a b l l' H1 H2 IH]; intros [|i] Hk; cbn in *; try discriminate.
      - injection Hk as ->. eauto.
      - auto. }
    destruct X as (v & -> & X). exact X.
  - exists quads. split; [exact H1|]. intros d p t1 t2 H. destruct (H2 d p t1 t2 H) as (A & B & _). split; assumption.
Qed.
Print Assumptions C72_outward.

(* In single precision every coordinate is in the range of the cell or is NaN. *)
Lemma unit_ranges : forallb (fun z => a_le arith32 (a_ofZ arith32 z) (a_add arith32 (a_ofZ arith32 z) (a_ofZ arith32 1%Z))) (zrange (-512) 512) = true.
Proof. vm_compute. reflexivity. Qed.
Theorem C72_float : forall float_min hypot copysign msin mcos matan tune (g0 : ugrid envIEEE) f solver sort g calls m qs,
  valid_size (g_size g0) -> sorts dc_less sort -> fill g0 f solver = Ret (g, calls) ->
  @dual_contouring envIEEE sort (solver3_cell arith32 float_min hypot copysign msin mcos matan tune) g = Ret m ->
  surface_cells (g_size g0) (fun p => le0 envIEEE (sample g0 f p)) qs ->
  Forall2 (fun q v => forall d, vget d (mv_pos v) = B754_nan \/
      (a_le arith32 (a_ofZ arith32 (vget d q)) (vget d (mv_pos v)) = true /\
       a_le arith32 (vget d (mv_pos v)) (a_add arith32 (a_ofZ arith32 (vget d q)) (a_ofZ arith32 1%Z)) = true)) qs (m_verts m).
Proof.
  intros float_min hypot copysign msin mcos matan tune g0 f solver sort g calls m qs Hv Hs Hf Hm Hqs.
  pose proof (C16_vertices _ _ _ _ _ _ _ _ _ _ Hv Hs Hf Hm Hqs) as H.
  assert (Hq : forall q, In q qs -> forall d, (-512 <= vget d q < 512)%Z).
  { intros q Hq. destruct Hqs as [_ Hqs]. apply Hqs in Hq as [Hc _]. destruct Hv as (k & Hk & Hsz).
    assert (Hsz' : (0 <= g_size g0 <= 1024)%Z) by (rewrite Hsz; split; [apply Z.pow_nonneg; lia|change 1024%Z with (2 ^ 10)%Z; apply Z.pow_le_mono_r; lia]).
    unfold cell_in, element_in in Hc. pose proof (Hc (vadd q (V3 0 0 0)%Z) (or_introl eq_refl)) as C0.
    pose proof (Hc (vadd q (V3 1 1 1)%Z) ltac:(unfold cell_corners; cbn [In]; tauto)) as C7.
    unfold vertex_in, vadd in C0, C7. cbn [vx vy vz] in C0, C7. intros []; cbn [vget]; lia. }
  revert H Hq. generalize (m_verts m).
  clear Hqs. induction qs as [|q qs IH]; intros vs H Hq; inversion H as [|? v ? vs' H1 H2]; subst; constructor; [|apply IH; [assumption|intros; apply Hq; right; assumption]].
  destruct H1 as (es & mats & _ & _ & ->). cbn [mv_pos]. unfold solver3_cell, s3_solve. set (s := fold_left _ _ _).
  set (lo := vofZ3 (fp_f envIEEE) q). set (hi := vadd3 _ lo _).
  assert (B0 : forall d, a_le arith32 (vget d lo) (vget d hi) = true).
  { intro d. pose proof unit_ranges as U. rewrite forallb_forall in U. specialize (U (vget d q)). 
    destruct d; apply U, in_zrange; apply (Hq q ltac:(left; reflexivity)). }
  assert (B : forall c, a_le arith32 (fvec_of lo c) (fvec_of hi c) = true).
  { intros c. unfold fvec_of. destruct c as [|[|c]]; [apply (B0 AX)|apply (B0 AY)|apply (B0 AZ)]. }
  pose proof (C31_box_float float_min hypot copysign msin mcos matan 3 tune s _ _ B) as X. cbv zeta in X.
  destruct (solve _ _ _ _ _ _ _ _ _ _ _ _) as [z s'] in *. cbn [fst] in X. cbn [snd].
  destruct d; [apply (X 0%nat)|apply (X 1%nat)|apply (X 2%nat)].
Qed.
Print Assumptions C72_float.

(* A run in single precision: 31 vertices, 48 triangles, all positions in the grid. *)
Definition udc_float_run (f : field envIEEE) (g0 : ugrid envIEEE) : option (nat * nat * bool) :=
  match fill g0 f c10_solver with
  | Ret (g, _) =>
      match @dual_contouring envIEEE (isort dc_less) (solver3_cell arith32 least_normal32 hypot32 copysign32 (fun x => x) (fun x => x) (fun x => x) default_tuning) g with
      | Ret m => Some (length (m_verts m), length (m_inds m),
          forallb (fun u => forallb (fun d => a_le arith32 (f32 (-2) 0) (vget d (mv_pos u)) && a_le arith32 (vget d (mv_pos u)) (f32 2 0))%bool [AX; AY; AZ]) (m_verts m))
      | _ => None end
  | _ => None end.
Example C72_float_ex : udc_float_run big_field grid4 = Some (31%nat, 144%nat, true).
Proof. vm_cast_no_check (@eq_refl (option (nat * nat * bool)) (Some (31%nat, 144%nat, true))). Qed.

(* ---- stored edges ---- *)
Definition global (g : ugrid envR) (p : vec3 R) : vec3 R := local_to_global envR (g_step g) (g_pos g) p.

(* Every stored edge comes from one call of the zero finder; its surface point is the answer. *)
Lemma stored_zero : forall (g0 : ugrid envR) f solver g calls d e, valid_size (g_size g0) -> g_step g0 <> 0 ->
  fill g0 f solver = Ret (g, calls) -> In e (g_edges d g) ->
  exists c mat, In c calls /\ zc_axis c = d /\ edge_in (g_size g0) d (lesser_endpoint e) /\ edge_key e = (d, lesser_endpoint e) /\
    zc_start c = global g0 (vofZ3 arithR (lesser_endpoint e)) /\
    global g0 (surface_point envR e) = vset envR d (zc_start c) (solver c f) /\
    make_edge envR (ue_x e) (ue_y e) (ue_z e) (fl_grad f (vset envR d (zc_start c) (solver c f)))
      ((solver c f - vget d (zc_start c)) / g_step g0) (axis_num d) (is_lesser_solid e) mat = Ret e.
Proof.
  intros g0 f solver g calls d e Hv Hs Hf He.
  destruct (fill_ok envR g0 f solver Hv) as (g' & calls' & Hf' & _ & _ & _ & _ & Hed & Hca). rewrite Hf in Hf'. injection Hf' as <- <-.
  assert (Hall : Forall2 (fun p e => stored_edge g0 f solver d p = Ret e /\ lesser_endpoint e = p /\ ue_axis e = axis_num d /\
     is_lesser_solid e = le0 envR (sample g0 f p) /\
     solid_material e = promised_material g0 f (if le0 envR (sample g0 f p) then p else vadd p (unit_vec d)))
     (filter (crosses g0 f d) (edge_points (g_size g0) d)) (g_edges d g)).
  { apply omap_edges; [assumption| |apply Hed]. intros p Hp. apply filter_In in Hp as [Hp _]. apply in_edge_points; assumption. }
  destruct (Forall2_in_r _ _ _ _ _ _ Hall He) as (p & Hp & H1 & H2 & H3 & H4 & _).
  set (c := solver_call g0 f d p). unfold stored_edge in H1. fold c in H1.
  exists c. eexists. split; [|split; [reflexivity|]].
  { rewrite Hca. apply in_flat_map. exists d. split; [destruct d; cbn; tauto|]. apply in_map. exact Hp. }
  assert (Hk : edge_key e = (d, lesser_endpoint e)) by (unfold edge_key; rewrite H3; destruct d; reflexivity).
  assert (Hst : zc_start c = global g0 (vofZ3 arithR (lesser_endpoint e))) by (rewrite H2; reflexivity).
  split; [rewrite H2; apply filter_In in Hp as [Hp _]; apply in_edge_points; assumption|].
  split; [exact Hk|]. split; [exact Hst|]. rewrite <- H4 in H1. rewrite <- H2 in H1. cbn [lesser_endpoint vx vy vz] in H1.
  split; [|exact H1].
  destruct (make_edgeR _ _ _ _ _ _ _ _ _ H1) as (_ & _ & _ & Ho & _ & _).
  unfold surface_point. rewrite H3. change (fp_F envR) with R in *. rewrite Ho, Hst. unfold global, local_to_global, vadd3, vscale3, vofZ3, lesser_endpoint.
  cbn [fp_f fp_d fp_F fp_D envR arithR a_add a_mul a_ofZ vx vy vz a_sub a_div].
  destruct d; cbn [axis_num vset vget vx vy vz]; change (fp_D envR) with R in *; f_equal; field; exact Hs.
Qed.

(* The point at the fraction s of the edge from p along d, in units of the grid. *)
Definition edge_point (d : axis) (p : ivec3) (s : R) : vec3 R :=
  V3 (IZR (vx p) + s * IZR (vx (unit_vec d))) (IZR (vy p) + s * IZR (vy (unit_vec d))) (IZR (vz p) + s * IZR (vz (unit_vec d))).

Lemma nan_freeR : forall (g : ugrid envR) f, nan_free g f.
Proof.
  intros g f p _. unfold gt0, le0. cbn [envR fp_d fp_D arithR a_lt a_le a_ofZ]. destruct (Rleb _ 0) eqn:X; cbn [negb].
  - apply Rleb_iff in X. apply Rltb_false. exact X.
  - apply Rleb_false in X. apply Rltb_iff. exact X.
Qed.

(* An answer between the ends of the interval is a point of the edge. *)
Lemma on_edge : forall (c0 step z : R), step <> 0 -> between c0 (c0 + step) z -> 0 <= (z - c0) / step <= 1.
Proof.
  intros c0 step z Hs Hb. set (t := (z - c0) / step). assert (E : z = c0 + t * step) by (unfold t; field; exact Hs). rewrite E in Hb. clearbody t.
  unfold between in Hb. assert (step < 0 \/ 0 < step) as [L|L] by lra; destruct Hb as [Hb|Hb]; split; nra.
Qed.

Lemma global_edge : forall (g0 : ugrid envR) d p s,
  global g0 (edge_point d p s) = vset envR d (global g0 (vofZ3 arithR p)) (vget d (global g0 (vofZ3 arithR p)) + s * g_step g0).
Proof.
  intros g0 d [x y z] s. unfold global, local_to_global, vadd3, vscale3, vofZ3, edge_point.
  destruct d; cbn [fp_d fp_D envR arithR a_add a_mul a_ofZ vx vy vz vset vget unit_vec]; change (fp_D envR) with R; f_equal; ring.
Qed.
Lemma along_vset : forall f d p c, along f d p c = fl_value f (vset envR d p c).
Proof. intros f [] p c; reflexivity. Qed.
Lemma vset_self : forall d (p : vec3 R), vset envR d p (vget d p) = p.
Proof. intros [] [x y z]; reflexivity. Qed.

(* ---- C73: accuracy ---- *)
(* Marching cubes on a grid filled with bisection: every vertex is a point of an edge of the grid at a distance of at
   most 2^-steps cells from a zero of the field on that edge. *)
Theorem C73_bisection : forall (g0 : ugrid envR) f steps sort g calls m,
  valid_size (g_size g0) -> g_step g0 <> 0 -> solid_inside g0 f -> sorts entry_less sort -> (1 <= steps)%Z ->
  (forall d p c0 c1, continuous_between (along f d p) c0 c1) ->
  fill g0 f (bisection steps) = Ret (g, calls) -> marching_cubes sort g = Ret m -> forall v, In v (m_verts m) ->
  exists d p s t, edge_in (g_size g0) d p /\ 0 <= s <= 1 /\ 0 <= t <= 1 /\ mv_pos v = edge_point d p s /\
    fl_value f (global g0 (edge_point d p t)) = 0 /\ Rabs (s - t) <= / 2 ^ Z.to_nat steps.
Proof.
  intros g0 f steps sort g calls m Hv Hs Hsol Hsort Hst Hc Hf Hm v Hin.
  destruct (C13_valid _ _ _ (bisection steps) _ Hv (nan_freeR g0 f) Hsol Hsort) as (g' & calls' & m' & Hf' & Hm' & ts & Ht).
  rewrite Hf in Hf'. injection Hf' as <- <-. rewrite Hm in Hm'. injection Hm' as <-.
  destruct (C14_vertices _ _ _ _ _ _ _ _ _ Hv (nan_freeR g0 f) Hsol Hsort Hf Hm Ht) as [Hvs _].
  rewrite Hvs in Hin. apply in_map_iff in Hin as (e & <- & He). cbn [mv_pos].
  assert (Hd : exists d, In e (g_edges d g)) by (unfold stored_edges in He; rewrite !in_app_iff in He; destruct He as [He|[He|He]]; eauto).
  destruct Hd as (d & Hd). clear He.
  destruct (stored_zero g0 f _ g calls d e Hv Hs Hf Hd) as (c & mat & Hca & Hax & Hed & _ & Hstart & Hpt & Hmk).
  destruct (C10_exact _ _ _ _ _ _ Hv Hf Hca) as (E0 & E1 & E2 & Hsg & _). rewrite Hax in *.
  set (start := zc_start c) in *.
  assert (Ec : c = @ZfCall envR d start (zc_end c) (along f d start (vget d start)) (along f d start (zc_end c))).
  { rewrite !along_vset, vset_self, <- E1, <- E0, <- Hax. unfold start. destruct c; reflexivity. }
  assert (Hsg' : along f d start (vget d start) * along f d start (zc_end c) <= 0) by (rewrite !along_vset, vset_self, <- E1, <- E0; exact Hsg).
  assert (Acc : between (vget d start) (zc_end c) (bisection steps c f) /\
    exists z, between (vget d start) (zc_end c) z /\ along f d start z = 0 /\ Rabs (bisection steps c f - z) <= Rabs (zc_end c - vget d start) / 2 ^ Z.to_nat steps).
  { assert (Er : bisection steps c f = bisection steps (@ZfCall envR d start (zc_end c) (along f d start (vget d start)) (along f d start (zc_end c))) f)
      by (f_equal; exact Ec).
    rewrite Er. exact (C24_accuracy f d start (zc_end c) steps (Hc _ _ _ _) Hsg' Hst). }
  destruct Acc as (B1 & z & B2 & B3 & B4).
  set (r := bisection steps c f) in *. clearbody r. rewrite E2 in B1, B2, B4.
  assert (Abs : Rabs (vget d start + g_step g0 - vget d start) = Rabs (g_step g0)) by (f_equal; change (fp_D envR) with R; ring).
  change (fp_D envR) with R in *. rewrite Abs in B4.
  exists d, (lesser_endpoint e), ((r - vget d start) / g_step g0), ((z - vget d start) / g_step g0).
  split; [exact Hed|]. split; [apply on_edge; assumption|]. split; [apply on_edge; assumption|].
  destruct (C12_point_on_edge _ _ _ _ r (vget d start) (g_step g0) d _ _ e Hs Hmk) as (t & Ht1 & Ht2).
  { unfold between in B1. destruct B1 as [B1|B1]; [rewrite Rmin_left, Rmax_right by lra|rewrite Rmin_right, Rmax_left by lra]; exact B1. }
  split; [|split].
  - assert (Inj : forall a b, global g0 a = global g0 b -> a = b).
    { intros a b H. rewrite <- (proj1 (C52_inverse (g_step g0) (g_pos g0) a Hs)), <- (proj1 (C52_inverse (g_step g0) (g_pos g0) b Hs)). f_equal. exact H. }
    apply Inj. rewrite Hpt, global_edge, <- Hstart. f_equal. change (fp_D envR) with R. field. exact Hs.
  - rewrite global_edge, <- Hstart. rewrite along_vset in B3. rewrite <- B3. do 2 f_equal. change (fp_D envR) with R. field. exact Hs.
  - replace ((r - vget d start) / g_step g0 - (z - vget d start) / g_step g0) with ((r - z) / g_step g0) by (field; exact Hs).
    unfold Rdiv. rewrite Rabs_mult, Rabs_inv. apply Rmult_le_reg_r with (Rabs (g_step g0)); [apply Rabs_pos_lt; exact Hs|].
    rewrite Rmult_assoc, Rinv_l, Rmult_1_r by (apply Rabs_no_R0; exact Hs). unfold Rdiv in B4. lra.
Qed.
Print Assumptions C73_bisection.
