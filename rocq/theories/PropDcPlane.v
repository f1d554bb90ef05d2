(* Linear fields give flat meshes of simplified octrees, in exact arithmetic: C74 *)
From Coq Require Import ZArith List Bool Lia Reals Lra Permutation.
From Verif Require Import LoopLemmas Arith RealArith MeshModel MeshSpec MaterialFilterModel GridModel GridSpec EdgeModel EdgeSpec FillModel FillSpec FillProofs ZeroModel ZeroReal
  CellSpec CellTables MCModel MCProofs UdcModel QefModel QefSpec QefLin QefProofs QefFlat QefPlane SolverModel
  PropFill PropFillNum PropZero PropMC PropUdc DcModel OctreeModel OctreeSpec OctreeProofs OctreeFlux DcSpec DcBuild DcQef DcContour PropDc PropQef PropDcQef PropFlat PropPlane PlaneMerge Base.
Import ListNotations.
Local Open Scope R_scope.

(* The edges of the cells of a cube: their points are zeros of the field inside the cube, their normals are one. *)
Definition edges_within (g : ugrid envR) (q : ivec3) (n : nat) (es : list (uedge (fp_F envR))) : Prop :=
  forall e, In e es -> exists c d i, OctreeSpec.in_cube q n c /\ In e (g_edges d g) /\ (0 <= i < 12)%Z /\ cell_edge c i = edge_key e.

Lemma within_facts : forall (g0 : ugrid envR) f a b G steps g calls q n es,
  valid_size (g_size g0) -> g_step g0 <> 0 -> linear_field f a b G -> fill g0 f (regula_falsi steps) = Ret (g, calls) -> edges_within g q n es ->
  Forall (fun p => snd p = stored_normal G) (planes_of es) /\ Forall (fun m => m = stored_normal G) (map (surface_normal envR) es) /\
  (forall p, In p (planes_of es) -> fl_value f (global g0 (fst p)) = 0) /\
  (forall d p, In p (planes_of es) -> vget d (cube_low (E := envR) q) <= vget d (fst p) <= vget d (cube_high (E := envR) q n)).
Proof.
  intros g0 f a b G steps g calls q n es Hv Hs Hlin Hf Hes.
  assert (HE : forall e, In e es -> fl_value f (global g0 (surface_point envR e)) = 0 /\ surface_normal envR e = stored_normal G /\
    forall c, IZR (vget c q) <= vget c (surface_point envR e) <= IZR (vget c q + edge_len n)).
  { intros e He. destruct (Hes e He) as (cl & d & i & Hcl & H1 & Hi & Hc).
    destruct (linear_edges g0 f a b G steps g calls d e Hv Hs Hlin Hf H1) as (L1 & L2 & L3 & s & L4 & L5).
    split; [exact L1|]. split; [exact L3|]. intro c. rewrite L2 in Hc. destruct (cell_edge_range _ _ _ _ Hi Hc c) as [R1 R2].
    change (fp_F envR) with R in *. rewrite L5. unfold edge_point.
    assert (B : (vget c q <= vget c cl /\ vget c cl + 1 <= vget c q + edge_len n)%Z) by (destruct Hcl as (? & ? & ?), c; cbn [vget]; lia).
    assert (R3 : (vget c q <= vget c (lesser_endpoint e))%Z) by lia.
    assert (R4 : (vget c (lesser_endpoint e) + vget c (unit_vec d) <= vget c q + edge_len n)%Z) by lia.
    apply IZR_le in R3, R4. rewrite plus_IZR in R4.
    assert (0 <= s * IZR (vget c (unit_vec d)) <= IZR (vget c (unit_vec d))) by (destruct d, c; cbn; lra).
    destruct c; cbn [vget vx vy vz] in *; lra. }
  repeat apply conj.
  - unfold planes_of. apply Forall_forall. intros p Hp. apply in_map_iff in Hp as (e & <- & He). apply HE. exact He.
  - apply Forall_forall. intros p Hp. apply in_map_iff in Hp as (e & <- & He). apply HE. exact He.
  - intros p Hp. unfold planes_of in Hp. apply in_map_iff in Hp as (e & <- & He). apply HE. exact He.
  - intros d p Hp. unfold planes_of in Hp. apply in_map_iff in Hp as (e & <- & He). cbn [fst]. destruct (HE e He) as (_ & _ & X). specialize (X d).
    unfold cube_low, cube_high. destruct d; cbn [vget vofZ3 vx vy vz arithR a_ofZ envR fp_f] in *; exact X.
Qed.

Lemma planes_app : forall es es', planes_of (es ++ es') = planes_of es ++ planes_of es'.
Proof. intros. apply map_app. Qed.

Section Leaves.
Variable hypot copysign : R -> R -> R.
Variable msin mcos matan : R -> R.
Variable tune : tuning R.
Variable g0 : ugrid envR.
Variable f : field envR.
Variable a : vec3 R.
Variable b : R.
Variable G : vec3 R.
Variable steps : Z.
Variable g : ugrid envR.
Variable calls : list (zf_call envR).
Variable solid : ivec3 -> bool.
Variable eps : R.
Variable i0 : nat.
Hypothesis Hv : valid_size (g_size g0).
Hypothesis Hs : g_step g0 <> 0.
Hypothesis Hlin : linear_field f a b G.
Hypothesis Hf : fill g0 f (regula_falsi steps) = Ret (g, calls).
Hypothesis HI : first_component (stored_normal G) i0.
Hypothesis HD : one_direction hypot copysign msin mcos matan tune (fvec_of (stored_normal G)).
Notation ops := (solver3_ops arithR least_normal hypot copysign msin mcos matan tune : qef_ops (fp_F envR) (solver R) (qstate R)).

Definition flat_leaf (q : ivec3) (n : nat) (v nrm : vec3 R) (s : qstate R) : Prop :=
  exists es, es <> [] /\ (zlen es <= 12 * 8 ^ Z.of_nat n)%Z /\ edges_within g q n es /\ v = mean_point (planes_of es) /\ nrm = stored_normal G /\
    coherent_state (stored_normal G) i0 s (planes_of es).

Lemma flat_merges : forall q m, (m <= 7)%nat -> forall (parts : list (Z * (vec3 R * vec3 R * qstate R))),
  (forall i v' nrm' s', In (i, (v', nrm', s')) parts -> (0 <= i < 8)%Z /\ flat_leaf (child_pos q m i) m v' nrm' s') ->
  forall s es, coherent (stored_normal G) s (planes_of es) -> (q_dim s = 1%Z \/ (es = [] /\ q_dim s = 0%Z)) -> edges_within g q (S m) es ->
    (zlen es + zlen parts * (12 * 8 ^ Z.of_nat m) < two32)%Z ->
  exists es', coherent (stored_normal G) (fold_left (fun sol p => qo_merge ops sol (snd (snd p))) parts s) (planes_of (es ++ es')) /\
    edges_within g q (S m) (es ++ es') /\ (zlen es' <= zlen parts * (12 * 8 ^ Z.of_nat m))%Z /\ (parts <> [] -> es' <> []) /\
    Forall (fun v => v = stored_normal G) (map (fun p => snd (fst (snd p))) parts).
Proof.
  intros q m Hm. induction parts as [|[i [[v' nrm'] s']] parts IH]; intros HP s es H Hd Hw Hl; cbn [fold_left map fst snd].
  - exists []. rewrite app_nil_r. split; [exact H|]. split; [exact Hw|]. split; [cbn; lia|]. split; [congruence|constructor].
  - destruct (HP i v' nrm' s' (or_introl eq_refl)) as (Hi & es1 & E1 & E2 & E3 & _ & E5 & E6).
    unfold zlen in Hl |- *. cbn [length] in Hl |- *. unfold zlen in E2. rewrite Nat2Z.inj_succ, Z.mul_succ_l in Hl |- *.
    assert (B0 : (0 <= Z.of_nat (length parts) * (12 * 8 ^ Z.of_nat m))%Z) by (apply Z.mul_nonneg_nonneg; [lia|]; pose proof (Z.pow_nonneg 8 (Z.of_nat m)); lia).
    change (fp_F envR) with R in *.
    destruct (merge_coherent (stored_normal G) i0 HI s s' (planes_of es) (planes_of es1) H) as (s1 & R & C1 & C2); [destruct Hd as [Hd|[-> Hd]]; [left; exact Hd|right; split; [reflexivity|exact Hd]]|exact E6|unfold planes_of; change (fp_F envR) with R; rewrite !zlen_map; unfold zlen; lia|].
    change (qo_merge ops s s') with (match s3_merge arithR least_normal s s' with Ret s' => s' | _ => s end). rewrite R. rewrite <- planes_app in C1.
    assert (Hw1 : edges_within g q (S m) (es ++ es1)).
    { intros e He. apply in_app_iff in He as [He|He]; [apply Hw; exact He|]. destruct (E3 e He) as (c & d & j & X1 & X2). exists c, d, j. split; [|exact X2].
      eapply in_cube_sub; [apply child_subcube; exact Hi|exact X1]. }
    destruct (IH ltac:(intros; eapply HP; right; eassumption) s1 (es ++ es1) C1 (or_introl C2) Hw1) as (es' & I1 & I2 & I3 & I4 & I5).
    { unfold zlen. rewrite app_length. lia. }
    exists (es1 ++ es'). rewrite app_assoc. split; [exact I1|]. split; [exact I2|]. split; [rewrite app_length; unfold zlen in I3; lia|].
    split; [intros _; destruct es1; [congruence|discriminate]|]. constructor; assumption.
Qed.

Lemma some_child : forall q m, one_sheet (grid_material g) solid q (S m) -> (forall p, in_closed_cube q (S m) p -> is_solid (grid_material g p) = solid p) ->
  mixed solid q (S m) = true -> filter (fun i => mixed solid (child_pos q m i) m) (zseq 0 8) <> [].
Proof.
  intros q m H1 H2 H3 X. rewrite uniform_not_mixed in H3; [discriminate|]. apply uniform_octants. intros i Hi.
  apply (sheet_uniform (grid_material g)).
  - apply one_sheet_sub; assumption.
  - intros p Hp. apply H2. eapply octant_closed; eassumption.
  - destruct (mixed solid (child_pos q m i) m) eqn:Y; [|reflexivity]. assert (K : In i (filter (fun i => mixed solid (child_pos q m i) m) (zseq 0 8))).
    { apply filter_In. split; [apply in_zseq; lia|exact Y]. } rewrite X in K. destruct K.
Qed.

Lemma measured_flat : forall q n v nrm s, measured ops g solid eps q n v nrm s -> (n <= 8)%nat -> mixed solid q n = true ->
  one_sheet (grid_material g) solid q n -> (forall p, in_closed_cube q n p -> is_solid (grid_material g p) = solid p) ->
  flat_leaf q n v nrm s.
Proof.
  intros q n v nrm s H. induction H as [q es sol0 sol1 sol2 v s H1 H2 H3 H4|q m parts sol0 sol1 sol2 v s H1 H2 IH H3 H4 H5]; intros Hn Hx Hsh Hm.
  - assert (L : (length es <= 12)%nat) by (rewrite <- (map_length (@edge_key (fp_F envR))), H1; rewrite filter_count; rewrite map_length; reflexivity).
    assert (Hne : es <> []).
    { intro X. subst es. cbn [map] in H1. rewrite mixed_edges, <- H1 in Hx. discriminate. }
    assert (Hw : edges_within g q 0 es).
    { intros e He. assert (K : In (edge_key e) (map edge_key es)) by (apply in_map; exact He).
      rewrite H1 in K. apply filter_In in K as [K _]. apply in_map_iff in K as (i & Hi & Hi2). apply in_zseq in Hi2. exists q, (fst (edge_key e)), i.
      split; [unfold OctreeSpec.in_cube; rewrite edge_len_0; lia|]. split; [apply H2; exact He|]. split; [cbn in Hi2; lia|exact Hi]. }
    destruct (within_facts g0 f a b G steps g calls q 0 es Hv Hs Hlin Hf Hw) as (W1 & W2 & W3 & W4).
    pose proof (adds_coherent (stored_normal G) i0 HI (planes_of es) ltac:(unfold planes_of; change (fp_F envR) with R in *; rewrite zlen_map; unfold zlen, two32; lia) W1) as C.
    rewrite fold_ops in H3. change (qo_reset ops sol0) with (q_new arithR) in H3.
    assert (Hne' : planes_of es <> []) by (unfold planes_of; destruct es; [congruence|discriminate]).
    destruct (solve_coherent hypot copysign msin mcos matan tune (stored_normal G) i0 HI HD _ _ _ _ sol1 v C Hne' W4 H3) as (V & C1 & Hd).
    destruct (state_runs least_normal (E := envR) sol1) as (d & s' & Rn & _).
    { destruct C1 as (_ & Cc & _). change (fp_F envR) with R in *. rewrite Cc. unfold planes_of. change (fp_F envR) with R in *. rewrite zlen_map. unfold zlen, s3_limit. lia. }
    unfold qo_state in H4. cbn [solver3_ops] in H4.
    change (fp_f envR) with arithR in Rn. change (fp_F envR) with R in *. unfold s3_state in H4. rewrite Rn in H4. injection H4 as <- <-.
    exists es. split; [exact Hne|]. split; [unfold zlen; cbn; lia|]. split; [exact Hw|]. split; [exact V|]. split.
    + unfold sum3. apply (normalize_copies (stored_normal G)); [apply stored_normal_unit|destruct es; [congruence|discriminate]|exact W2].
    + eapply state_coherent; [exact HI|exact C1|exact Hd|exact Rn].
  - assert (P8 : (length parts <= 8)%nat) by (rewrite <- (map_length fst), H1; rewrite filter_count; reflexivity).
    assert (B8 : (0 < 8 ^ Z.of_nat m <= 8 ^ 7)%Z) by (split; [apply Z.pow_pos_nonneg; lia|apply Z.pow_le_mono_r; lia]).
    change (8 ^ 7)%Z with 2097152%Z in B8.
    assert (HP : forall i v' nrm' s', In (i, (v', nrm', s')) parts -> (0 <= i < 8)%Z /\ flat_leaf (child_pos q m i) m v' nrm' s').
    { intros i v' nrm' s' Hi. pose proof Hi as Hi'. apply (in_map fst) in Hi'. rewrite H1 in Hi'. apply filter_In in Hi' as [Hi' Hx']. apply in_zseq in Hi'. cbn [fst] in Hi', Hx'.
      split; [lia|]. apply (IH i v' nrm' s' Hi).
      - lia.
      - exact Hx'.
      - apply one_sheet_sub; [exact Hsh|]. lia.
      - intros p Hp. apply Hm. eapply octant_closed; [|exact Hp]. lia. }
    assert (Hpn : parts <> []) by (intro X; subst parts; cbn [map] in H1; apply (some_child q m Hsh Hm Hx); symmetry; exact H1).
    destruct (flat_merges q m ltac:(lia) parts HP (q_new arithR) [] (new_coherent _)) as (es & M1 & M2 & M3 & M4 & M5).
    { right. split; reflexivity. }
    { intros e []. }
    { change (fp_F envR) with R in *. unfold zlen, two32. cbn [length]. change (Z.of_nat 0) with 0%Z. assert (Z8 : (0 <= Z.of_nat (length parts) <= 8)%Z) by lia.
      revert Z8 B8. generalize (Z.of_nat (length parts)) (8 ^ Z.of_nat m)%Z. clear. intros; nia. }
    cbn [app] in M1, M2. specialize (M4 Hpn).
    destruct (within_facts g0 f a b G steps g calls q (S m) es Hv Hs Hlin Hf M2) as (W1 & W2 & W3 & W4).
    assert (Hne' : planes_of es <> []) by (unfold planes_of; destruct es; [congruence|discriminate]).
    change (qo_reset ops sol0) with (q_new arithR) in H3.
    destruct (solve_coherent hypot copysign msin mcos matan tune (stored_normal G) i0 HI HD _ _ _ _ sol1 v M1 Hne' W4 H3) as (V & C1 & Hd).
    assert (L : (zlen es <= 12 * 8 ^ Z.of_nat (S m))%Z) by (rewrite Nat2Z.inj_succ, Z.pow_succ_r by lia; change (fp_F envR) with R in *; unfold zlen in *; clear - M3 P8 B8; revert M3; generalize (Z.of_nat (length es)); intros; nia).
    destruct (state_runs least_normal (E := envR) sol1) as (d & s' & Rn & _).
    { destruct C1 as (_ & Cc & _). change (fp_F envR) with R in *. rewrite Cc. unfold planes_of. change (fp_F envR) with R in *. rewrite zlen_map. unfold s3_limit. change (2 ^ 30)%Z with 1073741824%Z.
      rewrite Nat2Z.inj_succ, Z.pow_succ_r in L by lia. lia. }
    unfold qo_state in H5. cbn [solver3_ops] in H5.
    change (fp_f envR) with arithR in Rn. change (fp_F envR) with R in *. unfold s3_state in H5. rewrite Rn in H5. injection H5 as <- <-.
    exists es. split; [exact M4|]. split; [exact L|]. split; [exact M2|]. split; [exact V|]. split.
    + unfold sum3. apply (normalize_copies (stored_normal G)); [apply stored_normal_unit|destruct parts; [congruence|discriminate]|exact M5].
    + eapply state_coherent; [exact HI|exact C1|exact Hd|exact Rn].
Qed.
End Leaves.

Lemma subcube_level : forall q n q' n', subcube q n q' n' -> (n <= n')%nat.
Proof.
  intros q n q' n' (H & _). destruct (Nat.le_gt_cases n n') as [L|L]; [exact L|exfalso]. unfold edge_len in H.
  assert (2 ^ Z.of_nat n' < 2 ^ Z.of_nat n)%Z by (apply Z.pow_lt_mono_r; lia). lia.
Qed.

Lemma unit_norm : forall G, norm_of (fvec_of (stored_normal G)) = 1.
Proof. intro G. rewrite <- (stored_normal_unit G). unfold norm_of, norm2, sqr. cbn. ring. Qed.

(* The vertices of all leaves, also of those that come from simplification.  The trigonometric functions are the
   true ones, and one component of the stored normal is greater than the others. *)
Theorem C74_dc_all : forall tune (g0 : ugrid envR) f a b G steps g calls size t (eps : R) simplify sol t1 sol1 t2 m,
  let ops : qef_ops (fp_F envR) (solver R) (qstate R) := solver3_ops arithR least_normal true_hypot true_copysign sin cos atan tune in
  valid_size (g_size g0) -> g_step g0 <> 0 -> linear_field f a b G -> tame_gradient G -> dominant (fvec_of (stored_normal G)) ->
  0 <= t_jacobi tune -> 3 * (t_jacobi tune * t_jacobi tune) < t_pinv tune -> t_pinv tune <= / 3 -> (1 < t_iters tune)%nat ->
  solid_inside g0 f -> fill g0 f (regula_falsi steps) = Ret (g, calls) -> (size <= g_size g0)%Z ->
  dc_reached ops size t -> dc_build ops g eps simplify t sol = Ret (t1, sol1) -> dc_contour t1 = Ret (t2, m) ->
  (root_level size <= 8)%nat -> forall v, In v (m_verts m) -> fl_value f (global g0 (mv_pos v)) = 0 /\ mv_normal v = stored_normal G.
Proof.
  intros tune g0 f a b G steps g calls size t eps simplify sol t1 sol1 t2 m ops Hv Hs Hlin HG Hdom T1 T2 T3 T4 Hsol Hf Hsize Hreach Hb Hm Hlev v Hin.
  pose proof (dominant_direction tune _ (unit_norm G) Hdom T1 T2 T3 T4) as HD.
  destruct (tame_first G HG) as (i0 & HI).
  pose proof (filled_by g0 f _ _ _ Hv (nan_freeR g0 f) Hsol Hf) as HF.
  destruct (filled_represents _ _ _ _ _ _ Hv (nan_freeR g0 f) Hsol Hf) as [Hsz _].
  assert (Hsize' : (size <= g_size g)%Z) by (rewrite Hsz; exact Hsize).
  destruct (contour_leaf envR _ _ ops _ _ _ _ _ _ _ _ _ _ _ Hreach HF Hsize' Hb Hm v Hin) as (q & n & nrm & s & Hsub & Hx & Hg & Hk & V4 & Hnrm & Hfine).
  assert (Hn : (n <= 8)%nat) by (pose proof (subcube_level _ _ _ _ Hsub); lia).
  destruct (measured_flat true_hypot true_copysign sin cos atan tune g0 f a b G steps g calls _ _ i0 Hv Hs Hlin Hf HI HD _ _ _ _ _ V4 Hn Hx Hk) as (es & E1 & E2 & E3 & E4 & E5 & E6).
  { intros p Hp. apply (mat_solid g _ (filled_ok _ _ _ HF)). apply Hg. exact Hp. }
  destruct (within_facts g0 f a b G steps g calls q n es Hv Hs Hlin Hf E3) as (W1 & W2 & W3 & W4).
  split; [|rewrite Hnrm; exact E5]. set (u := mv_pos v) in *. clearbody u. subst u.
  apply (mean_linear g0 f a b G); [exact Hlin|unfold planes_of; destruct es; [congruence|discriminate]|exact W3].
Qed.
Print Assumptions C74_dc_all.

Lemma half_dominant : dominant (fvec_of (stored_normal (V3 0 1 0))).
Proof.
  exists 1%nat. split; [lia|]. unfold stored_normal. cbn [vx vy vz]. unfold Rdiv. rewrite !Rmult_0_l.
  replace (1 - 0 - 0) with 1 by ring. rewrite sqrt_1. destruct (Rltb 1 0) eqn:X; [apply Rltb_iff in X; lra|].
  intros j Hj Hn. destruct j as [|[|[|j]]]; try lia; cbn [fvec_of vx vy vz]; rewrite Rabs_R0, Rabs_R1; lra.
Qed.
Lemma tuningR_fits : 0 <= t_jacobi tuningR /\ 3 * (t_jacobi tuningR * t_jacobi tuningR) < t_pinv tuningR /\ t_pinv tuningR <= / 3 /\ (1 < t_iters tuningR)%nat.
Proof. unfold tuningR. cbn [t_jacobi t_pinv t_iters]. repeat split; try lra; lia. Qed.
(* the default values of the library, include/isomesh/qef/qef_solver_3d.hpp:113-119 *)
Lemma defaults_fit : let d := Tuning (1 / 100) (25 / 10000) 15 true in 0 <= t_jacobi d /\ 3 * (t_jacobi d * t_jacobi d) < t_pinv d /\ t_pinv d <= / 3 /\ (1 < t_iters d)%nat.
Proof. cbn [t_jacobi t_pinv t_iters]. repeat split; try lra; lia. Qed.

Example C74_dc_all_ex : forall simplify, exists calls t g solid t1 sol1 t2 m, fill grid4R half_field (regula_falsi 5) = Ret (g, calls) /\
  let ops : qef_ops (fp_F envR) (solver R) (qstate R) := solver3_ops arithR least_normal true_hypot true_copysign sin cos atan tuningR in
  dc_reached ops 4 t /\ filled g solid /\ (4 <= g_size g)%Z /\ dc_build ops g 1 simplify t (q_new arithR) = Ret (t1, sol1) /\
  dc_contour t1 = Ret (t2, m) /\ m_verts m <> [].
Proof. exact (C71_ex (regula_falsi 5)). Qed.
