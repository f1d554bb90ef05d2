(* Linear fields give flat meshes of manifold dual contouring, in exact arithmetic: C74 *)
From Coq Require Import ZArith List Bool Lia Reals Lra Permutation.
From Verif Require Import LoopLemmas Arith RealArith MeshModel MeshSpec MaterialFilterModel GridModel GridSpec EdgeModel EdgeSpec FillModel FillSpec FillProofs ZeroModel ZeroReal
  CellSpec CellTables MCModel MCProofs UdcModel QefModel QefSpec QefLin QefProofs QefFlat QefPlane SolverModel
  PropFill PropFillNum PropZero PropMC PropUdc DcModel OctreeModel OctreeSpec OctreeProofs OctreeFlux DcSpec DcBuild DcQef DcContour PropDc PropQef PropDcQef PropFlat PropPlane PlaneMerge PropDcPlane
  MdcModel MdcSpec MdcTables MdcLeaf MdcTrav MdcForest MdcContour PropMdc MdcQef PropMdcQef Base.
Import ListNotations.
Local Open Scope R_scope.

Section Vertices.
Variable hypot copysign : R -> R -> R.
Variable msin mcos matan : R -> R.
Variable tune : tuning R.
Variable g0 : ugrid envR.
Variable f : field envR.
Variable a : vec3 R.
Variable b : R.
Variable G : vec3 R.
Variable steps : Z.
Variable g : ugrid envR.
Variable calls : list (zf_call envR).
Variable i0 : nat.
Hypothesis Hv : valid_size (g_size g0).
Hypothesis Hs : g_step g0 <> 0.
Hypothesis Hlin : linear_field f a b G.
Hypothesis Hf : fill g0 f (regula_falsi steps) = Ret (g, calls).
Hypothesis HI : first_component (stored_normal G) i0.
Hypothesis HD : one_direction hypot copysign msin mcos matan tune (fvec_of (stored_normal G)).
Notation ops := (solver3_ops arithR least_normal hypot copysign msin mcos matan tune : qef_ops (fp_F envR) (solver R) (qstate R)).

Definition flat_vertex (q : ivec3) (k : nat) (es : list (uedge (fp_F envR))) (v : mdc_vertex (fp_F envR) (qstate (fp_F envR))) : Prop :=
  edges_within g q k es /\ xv_pos v = mean_point (planes_of es) /\ xv_normal v = stored_normal G /\
  exists s, xv_qef v = Some s /\ coherent_state (stored_normal G) i0 s (planes_of es).

Lemma solution_flat : forall q k sol es normals mats v, coherent (stored_normal G) sol (planes_of es) -> es <> [] -> edges_within g q k es ->
  (zlen es <= 12 * 8 ^ Z.of_nat k)%Z -> (k <= 8)%nat -> normals <> [] -> Forall (fun n => n = stored_normal G) normals ->
  solution (E := envR) ops q k sol normals mats v -> flat_vertex q k es v.
Proof.
  intros q k sol es normals mats v C Hne Hw Hl Hk Hnn Hn (sol1 & sol2 & s & S1 & S2 & S3 & S4 & S5 & S6).
  destruct (within_facts g0 f a b G steps g calls q k es Hv Hs Hlin Hf Hw) as (W1 & W2 & W3 & W4).
  assert (Hne' : planes_of es <> []) by (unfold planes_of; destruct es; [congruence|discriminate]).
  destruct (solve_coherent hypot copysign msin mcos matan tune (stored_normal G) i0 HI HD _ _ _ _ sol1 (xv_pos v) C Hne' W4 S1) as (V & C1 & Hd).
  assert (L8 : (8 ^ Z.of_nat k <= 8 ^ 8)%Z) by (apply Z.pow_le_mono_r; lia). change (8 ^ 8)%Z with 16777216%Z in L8.
  destruct (state_runs least_normal (E := envR) sol1) as (d & s' & Rn & _).
  { destruct C1 as (_ & Cc & _). change (fp_F envR) with R in *. rewrite Cc. unfold planes_of. change (fp_F envR) with R in *. rewrite zlen_map. unfold s3_limit. change (2 ^ 30)%Z with 1073741824%Z. lia. }
  unfold qo_state in S3. cbn [solver3_ops] in S3.
  change (fp_f envR) with arithR in Rn. change (fp_F envR) with R in *. unfold s3_state in S3. rewrite Rn in S3. injection S3 as <- <-.
  split; [exact Hw|]. split; [exact V|]. split.
  - etransitivity; [exact S5|]. unfold sum3. apply (normalize_copies (stored_normal G)); [apply stored_normal_unit|exact Hnn|exact Hn].
  - exists d. split; [exact S4|]. eapply state_coherent; [exact HI|exact C1|exact Hd|exact Rn].
Qed.

Lemma leaf_flat : forall q es sol0 mats v, es <> [] -> (length es <= 12)%nat ->
  (forall e, In e es -> In e (g_edges (fst (edge_key e)) g) /\ In (edge_key e) (map (cell_edge q) (zseq 0 12))) ->
  solution ops q 0 (fold_left (fun sol e => qo_add ops sol (surface_point envR e) (surface_normal envR e)) es (qo_reset ops sol0)) (map (surface_normal envR) es) mats v ->
  flat_vertex q 0 es v.
Proof.
  intros q es sol0 mats v Hne Le He Hsol.
  assert (Hw : edges_within g q 0 es).
  { intros e Hin. destruct (He e Hin) as [H1 K]. apply in_map_iff in K as (i & Hi & Hi2). apply in_zseq in Hi2. exists q, (fst (edge_key e)), i.
    split; [unfold OctreeSpec.in_cube; rewrite edge_len_0; lia|]. split; [exact H1|]. split; [cbn in Hi2; lia|exact Hi]. }
  destruct (within_facts g0 f a b G steps g calls q 0 es Hv Hs Hlin Hf Hw) as (W1 & W2 & W3 & W4).
  pose proof (adds_coherent (stored_normal G) i0 HI (planes_of es) ltac:(unfold planes_of; change (fp_F envR) with R in *; rewrite zlen_map; unfold zlen, two32; lia) W1) as C.
  eapply solution_flat; [|exact Hne|exact Hw| |lia| |exact W2|exact Hsol].
  - rewrite fold_ops. exact C.
  - change (fp_F envR) with R in *. unfold zlen. change (8 ^ Z.of_nat 0)%Z with 1%Z. lia.
  - destruct es; [congruence|discriminate].
Qed.

Lemma parts_flat : forall q n (parts : list (mdc_vertex (fp_F envR) (qstate (fp_F envR)) * qstate (fp_F envR))) ess,
  Forall2 (fun p es => es <> [] /\ xv_qef (fst p) = Some (snd p) /\ exists q2 k2, subcube q2 k2 q n /\ flat_vertex q2 k2 es (fst p)) parts ess ->
  edges_within g q n (concat ess) /\ Forall (fun v => v = stored_normal G) (map (fun p => xv_normal (fst p)) parts) /\
  forall s es, coherent (stored_normal G) s (planes_of es) -> (q_dim s = 1%Z \/ (es = [] /\ q_dim s = 0%Z)) -> (zlen es + zlen (concat ess) < two32)%Z ->
    coherent (stored_normal G) (fold_left (fun sol p => qo_merge ops sol (snd p)) parts s) (planes_of (es ++ concat ess)).
Proof.
  intros q n parts ess H. induction H as [|p es1 parts ess (E1 & E2 & q2 & k2 & E3 & E4 & E5 & E6 & s1 & E7 & E8) H IH]; cbn [fold_left map concat].
  - split; [intros e []|]. split; [constructor|]. intros s es C _ _. rewrite app_nil_r. exact C.
  - destruct IH as (I1 & I2 & I3). split; [|split].
    + intros e He. apply in_app_iff in He as [He|He]; [|apply I1; exact He]. destruct (E4 e He) as (c & d & j & X1 & X2). exists c, d, j. split; [|exact X2].
      eapply in_cube_sub; [exact E3|exact X1].
    + constructor; assumption.
    + intros s es C Hd Hl. rewrite E2 in E7. injection E7 as <-. change (fp_F envR) with R in *. unfold zlen in Hl. rewrite app_length, Nat2Z.inj_add in Hl.
      destruct (merge_coherent (stored_normal G) i0 HI s (snd p) (planes_of es) (planes_of es1) C) as (s' & Rn & C1 & C2); [destruct Hd as [Hd|[-> Hd]]; [left; exact Hd|right; split; [reflexivity|exact Hd]]|exact E8|unfold planes_of; change (fp_F envR) with R; rewrite !zlen_map; unfold zlen; lia|].
      change (qo_merge ops s (snd p)) with (match s3_merge arithR least_normal s (snd p) with Ret s' => s' | _ => s end). rewrite Rn. rewrite <- planes_app in C1.
      rewrite app_assoc. apply I3; [exact C1|left; exact C2|]. unfold zlen. rewrite app_length. lia.
Qed.

Lemma merged_flat : forall q m (parts : list (mdc_vertex (fp_F envR) (qstate (fp_F envR)) * qstate (fp_F envR))) ess sol0 mats v, parts <> [] -> (S m <= 8)%nat ->
  Forall2 (fun p es => es <> [] /\ xv_qef (fst p) = Some (snd p) /\ exists q2 k2, subcube q2 k2 q (S m) /\ flat_vertex q2 k2 es (fst p)) parts ess ->
  (zlen (concat ess) <= 12 * 8 ^ Z.of_nat (S m))%Z ->
  solution ops q (S m) (fold_left (fun sol p => qo_merge ops sol (snd p)) parts (qo_reset ops sol0)) (map (fun p => xv_normal (fst p)) parts) mats v ->
  flat_vertex q (S m) (concat ess) v.
Proof.
  intros q m parts ess sol0 mats v Hp Hm HF Hl Hsol. destruct (parts_flat q (S m) parts ess HF) as (P1 & P2 & P3).
  assert (L8 : (8 ^ Z.of_nat (S m) <= 8 ^ 8)%Z) by (apply Z.pow_le_mono_r; lia). change (8 ^ 8)%Z with 16777216%Z in L8.
  eapply solution_flat; [| |exact P1|exact Hl|exact Hm| |exact P2|exact Hsol].
  - apply (P3 (q_new arithR) []); [apply new_coherent|right; split; reflexivity|]. unfold zlen, two32 in *. cbn [length]. lia.
  - destruct parts as [|p parts]; [congruence|]. inversion HF as [|? es1 ? ? (X & _) _]; subst. cbn [concat]. destruct es1; [congruence|discriminate].
  - destruct parts; [congruence|discriminate].
Qed.
End Vertices.

Theorem C74_mdc : forall tune (g0 : ugrid envR) f a b G steps g calls solid size t (eps : R) t' (m : mesh (mvert R)) w,
  let ops : qef_ops (fp_F envR) (solver R) (qstate R) := solver3_ops arithR least_normal true_hypot true_copysign sin cos atan tune in
  valid_size (g_size g0) -> g_step g0 <> 0 -> linear_field f a b G -> tame_gradient G -> dominant (fvec_of (stored_normal G)) ->
  0 <= t_jacobi tune -> 3 * (t_jacobi tune * t_jacobi tune) < t_pinv tune -> t_pinv tune <= / 3 -> (1 < t_iters tune)%nat ->
  fill g0 f (regula_falsi steps) = Ret (g, calls) ->
  mdc_reached ops size (Some (g, solid)) t -> @mdc_contour envR (qstate R) eps t = Ret (t', m) -> In w (m_verts m) ->
  (root_level size <= 8)%nat -> fl_value f (global g0 (mv_pos w)) = 0 /\ mv_normal w = stored_normal G.
Proof.
  intros tune g0 f a b G steps g calls solid size t eps t' m w ops Hv Hs Hlin HG Hdom T1 T2 T3 T4 Hf Hr Hm Hin Hlev.
  pose proof (dominant_direction tune _ (unit_norm G) Hdom T1 T2 T3 T4) as HD.
  destruct (tame_first G HG) as (i0 & HI).
  destruct (in_znth _ _ _ Hin) as (i & Hi).
  destruct (mesh_vertex_node envR _ _ ops _ _ _ _ _ _ _ _ _ Hr Hm Hi) as [Gd (bv & v & Hb & V1 & Hw & Ke & Hq)].
  destruct (verts_part _ _ _ _ _ (gd_shape _ _ _ _ _ _ _ Gd) Hb) as (k & u & q' & P & Hu).
  assert (Hbu : In bv (tree_verts u)) by (destruct u; cbn [node_verts tree_verts] in *; [exact Hu|apply in_or_app; left; exact Hu]).
  assert (Hk : (k <= 8)%nat) by (pose proof (subcube_level _ _ _ _ (proj1 (part_sub _ _ _ _ _ _ _ _ _ P (gd_shape _ _ _ _ _ _ _ Gd)))); lia).
  destruct (@known_all envR _ _ _ _ _ _ _ g solid (fun _ => True) _ _ _ _ Gd (flat_vertex G g i0)
    (leaf_flat true_hypot true_copysign sin cos atan tune g0 f a b G steps g calls i0 Hv Hs Hlin Hf HI HD)
    (merged_flat true_hypot true_copysign sin cos atan tune g0 f a b G steps g calls i0 Hv Hs Hlin Hf HI HD) k u q' P Hk bv Hbu)
    as (k2 & q2 & Hk2 & Hsub & v' & s & sol1 & es & ls & (F1 & F2 & F3 & _) & X1 & _ & _ & Hne & _).
  assert (v' = v) by (exact (some_same _ _ _ _ X1 V1)). subst v'.
  destruct (within_facts g0 f a b G steps g calls q2 k2 es Hv Hs Hlin Hf F1) as (W1 & W2 & W3 & W4).
  rewrite Hw. cbn [mv_pos mv_normal]. split; [|exact F3]. refine (eq_ind_r (fun z : vec3 R => fl_value f (global g0 z) = 0) _ F2).
  apply (mean_linear g0 f a b G); [exact Hlin|unfold planes_of; destruct es; [congruence|discriminate]|exact W3].
Qed.
Print Assumptions C74_mdc.

Example C74_mdc_ex : forall (eps : R), exists calls (g : ugrid envR) solid t t' m w, fill grid4R half_field (regula_falsi 5) = Ret (g, calls) /\
  let ops : qef_ops (fp_F envR) (solver R) (qstate R) := solver3_ops arithR least_normal true_hypot true_copysign sin cos atan tuningR in
  mdc_reached ops 4 (Some (g, solid)) t /\ @mdc_contour envR (qstate R) eps t = Ret (t', m) /\ znth (m_verts m) 0 = Some w.
Proof. exact (C75_ex (regula_falsi 5)). Qed.
