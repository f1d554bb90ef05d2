(* Linear fields give flat meshes, in exact arithmetic: C74 *)
From Coq Require Import ZArith List Bool Lia Reals Lra Permutation.
From Verif Require Import LoopLemmas Arith RealArith MeshModel MeshSpec MaterialFilterModel GridModel GridSpec EdgeModel EdgeSpec FillModel FillSpec FillProofs ZeroModel ZeroReal
  CellSpec CellTables MCModel MCProofs UdcModel UdcProofs DualSpec OctreeModel OctreeSpec OctreeProofs DcModel DcSpec DcBuild DcContour QefModel QefSpec QefLin QefProofs QefFlat SolverModel
  PropFill PropFillNum PropZero PropMC PropUdc PropDc PropQef PropDcQef PropFlat Base.
Import ListNotations.
Local Open Scope R_scope.

(* A linear function with a constant gradient function. *)
Definition linear_field (f : field envR) (a : vec3 R) (b : R) (G : vec3 R) : Prop :=
  (forall p, fl_value f p = vx a * vx p + vy a * vy p + vz a * vz p + b) /\ (forall p, fl_grad f p = G).

(* ---- the zero finder ---- *)
Lemma falsi_linear : forall al be steps (c0 c1 : R), let F := fun c : R => al * c + be in
  F c0 * F c1 <= 0 -> Rabs (F c0) + Rabs (F c1) > 0 -> (0 < steps)%nat ->
  let r := fst (@falsi envR F steps 0 c0 c0 c1 (F c0) (F c1)) in F r = 0 /\ between c0 c1 r.
Proof.
  intros al be steps c0 c1 F Hs Hn Hst r. destruct steps as [|steps]; [lia|]. unfold r. clear r. cbn [falsi].
  assert (Hd : F c1 - F c0 <> 0).
  { intro X. assert (E : F c1 = F c0) by lra. rewrite E in Hs, Hn. assert (F c0 = 0) as Z by nra. rewrite Z, Rabs_R0 in Hn. lra. }
  set (mid := @secant envR c0 c1 (F c0) (F c1)).
  assert (Em : mid = (c0 * F c1 - c1 * F c0) / (F c1 - F c0)) by reflexivity.
  assert (Z : F mid = 0).
  { unfold F at 1. rewrite Em. replace (al * ((c0 * F c1 - c1 * F c0) / (F c1 - F c0)) + be)
      with ((F c1 * (al * c0 + be) - F c0 * (al * c1 + be)) / (F c1 - F c0)) by (field; exact Hd). fold (F c0) (F c1). field. exact Hd. }
  assert (S0 : forall u, @same_sign envR (F mid) u = false).
  { intro u. unfold same_sign. cbn [fp_d fp_D envR arithR a_lt a_mul a_ofZ]. change (fp_D envR) with R in *. rewrite Z. apply Rltb_false. lra. }
  rewrite !S0. cbn [fst]. split; [exact Z|]. set (u := F c0) in *. set (v := F c1) in *. clearbody u v. clear S0 Z F.
  assert (B : exists w, 0 <= w <= 1 /\ mid = c0 + w * (c1 - c0)).
  { exists (- u / (v - u)). split.
    - assert (v - u < 0 \/ 0 < v - u) as [L|L] by lra.
      + replace (- u / (v - u)) with (u / (u - v)) by (field; lra).
        split; apply Rmult_le_reg_r with (u - v); try lra; unfold Rdiv; rewrite ?Rmult_assoc, Rinv_l by lra; nra.
      + split; apply Rmult_le_reg_r with (v - u); try lra; unfold Rdiv; rewrite ?Rmult_assoc, Rinv_l by lra; nra.
    - change (fp_D envR) with R in *. rewrite Em. field. exact Hd. }
  destruct B as (w & Hw & ->). unfold between. destruct (Rle_or_lt c0 c1); [left|right]; nra.
Qed.

(* ---- stored edges ---- *)
Definition stored_normal (G : vec3 R) : vec3 R :=
  let k := sqrt (norm2 G) + / 2 ^ 52 in let x := vx G / k in let z := vz G / k in
  let y := sqrt (1 - x * x - z * z) in V3 x (if Rltb (vy G) 0 then - y else y) z.

Lemma stored_normal_unit : forall G, norm2 (stored_normal G) = 1.
Proof.
  intro G. unfold stored_normal. cbv zeta. destruct (normal_xz G) as (Hlt & _). cbv zeta in Hlt.
  set (x := vx G / _) in *. set (z := vz G / _) in *. unfold sqr in Hlt.
  assert (Hss : sqrt (1 - x * x - z * z) * sqrt (1 - x * x - z * z) = 1 - x * x - z * z) by (apply sqrt_sqrt; lra).
  unfold norm2, sqr. cbn [vx vy vz]. destruct (Rltb (vy G) 0); nra.
Qed.

Lemma linear_edges : forall (g0 : ugrid envR) f a b G steps g calls d e, valid_size (g_size g0) -> g_step g0 <> 0 -> linear_field f a b G ->
  fill g0 f (regula_falsi steps) = Ret (g, calls) -> In e (g_edges d g) ->
  fl_value f (global g0 (surface_point envR e)) = 0 /\ edge_key e = (d, lesser_endpoint e) /\ surface_normal envR e = stored_normal G /\
  exists s, 0 <= s <= 1 /\ surface_point envR e = edge_point d (lesser_endpoint e) s.
Proof.
  intros g0 f a b G steps g calls d e Hv Hs [Hlin Hgr] Hf Hd.
  destruct (stored_zero g0 f _ g calls d e Hv Hs Hf Hd) as (c & mat & Hca & Hax & Hed & Hk & Hstart & Hpt & Hmk).
  destruct (C10_exact _ _ _ _ _ _ Hv Hf Hca) as (E0 & E1 & E2 & Hsg & Hnz). rewrite Hax in *.
  set (start := zc_start c) in *. set (r := regula_falsi steps c f) in *.
  assert (HF : exists al be, forall x, fl_value f (vset envR d start x) = al * x + be).
  { destruct start as [sx sy sz]. destruct d; cbn [vset]; eexists; eexists; intro x; rewrite Hlin; cbn [vx vy vz]; change (fp_D envR) with R.
    - instantiate (1 := vy a * sy + vz a * sz + b). instantiate (1 := vx a). ring.
    - instantiate (1 := vx a * sx + vz a * sz + b). instantiate (1 := vy a). ring.
    - instantiate (1 := vx a * sx + vy a * sy + b). instantiate (1 := vz a). ring. }
  destruct HF as (al & be & HF).
  assert (F0 : fl_value f start = al * vget d start + be) by (rewrite <- HF, vset_self; reflexivity).
  assert (Hr : al * r + be = 0 /\ between (vget d start) (zc_end c) r).
  { assert (Hp : (0 < Z.to_nat (set_step_count steps))%nat) by (unfold set_step_count; destruct (1 <? steps)%Z eqn:X; lia).
    pose proof (falsi_linear al be (Z.to_nat (set_step_count steps)) (vget d start) (zc_end c)) as X. cbv zeta in X.
    rewrite E0, F0 in Hsg, Hnz. rewrite E1, HF in Hsg, Hnz. specialize (X Hsg Hnz Hp).
    assert (Er : r = fst (@falsi envR (fun c0 : R => al * c0 + be) (Z.to_nat (set_step_count steps)) 0 (vget d start) (vget d start) (zc_end c)
        (al * vget d start + be) (al * zc_end c + be))).
    { unfold r, regula_falsi, falsi_run. rewrite E0, F0, E1, HF, Hax.
      assert (Ext : forall (F F' : R -> R), (forall x, F x = F' x) -> forall n side (m c0 c1 f0 f1 : R), @falsi envR F n side m c0 c1 f0 f1 = @falsi envR F' n side m c0 c1 f0 f1).
      { intros F F' Hx. induction n as [|n IH]; intros; cbn [falsi]; [reflexivity|]. change (fp_D envR) with R in *. rewrite !Hx, !IH. reflexivity. }
      f_equal. apply Ext. intro x. unfold value_at. apply HF. }
    rewrite Er. exact X. }
  destruct Hr as [Hr1 Hr2]. rewrite E2 in Hr2. clearbody r.
  split; [rewrite Hpt, HF; exact Hr1|]. split; [exact Hk|]. split.
  - destruct (make_edgeR _ _ _ _ _ _ _ _ _ Hmk) as (Hx & Hz & Hy & _). rewrite Hgr in Hx, Hy, Hz.
    unfold surface_normal, stored_normal. change (fp_F envR) with R in *. rewrite Hx, Hy, Hz. cbn [fp_f envR arithR a_sub a_mul a_ofZ a_sqrt a_neg].
    destruct (normal_xz G) as (Hlt & _). cbv zeta in Hlt. set (x := vx G / _) in *. set (z := vz G / _) in *. unfold sqr in Hlt.
    unfold glm_max. cbn [arithR a_lt]. change (fp_F envR) with R.
    replace (Rltb 0 (1 - x * x - z * z)) with true by (symmetry; apply Rltb_iff; lra). reflexivity.
  - exists ((r - vget d start) / g_step g0). split; [apply on_edge; assumption|].
    assert (Inj : forall a b, global g0 a = global g0 b -> a = b).
    { intros u v H. rewrite <- (proj1 (C52_inverse (g_step g0) (g_pos g0) u Hs)), <- (proj1 (C52_inverse (g_step g0) (g_pos g0) v Hs)). f_equal. exact H. }
    apply Inj. rewrite Hpt, global_edge, <- Hstart. f_equal. change (fp_D envR) with R in *. field. exact Hs.
Qed.

(* ---- the solver ---- *)
(* The normal has a first component other than zero, and its absolute value is at least 2^-63. *)
Definition first_component (N : vec3 R) (i0 : nat) : Prop :=
  (i0 < 3)%nat /\ (forall c, (c < i0)%nat -> fvec_of N c = 0) /\ least_normal <= fvec_of N i0 * fvec_of N i0.

(* mean of a coordinate of the points *)
Definition point_sum (d : axis) (planes : list (vec3 R * vec3 R)) : R := fold_right (fun p s => vget d (fst p) + s) 0 planes.
Definition mean_point (planes : list (vec3 R * vec3 R)) : vec3 R :=
  V3 (point_sum AX planes / INR (length planes)) (point_sum AY planes / INR (length planes)) (point_sum AZ planes / INR (length planes)).

Lemma flat_adds : forall N i0, first_component N i0 -> forall planes s k, Forall (fun p => snd p = N) planes ->
  flat_solver 3 (fvec_of N) s k (rsum 3 (fun c => fvec_of N c * q_sum s c)) -> q_count s = Z.of_nat k -> (q_used s <= 8)%nat -> (Z.of_nat (k + length planes) < two32)%Z ->
  let s' := fold_left (fun s p => match s3_add arithR least_normal s (fst p) (snd p) with Ret s' => s' | _ => s end) planes s in
  flat_solver 3 (fvec_of N) s' (k + length planes) (rsum 3 (fun c => fvec_of N c * q_sum s' c)) /\ q_count s' = Z.of_nat (k + length planes) /\
  q_sum s' 0%nat = q_sum s 0%nat + point_sum AX planes /\ q_sum s' 1%nat = q_sum s 1%nat + point_sum AY planes /\ q_sum s' 2%nat = q_sum s 2%nat + point_sum AZ planes.
Proof.
  intros N i0 (I1 & I2 & I3). induction planes as [|[q n] planes IH]; intros s k HN Hfl Hc Hu Hb; cbn [fold_left].
  - cbn [length]. rewrite Nat.add_0_r. unfold point_sum. cbn [fold_right]. rewrite !Rplus_0_r. auto.
  - apply Forall_cons_iff in HN as [Hn HN]. cbn [snd] in Hn. subst n. cbn [fst snd length] in *.
    destruct (add_plane_runs arithR least_normal 3 8 ltac:(lia) s (fvec_of q) (fvec_of N) Hu) as (s1 & R & Hu1).
    assert (R2 : s3_add arithR least_normal s q N = Ret s1) by exact R. rewrite R2.
    pose proof (add_flat least_normal least_normal_pos 3 (fvec_of N) i0 I1 I2 I3 8 s k _ (fvec_of q) s1 Hfl R) as Hf1.
    pose proof R as R'. unfold add_plane in R'. set (s0 := if Nat.eqb (q_used s) 8 then compress arithR least_normal 3 s else s) in R'.
    assert (S0 : q_sum s0 = q_sum s /\ q_count s0 = q_count s) by (unfold s0; destruct (Nat.eqb _ _); split; reflexivity). destruct S0 as [S0 C0].
    destruct (Nat.ltb _ 8); [|discriminate]. injection R' as E1.
    assert (S1 : forall c, q_sum s1 c = q_sum s c + fvec_of q c) by (intro c; rewrite <- E1; cbn [q_sum arithR a_add]; rewrite S0; reflexivity).
    assert (C1 : q_count s1 = Z.of_nat (S k)).
    { rewrite <- E1. cbn [q_count]. rewrite C0, Hc. unfold u32. rewrite Z.mod_small by lia. lia. }
    specialize (IH s1 (S k) HN).
    destruct IH as (A1 & A2 & A3 & A4 & A5).
    + replace (rsum 3 (fun c => fvec_of N c * q_sum s1 c)) with (rsum 3 (fun c => fvec_of N c * q_sum s c) + rsum 3 (fun c => fvec_of N c * fvec_of q c)); [exact Hf1|].
      cbn [rsum]. rewrite !S1. ring.
    + exact C1.
    + lia.
    + rewrite <- Nat.add_succ_comm in Hb. exact Hb.
    + rewrite <- Nat.add_succ_comm. split; [exact A1|]. split; [exact A2|].
      rewrite A3, A4, A5, !S1. unfold point_sum. cbn [fold_right fst vget fvec_of]. split; [ring|]. split; ring.
Qed.

Lemma mean_between : forall d planes lo hi, planes <> [] -> (forall p, In p planes -> lo <= vget d (fst p) <= hi) -> lo <= point_sum d planes / INR (length planes) <= hi.
Proof.
  intros d planes lo hi Hne H.
  assert (B : INR (length planes) * lo <= point_sum d planes <= INR (length planes) * hi).
  { clear Hne. induction planes as [|p planes IH]; [cbn; lra|]. cbn [length]. rewrite S_INR. unfold point_sum. cbn [fold_right]. fold (point_sum d planes).
    specialize (IH ltac:(intros; apply H; right; assumption)). pose proof (H p ltac:(left; reflexivity)). lra. }
  assert (P : 0 < INR (length planes)) by (apply lt_0_INR; destruct planes; [congruence|cbn; lia]).
  split; apply Rmult_le_reg_r with (INR (length planes)); try assumption; unfold Rdiv; rewrite Rmult_assoc, Rinv_l by lra; lra.
Qed.

(* Planes with one common normal, points in the box: the solution is the mean of the points. *)
Theorem flat_cell : forall hypot copysign msin mcos matan tune N i0 planes lo hi, first_component N i0 ->
  planes <> [] -> (zlen planes < two32)%Z -> Forall (fun p => snd p = N) planes -> (forall d p, In p planes -> vget d lo <= vget d (fst p) <= vget d hi) ->
  solver3_cell arithR least_normal hypot copysign msin mcos matan tune planes lo hi = mean_point planes.
Proof.
  intros hypot copysign msin mcos matan tune N i0 planes lo hi HI Hne Hlen HN Hbox.
  assert (F0 : flat_solver 3 (fvec_of N) (q_new arithR) 0 (rsum 3 (fun c => fvec_of N c * q_sum (q_new arithR) c))).
  { replace (rsum 3 (fun c => fvec_of N c * q_sum (q_new arithR) c)) with 0; [apply new_flat|]. cbn. ring. }
  destruct (flat_adds N i0 HI planes (q_new arithR) 0 HN F0 eq_refl ltac:(cbn; lia) Hlen) as (A1 & A2 & A3 & A4 & A5).
  unfold solver3_cell, s3_solve. set (s := fold_left _ planes (q_new arithR)) in *. clearbody s. cbn [Nat.add] in *. cbn [q_new q_sum] in A3, A4, A5.
  destruct HI as (I1 & I2 & I3).
  assert (Hk : (0 < length planes)%nat) by (destruct planes; [congruence|cbn; lia]).
  pose proof (solve_flat least_normal least_normal_pos 3 (fvec_of N) i0 I1 I2 I3 hypot copysign msin mcos matan tune s (length planes) _ (fvec_of lo) (fvec_of hi) A1 Hk A2 eq_refl) as X.
  destruct (solve _ _ _ _ _ _ _ _ _ _ _ _) as [z s']. cbn [fst] in X. cbn [snd]. unfold vec3_of, mean_point. rewrite !X.
  assert (K : forall x a b, a <= x <= b -> glm_min arithR (glm_max arithR x a) b = x).
  { intros x a b H. unfold glm_min, glm_max. cbn [arithR a_lt]. unfold Rltb. destruct (Rlt_dec x a); [lra|]. destruct (Rlt_dec b x); [lra|reflexivity]. }
  unfold clampv. rewrite !K.
  - rewrite A3, A4, A5. cbn [arithR a_ofZ]. rewrite !Rplus_0_l. reflexivity.
  - cbn [fvec_of]. rewrite A5. cbn [arithR a_ofZ]. rewrite Rplus_0_l. apply (mean_between AZ); [assumption|]. intros p Hp. apply (Hbox AZ p Hp).
  - cbn [fvec_of]. rewrite A4. cbn [arithR a_ofZ]. rewrite Rplus_0_l. apply (mean_between AY); [assumption|]. intros p Hp. apply (Hbox AY p Hp).
  - cbn [fvec_of]. rewrite A3. cbn [arithR a_ofZ]. rewrite Rplus_0_l. apply (mean_between AX); [assumption|]. intros p Hp. apply (Hbox AX p Hp).
Qed.

(* ---- gradients ---- *)
(* The first component of the gradient is zero or not negligible in comparison with its length; if it is zero, the gradient is not longer than 2^73. *)
Definition tame_gradient (G : vec3 R) : Prop :=
  (vx G = 0 /\ sqrt (norm2 G) <= 2 ^ 73) \/ sqrt (norm2 G) + / 2 ^ 52 <= 2 ^ 63 * Rabs (vx G).

Lemma least_square : least_normal = / 2 ^ 63 * / 2 ^ 63.
Proof. rewrite <- sqrt_least. symmetry. apply sqrt_sqrt. left. apply least_normal_pos. Qed.

Lemma tame_first : forall G, tame_gradient G -> exists i0, first_component (stored_normal G) i0.
Proof.
  intros G HG. unfold tame_gradient in HG. assert (E52 : 0 < / 2 ^ 52) by (apply Rinv_0_lt_compat, pow_lt; lra). assert (E63 : 0 < / 2 ^ 63) by (apply Rinv_0_lt_compat, pow_lt; lra).
  pose proof (sqrt_pos (norm2 G)) as Hl. set (L := sqrt (norm2 G)) in *.
  assert (HL : L * L = vx G * vx G + vy G * vy G + vz G * vz G).
  { unfold L. rewrite sqrt_sqrt; [reflexivity|]. unfold norm2, sqr. clear. nra. }
  destruct HG as [[H0 H1]|H1].
  - exists 1%nat. split; [lia|]. split.
    + intros c Hc. replace c with 0%nat by lia. unfold stored_normal. cbn [fvec_of vx]. rewrite H0. unfold Rdiv. ring.
    + pose proof (stored_normal_unit G) as U. unfold norm2, sqr in U.
      assert (Ex : vx (stored_normal G) = 0) by (unfold stored_normal; cbn [vx]; rewrite H0; unfold Rdiv; ring).
      assert (Ez : vz (stored_normal G) = vz G / (L + / 2 ^ 52)) by reflexivity.
      cbn [fvec_of]. replace (vy (stored_normal G) * vy (stored_normal G)) with (1 - vz (stored_normal G) * vz (stored_normal G)) by (rewrite Ex in U; lra).
      rewrite Ez. set (e := / 2 ^ 52) in *. set (k := L + e).
      assert (Hz : vz G * vz G <= L * L) by (rewrite HL; nra).
      assert (Hk : 0 < k) by (unfold k; lra).
      assert (Hb : vz G / k * (vz G / k) <= L / k * (L / k)).
      { replace (vz G / k * (vz G / k)) with (vz G * vz G * (/ k * / k)) by (unfold Rdiv; ring). replace (L / k * (L / k)) with (L * L * (/ k * / k)) by (unfold Rdiv; ring).
        apply Rmult_le_compat_r; [|exact Hz]. assert (0 < / k) by (apply Rinv_0_lt_compat; exact Hk). nra. }
      assert (Hr : L / k = 1 - e / k) by (unfold k; field; unfold k in Hk; lra).
      assert (Hq : / 2 ^ 126 <= e / k <= 1).
      { split.
        - apply Rmult_le_reg_r with k; [exact Hk|]. unfold Rdiv. rewrite Rmult_assoc, Rinv_l, Rmult_1_r by lra.
          apply Rmult_le_reg_l with (2 ^ 126); [apply pow_lt; lra|]. rewrite <- Rmult_assoc, Rinv_r, Rmult_1_l by (apply pow_nonzero; lra).
          assert (E : 2 ^ 126 * e = 2 ^ 74) by (unfold e; replace 126%nat with (74 + 52)%nat by reflexivity; rewrite pow_add, Rmult_assoc, Rinv_r, Rmult_1_r by (apply pow_nonzero; lra); reflexivity).
          rewrite E. replace (2 ^ 74) with (2 ^ 73 + 2 ^ 73) by (replace 74%nat with (S 73) by reflexivity; cbn [pow]; lra).
          assert (e <= 1) by (unfold e; rewrite <- Rinv_1; apply Rinv_le_contravar; [lra|apply pow_R1_Rle; lra]).
          assert (1 <= 2 ^ 73) by (apply pow_R1_Rle; lra). unfold k. set (w := 2 ^ 73) in *. clearbody w. lra.
        - apply Rmult_le_reg_r with k; [exact Hk|]. unfold Rdiv. rewrite Rmult_assoc, Rinv_l, Rmult_1_r by lra. unfold k. lra. }
      rewrite Hr in Hb.
      assert (El : least_normal = / 2 ^ 126).
      { rewrite least_square. rewrite <- Rinv_mult, <- pow_add. reflexivity. }
      rewrite El. assert (Hx : 0 < / 2 ^ 126) by (apply Rinv_0_lt_compat, pow_lt; lra). clear - Hb Hq Hx. set (w := e / k) in *. set (y := vz G / k * (vz G / k)) in *. set (x := / 2 ^ 126) in *. clearbody w y x. nra.
  - exists 0%nat. split; [lia|]. split; [intros c Hc; lia|].
    cbn [fvec_of]. replace (vx (stored_normal G)) with (vx G / (L + / 2 ^ 52)) by reflexivity. set (k := L + / 2 ^ 52) in *.
    assert (Hk : 0 < k) by (unfold k; lra).
    replace (vx G / k * (vx G / k)) with (Rabs (vx G) / k * (Rabs (vx G) / k)).
    2:{ replace (Rabs (vx G) / k * (Rabs (vx G) / k)) with (Rabs (vx G) * Rabs (vx G) * (/ k * / k)) by (unfold Rdiv; ring). rewrite <- Rabs_mult, Rabs_pos_eq by nra. unfold Rdiv. ring. }
    rewrite least_square. assert (Hq : / 2 ^ 63 <= Rabs (vx G) / k).
    { apply Rmult_le_reg_r with k; [exact Hk|]. unfold Rdiv. rewrite Rmult_assoc, Rinv_l, Rmult_1_r by lra.
      apply Rmult_le_reg_l with (2 ^ 63); [apply pow_lt; lra|]. rewrite <- Rmult_assoc, Rinv_r, Rmult_1_l by (apply pow_nonzero; lra). exact H1. }
    apply Rmult_le_compat; lra.
Qed.

(* ---- the vertex of a cell ---- *)
Definition planes_of (es : list (uedge R)) : list (vec3 R * vec3 R) := map (fun e => (surface_point envR e, surface_normal envR e)) es.

Lemma cell_edge_range : forall q i d p, (0 <= i < 12)%Z -> cell_edge q i = (d, p) -> forall a, (vget a q <= vget a p /\ vget a p + vget a (unit_vec d) <= vget a q + 1)%Z.
Proof.
  intros q i d p Hi H a. unfold cell_edge in H. injection H as <- <-.
  assert (G : forallb (fun i => forallb (fun a => (0 <=? vget a (snd (local_edge i))) && (vget a (snd (local_edge i)) + vget a (unit_vec (fst (local_edge i))) <=? 1))%Z [AX; AY; AZ]) (zseq 0 12) = true)
    by (vm_compute; reflexivity).
  rewrite forallb_forall in G. specialize (G i ltac:(apply in_zseq; cbn; lia)). rewrite forallb_forall in G.
  specialize (G a ltac:(destruct a; cbn; tauto)). apply andb_true_iff in G as [G1 G2]. apply Z.leb_le in G1, G2.
  destruct a; unfold vadd; cbn [vget vx vy vz] in *; lia.
Qed.

Lemma point_sums : forall planes a b0 d0 (l : vec3 R -> R) , (forall p, l p = vx a * vx p + vy a * vy p + vz a * vz p + b0) ->
  (forall p, In p planes -> l (fst p) = d0) ->
  vx a * point_sum AX planes + vy a * point_sum AY planes + vz a * point_sum AZ planes + INR (length planes) * b0 = INR (length planes) * d0.
Proof.
  intros planes a b0 d0 l Hl. induction planes as [|p planes IH]; intro H; [cbn; ring|].
  specialize (IH ltac:(intros; apply H; right; assumption)). pose proof (H p ltac:(left; reflexivity)) as Hp. rewrite Hl in Hp.
  cbn [length]. rewrite S_INR. unfold point_sum in *. cbn [fold_right vget] in *. lra.
Qed.

Lemma plane_vertex : forall hypot copysign msin mcos matan tune (g0 : ugrid envR) f a b G steps g calls es q, valid_size (g_size g0) -> g_step g0 <> 0 -> linear_field f a b G ->
  tame_gradient G -> fill g0 f (regula_falsi steps) = Ret (g, calls) -> es <> [] -> (zlen es < two32)%Z ->
  (forall e, In e es -> exists d i, In e (g_edges d g) /\ (0 <= i < 12)%Z /\ cell_edge q i = edge_key e) ->
  let v := solver3_cell arithR least_normal hypot copysign msin mcos matan tune (planes_of es) (vofZ3 arithR q) (vofZ3 arithR (V3 (vx q + 1) (vy q + 1) (vz q + 1))%Z) in
  fl_value f (global g0 v) = 0 /\ v = mean_point (planes_of es).
Proof.
  intros hypot copysign msin mcos matan tune g0 f a b G steps g calls es q Hv Hs Hlin HG Hf Hne Hlen Hes v.
  destruct (tame_first G HG) as (i0 & HI).
  assert (HE : forall e, In e es -> fl_value f (global g0 (surface_point envR e)) = 0 /\ surface_normal envR e = stored_normal G /\
    forall c, IZR (vget c q) <= vget c (surface_point envR e) <= IZR (vget c q + 1)).
  { intros e He. destruct (Hes e He) as (d & i & H1 & Hi & Hc).
    destruct (linear_edges g0 f a b G steps g calls d e Hv Hs Hlin Hf H1) as (L1 & L2 & L3 & s & L4 & L5).
    split; [exact L1|]. split; [exact L3|]. intro c. rewrite L2 in Hc. destruct (cell_edge_range _ _ _ _ Hi Hc c) as [R1 R2].
    change (fp_F envR) with R in *. rewrite L5. unfold edge_point. apply IZR_le in R1, R2. rewrite plus_IZR in R2.
    assert (0 <= s * IZR (vget c (unit_vec d)) <= IZR (vget c (unit_vec d))) by (destruct d, c; cbn; lra).
    destruct c; cbn [vget vx vy vz] in *; lra. }
  assert (Hv' : v = mean_point (planes_of es)).
  { unfold v. apply (flat_cell _ _ _ _ _ _ _ i0 _ _ _ HI).
    - unfold planes_of. destruct es; [congruence|discriminate].
    - unfold planes_of. rewrite zlen_map. exact Hlen.
    - unfold planes_of. apply Forall_forall. intros p Hp. apply in_map_iff in Hp as (e & <- & He). apply HE. exact He.
    - intros d p Hp. unfold planes_of in Hp. apply in_map_iff in Hp as (e & <- & He). cbn [fst]. destruct (HE e He) as (_ & _ & X). specialize (X d).
      destruct d; cbn [vget vofZ3 vx vy vz arithR a_ofZ] in *; exact X. }
  split; [|exact Hv']. rewrite Hv'. clear v Hv'.
  destruct Hlin as [Hl _].
  assert (Hn : (0 < length (planes_of es))%nat) by (unfold planes_of; rewrite map_length; destruct es; [congruence|cbn; lia]).
  pose proof (point_sums (planes_of es) (V3 (vx a * g_step g0) (vy a * g_step g0) (vz a * g_step g0))
    (vx a * vx (g_pos g0) + vy a * vy (g_pos g0) + vz a * vz (g_pos g0) + b) 0 (fun p => fl_value f (global g0 p))) as P.
  cbn [vx vy vz] in P. apply lt_INR in Hn. rewrite Hl. unfold global, local_to_global, vadd3, vscale3, mean_point.
  cbn [fp_d fp_D envR arithR a_add a_mul vx vy vz].
  assert (P' : vx a * g_step g0 * point_sum AX (planes_of es) + vy a * g_step g0 * point_sum AY (planes_of es) + vz a * g_step g0 * point_sum AZ (planes_of es) +
    INR (length (planes_of es)) * (vx a * vx (g_pos g0) + vy a * vy (g_pos g0) + vz a * vz (g_pos g0) + b) = INR (length (planes_of es)) * 0).
  { apply P.
    - intro p. rewrite Hl. unfold global, local_to_global, vadd3, vscale3. cbn [fp_d fp_D envR arithR a_add a_mul vx vy vz]. change (fp_D envR) with R. ring.
    - intros p Hp. unfold planes_of in Hp. apply in_map_iff in Hp as (e & <- & He). apply HE. exact He. }
  clear P. change (fp_D envR) with R in *. set (n := INR (length (planes_of es))) in *. cbn [INR] in Hn.
  apply Rmult_eq_reg_l with n; [|lra]. rewrite <- P'. field. lra.
Qed.

(* sums of one unit vector *)
Lemma normalize_copies : forall N l, norm2 N = 1 -> l <> [] -> Forall (fun v => v = N) l ->
  @normalize3 envR (fold_left (vadd3 arithR) l (V3 0 0 0)) = N.
Proof.
  intros N l HN Hne Hl.
  assert (X : forall l, Forall (fun v => v = N) l -> forall k, fold_left (vadd3 arithR) l (V3 (k * vx N) (k * vy N) (k * vz N)) =
    V3 ((k + INR (length l)) * vx N) ((k + INR (length l)) * vy N) ((k + INR (length l)) * vz N)).
  { clear. induction l as [|v l IH]; intros H k; cbn [fold_left length]; [rewrite Rplus_0_r; reflexivity|].
    apply Forall_cons_iff in H as [-> H]. unfold vadd3. cbn [vx vy vz arithR a_add].
    replace (V3 (k * vx N + vx N) (k * vy N + vy N) (k * vz N + vz N)) with (V3 ((k + 1) * vx N) ((k + 1) * vy N) ((k + 1) * vz N)) by (f_equal; ring).
    fold (vadd3 arithR). change (fun a b : vec3 R => V3 (vx a + vx b) (vy a + vy b) (vz a + vz b)) with (vadd3 arithR). rewrite IH by exact H. rewrite S_INR. f_equal; ring. }
  specialize (X l Hl 0). rewrite !Rmult_0_l in X. rewrite X. rewrite !Rplus_0_l. set (k := INR (length l)).
  assert (Hk : 0 < k) by (unfold k; apply lt_0_INR; destruct l; [congruence|cbn; lia]).
  unfold normalize3, vscale3, dot3. cbn [fp_f fp_F envR arithR a_add a_mul a_div a_sqrt a_ofZ vx vy vz].
  unfold norm2, sqr in HN.
  replace (k * vx N * (k * vx N) + k * vy N * (k * vy N) + k * vz N * (k * vz N)) with (k * k) by (transitivity (k * k * (vx N * vx N + vy N * vy N + vz N * vz N)); [rewrite HN; ring|ring]).
  rewrite sqrt_square by lra. destruct N as [x y z]. cbn [vx vy vz]. f_equal; field; lra.
Qed.

(* ---- C74: linear fields ---- *)
(* Marching cubes: all vertices on the plane, all normals equal. *)
Theorem C74_mc : forall (g0 : ugrid envR) f a b G steps sort g calls m,
  valid_size (g_size g0) -> g_step g0 <> 0 -> linear_field f a b G -> solid_inside g0 f -> sorts entry_less sort ->
  fill g0 f (regula_falsi steps) = Ret (g, calls) -> marching_cubes sort g = Ret m ->
  forall v, In v (m_verts m) -> fl_value f (global g0 (mv_pos v)) = 0 /\ mv_normal v = stored_normal G.
Proof.
  intros g0 f a b G steps sort g calls m Hv Hs Hlin Hsol Hsort Hf Hm v Hin.
  destruct (C13_valid _ _ _ (regula_falsi steps) _ Hv (nan_freeR g0 f) Hsol Hsort) as (g' & calls' & m' & Hf' & Hm' & ts & Ht).
  rewrite Hf in Hf'. injection Hf' as <- <-. rewrite Hm in Hm'. injection Hm' as <-.
  destruct (C14_vertices _ _ _ _ _ _ _ _ _ Hv (nan_freeR g0 f) Hsol Hsort Hf Hm Ht) as [Hvs _].
  rewrite Hvs in Hin. apply in_map_iff in Hin as (e & <- & He). cbn [mv_pos mv_normal].
  assert (Hd : exists d, In e (g_edges d g)) by (unfold stored_edges in He; rewrite !in_app_iff in He; destruct He as [He|[He|He]]; eauto).
  destruct Hd as (d & Hd). destruct (linear_edges g0 f a b G steps g calls d e Hv Hs Hlin Hf Hd) as (L1 & _ & L3 & _). split; assumption.
Qed.
Print Assumptions C74_mc.

(* Uniform dual contouring with the QEF solver of the library. *)
Theorem C74_udc : forall hypot copysign msin mcos matan tune (g0 : ugrid envR) f a b G steps sort g calls m,
  valid_size (g_size g0) -> g_step g0 <> 0 -> linear_field f a b G -> tame_gradient G -> sorts dc_less sort ->
  fill g0 f (regula_falsi steps) = Ret (g, calls) ->
  @dual_contouring envR sort (solver3_cell arithR least_normal hypot copysign msin mcos matan tune) g = Ret m ->
  forall v, In v (m_verts m) -> fl_value f (global g0 (mv_pos v)) = 0 /\ mv_normal v = stored_normal G.
Proof.
  intros hypot copysign msin mcos matan tune g0 f a b G steps sort g calls m Hv Hs Hlin HG Hsort Hf Hm v Hin.
  destruct (udc_hypotheses_met _ _ _ _ _ _ Hv Hf) as (qs & _ & _ & Hqs & _).
  pose proof (C16_vertices _ _ _ _ _ _ _ _ _ _ Hv Hsort Hf Hm Hqs) as H.
  destruct (filled_edges _ _ _ _ _ _ Hv Hf) as [Hsz Hr].
  assert (X : exists q, In q qs /\ exists es mats,
      Permutation es (filter (fun e => edge_of_cell q (edge_key e)) (stored_edges g)) /\
      Forall2 (fun p m => g_mat g (yxz_index (g_size g0) p) = Some m) (cell_corners q) mats /\
      v = MVert
        (solver3_cell arithR least_normal hypot copysign msin mcos matan tune (map (fun e => (surface_point envR e, surface_normal envR e)) es)
           (vofZ3 (fp_f envR) q) (vadd3 (fp_f envR) (vofZ3 (fp_f envR) q) (vofZ3 (fp_f envR) (V3 1 1 1)%Z)))
        (normalize3 (fold_left (fun s e => vadd3 (fp_f envR) s (surface_normal envR e)) es (vofZ3 (fp_f envR) (V3 0 0 0)%Z)))
        (fast_select (fast_add_all fast_new mats))).
  { revert Hin H. clear. generalize (m_verts m). intros vs Hin H. induction H as [|q u l l' H1 H2 IH]; [destruct Hin|].
    destruct Hin as [->|Hin]; [exists q; split; [left; reflexivity|exact H1]|]. destruct (IH Hin) as (q' & Q1 & Q2). exists q'. split; [right; exact Q1|exact Q2]. }
  clear H Hin. destruct X as (q & Hq & es & mats & Hes & _ & ->). cbn [mv_pos mv_normal].
  assert (Hin : forall e, In e es -> exists d i, In e (g_edges d g) /\ (0 <= i < 12)%Z /\ cell_edge q i = edge_key e).
  { intros e He. apply (Permutation_in _ Hes) in He. apply filter_In in He as [He Hc].
    assert (Hd : exists d, In e (g_edges d g)) by (unfold stored_edges in He; rewrite !in_app_iff in He; destruct He as [He|[He|He]]; eauto).
    destruct Hd as (d & Hd). unfold edge_of_cell in Hc. apply existsb_exists in Hc as (q' & Hq' & Eq). apply veqb_eq in Eq. subst q'.
    apply cells_around_cell_edge in Hq' as (i & Hi & Hce). exists d, i. split; [exact Hd|]. split; [exact Hi|]. rewrite Hce. destruct (edge_key e); reflexivity. }
  assert (Hne : es <> []).
  { destruct Hqs as [_ Hqs]. apply Hqs in Hq as [Hc (i & Hi & Hcr)].
    rewrite <- Hsz in Hc.
    destruct (crossing_stored g _ Hr (fst (cell_edge q i)) (snd (cell_edge q i))) as (e & He & Hk).
    { apply (cell_edge_in g); assumption. }
    { destruct (cell_edge q i); exact Hcr. }
    intro X. subst es. apply Permutation_nil in Hes.
    assert (Y : In e (filter (fun e => edge_of_cell q (edge_key e)) (stored_edges g))).
    { apply filter_In. split; [exact He|]. unfold edge_of_cell. apply existsb_exists. exists q. split; [|apply veqb_eq; reflexivity].
      rewrite Hk. cbn [fst snd]. apply cells_around_cell_edge. exists i. split; [exact Hi|]. destruct (cell_edge q i); reflexivity. }
    rewrite Hes in Y. destruct Y. }
  assert (Hlen : (zlen es < two32)%Z).
  { assert (N : NoDup (map edge_key es)).
    { apply (Permutation_map edge_key) in Hes. apply (Permutation_NoDup (Permutation_sym Hes)).
      pose proof (keys_nodup _ _ _ Hr) as K. revert K. generalize (stored_edges g). clear. induction l as [|e l IH]; intro K; [constructor|]. cbn [map] in K. inversion K as [|? ? K1 K2]; subst.
      cbn [filter]. destruct (edge_of_cell q (edge_key e)); [|apply IH; exact K2]. cbn [map]. constructor; [|apply IH; exact K2].
      intro X. apply K1. apply in_map_iff in X as (e' & E1 & E2). apply filter_In in E2 as [E2 _]. apply in_map_iff. exists e'. split; assumption. }
    assert (I : incl (map edge_key es) (map (cell_edge q) (zseq 0 12))).
    { intros k Hk. apply in_map_iff in Hk as (e & <- & He). destruct (Hin e He) as (d & i & _ & Hi & Hc). rewrite <- Hc. apply in_map. apply in_zseq. cbn. lia. }
    pose proof (NoDup_incl_length N I) as L. rewrite !map_length in L. unfold zlen, two32.
    assert (length (zseq 0 12) = 12%nat) by reflexivity. lia. }
  pose proof (plane_vertex hypot copysign msin mcos matan tune g0 f a b G steps g calls es q Hv Hs Hlin HG Hf Hne Hlen Hin) as [P _].
  split.
  - rewrite cell_box. unfold planes_of in P. replace (vofZ3 arithR (V3 (vx q + 1) (vy q + 1) (vz q + 1))%Z) with (V3 (IZR (vx q) + 1) (IZR (vy q) + 1) (IZR (vz q) + 1)) in P; [exact P|].
    unfold vofZ3. cbn [vx vy vz arithR a_ofZ]. rewrite !plus_IZR. reflexivity.
  - assert (E : forall l s, fold_left (fun s e => vadd3 (fp_f envR) s (surface_normal envR e)) l s = fold_left (vadd3 arithR) (map (surface_normal envR) l) s).
    { clear. induction l as [|e l IH]; intro s; [reflexivity|]. cbn [fold_left map]. apply IH. }
    rewrite E. apply normalize_copies; [apply stored_normal_unit|destruct es; [congruence|discriminate]|].
    apply Forall_forall. intros n Hn. apply in_map_iff in Hn as (e & <- & He). destruct (Hin e He) as (d & i & Hd & _).
    apply (linear_edges g0 f a b G steps g calls d e Hv Hs Hlin Hf Hd).
Qed.
Print Assumptions C74_udc.

Lemma fold_ops : forall hypot copysign msin mcos matan tune es s,
  fold_left (fun s e => qo_add (solver3_ops arithR least_normal hypot copysign msin mcos matan tune) s (surface_point envR e) (surface_normal envR e)) es s =
  fold_left (fun s p => match s3_add arithR least_normal s (fst p) (snd p) with Ret s' => s' | _ => s end) (planes_of es) s.
Proof. intros hypot copysign msin mcos matan tune. unfold planes_of. induction es as [|e es IH]; intro s; [reflexivity|]. cbn [fold_left map]. rewrite IH. reflexivity. Qed.

Lemma filter_len : forall A (p : A -> bool) l, (length (filter p l) <= length l)%nat.
Proof. induction l as [|a l IH]; [reflexivity|]. cbn [filter length]. destruct (p a); cbn [length]; lia. Qed.

(* Dual contouring of the octree: vertices of unit leaves. *)
Theorem C74_dc : forall hypot copysign msin mcos matan tune (g0 : ugrid envR) f a b G steps g calls size t (eps : R) simplify sol t1 sol1 t2 m,
  let ops : qef_ops (fp_F envR) (solver R) (qstate R) := solver3_ops arithR least_normal hypot copysign msin mcos matan tune in
  valid_size (g_size g0) -> g_step g0 <> 0 -> linear_field f a b G -> tame_gradient G -> solid_inside g0 f ->
  fill g0 f (regula_falsi steps) = Ret (g, calls) -> (size <= g_size g0)%Z ->
  dc_reached ops size t -> dc_build ops g eps simplify t sol = Ret (t1, sol1) -> dc_contour t1 = Ret (t2, m) ->
  forall v, In v (m_verts m) -> exists q n, subcube q n (dc_min_corner size) (root_level size) /\ point_in_cube q n (mv_pos v) /\
    (simplify = false -> n = O) /\
    (n = O -> fl_value f (global g0 (mv_pos v)) = 0 /\ mv_normal v = stored_normal G).
Proof.
  intros hypot copysign msin mcos matan tune g0 f a b G steps g calls size t eps simplify sol t1 sol1 t2 m ops Hv Hs Hlin HG Hsol Hf Hsize Hreach Hb Hm v Hin.
  pose proof (filled_by g0 f _ _ _ Hv (nan_freeR g0 f) Hsol Hf) as HF.
  destruct (filled_represents _ _ _ _ _ _ Hv (nan_freeR g0 f) Hsol Hf) as [Hsz _].
  assert (Hsize' : (size <= g_size g)%Z) by (rewrite Hsz; exact Hsize).
  destruct (contour_leaf envR _ _ ops _ _ _ _ _ _ _ _ _ _ _ Hreach HF Hsize' Hb Hm v Hin) as (q & n & nrm & s & Hsub & Hx & Hg & Hk & V4 & Hnrm & Hfine).
  exists q, n. split; [exact Hsub|].
  split.
  { destruct (measured_solve _ _ _ _ _ _ _ _ _ _ _ _ V4) as (s0 & s1 & X). set (u := mv_pos v) in *. unfold ops in X. cbn [solver3_ops qo_solve] in X. unfold s3_solve in X.
    pose proof (C31_box hypot copysign msin mcos matan 3 tune s0 (fvec_of (cube_low (E := envR) q)) (fvec_of (cube_high (E := envR) q n))) as B.
    destruct (solve _ _ _ _ _ _ _ _ _ _ _ _) as [z s']. injection X as _ X. cbn [fst] in B.
    assert (HB : forall c, fvec_of (cube_low (E := envR) q) c <= fvec_of (cube_high (E := envR) q n) c).
    { pose proof (edge_len_pos n) as He. intro c. unfold cube_low, cube_high, vofZ3. destruct c as [|[|c]]; cbn [fvec_of vx vy vz envR fp_f arithR a_ofZ]; apply IZR_le; lia. }
    specialize (B HB). clearbody u. subst u. intro d. destruct d; [exact (B 0%nat)|exact (B 1%nat)|exact (B 2%nat)]. }
  split; [exact Hfine|]. intro Hn. subst n. set (u := mv_pos v) in *.
  inversion V4 as [q' es sol0 sl1 sl2 v' s' M1 M2 M3 M4|]; subst q' v' s'. 
  assert (Hes : forall e, In e es -> exists d i, In e (g_edges d g) /\ (0 <= i < 12)%Z /\ cell_edge q i = edge_key e).
  { intros e He. exists (fst (edge_key e)). assert (K : In (edge_key e) (map edge_key es)) by (apply in_map; exact He).
    rewrite M1 in K. apply filter_In in K as [K _]. apply in_map_iff in K as (i & Hi & Hi2). apply in_zseq in Hi2. exists i.
    split; [apply M2; exact He|]. split; [cbn in Hi2; lia|exact Hi]. }
  assert (Hne : es <> []).
  { intro X. subst es. cbn [map] in M1. rewrite mixed_edges, <- M1 in Hx. discriminate. }
  assert (Hlen : (zlen es < two32)%Z).
  { assert (L : (length (map edge_key es) <= 12)%nat).
    { rewrite M1. eapply Nat.le_trans; [apply filter_len|]. rewrite map_length. reflexivity. }
    rewrite map_length in L. unfold zlen, two32. lia. }
  pose proof (plane_vertex hypot copysign msin mcos matan tune g0 f a b G steps g calls es q Hv Hs Hlin HG Hf Hne Hlen Hes) as [P _].
  split.
  - assert (Eu : u = solver3_cell arithR least_normal hypot copysign msin mcos matan tune (planes_of es) (vofZ3 arithR q) (vofZ3 arithR (V3 (vx q + 1) (vy q + 1) (vz q + 1))%Z)).
    { unfold solver3_cell. unfold ops in M3. rewrite fold_ops in M3.
      change (qo_solve (solver3_ops arithR least_normal hypot copysign msin mcos matan tune)) with (s3_solve arithR least_normal hypot copysign msin mcos matan tune) in M3.
      change (cube_high (E := envR) q 0) with (vofZ3 arithR (V3 (vx q + 1) (vy q + 1) (vz q + 1))%Z) in M3.
      change (cube_low (E := envR) q) with (vofZ3 arithR q) in M3.
      change (qo_reset _ sol0) with (q_new arithR) in M3. unfold s3_solve in *. change (fp_F envR) with R in *.
      destruct (solve _ _ _ _ _ _ _ _ _ _ _ _) as [z sz]. injection M3 as _ M3. symmetry. exact M3. }
    clearbody u. subst u. exact P.
  - rewrite Hnrm. match goal with X : _ = nrm |- _ => rewrite <- X end.
    unfold sum3. apply (normalize_copies (stored_normal G)); [apply stored_normal_unit|destruct es; [congruence|discriminate]|].
    apply Forall_forall. intros n Hn. apply in_map_iff in Hn as (e & <- & He). destruct (Hes e He) as (d & i & Hd & _).
    apply (linear_edges g0 f a b G steps g calls d e Hv Hs Hlin Hf Hd).
Qed.
Print Assumptions C74_dc.

(* A half space: the hypotheses of C72, C73 and C74 hold, and the meshes have vertices. *)
Lemma half_setup : valid_size (g_size grid4R) /\ g_step grid4R <> 0 /\ linear_field half_field (V3 0 1 0) (- / 2) (V3 0 1 0) /\ tame_gradient (V3 0 1 0) /\ solid_inside grid4R half_field /\
  (forall d p c0 c1, continuous_between (along half_field d p) c0 c1).
Proof.
  split; [exists 2%Z; split; [lia|reflexivity]|]. split; [cbn; lra|]. split.
  { split; [intros [x y z]; cbn; ring|reflexivity]. }
  split.
  { left. split; [reflexivity|]. unfold norm2, sqr. cbn [vx vy vz]. replace (0 * 0 + 1 * 1 + 0 * 0) with 1 by ring. rewrite sqrt_1. apply pow_R1_Rle. lra. }
  split; [intros p Hp Hl; discriminate|].
  intros d p c0 c1 x _. unfold along. destruct d; cbn [half_field fl_value vy].
  - apply continuity_pt_const. intros a b. reflexivity.
  - assert (C : continuity_pt (fun y : R => (y - / 2)%R) x); [|exact C]. apply continuity_pt_minus; [apply derivable_continuous_pt, derivable_pt_id|apply continuity_pt_const; intros a b; reflexivity].
  - apply continuity_pt_const. intros a b. reflexivity.
Qed.

Example C73_ex : exists g calls m, fill grid4R half_field (bisection 5) = Ret (g, calls) /\ marching_cubes (isort entry_less) g = Ret m /\ m_verts m <> [].
Proof.
  destruct half_setup as (Hv & Hs & _ & _ & Hsol & _).
  destruct (C13_valid _ _ _ (bisection 5) _ Hv (nan_freeR _ _) Hsol isort_entries) as (g & calls & m & Hf & Hm & ts & Ht).
  exists g, calls, m. split; [exact Hf|]. split; [exact Hm|].
  destruct (C14_vertices _ _ _ _ _ _ _ _ _ Hv (nan_freeR _ _) Hsol isort_entries Hf Hm Ht) as [-> _].
  destruct (filled_edges _ _ _ _ _ _ Hv Hf) as [Hsz Hr].
  destruct (crossing_stored g _ Hr AY (V3 0 0 0)%Z) as (e & He & _).
  { rewrite Hsz. change (g_size grid4R) with 4%Z. intros p Hp. unfold edge_corners in Hp. cbn in Hp. unfold vertex_in. destruct Hp as [<-|[<-|[]]]; cbn; lia. }
  { unfold edge_crosses. cbn [fst snd]. change (vadd (V3 0 0 0) (unit_vec AY))%Z with (V3 0 1 0)%Z. rewrite half_low, half_high. reflexivity. }
  intro X. change (In e (stored_edges g)) in He. destruct (stored_edges g); [destruct He|discriminate].
Qed.

Example C74_mc_ex : exists g calls m, fill grid4R half_field (regula_falsi 5) = Ret (g, calls) /\ marching_cubes (isort entry_less) g = Ret m /\ m_verts m <> [].
Proof.
  destruct half_setup as (Hv & Hs & _ & _ & Hsol & _).
  destruct (C13_valid _ _ _ (regula_falsi 5) _ Hv (nan_freeR _ _) Hsol isort_entries) as (g & calls & m & Hf & Hm & ts & Ht).
  exists g, calls, m. split; [exact Hf|]. split; [exact Hm|].
  destruct (C14_vertices _ _ _ _ _ _ _ _ _ Hv (nan_freeR _ _) Hsol isort_entries Hf Hm Ht) as [-> _].
  destruct (filled_edges _ _ _ _ _ _ Hv Hf) as [Hsz Hr].
  destruct (crossing_stored g _ Hr AY (V3 0 0 0)%Z) as (e & He & _).
  { rewrite Hsz. change (g_size grid4R) with 4%Z. intros p Hp. unfold edge_corners in Hp. cbn in Hp. unfold vertex_in. destruct Hp as [<-|[<-|[]]]; cbn; lia. }
  { unfold edge_crosses. cbn [fst snd]. change (vadd (V3 0 0 0) (unit_vec AY))%Z with (V3 0 1 0)%Z. rewrite half_low, half_high. reflexivity. }
  intro X. change (In e (stored_edges g)) in He. destruct (stored_edges g); [destruct He|discriminate].
Qed.

(* also a case of C72 *)
Example C74_udc_ex : forall hypot copysign msin mcos matan tune, exists g calls m, fill grid4R half_field (regula_falsi 5) = Ret (g, calls) /\
  @dual_contouring envR (isort dc_less) (solver3_cell arithR least_normal hypot copysign msin mcos matan tune) g = Ret m /\ m_verts m <> [].
Proof.
  intros hypot copysign msin mcos matan tune. destruct half_setup as (Hv & _).
  destruct (C16_valid envR grid4R half_field (regula_falsi 5) _ (solver3_cell arithR least_normal hypot copysign msin mcos matan tune) Hv (isort_dc envR)) as (g & calls & m & Hf & Hm & _).
  exists g, calls, m. split; [exact Hf|]. split; [exact Hm|]. intro X.
  destruct (udc_hypotheses_met _ _ _ _ _ _ Hv Hf) as (qs & _ & _ & Hqs & _).
  pose proof (C16_vertices _ _ _ _ _ _ _ _ _ _ Hv (isort_dc envR) Hf Hm Hqs) as H. rewrite X in H. inversion H; subst.
  destruct Hqs as [_ Hqs]. apply (proj2 (Hqs (V3 0 0 0)%Z)). split.
  - change (g_size grid4R) with 4%Z. intros p Hp. unfold cell_corners in Hp. cbn in Hp. unfold vertex_in. decompose [or] Hp; subst; try contradiction; cbn; lia.
  - assert (Y : exists i, (0 <= i < 12)%Z /\ cell_edge (V3 0 0 0)%Z i = (AY, V3 0 0 0)%Z) by (apply cells_around_cell_edge; cbn; tauto).
    destruct Y as (i & Hi & Hce). exists i. split; [exact Hi|]. rewrite Hce. unfold edge_crosses. cbn [fst snd].
    change (vadd (V3 0 0 0) (unit_vec AY))%Z with (V3 0 1 0)%Z. rewrite half_low, half_high. reflexivity.
Qed.

Example C74_dc_ex : forall simplify, exists calls t g solid t1 sol1 t2 m, fill grid4R half_field (regula_falsi 5) = Ret (g, calls) /\
  dc_reached exact_ops 4 t /\ filled g solid /\ (4 <= g_size g)%Z /\ dc_build exact_ops g 1 simplify t (q_new arithR) = Ret (t1, sol1) /\
  dc_contour t1 = Ret (t2, m) /\ m_verts m <> [].
Proof. exact (C71_ex (regula_falsi 5)). Qed.
