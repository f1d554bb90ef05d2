(* C79: dual marching cubes on linear fields, in exact arithmetic. *)
From Coq Require Import ZArith List Bool Lia Reals Lra Psatz.
From Verif Require Import Base Arith RealArith Tables MeshModel MeshSpec GridSpec FillModel MCModel UdcModel CellSpec OctreeModel OctreeSpec OctreeProofs
  DcModel DcBuild QefModel QefSpec QefLin QefProofs QefFlat DmcModel DmcTrav DmcContour DmcSpec DmcProofs DmcMesh DmcClosed DmcBuild PropMC PropDc PropQef PropDmc PropDmcExact PropPlane.
Import ListNotations.
Local Open Scope R_scope.

(* Every component of the gradient is zero or at least 2^-63 in magnitude. *)
Definition steady (a : vec3 R) : Prop := forall d, vget d a = 0 \/ least_normal <= vget d a * vget d a.

(* For every cell there are at least [K] samples, and they are in the cell. *)
Definition cell_samples (samples : option (ivec3 -> Z -> list (vec3 R))) (q : ivec3) (size : Z) : list (vec3 R) :=
  match samples with Some f => f q size | None => sample_offsets envR size end.
Definition samples_ok (K : nat) (samples : option (ivec3 -> Z -> list (vec3 R))) : Prop :=
  (0 < K)%nat /\ forall q size, (0 < size)%Z -> let offsets := cell_samples samples q size in
    (K <= length offsets)%nat /\ (zlen offsets < two32)%Z /\ forall o d, In o offsets -> 0 <= vget d o <= IZR size.

(* Without random sampling there are eight samples. *)
Lemma default_samples : samples_ok 8 None.
Proof.
  split; [lia|]. intros q size Hs offsets. split; [cbn; lia|]. split; [vm_compute; reflexivity|]. intros o d Ho. apply IZR_lt in Hs.
  unfold offsets, cell_samples, sample_offsets in Ho. apply in_map_iff in Ho as (i & <- & _). cbn [envR fp_F fp_f arithR a_mul a_div a_ofZ a_sub].
  destruct d; cbn [vget vx vy vz]; destruct (_ =? 0)%Z; lra.
Qed.

Section Cell.
Variables hypot copysign : R -> R -> R.
Variables msin mcos matan : R -> R.
Variables lowest highest : R.
Variable t : dmc_octree envR.
Variable args : dmc_args envR.
Variables (a : vec3 R) (b : R).
Hypothesis Hlin : linear_field (ba_field envR args) a b a.
Hypothesis Hsteady : steady a.
Hypothesis Hscale : dt_scale envR t <> 0.

(* the normal of all planes in four dimensions, and where they are *)
Definition normal4 : nat -> R := vec4 envR (narrow3 envR a) (a_ofZ arithR (-1)).
Definition level4 : R := - (dot a (dt_pos envR t) + b) / dt_scale envR t.
(* value of the field in the units of the octree *)
Definition local_value (l : vec3 R) : R := fl_value (ba_field envR args) (global_of t l) / dt_scale envR t.

Lemma local_linear : forall l, local_value l = dot a l - level4.
Proof.
  intros l. unfold local_value, level4, dot. destruct Hlin as [-> _]. unfold global_of. cbn [vx vy vz]. change (fp_D envR) with R in *. field. exact Hscale.
Qed.

Lemma first4 : exists i0, (i0 < 4)%nat /\ (forall c, (c < i0)%nat -> normal4 c = 0) /\ least_normal <= normal4 i0 * normal4 i0.
Proof.
  assert (N3 : least_normal <= 1).
  { unfold least_normal. cbn. lra. }
  pose proof (Hsteady AX) as X. pose proof (Hsteady AY) as Y. pose proof (Hsteady AZ) as Z. cbn [vget] in X, Y, Z.
  destruct X as [X|X]; [|exists 0%nat; split; [lia|]; split; [intros; lia|exact X]].
  destruct Y as [Y|Y]; [|exists 1%nat; split; [lia|]; split; [intros [|c] Hc; [exact X|lia]|exact Y]].
  destruct Z as [Z|Z]; [|exists 2%nat; split; [lia|]; split; [intros [|[|c]] Hc; [exact X|exact Y|lia]|exact Z]].
  exists 3%nat. split; [lia|]. split; [intros [|[|[|c]]] Hc; [exact X|exact Y|exact Z|lia]|]. unfold normal4, vec4. cbn [arithR a_ofZ]. lra.
Qed.

Lemma dot4 : forall v, rsum 4 (fun c => normal4 c * v c) = dot a (V3 (v 0%nat) (v 1%nat) (v 2%nat)) - v 3%nat.
Proof. intros v. unfold normal4, vec4, dot. cbn. ring. Qed.

(* The solver after [k] samples in the cell, whose offsets have the sum [os] *)
Record sampled (q : ivec3) (size : Z) (k : nat) (os : vec3 R) (st : solver R * vec3 R) : Prop := {
  sa_level : level_solver 4 normal4 (fst st) k level4;
  sa_count : q_count (fst st) = Z.of_nat k;
  sa_box : forall d, INR k * IZR (vget d q) <= vget d (V3 (q_sum (fst st) 0%nat) (q_sum (fst st) 1%nat) (q_sum (fst st) 2%nat)) <= INR k * IZR (vget d q + size);
  sa_place : forall d, vget d (V3 (q_sum (fst st) 0%nat) (q_sum (fst st) 1%nat) (q_sum (fst st) 2%nat)) = INR k * IZR (vget d q) + vget d os;
  sa_value : INR k * lowest <= q_sum (fst st) 3%nat <= INR k * highest;
  sa_sum : rsum 4 (fun c => normal4 c * q_sum (fst st) c) = INR k * level4;
  sa_avg : snd st = V3 (INR k * vx a) (INR k * vy a) (INR k * vz a) }.

Section Samples.
Variables (q : ivec3) (size : Z).
Hypothesis Hsize : (0 < size)%Z.
Hypothesis Hrange : forall l, in_cell q size l -> lowest <= local_value l <= highest.

Lemma sample_step : forall k os st o st', sampled q size k os st -> (Z.of_nat (S k) < two32)%Z -> (forall d, 0 <= vget d o <= IZR size) ->
  dmc_sample envR (fun x => x) least_normal t args q st o = Ret st' -> sampled q size (S k) (vadd3 arithR os o) st'.
Proof.
  intros k os [sol avg] o st' [A1 A2 A3 AP A4 A5 A6] Hk Ho H. cbn [fst snd] in *. unfold dmc_sample in H.
  set (l := vadd3 (fp_f envR) (vofZ3 (fp_f envR) q) o) in H.
  assert (Eg : dmc_to_global envR t (widen3 envR (fun x => x) l) = global_of t l).
  { unfold dmc_to_global, widen3, global_of, vadd3, vscale3. cbn [vx vy vz envR fp_D fp_F fp_d arithR a_add a_mul]. f_equal; ring. }
  rewrite Eg in H. destruct Hlin as [_ Hg]. rewrite Hg in H. clear Hg.
  set (w := fp_narrow envR _) in H. assert (Ew : w = local_value l) by reflexivity. clearbody w. subst w.
  change (vec4 envR (narrow3 envR a) (a_ofZ (fp_f envR) (-1))) with normal4 in H. change (fp_f envR) with arithR in H. change (fp_F envR) with R in *.
  assert (Hl : in_cell q size l).
  { intros d. specialize (Ho d). rewrite plus_IZR. unfold l, vadd3, vofZ3. destruct d; cbn [vget vx vy vz envR fp_f arithR a_add a_ofZ] in *; lra. }
  assert (Ol : forall d, vget d l = IZR (vget d q) + vget d o) by (intros []; reflexivity).
  clearbody l. pose proof (Hrange l Hl) as Hw. pose proof (local_linear l) as Lw.
  destruct first4 as (i0 & I1 & I2 & I3).
  destruct (add_plane arithR least_normal 4 16 sol (vec4 envR l (local_value l)) normal4) as [sol'| | | |] eqn:Ea; try discriminate. cbn [obind] in H. injection H as <-.
  assert (L1 : level_solver 4 normal4 sol' (S k) level4).
  { apply (add_level least_normal least_normal_pos 4 normal4 i0 I1 I2 I3 16 sol k level4 (vec4 envR l (local_value l)) sol' A1); [|exact Ea].
    rewrite dot4. cbn [vec4]. rewrite Lw. unfold dot. cbn [vx vy vz]. change (fp_F envR) with R. ring. }
  unfold add_plane in Ea. set (s0 := if Nat.eqb (q_used sol) 16 then compress arithR least_normal 4 sol else sol) in Ea.
  assert (S0 : q_sum s0 = q_sum sol /\ q_count s0 = q_count sol) by (unfold s0; destruct (Nat.eqb _ _); split; reflexivity). destruct S0 as [S0 C0]. clearbody s0.
  destruct (Nat.ltb _ 16); [|discriminate]. injection Ea as E1.
  assert (S1 : forall c, q_sum sol' c = q_sum sol c + vec4 envR l (local_value l) c) by (intro c; rewrite <- E1; cbn [q_sum arithR a_add]; rewrite S0; reflexivity).
  constructor; cbn [fst snd].
  - exact L1.
  - rewrite <- E1. cbn [q_count]. rewrite C0, A2. unfold u32. rewrite Z.mod_small by (unfold two32 in *; lia). lia.
  - intros d. rewrite !S1, S_INR. specialize (A3 d). specialize (Hl d). clear - A3 Hl. destruct l as [lx ly lz]. change (fp_F envR) with R in *. destruct d; cbn [vget vx vy vz vec4] in *; lra.
  - intros d. rewrite !S1, S_INR. specialize (AP d). specialize (Ol d). clear - AP Ol. destruct l as [lx ly lz], o as [ox oy oz], os as [sx sy sz]. change (fp_F envR) with R in *.
    destruct d; unfold vadd3; cbn [vget vx vy vz vec4 arithR a_add] in *; lra.
  - rewrite S1, S_INR. cbn [vec4]. lra.
  - rewrite dot4 in A5 |- *. rewrite !S1, S_INR. cbn [vec4]. rewrite Lw. clear - A5. destruct l as [lx ly lz]. unfold dot in *. cbn [vx vy vz] in *. change (fp_F envR) with R in *. lra.
  - rewrite A6. unfold vadd3. cbn [vx vy vz envR fp_d arithR a_add]. rewrite S_INR. f_equal; ring.
Qed.

Lemma samples_all : forall offsets k os st st', sampled q size k os st -> (Z.of_nat (k + length offsets) < two32)%Z -> (forall o d, In o offsets -> 0 <= vget d o <= IZR size) ->
  ofold (dmc_sample envR (fun x => x) least_normal t args q) offsets st = Ret st' -> sampled q size (k + length offsets) (fold_left (vadd3 arithR) offsets os) st'.
Proof.
  induction offsets as [|o offsets IH]; intros k os st st' A Hk Ho H.
  - cbn in H. injection H as <-. cbn [length]. rewrite Nat.add_0_r. exact A.
  - cbn [ofold] in H. destruct (dmc_sample envR _ _ _ _ _ st o) as [st1| | | |] eqn:E1; try discriminate. cbn [obind] in H. cbn [length] in *. rewrite <- Nat.add_succ_comm.
    cbn [fold_left]. apply (IH (S k) (vadd3 arithR os o) st1); [|lia|intros; apply Ho; right; assumption|exact H].
    eapply sample_step; [exact A|lia|intros d; apply Ho; left; reflexivity|exact E1].
Qed.

Lemma clamp_in : forall x lo hi, lo <= x <= hi -> glm_min arithR (glm_max arithR x lo) hi = x.
Proof. intros x lo hi H. unfold glm_min, glm_max. cbn [arithR a_lt]. unfold Rltb. destruct (Rlt_dec x lo); [lra|]. destruct (Rlt_dec hi x); [lra|reflexivity]. Qed.

(* A solution: the mean of the samples, the last coordinate clamped to the given range; the solver is left in a state for the
   same planes. *)
Lemma solved : forall k os sol avg lo hi v sol', (0 < k)%nat -> sampled q size k os (sol, avg) ->
  dmc_solve envR least_normal hypot copysign msin mcos matan args sol q size lo hi = (v, sol') ->
  sampled q size k os (sol', avg) /\ (forall d, vget d (V3 (v 0%nat) (v 1%nat) (v 2%nat)) = IZR (vget d q) + vget d os / INR k) /\
  v 3%nat = glm_min arithR (glm_max arithR (local_value (V3 (v 0%nat) (v 1%nat) (v 2%nat))) lo) hi /\
  lowest <= local_value (V3 (v 0%nat) (v 1%nat) (v 2%nat)) <= highest.
Proof.
  intros k os sol avg lo hi v sol' Hk [A1 A2 A3 AP A4 A5 A6] H. cbn [fst snd] in *. unfold dmc_solve in H. change (fp_f envR) with arithR in H.
  destruct first4 as (i0 & I1 & I2 & I3).
  set (mn := vec4 envR (vofZ3 arithR q) lo) in H. set (mx := vec4 envR (vofZ3 arithR (upper_corner q size)) hi) in H.
  pose proof (solve_flat least_normal least_normal_pos 4 normal4 i0 I1 I2 I3 hypot copysign msin mcos matan (ba_tuning envR args) sol k (INR k * level4) mn mx
    (level_flat 4 normal4 sol k level4 A1) Hk A2 (eq_sym A5)) as X. unfold mn, mx in X. change (fp_F envR) with R in *. rewrite H in X. cbn [fst] in X. fold mn mx in X.
  pose proof (lt_0_INR k Hk) as Pk.
  assert (Div : forall x lo hi, INR k * lo <= x <= INR k * hi -> lo <= x / INR k <= hi).
  { intros x l h B. split; apply Rmult_le_reg_r with (INR k); try assumption; unfold Rdiv; rewrite Rmult_assoc, Rinv_l by lra; lra. }
  assert (M : forall d, IZR (vget d q) <= vget d (V3 (q_sum sol 0%nat / INR k) (q_sum sol 1%nat / INR k) (q_sum sol 2%nat / INR k)) <= IZR (vget d q + size)).
  { intros d. specialize (A3 d). destruct d; cbn [vget vx vy vz] in *; apply Div; exact A3. }
  assert (V : V3 (v 0%nat) (v 1%nat) (v 2%nat) = V3 (q_sum sol 0%nat / INR k) (q_sum sol 1%nat / INR k) (q_sum sol 2%nat / INR k)).
  { pose proof (M AX) as MX. pose proof (M AY) as MY. pose proof (M AZ) as MZ. cbn [vget vx vy vz] in MX, MY, MZ.
    rewrite !X. unfold clampv, mn, mx, upper_corner, vofZ3. cbn [vec4 vx vy vz arithR a_ofZ]. f_equal; apply clamp_in; assumption. }
  assert (Lv : local_value (V3 (v 0%nat) (v 1%nat) (v 2%nat)) = q_sum sol 3%nat / INR k).
  { rewrite V, local_linear. rewrite dot4 in A5. unfold dot in *. cbn [vx vy vz] in *. apply (Rmult_eq_reg_r (INR k)); [|lra]. field_simplify; [|lra|lra]. lra. }
  split; [|split; [|split]].
  - unfold solve in H. destruct (solve_with _ _ _ _ _) as [x dim]. injection H as _ <-. constructor; cbn [fst snd q_count q_sum]; try assumption.
    pose proof (compress_level least_normal least_normal_pos 4 normal4 i0 I1 I2 I3 sol k level4 A1) as C. exact C.
  - intros d. rewrite V. specialize (AP d). destruct d; cbn [vget vx vy vz] in *; rewrite AP; field; lra.
  - rewrite Lv, X. reflexivity.
  - rewrite Lv. apply Div. exact A4.
Qed.

Definition unit_of (v : vec3 R) : vec3 R := V3 (vx v / sqrt (dot v v)) (vy v / sqrt (dot v v)) (vz v / sqrt (dot v v)).

Lemma dot_pos : forall v, v <> V3 0 0 0 -> 0 < dot v v.
Proof.
  intros [x y z] H. unfold dot. cbn [vx vy vz]. destruct (Req_dec x 0) as [->|]; [|nra]. destruct (Req_dec y 0) as [->|]; [|nra]. destruct (Req_dec z 0) as [->|]; [|nra]. congruence.
Qed.

(* What generateDualVertex stores *)
Lemma generated_flat : forall K node l ok, samples_ok K (ba_samples envR args) ->
  generate_dual envR (fun x => x) least_normal lowest highest hypot copysign msin mcos matan t args node q size = Ret (l, ok) ->
  exists p w, dn_dual l = Some (p, w) /\ (forall d, vget d p = IZR (vget d q) + vget d (fold_left (vadd3 arithR) (cell_samples (ba_samples envR args) q size) (V3 0 0 0)) / INR (length (cell_samples (ba_samples envR args) q size))) /\
    INR K * ((local_value p - w) * (local_value p - w)) <= Rmax 0 (ba_eps envR args) /\
    (a <> V3 0 0 0 -> dn_normal l = Some (unit_of a)).
Proof.
  intros K node l ok [HK Hsam] H. destruct (Hsam q size Hsize) as (H8 & Hlen & Hin). clear Hsam. unfold generate_dual in H.
  change (match ba_samples envR args with Some f => f q size | None => sample_offsets envR size end) with (cell_samples (ba_samples envR args) q size) in H.
  set (offsets := cell_samples _ q size) in *. set (st0 := (q_new (fp_f envR), V3 (a_ofZ (fp_d envR) 0) (a_ofZ (fp_d envR) 0) (a_ofZ (fp_d envR) 0))) in H.
  destruct (ofold (dmc_sample envR (fun x => x) least_normal t args q) offsets st0) as [[sol avg]| | | |] eqn:Ef; try discriminate. cbn [obind] in H.
  assert (A0 : sampled q size 0 (V3 0 0 0) st0).
  { unfold st0. constructor; cbn [fst snd].
    - apply new_level.
    - reflexivity.
    - intros d. cbn. destruct d; cbn; lra.
    - intros d. cbn. destruct d; cbn; lra.
    - cbn. lra.
    - cbn. ring.
    - cbn. f_equal; ring. }
  pose proof (samples_all offsets 0 (V3 0 0 0) st0 (sol, avg) A0 ltac:(unfold zlen in Hlen; lia) Hin Ef) as A. cbn [Nat.add] in A. set (k := length offsets) in *. set (os := fold_left _ offsets _) in *. clearbody k os. clear Ef A0 st0.
  assert (Hk : (0 < k)%nat) by lia.
  assert (KK : INR K <= INR k) by (apply le_INR; exact H8). pose proof (pos_INR K) as K0.
  assert (Nm : a <> V3 0 0 0 -> narrow3 envR (normalize_d envR avg) = unit_of a).
  { intros Ha. pose proof (dot_pos a Ha) as P. pose proof (sa_avg _ _ _ _ _ A) as Av. cbn [snd] in Av. rewrite Av. unfold narrow3, normalize_d, vscale3, dot3, unit_of. cbn [vx vy vz envR fp_narrow fp_d fp_D arithR a_mul a_div a_sqrt a_add a_ofZ snd].
    pose proof (lt_0_INR k Hk) as Pk.
    assert (S1 : sqrt (INR k * vx a * (INR k * vx a) + INR k * vy a * (INR k * vy a) + INR k * vz a * (INR k * vz a)) = INR k * sqrt (dot a a)).
    { replace (INR k * vx a * (INR k * vx a) + INR k * vy a * (INR k * vy a) + INR k * vz a * (INR k * vz a)) with (INR k * INR k * dot a a) by (unfold dot; ring).
      rewrite sqrt_mult by nra. rewrite sqrt_square by lra. reflexivity. }
    rewrite S1. pose proof (sqrt_lt_R0 _ P). f_equal; field; lra. }
  destruct (dmc_solve _ _ _ _ _ _ _ _ _ _ _ (a_ofZ (fp_f envR) 0) (a_ofZ (fp_f envR) 0)) as [v1 sol1] eqn:S1.
  destruct (solved k os sol avg _ _ v1 sol1 Hk A S1) as (B1 & B2 & B3 & B4).
  destruct (a_lt (fp_f envR) (ba_eps envR args) (eval (fp_f envR) 4 sol1 v1)) eqn:Ee.
  - destruct (dmc_solve envR _ _ _ _ _ _ _ _ _ _ lowest highest) as [v2 sol2] eqn:S2. injection H as <- _. cbn [dn_dual dn_normal].
    destruct (solved k os sol1 avg _ _ v2 sol2 Hk B1 S2) as (C1 & C2 & C3 & C4). rewrite clamp_in in C3 by exact C4.
    eexists _, _. split; [reflexivity|]. split; [exact C2|]. split; [|intros Ha; rewrite Nm by exact Ha; reflexivity]. rewrite C3. rewrite Rminus_diag_eq by reflexivity. rewrite !Rmult_0_r. apply Rmax_l.
  - injection H as <- _. cbn [dn_dual dn_normal]. eexists _, _. split; [reflexivity|]. split; [exact B2|]. split; [|intros Ha; rewrite Nm by exact Ha; reflexivity].
    change (fp_f envR) with arithR in *. apply Rltb_false in Ee. change (fp_F envR) with R in *. rewrite (eval_level 4 normal4 sol1 k level4 v1 (sa_level _ _ _ _ _ B1)) in Ee.
    rewrite dot4 in Ee. rewrite local_linear. apply Rle_trans with (ba_eps envR args); [|apply Rmax_r].
    set (y := dot a (V3 (v1 0%nat) (v1 1%nat) (v1 2%nat)) - v1 3%nat - level4) in Ee.
    replace (dot a (V3 (v1 0%nat) (v1 1%nat) (v1 2%nat)) - level4 - v1 3%nat) with y by (unfold y; ring).
    pose proof (Rle_0_sqr y) as Y. unfold Rsqr in Y. apply Rle_trans with (INR k * (y * y)); [|exact Ee]. apply Rmult_le_compat_r; assumption.
Qed.
End Samples.
End Cell.

Section Mesh.
Variables hypot copysign : R -> R -> R.
Variables msin mcos matan : R -> R.
Variables (lowest highest root_three : R) (addr_of : ivec3 -> Z).
Notation build := (dmc_build envR (fun x => x) least_normal lowest highest hypot copysign msin mcos matan root_three addr_of).

Lemma cell_square : forall (c x y e s : R), s <> 0 -> c * ((x / s - y) * (x / s - y)) <= Rmax 0 (e / (s * s)) -> c * ((x - y * s) * (x - y * s)) <= Rmax 0 e.
Proof.
  intros c x y e s Hs H. assert (P : 0 < s * s) by nra.
  replace (c * ((x - y * s) * (x - y * s))) with (c * ((x / s - y) * (x / s - y)) * (s * s)) by (field; exact Hs).
  apply Rle_trans with (Rmax 0 (e / (s * s)) * (s * s)); [apply Rmult_le_compat_r; lra|].
  unfold Rmax. destruct (Rle_dec 0 (e / (s * s))) as [L|L]; [|destruct (Rle_dec 0 e); lra].
  replace (e / (s * s) * (s * s)) with e by (field; exact Hs). destruct (Rle_dec 0 e); lra.
Qed.

(* C79, the octree: the dual vertex of each leaf is the mean of the samples in its cell, the value stored with it differs
   from the field there by at most the square root of the tolerance per sample, and the normal is that of the plane. *)
Theorem C79_cells : forall K fl a b tune eps simple samples early n t r, linear_field fl a b a -> steady a -> dt_scale envR t <> 0 -> samples_ok K samples ->
  dt_size envR t = edge_len n ->
  (forall l, in_cell (dc_min_corner (edge_len n)) (edge_len n) l -> lowest <= fl_value fl (global_of t l) / dt_scale envR t <= highest) ->
  build fl tune eps simple samples early t = Ret r ->
  tree_ok (fun (l : dmc_leaf (fp_F envR)) q' n' => exists p w, dn_dual l = Some (p, w) /\
    (forall d, vget d p = IZR (vget d q') + vget d (fold_left (vadd3 arithR) (cell_samples samples q' (edge_len n')) (V3 0 0 0)) / INR (length (cell_samples samples q' (edge_len n')))) /\
    INR K * ((fl_value fl (global_of t p) - w * dt_scale envR t) * (fl_value fl (global_of t p) - w * dt_scale envR t)) <= Rmax 0 eps /\
    (a <> V3 0 0 0 -> dn_normal l = Some (unit_of a))) n (dt_root envR r) (dc_min_corner (edge_len n)).
Proof.
  intros K fl a b tune eps simple samples early n t r Hlin Hst Hsc Hsam Hs Hr H.
  eapply tree_ok_mono; [|apply OctreeFlux.tree_leaf_at; eapply C69_leaves; [exact Hs|exact H]]. cbv beta zeta. intros l q' n' ((ok & Hg & _) & (S1 & S2 & S3) & _).
  destruct (generated_flat hypot copysign msin mcos matan lowest highest t (node_args envR fl tune eps simple samples early t) a b Hlin Hst Hsc q' (edge_len n')) with (K := K) (node := @dmc_fresh (fp_F envR) (addr_of q')) (l := l) (ok := ok)
    as (p & w & E1 & E2 & E3 & E4).
  - unfold edge_len. apply Z.pow_pos_nonneg; lia.
  - intros x Hx. apply Hr. intros d. specialize (Hx d).
    assert (B : (vget d (dc_min_corner (edge_len n)) <= vget d q' /\ vget d q' + edge_len n' <= vget d (dc_min_corner (edge_len n)) + edge_len n)%Z) by (destruct d; cbn [vget]; lia).
    destruct B as [B1 B2]. apply IZR_le in B1. apply IZR_le in B2. lra.
  - exact Hsam.
  - exact Hg.
  - exists p, w. split; [exact E1|]. split; [exact E2|]. split; [|exact E4]. apply (cell_square (INR K) _ w eps (dt_scale envR t) Hsc). exact E3.
Qed.

Lemma leaves_flat : forall K fl a b tune eps simple samples early n t r, linear_field fl a b a -> steady a -> dt_scale envR t <> 0 -> samples_ok K samples ->
  dt_size envR t = edge_len n ->
  (forall l, in_cell (dc_min_corner (edge_len n)) (edge_len n) l -> lowest <= fl_value fl (global_of t l) / dt_scale envR t <= highest) ->
  build fl tune eps simple samples early t = Ret r ->
  forall l, In l (leaves_of (dt_root envR r)) -> exists p w, dn_dual l = Some (p, w) /\
    INR K * ((fl_value fl (global_of t p) - w * dt_scale envR t) * (fl_value fl (global_of t p) - w * dt_scale envR t)) <= Rmax 0 eps /\
    (a <> V3 0 0 0 -> dn_normal l = Some (unit_of a)).
Proof.
  intros K fl a b tune eps simple samples early n t r Hlin Hst Hsc Hsam Hs Hr H l Hl.
  destruct (leaf_cubes _ _ _ _ _ _ l (C79_cells K fl a b tune eps simple samples early n t r Hlin Hst Hsc Hsam Hs Hr H) Hl) as (q' & n' & (p & w & E1 & _ & E2) & _).
  exists p, w. split; assumption.
Qed.

(* Without random sampling the dual vertex is the centre of the cell. *)
Theorem C79_centres : forall fl a b tune eps simple early n t r, linear_field fl a b a -> steady a -> dt_scale envR t <> 0 -> dt_size envR t = edge_len n ->
  (forall l, in_cell (dc_min_corner (edge_len n)) (edge_len n) l -> lowest <= fl_value fl (global_of t l) / dt_scale envR t <= highest) ->
  build fl tune eps simple None early t = Ret r ->
  tree_ok (fun (l : dmc_leaf (fp_F envR)) q' n' => exists p w, dn_dual l = Some (p, w) /\ (forall d, vget d p = IZR (vget d q') + IZR (edge_len n') / 2) /\
    8 * ((fl_value fl (global_of t p) - w * dt_scale envR t) * (fl_value fl (global_of t p) - w * dt_scale envR t)) <= Rmax 0 eps)
    n (dt_root envR r) (dc_min_corner (edge_len n)).
Proof.
  intros fl a b tune eps simple early n t r Hlin Hst Hsc Hs Hr H.
  eapply tree_ok_mono; [|exact (C79_cells 8 fl a b tune eps simple None early n t r Hlin Hst Hsc default_samples Hs Hr H)]. cbv beta. intros l q' n' (p & w & E1 & E2 & E3 & _).
  exists p, w. split; [exact E1|]. split.
  - intros d. rewrite E2. f_equal. generalize (edge_len n'). intros z. replace (INR (length (cell_samples None q' z))) with 8 by (cbn; lra).
    destruct d; cbn -[IZR]; repeat match goal with |- context [if (?v =? 0)%Z then _ else _] => let x := eval vm_compute in (v =? 0)%Z in change (v =? 0)%Z with x end; cbv iota; field.
  - replace 8 with (INR 8) by (cbn; lra). exact E3.
Qed.

(* C79: at the vertices of the mesh the field is within the square root of the tolerance per sample, so with no tolerance
   they are on the plane; their normals are the normal of the plane. *)
Theorem C79_mesh : forall K fl a b tune eps simple samples early n t r m, linear_field fl a b a -> steady a -> dt_scale envR t <> 0 -> samples_ok K samples ->
  dt_size envR t = edge_len n ->
  (forall l, in_cell (dc_min_corner (edge_len n)) (edge_len n) l -> lowest <= fl_value fl (global_of t l) / dt_scale envR t <= highest) ->
  (forall p p', in_cube (dc_min_corner (edge_len n)) n p -> in_cube (dc_min_corner (edge_len n)) n p' -> addr_of p = addr_of p' -> p = p') ->
  build fl tune eps simple samples early t = Ret r -> dmc_contour envR r = Ret m ->
  forall v, In v (m_verts m) -> INR K * (fl_value fl (global_of t (mv_pos v)) * fl_value fl (global_of t (mv_pos v))) <= Rmax 0 eps /\
    (a <> V3 0 0 0 -> mv_normal v = unit_of a).
Proof.
  intros K fl a b tune eps simple samples early n t r m Hlin Hst Hsc Hsam Hs Hr Hinj H Hm v Hv.
  destruct (C67_tiles envR (fun x => x) least_normal lowest highest hypot copysign msin mcos matan root_three addr_of fl tune eps simple samples early n t r Hs H) as (_ & _ & Hs' & Ht & Hd).
  assert (Kt : dmc_tree_ok envR n (dc_min_corner (edge_len n)) r).
  { constructor; [exact Hs'| |apply Hd; exact Hinj]. eapply tree_ok_mono; [|exact Ht]. auto. }
  destruct (C43_mesh envR n _ r m Kt Hm) as (_ & num & N & _). apply In_nth_error in Hv as (k & Hk).
  assert (Lk : (k < length (m_verts m))%nat) by (apply nth_error_Some; congruence).
  destruct (num_from _ _ _ _ _ _ N (Z.of_nat k)) as (e & x & y & v' & J & O & _ & Z & V); [unfold mesh_vertex_count, zlen; lia|].
  rewrite znth_nat in Z by lia. rewrite Nat2Z.id in Z. assert (v' = v) by congruence. subst v'.
  destruct J as (_ & Jx & Jy).
  pose proof (leaves_flat K fl a b tune eps simple samples early n t r Hlin Hst Hsc Hsam Hs Hr H) as C.
  destruct (C x (leaf_at_in _ _ _ _ _ _ Jx)) as (p1 & w1 & D1 & I1 & N1). destruct (C y (leaf_at_in _ _ _ _ _ _ Jy)) as (p2 & w2 & D2 & I2 & N2). clear C.
  destruct (C43_position x y p1 w1 p2 w2 v D1 D2 O V) as (s & P1 & P2 & P3). split.
  - rewrite P2. destruct Hlin as [Hv _].
    assert (E0 : fl_value fl (global_of t (along p1 p2 s)) =
      (1 - s) * (fl_value fl (global_of t p1) - w1 * dt_scale envR t) + s * (fl_value fl (global_of t p2) - w2 * dt_scale envR t)).
    { rewrite !Hv. unfold global_of, along. cbn [vx vy vz]. change (fp_D envR) with R in *.
      assert (W : (1 - s) * (w1 * dt_scale envR t) + s * (w2 * dt_scale envR t) = 0) by (replace 0 with (dt_scale envR t * (w1 + s * (w2 - w1))) by (rewrite P3; ring); ring).
      apply (Rplus_eq_reg_r ((1 - s) * (w1 * dt_scale envR t) + s * (w2 * dt_scale envR t))). rewrite W at 1. ring. }
    rewrite E0. clear - I1 I2 P1. set (g1 := fl_value fl (global_of t p1) - _) in *. set (g2 := fl_value fl (global_of t p2) - _) in *. clearbody g1 g2.
    pose proof (pos_INR K) as K0. set (c := INR K) in *. set (M := Rmax 0 eps) in *. clearbody c M. change (fp_D envR) with R in *.
    assert (Q : ((1 - s) * g1 + s * g2) * ((1 - s) * g1 + s * g2) <= (1 - s) * (g1 * g1) + s * (g2 * g2)).
    { pose proof (Rle_0_sqr (g1 - g2)) as Y. unfold Rsqr in Y. assert (0 <= s * (1 - s)) by (apply Rmult_le_pos; lra).
      assert (0 <= s * (1 - s) * ((g1 - g2) * (g1 - g2))) by (apply Rmult_le_pos; assumption). lra. }
    apply Rle_trans with (c * ((1 - s) * (g1 * g1) + s * (g2 * g2))); [apply Rmult_le_compat_l; assumption|].
    replace (c * ((1 - s) * (g1 * g1) + s * (g2 * g2))) with ((1 - s) * (c * (g1 * g1)) + s * (c * (g2 * g2))) by ring.
    apply Rle_trans with ((1 - s) * M + s * M); [|lra]. apply Rplus_le_compat; apply Rmult_le_compat_l; lra.
  - intros Ha. specialize (N1 Ha). specialize (N2 Ha). pose proof (opposite_cases x y p1 w1 p2 w2 D1 D2 O) as C. clear - N1 N2 V D1 D2 Ha C.
    unfold dmc_vertex in V. change (fp_F envR) with R in *. rewrite D1, D2, N1, N2 in V. cbn [oread obind fst snd] in V.
    destruct (dn_mat x) as [m1|]; [|discriminate]. cbn [oread obind] in V. destruct (if (m1 =? Empty)%Z then _ else _) as [mt| | | |]; try discriminate. cbn [obind] in V.
    injection V as <-. cbn [mv_normal].
    assert (P : Rabs w1 + Rabs w2 <> 0) by (destruct C; unfold Rabs; repeat destruct (Rcase_abs _); lra).
    assert (L : lerp3 envR (unit_of a) (Rabs w1) (unit_of a) (Rabs w2) = unit_of a).
    { unfold lerp3, lerp1, unit_of. cbn [vx vy vz envR fp_F fp_f arithR a_div a_add a_mul]. pose proof (sqrt_lt_R0 _ (dot_pos a Ha)). f_equal; field; split; try assumption; lra. }
    change (a_abs (fp_f envR) w1) with (Rabs w1). change (a_abs (fp_f envR) w2) with (Rabs w2). rewrite L.
    unfold normalize3, vscale3, dot3. cbn [envR fp_F fp_f arithR a_div a_add a_mul a_sqrt a_ofZ vx vy vz].
    assert (U : vx (unit_of a) * vx (unit_of a) + vy (unit_of a) * vy (unit_of a) + vz (unit_of a) * vz (unit_of a) = 1).
    { unfold unit_of. cbn [vx vy vz]. pose proof (sqrt_lt_R0 _ (dot_pos a Ha)) as S0. pose proof (sqrt_sqrt (dot a a) (Rlt_le _ _ (dot_pos a Ha))) as SS.
      transitivity (dot a a / (sqrt (dot a a) * sqrt (dot a a))); [set (u := sqrt (dot a a)) in *; unfold dot; field; lra|]. rewrite SS. field. apply Rgt_not_eq, dot_pos, Ha. }
    rewrite U, sqrt_1. unfold unit_of. cbn [vx vy vz]. pose proof (sqrt_lt_R0 _ (dot_pos a Ha)). f_equal; field; lra.
Qed.

(* the default sampling, with eight samples per cell *)
Theorem C79_default : forall fl a b tune eps simple early n t r m, linear_field fl a b a -> steady a -> dt_scale envR t <> 0 -> dt_size envR t = edge_len n ->
  (forall l, in_cell (dc_min_corner (edge_len n)) (edge_len n) l -> lowest <= fl_value fl (global_of t l) / dt_scale envR t <= highest) ->
  (forall p p', in_cube (dc_min_corner (edge_len n)) n p -> in_cube (dc_min_corner (edge_len n)) n p' -> addr_of p = addr_of p' -> p = p') ->
  build fl tune eps simple None early t = Ret r -> dmc_contour envR r = Ret m ->
  forall v, In v (m_verts m) -> Rabs (fl_value fl (global_of t (mv_pos v))) <= sqrt (Rmax 0 eps / 8).
Proof.
  intros fl a b tune eps simple early n t r m Hlin Hst Hsc Hs Hr Hinj H Hm v Hv.
  destruct (C79_mesh 8 fl a b tune eps simple None early n t r m Hlin Hst Hsc default_samples Hs Hr Hinj H Hm v Hv) as [C _].
  rewrite <- sqrt_Rsqr_abs. apply sqrt_le_1_alt. unfold Rsqr. replace (INR 8) with 8 in C by (cbn; lra). change (fp_D envR) with R in *. lra.
Qed.

(* no tolerance *)
Theorem C79_exact : forall K fl a b tune eps simple samples early n t r m, linear_field fl a b a -> steady a -> dt_scale envR t <> 0 -> samples_ok K samples ->
  dt_size envR t = edge_len n ->
  (forall l, in_cell (dc_min_corner (edge_len n)) (edge_len n) l -> lowest <= fl_value fl (global_of t l) / dt_scale envR t <= highest) ->
  (forall p p', in_cube (dc_min_corner (edge_len n)) n p -> in_cube (dc_min_corner (edge_len n)) n p' -> addr_of p = addr_of p' -> p = p') ->
  build fl tune eps simple samples early t = Ret r -> dmc_contour envR r = Ret m -> eps <= 0 ->
  forall v, In v (m_verts m) -> fl_value fl (global_of t (mv_pos v)) = 0.
Proof.
  intros K fl a b tune eps simple samples early n t r m Hlin Hst Hsc Hsam Hs Hr Hinj H Hm He v Hv.
  destruct (C79_mesh K fl a b tune eps simple samples early n t r m Hlin Hst Hsc Hsam Hs Hr Hinj H Hm v Hv) as [C _]. destruct Hsam as [HK _]. apply lt_0_INR in HK.
  rewrite Rmax_left in C by exact He. change (fp_D envR) with R in *. set (x := fl_value fl _) in *. clearbody x. clear - C HK.
  assert (S : 0 <= x * x) by apply Rle_0_sqr. assert (S0 : x * x <= 0) by (apply Rmult_le_reg_l with (INR K); lra). nra.
Qed.
End Mesh.
Print Assumptions C79_cells.
Print Assumptions C79_centres.
Print Assumptions C79_mesh.
Print Assumptions C79_default.
Print Assumptions C79_exact.

Lemma tree_and : forall A B (X Y : A -> ivec3 -> nat -> Prop) n (t : otree A B) q, tree_ok X n t q -> tree_ok Y n t q -> tree_ok (fun a q' n' => X a q' n' /\ Y a q' n') n t q.
Proof.
  induction n as [|n IH]; intros [a|b cs] q HX HY; cbn [tree_ok] in *; auto. destruct HX as [L HX], HY as [_ HY]. split; [exact L|]. intros i c Hi. apply IH; auto.
Qed.

(* the half space 2x + y < 1/2 in an octree of 8 cells across: the hypotheses hold, build and contour return and the
   mesh is not empty *)
Definition slope : field envR := @Field envR (fun p : vec3 R => 2 * vx p + 1 * vy p + 0 * vz p + - / 2) (fun _ => V3 2 1 0) (fun _ _ => 7%Z).
Definition eight : dmc_octree envR := DmcOctree envR (V3 0 0 0) 1 8 (OLeaf (dmc_fresh 0)).
Definition place (p : ivec3) : Z := (vx p + 100 * vy p + 10000 * vz p)%Z.
Example C79_ex : linear_field slope (V3 2 1 0) (- / 2) (V3 2 1 0) /\ steady (V3 2 1 0) /\ V3 2 1 0 <> V3 0 0 0 /\ dt_scale envR eight <> 0 /\ dt_size envR eight = edge_len 3 /\
  (forall l, in_cell (dc_min_corner (edge_len 3)) (edge_len 3) l -> -100 <= fl_value slope (global_of eight l) / dt_scale envR eight <= 100) /\
  (forall p p', in_cube (dc_min_corner (edge_len 3)) 3 p -> in_cube (dc_min_corner (edge_len 3)) 3 p' -> place p = place p' -> p = p') /\
  exists r m, dmc_build envR (fun x => x) least_normal (-100) 100 (fun x y => sqrt (x * x + y * y)) (fun x _ => x) sin cos atan (sqrt 3) place
    slope (Tuning (/ 10) (/ 100) 15 true) 0 false None false eight = Ret r /\ dmc_contour envR r = Ret m /\ m_verts m <> [].
Proof.
  assert (H1 : linear_field slope (V3 2 1 0) (- / 2) (V3 2 1 0)) by (split; intros; reflexivity).
  assert (H2 : steady (V3 2 1 0)).
  { intros d. assert (least_normal <= 1) by (unfold least_normal; cbn; lra). destruct d; cbn [vget vx vy vz]; [right; lra|right; lra|left; reflexivity]. }
  assert (H3 : dt_scale envR eight <> 0) by (cbn; lra).
  assert (H4 : forall l, in_cell (dc_min_corner (edge_len 3)) (edge_len 3) l -> -100 <= fl_value slope (global_of eight l) / dt_scale envR eight <= 100).
  { intros l Hl. pose proof (Hl AX) as X. pose proof (Hl AY) as Y. change (dc_min_corner (edge_len 3)) with (V3 (-4) (-4) (-4))%Z in X, Y. change (edge_len 3) with 8%Z in X, Y.
    cbn [vget vx vy vz Z.add] in X, Y. unfold slope, eight, global_of. cbn [fl_value dt_pos dt_scale vx vy vz]. destruct l as [lx ly lz]. cbn in X, Y. cbn [vx vy vz]. change (fp_D envR) with R in *. change (fp_F envR) with R in *. lra. }
  assert (H5 : forall p p', in_cube (dc_min_corner (edge_len 3)) 3 p -> in_cube (dc_min_corner (edge_len 3)) 3 p' -> place p = place p' -> p = p').
  { intros [x y z] [x' y' z'] H H'. unfold place. change (dc_min_corner (edge_len 3)) with (V3 (-4) (-4) (-4))%Z in H, H'. unfold in_cube, edge_len in H, H'. cbn in H, H'. cbn [vx vy vz]. intros E. f_equal; lia. }
  split; [exact H1|]. split; [exact H2|]. split; [intros E; injection E as E _; lra|]. split; [exact H3|]. split; [reflexivity|]. split; [exact H4|]. split; [exact H5|].
  edestruct (C68_partial envR (fun x => x) least_normal (-100) 100 (fun x y => sqrt (x * x + y * y)) (fun x _ => x) sin cos atan (sqrt 3) place
    slope (Tuning (/ 10) (/ 100) 15 true) 0 false None false 3%nat eight) as [r Hr]; [reflexivity|right; lia|].
  pose proof (C79_centres _ _ _ _ _ _ _ _ _ _ _ _ _ _ _ _ 3%nat eight r H1 H2 H3 eq_refl H4 Hr) as T1.
  pose proof (C69_leaves _ _ _ _ _ _ _ _ _ _ _ _ _ _ _ _ _ _ 3%nat eight r eq_refl Hr) as T2. cbv zeta in T2.
  assert (T : forall c, in_cube (dc_min_corner (edge_len 3)) 3 c -> exists l p, leaf_at 3 (dt_root envR r) (dc_min_corner (edge_len 3)) c = Some l /\
    dn_dual l = Some (p, 2 * (IZR (vx c) + / 2) + (IZR (vy c) + / 2) - / 2)).
  { intros c Hc.
    assert (T4 : tree_ok (fun (l : dmc_leaf (fp_F envR)) q' n' => n' = 0%nat) 3 (dt_root envR r) (dc_min_corner (edge_len 3))).
    { eapply tree_ok_mono; [|exact T2]. cbv beta. intros x q' n' (ok & _ & [X|[[X _]|[[X _]|(_ & X & _)]]]); [exact X|discriminate|discriminate|lia]. }
    destruct (OctreeFlux.leaf_at_ok _ _ _ _ _ _ c (tree_and _ _ _ _ _ _ _ T1 T4) Hc) as (l & q' & n' & L1 & [(p & w & D & P & V) ->] & C & _).
    assert (q' = c). { destruct q' as [x y z], c as [x' y' z']. unfold in_cube, edge_len in C. cbn in C. f_equal; lia. } subst q'.
    exists l, p. split; [exact L1|]. rewrite D. do 2 f_equal. change (IZR (edge_len 0)) with 1 in P. pose proof (P AX) as PX. pose proof (P AY) as PY. clear P.
    rewrite Rmax_left in V by lra. unfold slope, eight, global_of in V. cbn [fl_value dt_pos dt_scale vx vy vz] in V. cbn [vget] in PX, PY. change (fp_D envR) with R in *. change (fp_F envR) with R in *. rewrite PX, PY in V.
    clear - V. match type of V with 8 * (?d * _) <= 0 => assert (S : 0 <= d * d) by apply Rle_0_sqr; assert (d = 0) by nra end. lra. }
  assert (I : forall c l, in_cube (dc_min_corner (edge_len 3)) 3 c -> leaf_at 3 (dt_root envR r) (dc_min_corner (edge_len 3)) c = Some l ->
    node_inside envR l = Rleb (2 * (IZR (vx c) + / 2) + (IZR (vy c) + / 2) - / 2) 0).
  { intros c l Hc Hl. destruct (T c Hc) as (l' & p & L1 & D). assert (l' = l) by congruence. subst l'. unfold node_inside. change (fp_F envR) with R in *. rewrite D. reflexivity. }
  assert (M : exists m, dmc_contour envR r = Ret m).
  { pose proof (C42_partial envR (fun x => x) least_normal (-100) 100 (fun x y => sqrt (x * x + y * y)) (fun x _ => x) sin cos atan (sqrt 3) place
      slope (Tuning (/ 10) (/ 100) 15 true) 0 false None false 3%nat eight r) as C. cbv zeta in C. destruct C as [_ C]; [reflexivity|lia|exact H5|intros; discriminate|exact Hr|]. apply C. clear C.
    intros [d c] x y ((J1 & J2) & J3 & J4) O. unfold other_end in *. cbn [fst snd] in *. unfold opposite in O. rewrite (I _ _ J1 J3) in *. rewrite (I _ _ J2 J4) in O.
    destruct (Rleb (2 * (IZR (vx c) + / 2) + _ - _) 0) eqn:E1; [reflexivity|]. exfalso. apply O. symmetry. apply Rleb_false in E1.
    destruct (Rleb (2 * (IZR (vx (vadd c _)) + / 2) + _ - _) 0) eqn:E2; [|reflexivity]. apply Rleb_iff in E2. exfalso. destruct c as [x0 y0 z0], d; cbn [vadd unit_vec vx vy vz] in E1, E2; rewrite ?plus_IZR in E2; lra. }
  destruct M as [m Hm]. exists r, m. split; [exact Hr|]. split; [exact Hm|]. intros Em.
  destruct (C67_tiles envR (fun x => x) least_normal (-100) 100 (fun x y => sqrt (x * x + y * y)) (fun x _ => x) sin cos atan (sqrt 3) place
      slope (Tuning (/ 10) (/ 100) 15 true) 0 false None false 3%nat eight r eq_refl Hr) as (_ & _ & Hs' & Ht & Hd).
  assert (Kt : dmc_tree_ok envR 3 (dc_min_corner (edge_len 3)) r).
  { constructor; [exact Hs'| |apply Hd; exact H5]. eapply tree_ok_mono; [|exact Ht]. auto. }
  destruct (C43_mesh envR 3 _ r m Kt Hm) as (_ & num & N & S).
  destruct (T (V3 (-1) 0 0)%Z) as (x & p & Lx & Dx); [vm_compute; intuition discriminate|]. destruct (T (V3 0 0 0)%Z) as (y & p' & Ly & Dy); [vm_compute; intuition discriminate|].
  assert (J : joins envR 3 (dc_min_corner (edge_len 3)) (dt_root envR r) (AX, V3 (-1) 0 0)%Z x y).
  { split; [split; vm_compute; intuition discriminate|]. split; assumption. }
  assert (O : opposite envR x y).
  { unfold opposite. rewrite (I (V3 (-1) 0 0)%Z x) by (try exact Lx; vm_compute; intuition discriminate). rewrite (I (V3 0 0 0)%Z y) by (try exact Ly; vm_compute; intuition discriminate).
    cbn [vx vy vz]. destruct (Rleb _ 0) eqn:E1; [|apply Rleb_false in E1; lra]. destruct (Rleb (2 * (0 + _) + _ - _) 0) eqn:E2; [|discriminate]. apply Rleb_iff in E2. lra. }
  specialize (S _ x y J O). destruct (num (dn_addr x) (dn_addr y)) as [k|] eqn:Ek; [|congruence]. apply (num_range _ _ _ _ _ _ N) in Ek.
  unfold mesh_vertex_count, zlen in Ek. rewrite Em in Ek. cbn in Ek. lia.
Qed.
