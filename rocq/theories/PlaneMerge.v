(* The QEF solver given planes with one common normal, in one piece or merged: the solution is the
   mean of all points. *)
From Coq Require Import ZArith List Bool Lia Reals Lra.
From Verif Require Import LoopLemmas Arith RealArith FillModel UdcModel DcModel QefModel QefSpec QefLin QefProofs QefFlat QefPlane SolverModel PropFillNum PropQef PropFlat PropPlane Base.
Import ListNotations.
Local Open Scope R_scope.

Section Merge.
Variable hypot copysign : R -> R -> R.
Variable msin mcos matan : R -> R.
Variable tune : tuning R.
Variable N : vec3 R.
Variable i0 : nat.
Hypothesis HI : first_component N i0.
Hypothesis HD : one_direction hypot copysign msin mcos matan tune (fvec_of N).

Definition sums_to (sum : fvec R) (planes : list (vec3 R * vec3 R)) : Prop :=
  sum 0%nat = point_sum AX planes /\ sum 1%nat = point_sum AY planes /\ sum 2%nat = point_sum AZ planes.
(* the solver has the planes and their points *)
Definition coherent (s : solver R) (planes : list (vec3 R * vec3 R)) : Prop :=
  flat_solver 3 (fvec_of N) s (length planes) (rsum 3 (fun c => fvec_of N c * q_sum s c)) /\ q_count s = zlen planes /\ sums_to (q_sum s) planes /\ (q_used s <= 8)%nat.
Definition coherent_state (d : qstate R) (planes : list (vec3 R * vec3 R)) : Prop :=
  flat_state 3 (fvec_of N) i0 d (length planes) (rsum 3 (fun c => fvec_of N c * s_sum d c)) /\ s_count d = zlen planes /\ sums_to (s_sum d) planes /\ s_dim d = 1%Z.

Lemma new_coherent : coherent (q_new arithR) [].
Proof.
  split; [|split; [reflexivity|split; [repeat split; reflexivity|cbn; lia]]].
  replace (rsum 3 (fun c => fvec_of N c * q_sum (q_new arithR) c)) with 0; [apply new_flat|]. cbn. ring.
Qed.

Lemma adds_coherent : forall planes, (zlen planes < two32)%Z -> Forall (fun p => snd p = N) planes ->
  coherent (fold_left (fun s p => match s3_add arithR least_normal s (fst p) (snd p) with Ret s' => s' | _ => s end) planes (q_new arithR)) planes.
Proof.
  intros planes Hl HN. destruct new_coherent as (F0 & _ & _ & _).
  assert (U : forall l s, (q_used s <= 8)%nat -> (q_used (fold_left (fun s p => match s3_add arithR least_normal s (fst p) (snd p) with Ret s' => s' | _ => s end) l s) <= 8)%nat).
  { induction l as [|[p m] l IH]; intros s Hs; [exact Hs|]. cbn [fold_left fst snd]. apply IH.
    destruct (add_plane_runs arithR least_normal 3 8 ltac:(lia) s (fvec_of p) (fvec_of m) Hs) as (s1 & R & Hu). unfold s3_add. rewrite R. lia. }
  destruct (flat_adds N i0 HI planes (q_new arithR) 0 HN F0 eq_refl ltac:(cbn; lia) Hl) as (A1 & A2 & A3 & A4 & A5).
  split; [exact A1|]. split; [exact A2|]. split; [|apply U; cbn; lia]. cbn [q_new q_sum arithR a_ofZ] in A3, A4, A5. rewrite Rplus_0_l in A3, A4, A5. repeat split; assumption.
Qed.

Lemma solve_coherent : forall s planes lo hi s1 v, coherent s planes -> planes <> [] -> (forall d p, In p planes -> vget d lo <= vget d (fst p) <= vget d hi) ->
  s3_solve arithR least_normal hypot copysign msin mcos matan tune s lo hi = (s1, v) ->
  v = mean_point planes /\ coherent s1 planes /\ q_dim s1 = 1%Z.
Proof.
  intros s planes lo hi s1 v (C1 & C2 & (S1 & S2 & S3) & C4) Hne Hbox X. destruct HI as (I1 & I2 & I3).
  assert (Hk : (0 < length planes)%nat) by (destruct planes; [congruence|cbn; lia]).
  unfold s3_solve in X.
  pose proof (solve_flat least_normal least_normal_pos 3 (fvec_of N) i0 I1 I2 I3 hypot copysign msin mcos matan tune s (length planes) _ (fvec_of lo) (fvec_of hi) C1 Hk C2 eq_refl) as Y.
  destruct (compress_flat least_normal least_normal_pos 3 (fvec_of N) i0 I1 I2 I3 s _ _ C1) as (D1 & lam & [D2 _] & _ & D4 & _).
  destruct (solve arithR least_normal hypot copysign msin mcos matan 3 tune s (fvec_of lo) (fvec_of hi)) as [z s'] eqn:W. injection X as <- <-. cbn [fst] in Y.
  split.
  - assert (K : forall x a b, a <= x <= b -> glm_min arithR (glm_max arithR x a) b = x).
    { intros x a b H. unfold glm_min, glm_max. cbn [arithR a_lt]. unfold Rltb. destruct (Rlt_dec x a); [lra|]. destruct (Rlt_dec b x); [lra|reflexivity]. }
    unfold vec3_of, mean_point. rewrite !Y. unfold clampv. rewrite !K.
    + rewrite S1, S2, S3. reflexivity.
    + rewrite S3. apply (mean_between AZ); [assumption|]. intros p Hp. apply (Hbox AZ p Hp).
    + rewrite S2. apply (mean_between AY); [assumption|]. intros p Hp. apply (Hbox AY p Hp).
    + rewrite S1. apply (mean_between AX); [assumption|]. intros p Hp. apply (Hbox AX p Hp).
  - unfold solve in W. set (sc := compress arithR least_normal 3 s) in *. unfold solve_with in W.
    set (ATA := mat_mul arithR 3 (transpose (q_mat sc)) (q_mat sc)) in W.
    assert (HA : forall c r, (c < 3)%nat -> (r < 3)%nat -> ATA c r = INR (length planes) * fvec_of N c * fvec_of N r).
    { intros c r Hc Hr. unfold ATA, mat_mul, transpose. rewrite sum_left_rsum. cbn [arithR a_mul]. rewrite <- D4.
      rewrite (rsum_ext 3 _ (fun j => (fvec_of N c * fvec_of N r) * (lam j * lam j))); [rewrite rsum_scal; ring|]. intros j Hj. rewrite !D2 by lia. ring. }
    pose proof (HD (length planes) ATA Hk HA) as Hd.
    destruct (jacobi arithR hypot copysign msin mcos matan 3 ATA (t_jacobi tune) (t_iters tune) (t_fast tune)) as [e E]. cbn [fst] in Hd. injection W as _ <-.
    split; [|exact (f_equal Z.of_nat Hd)].
    split; [exact D1|]. split; [exact C2|]. split; [split; [exact S1|split; assumption]|]. cbn [q_used]. unfold sc. cbn. lia.
Qed.

Lemma state_coherent : forall s planes d s', coherent s planes -> q_dim s = 1%Z -> s3_state arithR least_normal s = Ret (d, s') -> coherent_state d planes.
Proof.
  intros s planes d s' (C1 & C2 & C3 & C4) Hd X. destruct HI as (I1 & I2 & I3). unfold s3_state in X.
  pose proof (state_flat least_normal least_normal_pos 3 (fvec_of N) i0 I1 I2 I3 _ _ _ _ _ _ C1 X) as Y. apply state_used in X as (_ & -> & _).
  split; [exact Y|]. split; [exact C2|]. split; [exact C3|exact Hd].
Qed.

Lemma point_sum_app : forall d a b, point_sum d (a ++ b) = point_sum d a + point_sum d b.
Proof. intros d a b. unfold point_sum. induction a as [|p a IH]; cbn [app fold_right]; [ring|]. rewrite IH. ring. Qed.

Lemma merge_coherent : forall s d a b, coherent s a -> (q_dim s = 1%Z \/ (a = [] /\ q_dim s = 0%Z)) -> coherent_state d b -> (zlen a + zlen b < two32)%Z ->
  exists s', s3_merge arithR least_normal s d = Ret s' /\ coherent s' (a ++ b) /\ q_dim s' = 1%Z.
Proof.
  intros s d a b (C1 & C2 & (S1 & S2 & S3) & C4) Hdim (T1 & T2 & (U1 & U2 & U3) & T4) Hl. destruct HI as (I1 & I2 & I3).
  destruct (merge_runs arithR least_normal 3 8 ltac:(lia) s d C4) as (s' & R & Hu). exists s'. split; [exact R|].
  pose proof (merge_flat least_normal least_normal_pos 3 (fvec_of N) i0 I1 I2 I3 8 s _ _ d _ _ s' C1 T1 R) as F.
  unfold merge in R. rewrite T4 in R.
  assert (K : q_dim s' = 1%Z /\ q_count s' = (q_count s + s_count d)%Z /\ (forall c, (c < 3)%nat -> q_sum s' c = q_sum s c + s_sum d c)).
  { destruct Hdim as [Hd|[-> Hd]]; rewrite Hd in R.
    - cbn [Z.ltb Z.eqb Z.compare Pos.compare Pos.compare_cont Pos.eqb] in R. destruct (Nat.ltb (8 - 4) (q_used s)); cbn [compress q_used] in R; (destruct (Nat.ltb _ _); [|discriminate]); injection R as <-; cbn [q_dim q_count q_sum compress];
      (split; [reflexivity|]; split; [|reflexivity]; rewrite C2, T2; unfold u32; apply Z.mod_small; unfold zlen in *; lia).
    - cbn [Z.ltb Z.compare] in R. destruct (Nat.ltb (8 - 4) (q_used s)); cbn [compress q_used] in R; (destruct (Nat.ltb _ _); [|discriminate]); injection R as <-; cbn [q_dim q_count q_sum compress];
      (split; [reflexivity|]; split; [rewrite C2; reflexivity|]; intros c Hc; cbn [point_sum fold_right] in S1, S2, S3;
      assert (Z : q_sum s c = 0) by (destruct c as [|[|[|c]]]; [assumption|assumption|assumption|lia]); rewrite Z; ring). }
  destruct K as (K1 & K2 & K3). split; [|exact K1].
  split; [|split; [|split; [|exact Hu]]].
  - rewrite app_length. replace (rsum 3 (fun c => fvec_of N c * q_sum s' c)) with (rsum 3 (fun c => fvec_of N c * q_sum s c) + rsum 3 (fun c => fvec_of N c * s_sum d c)); [exact F|].
    cbn [rsum]. rewrite !K3 by lia. ring.
  - rewrite K2, C2, T2. unfold zlen. rewrite app_length. lia.
  - split; [|split]; rewrite K3, point_sum_app by lia; congruence.
Qed.

(* many data *)
Lemma merges_coherent : forall (parts : list (qstate R * list (vec3 R * vec3 R))), (forall p, In p parts -> coherent_state (fst p) (snd p)) -> forall s a,
  coherent s a -> (q_dim s = 1%Z \/ (a = [] /\ q_dim s = 0%Z)) -> (zlen a + zlen (concat (map snd parts)) < two32)%Z ->
  coherent (fold_left (fun s p => match s3_merge arithR least_normal s (fst p) with Ret s' => s' | _ => s end) parts s) (a ++ concat (map snd parts)).
Proof.
  induction parts as [|[d b] parts IH]; intros HP s a Hs Hd Hl; cbn [fold_left map concat fst snd]; [rewrite app_nil_r; exact Hs|].
  cbn [map concat snd] in Hl. unfold zlen in *. rewrite app_length, Nat2Z.inj_add in Hl.
  destruct (merge_coherent s d a b Hs Hd (HP _ (or_introl eq_refl))) as (s' & -> & H1 & H2); [unfold zlen; lia|].
  rewrite app_assoc. apply IH; [intros p Hp; apply HP; right; exact Hp|exact H1|left; exact H2|]. rewrite app_length, Nat2Z.inj_add. lia.
Qed.
End Merge.

(* The mean of points of a plane is in the plane. *)
Lemma mean_linear : forall (g0 : ugrid envR) f a b G planes, linear_field f a b G -> planes <> [] ->
  (forall p, In p planes -> fl_value f (global g0 (fst p)) = 0) -> fl_value f (global g0 (mean_point planes)) = 0.
Proof.
  intros g0 f a b G planes [Hl _] Hne Hp.
  assert (Hn : 0 < INR (length planes)) by (apply lt_0_INR; destruct planes; [congruence|cbn; lia]).
  pose proof (point_sums planes (V3 (vx a * g_step g0) (vy a * g_step g0) (vz a * g_step g0))
    (vx a * vx (g_pos g0) + vy a * vy (g_pos g0) + vz a * vz (g_pos g0) + b) 0 (fun p => fl_value f (global g0 p))) as P.
  cbn [vx vy vz] in P. rewrite Hl. unfold global, local_to_global, vadd3, vscale3, mean_point.
  cbn [fp_d fp_D envR arithR a_add a_mul vx vy vz].
  assert (P' : vx a * g_step g0 * point_sum AX planes + vy a * g_step g0 * point_sum AY planes + vz a * g_step g0 * point_sum AZ planes +
    INR (length planes) * (vx a * vx (g_pos g0) + vy a * vy (g_pos g0) + vz a * vz (g_pos g0) + b) = INR (length planes) * 0).
  { apply P; [|exact Hp]. intro p. rewrite Hl. unfold global, local_to_global, vadd3, vscale3. cbn [fp_d fp_D envR arithR a_add a_mul vx vy vz]. change (fp_D envR) with R. ring. }
  clear P. change (fp_D envR) with R in *. set (n := INR (length planes)) in *.
  apply Rmult_eq_reg_l with n; [|lra]. rewrite <- P'. field. lra.
Qed.
