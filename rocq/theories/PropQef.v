(* The QEF solvers: C29, C30, C31, C32. *)
From Coq Require Import ZArith List Bool Reals Lra Lia.
From Flocq Require Import Core BinarySingleNaN.
From Verif Require Import Base Arith RealArith FloatArith XReal QefModel QefLin QefHouse QefSpec QefProofs QefJacobi QefLeast.
Import ListNotations.
Local Open Scope R_scope.

(* QefSolver3D and QefSolver4D *)
Definition solver_kind (D max_rows : nat) (limit : Z) : Prop :=
  (D = 3%nat /\ max_rows = 8%nat /\ limit = (2 ^ 30)%Z) \/ (D = 4%nat /\ max_rows = 16%nat /\ limit = (2 ^ 29)%Z).
Lemma kind_enough : forall D max_rows limit, solver_kind D max_rows limit -> (2 * S D <= max_rows)%nat.
Proof. intros D max_rows limit [(-> & -> & _) | (-> & -> & _)]; lia. Qed.
Lemma kind_dim : forall D max_rows limit, solver_kind D max_rows limit -> D = 3%nat \/ D = 4%nat.
Proof. intros D max_rows limit [(-> & _) | (-> & _)]; auto. Qed.

(* C29, rows: in any arithmetic, whatever the planes and the values of the mathematical library,
   addPlane and merge never write outside of the matrix. *)
Theorem C29_rows : forall (T : Type) (A : arith T) (float_min : T) hypot copysign msin mcos matan D max_rows limit free s L k,
  solver_kind D max_rows limit ->
  history A float_min hypot copysign msin mcos matan D max_rows limit free s L k ->
  (q_used s <= max_rows)%nat /\
  (forall q n, exists s', add_plane A float_min D max_rows s q n = Ret s') /\
  (forall d, exists s', merge A float_min D max_rows s d = Ret s').
Proof.
  intros T A float_min hypot copysign msin mcos matan D max_rows limit free s L k K H. pose proof (kind_enough _ _ _ K) as E.
  assert (U : (q_used s <= max_rows)%nat) by (eapply history_rows; eauto). split; [exact U|]. split.
  - intros q n. destruct (add_plane_runs A float_min D max_rows E s q n U) as (s' & Hs & _). exists s'. exact Hs.
  - intros d. destruct (merge_runs A float_min D max_rows E s d U) as (s' & Hs & _). exists s'. exact Hs.
Qed.
Print Assumptions C29_rows.

(* C29, partial: the square root of eval differs from the one of the sum of squared distances by at
   most 2 k sqrt(FLT_MIN) (|p|_1 + 1), where k is the number of compressions, here or in a solver that
   was merged, in which a column had a sum of squares between zero and FLT_MIN.  Without such
   compressions eval is the sum of squared distances.  The full claim (equality in all cases) does
   not hold, see C29_refuted. *)
Theorem C29_partial : forall hypot copysign msin mcos matan D max_rows limit s L k,
  solver_kind D max_rows limit ->
  history arithR least_normal hypot copysign msin mcos matan D max_rows limit (no_tiny_column least_normal D) s L k ->
  forall p, Rabs (sqrt (eval arithR D s p) - sqrt (planes_error D L p)) <= 2 * INR k * sqrt least_normal * (taxi D p + 1).
Proof.
  intros hypot copysign msin mcos matan D max_rows limit s L k K H p. rewrite eval_nf.
  assert (P : 0 < least_normal) by (apply Rinv_0_lt_compat, IZR_lt; reflexivity).
  apply (history_error least_normal P hypot copysign msin mcos matan D max_rows limit s L k H).
Qed.
Print Assumptions C29_partial.

Theorem C29_exact_partial : forall hypot copysign msin mcos matan D max_rows limit s L,
  solver_kind D max_rows limit ->
  history arithR least_normal hypot copysign msin mcos matan D max_rows limit (no_tiny_column least_normal D) s L 0 ->
  forall p, eval arithR D s p = planes_error D L p.
Proof.
  intros hypot copysign msin mcos matan D max_rows limit s L K H p.
  pose proof (C29_partial hypot copysign msin mcos matan D max_rows limit s L 0 K H p) as B. cbn [INR] in B. rewrite Rmult_0_r, !Rmult_0_l in B.
  pose proof (Rabs_pos (sqrt (eval arithR D s p) - sqrt (planes_error D L p))) as B2.
  assert (Z : sqrt (eval arithR D s p) - sqrt (planes_error D L p) = 0).
  { destruct (Req_dec (sqrt (eval arithR D s p) - sqrt (planes_error D L p)) 0) as [Q|Q]; [auto|]. apply Rabs_pos_lt in Q. lra. }
  apply sqrt_inj; [|apply planes_error_nonneg|lra]. rewrite eval_nrm. apply nrm2_pos.
Qed.
Print Assumptions C29_exact_partial.

(* ---- a matrix with one entry in each column ---- *)
(* In a column that is tiny, or zero below the diagonal, the step changes the sign of a row. *)
Lemma flip_step : forall tiny N used m i, 0 < tiny -> (i < N)%nat ->
  (tiny <= col_norm arithR m i used -> forall r, (i < r < used)%nat -> m i r = 0) ->
  forall c r, householder_step arithR tiny N used m i c r =
    if (Nat.leb i c && Nat.ltb c N && Nat.eqb r i && Nat.ltb r used)%bool then - m c r else m c r.
Proof.
  intros tiny N used m i Ht Hi Hz c r. rewrite (step_at tiny N m i used used) by auto.
  destruct (Nat.leb i c && Nat.ltb c N)%bool; cbn [andb]; [|reflexivity].
  assert (V : exists x g, (forall k, (k < used)%nat -> vec_of tiny m i used k = if Nat.eqb k i then x else 0) /\ gam_of tiny m i used = g /\ ((i < used)%nat -> g * (x * x) = 2)).
  { destruct (Rlt_le_dec (col_norm arithR m i used) tiny) as [H|H].
    - destruct (small_vec tiny m i used H) as [-> ->]. exists 1, 2. split; [reflexivity|]. split; [reflexivity|]. intros; ring.
    - destruct (large_vec tiny Ht m i used H) as (Hu & Hv & Hg). destruct (sg_abs m i used) as (S1 & S2 & S3).
      set (mu := 1 / sqrt (col_norm arithR m i used)) in *. set (x := m i i * mu + (if Rleb 0 (m i i * mu) then 1 else -1)) in *.
      exists x, (1 / Rabs x). split.
      + intros k Hk. rewrite Hv. destruct (Nat.eqb_spec k i) as [->|]; [reflexivity|].
        destruct (Nat.leb_spec i k), (Nat.ltb_spec k used); cbn [andb]; try reflexivity. rewrite (Hz H k) by lia. ring.
      + split; [exact Hg|]. intros _. destruct (mu_pos tiny Ht m i used H) as [M1 M2]. fold mu in M1, M2.
        assert (CN : col_norm arithR m i used = m i i * m i i).
        { rewrite col_norm_sum. unfold nrm2. rewrite (rsum_ext used _ (fun k => if Nat.eqb k i then m i i * m i i else 0)); [apply rsum_delta; auto|].
          intros k Hk. destruct (Nat.ltb_spec k i); [destruct (Nat.eqb_spec k i); [lia | ring]|].
          destruct (Nat.eqb_spec k i) as [->|]; [reflexivity|]. rewrite (Hz H k) by lia. ring. }
        rewrite CN in M2. assert (Q : (m i i * mu) * (m i i * mu) = 1) by lra.
        assert (AbsQ : Rabs (m i i * mu) = 1).
        { pose proof (Rabs_pos (m i i * mu)). assert (W : Rabs (m i i * mu) * Rabs (m i i * mu) = 1) by (rewrite <- Rabs_mult, Q; apply Rabs_R1). nra. }
        assert (X2 : x * x = 4).
        { replace (x * x) with ((m i i * mu) * (m i i * mu) + 2 * ((if Rleb 0 (m i i * mu) then 1 else -1) * (m i i * mu)) + (if Rleb 0 (m i i * mu) then 1 else -1) * (if Rleb 0 (m i i * mu) then 1 else -1)) by (unfold x; ring).
          rewrite S2, S3, Q, AbsQ. ring. }
        rewrite X2, S1, AbsQ. field. }
  destruct V as (x & g & Hv & Hg & Hgx). rewrite Hg.
  destruct (Nat.lt_ge_cases i used) as [Hu|Hu].
  - rewrite cut_sum by lia. rewrite (rsum_ext used _ (fun k => if Nat.eqb k i then m c i * x else 0)).
    2:{ intros k Hk. rewrite Hv by auto. destruct (Nat.eqb_spec k i) as [->|]; ring. }
    rewrite rsum_delta by auto. unfold cut. destruct (Nat.ltb_spec r used) as [Hr|Hr].
    + rewrite Hv by auto. destruct (Nat.eqb_spec r i) as [->|]; cbn [andb]; [|ring].
      replace (m c i * x * g * x) with (m c i * (g * (x * x))) by ring. rewrite Hgx by auto. ring.
    + rewrite andb_false_r. ring.
  - unfold cut at 2. destruct (Nat.ltb_spec r used) as [Hr|Hr].
    + rewrite Hv by auto. destruct (Nat.eqb_spec r i); [lia|]. cbn [andb]. ring.
    + rewrite andb_false_r. ring.
Qed.

Definition least_normal_pos : 0 < least_normal := Rinv_0_lt_compat _ (IZR_lt 0 (2 ^ 126) eq_refl).

(* sums of squares of a column *)
Lemma col_norm_0 : forall m i, col_norm arithR m i i = 0.
Proof. intros. rewrite col_norm_sum. unfold nrm2. apply rsum_zero. intros k Hk. destruct (Nat.ltb_spec k i); [ring | lia]. Qed.
Lemma col_norm_beyond : forall m i used, (used <= i)%nat -> col_norm arithR m i used = 0.
Proof. intros. rewrite col_norm_sum. unfold nrm2. apply rsum_zero. intros k Hk. destruct (Nat.ltb_spec k i); [ring | lia]. Qed.

(* The two planes through the origin with normals (0, 0, 1) and (t, w, 0), t = 2^-69 / (1 + 2^-140),
   w = (1 - 2^-140) / (1 + 2^-140). *)
Definition slope : R := / IZR (2 ^ 70).
Definition tilt_x : R := 2 * slope / (1 + slope * slope).
Definition tilt_y : R := (1 - slope * slope) / (1 + slope * slope).
Definition tilted : fvec R := vec3R tilt_x tilt_y 0.
Definition upward : fvec R := vec3R 0 0 1.
Definition zero3 : fvec R := vec3R 0 0 0.

Lemma slope_bounds : 0 < slope /\ slope < / 2 /\ 16 * (slope * slope) < least_normal.
Proof.
  unfold slope, least_normal. split; [apply Rinv_0_lt_compat, IZR_lt; reflexivity|]. split; [apply Rinv_lt_contravar; [|apply IZR_lt; reflexivity]; apply Rmult_lt_0_compat; apply IZR_lt; reflexivity|].
  replace (IZR (2 ^ 126)) with (IZR (2 ^ 70) * IZR (2 ^ 56)) by (rewrite <- mult_IZR; reflexivity).
  assert (P1 : 0 < IZR (2 ^ 70)) by (apply IZR_lt; reflexivity). assert (P2 : 0 < IZR (2 ^ 56)) by (apply IZR_lt; reflexivity).
  rewrite Rinv_mult. rewrite Rmult_comm, Rmult_assoc. apply Rmult_lt_compat_l; [apply Rinv_0_lt_compat; auto|].
  apply (Rmult_lt_reg_r (IZR (2 ^ 56))); [auto|]. rewrite Rinv_l by lra.
  replace (IZR (2 ^ 70)) with (IZR (2 ^ 14) * IZR (2 ^ 56)) by (rewrite <- mult_IZR; reflexivity).
  rewrite Rinv_mult.
  replace (/ IZR (2 ^ 14) * / IZR (2 ^ 56) * 16 * IZR (2 ^ 56)) with (16 * / IZR (2 ^ 14)) by (field; split; apply IZR_neq; discriminate).
  apply (Rmult_lt_reg_r (IZR (2 ^ 14))); [apply IZR_lt; reflexivity|]. rewrite Rmult_assoc, Rinv_l by (apply IZR_neq; discriminate).
  change 16 with (IZR 16). rewrite <- !mult_IZR. apply IZR_lt. reflexivity.
Qed.
Lemma tilt_facts : 0 < tilt_x /\ tilt_x * tilt_x < least_normal /\ / 4 < tilt_y /\ tilt_x * tilt_x + tilt_y * tilt_y = 1.
Proof.
  destruct slope_bounds as (H1 & H2 & H3). assert (S : 0 < slope * slope < / 4) by nra.
  assert (Q : 0 < 1 + slope * slope) by lra. assert (I : 0 < / (1 + slope * slope)) by (apply Rinv_0_lt_compat; auto).
  assert (I1 : / (1 + slope * slope) < 1) by (rewrite <- Rinv_1; apply Rinv_lt_contravar; lra).
  unfold tilt_x, tilt_y, Rdiv. split; [nra|]. split; [|split].
  - set (u := / (1 + slope * slope)) in *. replace (2 * slope * u * (2 * slope * u)) with (4 * (slope * slope) * (u * u)) by ring.
    assert (u * u < 1) by nra. nra.
  - apply (Rmult_lt_reg_r (1 + slope * slope)); [auto|]. rewrite Rmult_assoc, Rinv_l by lra. lra.
  - field. lra.
Qed.

(* C29, refuted: two planes with unit normals, then a call of state.  The value of eval at (1, 1, 0)
   is no longer the sum of squared distances. *)
Theorem C29_refuted : exists s L k p, history arithR least_normal (fun x _ => x) (fun x _ => x) sin cos atan 3 8 (2 ^ 30) (no_tiny_column least_normal 3) s L k /\
  (forall l, In l L -> unit_normal 3 (snd l)) /\ eval arithR 3 s p <> planes_error 3 L p.
Proof.
  set (free := no_tiny_column least_normal 3).
  assert (HA : exists s1, add_plane arithR least_normal 3 8 (q_new arithR) zero3 upward = Ret s1 /\ q_used s1 = 1%nat /\ q_count s1 = 1%Z /\
    q_mat s1 = (fun c r => if (Nat.eqb r 0 && Nat.leb c 3)%bool then (if Nat.eqb c 3 then dotn arithR 3 upward zero3 else upward c) else 0)).
  { eexists. split; [reflexivity|]. repeat split. }
  destruct HA as (s1 & E1 & U1 & N1 & M1).
  assert (HB : exists s2, add_plane arithR least_normal 3 8 s1 zero3 tilted = Ret s2 /\ q_used s2 = 2%nat /\ q_count s2 = 2%Z /\
    q_mat s2 = (fun c r => if (Nat.eqb r 1 && Nat.leb c 3)%bool then (if Nat.eqb c 3 then dotn arithR 3 tilted zero3 else tilted c) else q_mat s1 c r)).
  { unfold add_plane. cbv zeta. rewrite U1. cbn [Nat.eqb]. rewrite U1. cbn [Nat.ltb Nat.leb]. eexists. split; [reflexivity|]. cbn [q_used q_count q_mat]. rewrite N1. repeat split. }
  destruct HB as (s2 & E2 & U2 & N2 & M2).
  assert (HC : exists d s3, state arithR least_normal 3 (2 ^ 30) s2 = Ret (d, s3) /\ s3 = compress arithR least_normal 3 s2).
  { unfold state. cbn [compress q_count]. rewrite N2. eexists; eexists; split; reflexivity. }
  destruct HC as (d & s3 & E3 & ->).
  set (p := vec3R 1 1 0). set (L := ([] ++ [(zero3, upward)]) ++ [(zero3, tilted)]).
  exists (compress arithR least_normal 3 s2), L, (0 + 0 + 0 + 1)%nat, p.
  destruct tilt_facts as (T1 & T2 & T3 & T4).
  split.
  { eapply h_state; [|exact E3 | right; reflexivity]. eapply h_plane; [|exact E2|]. 1: eapply h_plane; [apply h_new | exact E1 |].
    - left. split; [reflexivity|]. cbn. intros; discriminate.
    - left. split; [reflexivity|]. rewrite U1. intros; discriminate. }
  split.
  { intros l [<-|[<-|[]]]; unfold unit_normal; cbn [snd total upward tilted vec3R]; lra. }
  (* the matrix *)
  set (m := q_mat s2) in *.
  assert (V : forall c r, (c < 4)%nat -> m c r = if Nat.eqb r 0 then (if Nat.eqb c 2 then 1 else 0) else if Nat.eqb r 1 then (if Nat.eqb c 0 then tilt_x else if Nat.eqb c 1 then tilt_y else 0) else 0).
  { intros c r Hc. rewrite M2, M1. destruct r as [|[|r]]; cbn [Nat.eqb andb].
    - destruct c as [|[|[|[|c]]]]; try lia; cbn [Nat.leb Nat.eqb upward vec3R]; try reflexivity. unfold dotn, sum_left, sum_from, zero3, upward, vec3R. cbn. ring.
    - destruct c as [|[|[|[|c]]]]; try lia; cbn [Nat.leb Nat.eqb tilted vec3R]; try reflexivity. unfold dotn, sum_left, sum_from, zero3, tilted, vec3R. cbn. ring.
    - reflexivity. }
  set (m1 := householder_step arithR least_normal 4 2 m 0).
  set (m2 := householder_step arithR least_normal 4 2 m1 1).
  set (m3 := householder_step arithR least_normal 4 2 m2 2).
  set (m4 := householder_step arithR least_normal 4 2 m3 3).
  assert (F1 : forall c r, m1 c r = if (Nat.ltb c 4 && Nat.eqb r 0)%bool then - m c r else m c r).
  { intros c r. unfold m1. rewrite flip_step; [|apply least_normal_pos | lia |].
    - destruct (Nat.ltb c 4); [|reflexivity]. destruct r; reflexivity.
    - intros H. exfalso. rewrite col_norm_sum in H. unfold nrm2 in H. cbn [rsum Nat.ltb Nat.leb] in H. rewrite !V in H by lia. cbn [Nat.eqb] in H. lra. }
  assert (F2 : forall c r, m2 c r = if (Nat.leb 1 c && Nat.ltb c 4 && Nat.eqb r 1)%bool then - m1 c r else m1 c r).
  { intros c r. unfold m2. rewrite flip_step; [|apply least_normal_pos | lia |].
    - destruct (Nat.leb 1 c && Nat.ltb c 4)%bool; [|reflexivity]. destruct r as [|[|r]]; reflexivity.
    - intros H r0 Hr. lia. }
  assert (F3 : forall c r, m3 c r = m2 c r).
  { intros c r. unfold m3. rewrite flip_step; [|apply least_normal_pos | lia | intros _ r0 Hr; lia].
    destruct (Nat.eqb_spec r 2) as [->|]; [cbn [Nat.ltb Nat.leb]; rewrite andb_false_r; reflexivity|]. rewrite andb_false_r. reflexivity. }
  assert (F4 : forall c r, m4 c r = m3 c r).
  { intros c r. unfold m4. rewrite flip_step; [|apply least_normal_pos | lia | intros _ r0 Hr; lia].
    destruct (Nat.eqb_spec r 3) as [->|]; [cbn [Nat.ltb Nat.leb]; rewrite andb_false_r; reflexivity|]. rewrite andb_false_r. reflexivity. }
  assert (C : q_mat (compress arithR least_normal 3 s2) = m4).
  { cbn [compress q_mat]. rewrite U2. reflexivity. }
  assert (Ev : eval arithR 3 (compress arithR least_normal 3 s2) p = (tilt_x - tilt_y) * (tilt_x - tilt_y)).
  { rewrite eval_nrm, C. cbn [compress q_used]. unfold nrm2, full. cbn [rsum]. rewrite !F4, !F3, !F2, !F1. rewrite !V by lia.
    cbn [Nat.eqb Nat.ltb Nat.leb andb]. unfold ext, p, vec3R. cbn [Nat.eqb]. ring. }
  assert (Pe : planes_error 3 L p = (tilt_x + tilt_y) * (tilt_x + tilt_y)).
  { unfold L, planes_error, plane_error, p. cbn [app fold_right fst snd total upward tilted zero3 vec3R]. unfold zero3, vec3R. ring. }
  rewrite Ev, Pe. intros Q. pose proof (Rmult_lt_0_compat _ _ T1 (Rlt_trans 0 (/ 4) tilt_y ltac:(lra) T3)). lra.
Qed.
Print Assumptions C29_refuted.

(* Example: a history with a compression free of charge.  Three planes along the axes, then state. *)
Definition axis (i : nat) : fvec R := fun c => if Nat.eqb c i then 1 else 0.
Definition three_planes (s : solver R) (q : fvec R) : outcome (solver R) :=
  s1 <- add_plane arithR least_normal 3 8 s q (axis 0) ;;
  s2 <- add_plane arithR least_normal 3 8 s1 q (axis 1) ;;
  add_plane arithR least_normal 3 8 s2 q (axis 2).

Section Example_29.
Variable q : fvec R.
Definition corner : solver R := match three_planes (q_new arithR) q with Ret s => s | _ => q_new arithR end.
Lemma corner_rows : q_used corner = 3%nat /\ q_count corner = 3%Z /\
  forall c r, (c < 4)%nat -> q_mat corner c r = if Nat.ltb r 3 then (if Nat.eqb c 3 then q r else axis r c) else 0.
Proof.
  split; [reflexivity|]. split; [reflexivity|]. intros c r Hc. unfold corner, three_planes. cbn [obind add_plane q_new q_used Nat.eqb Nat.ltb Nat.leb q_mat].
  destruct r as [|[|[|r]]]; cbn [Nat.eqb andb]; destruct c as [|[|[|[|c]]]]; try lia; cbn [Nat.leb Nat.eqb Nat.ltb]; unfold axis, dotn, sum_left, sum_from; cbn; try ring; try reflexivity.
Qed.
Lemma corner_history : forall hypot copysign msin mcos matan,
  history arithR least_normal hypot copysign msin mcos matan 3 8 (2 ^ 30) (no_tiny_column least_normal 3) corner [(q, axis 0); (q, axis 1); (q, axis 2)] 0.
Proof.
  intros hypot copysign msin mcos matan. set (free := no_tiny_column least_normal 3).
  set (s1 := match add_plane arithR least_normal 3 8 (q_new arithR) q (axis 0) with Ret s => s | _ => q_new arithR end).
  set (s2 := match add_plane arithR least_normal 3 8 s1 q (axis 1) with Ret s => s | _ => q_new arithR end).
  change [(q, axis 0); (q, axis 1); (q, axis 2)] with ((([] ++ [(q, axis 0)]) ++ [(q, axis 1)]) ++ [(q, axis 2)]). change 0%nat with (0 + 0 + 0 + 0)%nat.
  apply (h_plane arithR least_normal hypot copysign msin mcos matan 3 8 _ free s2).
  1: apply (h_plane arithR least_normal hypot copysign msin mcos matan 3 8 _ free s1).
  1: apply (h_plane arithR least_normal hypot copysign msin mcos matan 3 8 _ free (q_new arithR)).
  - apply h_new.
  - reflexivity.
  - left. split; [reflexivity|]. cbn. intros; discriminate.
  - reflexivity.
  - left. split; [reflexivity|]. cbn. intros; discriminate.
  - reflexivity.
  - left. split; [reflexivity|]. cbn. intros; discriminate.
Qed.

(* the matrix after i columns *)
Lemma corner_after : forall i, (i <= 4)%nat -> forall c r, (c < 4)%nat ->
  after least_normal 4 (q_mat corner) 3 i c r = if (Nat.ltb r i && Nat.leb r c)%bool then - q_mat corner c r else q_mat corner c r.
Proof.
  destruct corner_rows as (_ & _ & V).
  assert (Low : forall c r, (c < 4)%nat -> (c < r)%nat -> q_mat corner c r = 0).
  { intros c r Hc Hr. rewrite V by auto. destruct (Nat.ltb_spec r 3); [|reflexivity]. destruct (Nat.eqb_spec c 3); [lia|]. unfold axis. destruct (Nat.eqb_spec c r); [lia | reflexivity]. }
  induction i as [|i IH]; intros Hi c r Hc; [reflexivity|].
  rewrite after_S, flip_step; [|apply least_normal_pos | lia |].
  - rewrite !IH by lia. destruct (Nat.ltb_spec c 4); [|lia]. rewrite andb_true_r.
    destruct (Nat.eqb_spec r i) as [->|Nr].
    + destruct (Nat.ltb_spec i i); [lia|]. destruct (Nat.ltb_spec i (S i)); [|lia]. cbn [andb]. rewrite andb_true_r.
      destruct (Nat.leb_spec i c); cbn [andb]; [|reflexivity]. destruct (Nat.ltb_spec i 3); [reflexivity|].
      rewrite V by auto. destruct (Nat.ltb_spec i 3); [lia | ring].
    + rewrite andb_false_r. cbn [andb]. destruct (Nat.ltb_spec r i), (Nat.ltb_spec r (S i)); try lia; reflexivity.
  - intros _ r0 Hr0. rewrite IH by lia. rewrite (Low i r0) by lia. destruct (_ && _)%bool; ring.
Qed.
Lemma corner_clean : no_tiny_column least_normal 3 corner.
Proof.
  destruct corner_rows as (U & _ & V). intros i Hi. cbv zeta. rewrite U. fold (after least_normal 4 (q_mat corner) 3 i).
  destruct (Nat.eq_dec i 3) as [->|Ni]; [left; apply col_norm_beyond; lia|]. right. rewrite col_norm_sum. unfold nrm2.
  rewrite (rsum_ext 3 _ (fun k => if Nat.eqb k i then 1 else 0)).
  - rewrite rsum_delta by lia. unfold least_normal. rewrite <- Rinv_1. apply Rinv_le_contravar; [lra|]. apply IZR_le. discriminate.
  - intros k Hk. destruct (Nat.ltb_spec k i); [destruct (Nat.eqb_spec k i); [lia | ring]|].
    rewrite corner_after by lia. rewrite V by lia. destruct (Nat.ltb_spec k 3); [|lia]. destruct (Nat.eqb_spec i 3); [lia|]. unfold axis. rewrite (Nat.eqb_sym i k).
    destruct (Nat.eqb_spec k i); destruct (_ && _)%bool; ring.
Qed.
End Example_29.

Example C29_ex : forall q, exists s', history arithR least_normal (fun x _ => x) (fun x _ => x) sin cos atan 3 8 (2 ^ 30) (no_tiny_column least_normal 3) s'
    [(q, axis 0); (q, axis 1); (q, axis 2)] 0 /\ q_used s' = 4%nat /\ forall p, eval arithR 3 s' p =
    (p 0%nat - q 0%nat) * (p 0%nat - q 0%nat) + (p 1%nat - q 1%nat) * (p 1%nat - q 1%nat) + (p 2%nat - q 2%nat) * (p 2%nat - q 2%nat).
Proof.
  intros q. set (s' := compress arithR least_normal 3 (corner q)).
  assert (H : history arithR least_normal (fun x _ => x) (fun x _ => x) sin cos atan 3 8 (2 ^ 30) (no_tiny_column least_normal 3) s' [(q, axis 0); (q, axis 1); (q, axis 2)] 0).
  { change 0%nat with (0 + 0)%nat. eapply h_state; [apply corner_history | reflexivity |]. left. split; [reflexivity|]. intros _. apply corner_clean. }
  exists s'. split; [exact H|]. split; [reflexivity|]. intros p.
  rewrite (C29_exact_partial _ _ _ _ _ 3 8 (2 ^ 30)%Z s' _ (or_introl (conj eq_refl (conj eq_refl eq_refl))) H p).
  unfold planes_error, plane_error. cbn [fold_right total fst snd]. unfold axis. cbn [Nat.eqb]. ring.
Qed.

(* ---- C30 ---- *)

(* x^T A y *)
Definition quad (D : nat) (A : nat -> nat -> R) (x y : nat -> R) : R := total D (fun a => total D (fun b => A a b * x a * y b)).
Definition orthonormal (D : nat) (E : nat -> nat -> R) : Prop := forall a b, (a < D)%nat -> (b < D)%nat ->
  total D (fun r => E a r * E b r) = (if Nat.eqb a b then 1 else 0) /\ total D (fun k => E k a * E k b) = (if Nat.eqb a b then 1 else 0).
(* sum of the squares of g a b, a < b *)
Definition squares_above (D : nat) (g : nat -> nat -> R) : R := total D (fun b => total b (fun a => g a b * g a b)).

(* C30: for every symmetric matrix, number of iterations, tolerance and both ways to compute sine
   and cosine, the Jacobi iteration returns finite numbers; the vectors are orthonormal, the values are
   the diagonal of the matrix in their basis, the matrix is put together again from its entries in this
   basis, and the squares off the diagonal have shrunk by 2/3 (in 3D) or 5/6 (in 4D) in each
   iteration unless all of them are within the tolerance.  The sign of the quotient by a zero difference
   of diagonal entries does not matter. *)
Theorem C30_jacobi : forall D nbz (A0 : nat -> nat -> R) tol iters fast, D = 3%nat \/ D = 4%nat ->
  (forall a b, A0 a b = A0 b a) -> 0 <= tol ->
  exists e E, (forall k, fst (jacobi (arithX nbz) x_hypot x_copysign x_sin x_cos x_atan D (fun c r => Fin (A0 c r)) (Fin tol) iters fast) k = Fin (e k)) /\
    (forall k r, snd (jacobi (arithX nbz) x_hypot x_copysign x_sin x_cos x_atan D (fun c r => Fin (A0 c r)) (Fin tol) iters fast) k r = Fin (E k r)) /\
    orthonormal D E /\
    (forall k, (k < D)%nat -> quad D A0 (E k) (E k) = e k) /\
    (forall a b, (a < D)%nat -> (b < D)%nat -> A0 a b = total D (fun k => total D (fun l => quad D A0 (E k) (E l) * E k a * E l b))) /\
    squares_above D (fun k l => quad D A0 (E k) (E l)) <= squares_above D A0 /\
    ((forall k l, (k < l < D)%nat -> Rabs (quad D A0 (E k) (E l)) <= tol) \/
     squares_above D (fun k l => quad D A0 (E k) (E l)) <= (1 - / (INR (D * (D - 1)) / 2)) ^ iters * squares_above D A0).
Proof.
  intros D nbz A0 tol iters fast HD Hs Ht.
  assert (F1 : fin_mat (fun c r => Fin (A0 c r)) A0) by (intros a b; reflexivity).
  assert (F2 : fin_mat (identity (arithX nbz)) (fun c r => if Nat.eqb c r then 1 else 0)) by (intros a b; unfold identity; cbn; destruct (Nat.eqb a b); reflexivity).
  destruct (loop_good D HD nbz A0 tol Ht fast iters _ _ _ _ F1 F2 (good_start D HD A0 Hs)) as (m & h & R1 & R2 & G & R4 & R5).
  unfold jacobi. destruct (jacobi_loop _ _ _ _ _ _ _ _ _ _ _ _) as [mX hX]. cbn [fst snd] in *.
  exists (fun k => m k k), h. split; [intros k; apply R1|]. split; [intros k r; apply R2|].
  change total with rsum. pose proof G as [G1 G2 G3].
  assert (S0 : forall a b, (a < b)%nat -> sym A0 a b = A0 a b) by (intros a b H; unfold sym; rewrite Nat.min_l, Nat.max_r by lia; reflexivity).
  assert (O0 : squares_above D A0 = off D (sym A0)).
  { change (off D A0 = off D (sym A0)). unfold off. apply rsum_ext. intros b Hb. apply rsum_ext. intros a Ha. rewrite S0 by lia. reflexivity. }
  assert (Q : forall k l, (k < D)%nat -> (l < D)%nat -> quad D A0 (h k) (h l) = sym m k l) by (intros; apply G3; auto).
  assert (O1 : squares_above D (fun k l => quad D A0 (h k) (h l)) = off D (sym m)).
  { change (off D (fun k l => quad D A0 (h k) (h l)) = off D (sym m)). apply (off_ext D HD). intros a b Ha Hb. apply Q; auto. }
  split; [intros a b Ha Hb; split; [apply G2 | apply G1]; auto|].
  split; [intros k Hk; rewrite Q by auto; unfold sym; rewrite Nat.min_id, Nat.max_id; reflexivity|].
  split.
  { intros a b Ha Hb. rewrite (rebuild D A0 m h G a b Ha Hb) at 1. apply rsum_ext. intros k Hk. apply rsum_ext. intros l Hl. rewrite Q by auto. reflexivity. }
  rewrite O0, O1. split; [exact R4|]. destruct R5 as [R5|R5]; [left|right; exact R5].
  intros k l Hkl. rewrite Q by lia. apply R5. auto.
Qed.
Print Assumptions C30_jacobi.

(* C30, limit: for a tolerance above zero there is a number of iterations after which all entries off
   the diagonal are within the tolerance, for every larger number of iterations. *)
Theorem C30_limit : forall D nbz (A0 : nat -> nat -> R) tol fast, D = 3%nat \/ D = 4%nat ->
  (forall a b, A0 a b = A0 b a) -> 0 < tol -> exists n, forall iters, (n <= iters)%nat ->
  forall E, (forall k r, snd (jacobi (arithX nbz) x_hypot x_copysign x_sin x_cos x_atan D (fun c r => Fin (A0 c r)) (Fin tol) iters fast) k r = Fin (E k r)) ->
  forall k l, (k < l < D)%nat -> Rabs (quad D A0 (E k) (E l)) <= tol.
Proof.
  intros D nbz A0 tol fast HD Hs Ht.
  set (w := squares_above D A0).
  assert (Hw : 0 <= w) by apply (off_nonneg D A0).
  pose proof (share_range D HD) as Sh. unfold share, pairs_above in Sh. set (q := 1 - / (INR (D * (D - 1)) / 2)) in *.
  assert (Pos : 0 < tol * tol / (w + 1)) by (apply Rdiv_lt_0_compat; nra).
  destruct (pow_lt_1_zero q ltac:(rewrite Rabs_right by lra; lra) _ Pos) as (n & Hn).
  exists n. intros iters Hi E HE k l Hkl.
  destruct (C30_jacobi D nbz A0 tol iters fast HD Hs (Rlt_le _ _ Ht)) as (e & E' & _ & HE' & _ & _ & _ & _ & [R|R]).
  - assert (EE : forall a b, E a b = E' a b) by (intros a b; specialize (HE a b); rewrite HE' in HE; injection HE; auto).
    assert (QQ : quad D A0 (E k) (E l) = quad D A0 (E' k) (E' l)) by (apply (form_ext D A0); intros; apply EE). rewrite QQ. apply R. auto.
  - assert (EE : forall a b, E a b = E' a b) by (intros a b; specialize (HE a b); rewrite HE' in HE; injection HE; auto).
    assert (QQ : quad D A0 (E k) (E l) = quad D A0 (E' k) (E' l)) by (apply (form_ext D A0); intros; apply EE). rewrite QQ.
    fold q w in R. specialize (Hn iters Hi). rewrite Rabs_right in Hn by (apply Rle_ge, pow_le; lra).
    set (x := quad D A0 (E' k) (E' l)) in *.
    assert (Px : x * x <= squares_above D (fun k l => quad D A0 (E' k) (E' l))).
    { unfold squares_above. change total with rsum.
      assert (T : forall n f i, (i < n)%nat -> (forall j, 0 <= f j) -> f i <= rsum n f).
      { induction n0 as [|n0 IH]; intros f i Hi0 Hf; [lia|]. cbn. destruct (Nat.eq_dec i n0) as [->|].
        - pose proof (rsum_nonneg n0 f (fun j _ => Hf j)). lra.
        - pose proof (IH f i ltac:(lia) Hf). pose proof (Hf n0). lra. }
      eapply Rle_trans; [|apply (T D (fun b => rsum b (fun a => quad D A0 (E' a) (E' b) * quad D A0 (E' a) (E' b))) l ltac:(lia))].
      - apply (T l (fun a => quad D A0 (E' a) (E' l) * quad D A0 (E' a) (E' l)) k ltac:(lia)). intros j. apply Rle_0_sqr.
      - intros j. apply rsum_nonneg. intros. apply Rle_0_sqr. }
    assert (Bx : x * x <= tol * tol).
    { eapply Rle_trans; [exact Px|]. eapply Rle_trans; [exact R|]. eapply Rle_trans; [apply Rmult_le_compat_r; [exact Hw | apply Rlt_le, Hn]|].
      apply (Rmult_le_reg_r (w + 1)); [lra|]. replace (tol * tol / (w + 1) * w * (w + 1)) with (tol * tol * w) by (field; lra). nra. }
    rewrite <- (Rabs_right tol) by lra. apply Rsqr_le_abs_0. exact Bx.
Qed.
Print Assumptions C30_limit.

(* Example: a matrix with equal entries on the diagonal (the quotient in the code is infinite) *)
Definition sample_matrix (c r : nat) : R := if Nat.eqb c r then 2 else if (Nat.ltb c 2 && Nat.ltb r 2)%bool then 1 else 0.
Example C30_ex : (forall a b, sample_matrix a b = sample_matrix b a) /\ squares_above 3 sample_matrix = 1 /\
  exists E, orthonormal 3 E /\ ((forall k l, (k < l < 3)%nat -> Rabs (quad 3 sample_matrix (E k) (E l)) <= 0) \/
     squares_above 3 (fun k l => quad 3 sample_matrix (E k) (E l)) <= (1 - / (INR (3 * (3 - 1)) / 2)) ^ 15 * 1).
Proof.
  assert (S : forall a b, sample_matrix a b = sample_matrix b a) by (intros a b; unfold sample_matrix; rewrite Nat.eqb_sym, andb_comm; reflexivity).
  assert (W : squares_above 3 sample_matrix = 1) by (unfold squares_above, sample_matrix; cbn; ring).
  split; [exact S|]. split; [exact W|].
  destruct (C30_jacobi 3 (fun _ => false) sample_matrix 0 15 true (or_introl eq_refl) S ltac:(lra)) as (e & E & _ & _ & O & _ & _ & _ & R).
  exists E. split; [exact O|]. rewrite W in R. exact R.
Qed.

(* ---- C31 ---- *)

(* C31, box: in exact arithmetic, for lo <= hi, the point is in the box *)
Theorem C31_box : forall hypot copysign msin mcos matan D tune s lo hi, (forall c, lo c <= hi c) ->
  forall c, lo c <= fst (solve arithR least_normal hypot copysign msin mcos matan D tune s lo hi) c <= hi c.
Proof.
  intros hypot copysign msin mcos matan D tune s lo hi H c. unfold solve. destruct (solve_with _ _ _ _ _) as [x dim]. cbn [fst].
  unfold clampv, glm_min, glm_max. cbn [arithR a_lt]. specialize (H c).
  destruct (Rltb (x c) (lo c)) eqn:E1; [apply Rltb_iff in E1 | apply Rltb_false in E1].
  - destruct (Rltb (hi c) (lo c)) eqn:E2; [apply Rltb_iff in E2; lra | apply Rltb_false in E2; lra].
  - destruct (Rltb (hi c) (x c)) eqn:E2; [apply Rltb_iff in E2; lra | apply Rltb_false in E2; lra].
Qed.
Print Assumptions C31_box.

(* In single precision every coordinate is in the box or is a NaN. *)
Theorem C31_box_float : forall float_min hypot copysign msin mcos matan D tune s (lo hi : fvec b32), (forall c, a_le arith32 (lo c) (hi c) = true) ->
  forall c, let x := fst (solve arith32 float_min hypot copysign msin mcos matan D tune s lo hi) c in
  x = B754_nan \/ (a_le arith32 (lo c) x = true /\ a_le arith32 x (hi c) = true).
Proof.
  intros float_min hypot copysign msin mcos matan D tune s lo hi H c. unfold solve. destruct (solve_with _ _ _ _ _) as [x dim]. cbn [fst]. cbv zeta.
  unfold clampv, glm_min, glm_max. specialize (H c). generalize dependent (hi c). generalize (lo c). generalize (x c). intros v a b H.
  assert (NotNan : forall u w : b32, a_le arith32 u w = true -> u <> B754_nan /\ w <> B754_nan).
  { intros u w. cbn. unfold Bleb. destruct u, w; cbn; intros Q; split; discriminate. }
  assert (Total : forall u w : b32, u <> B754_nan -> w <> B754_nan -> a_lt arith32 u w = false -> a_le arith32 w u = true).
  { intros u w Hu Hw. cbn. unfold Bltb, Bleb, SpecFloat.SFltb, SpecFloat.SFleb. change (SpecFloat.SFcompare (B2SF u) (B2SF w)) with (Bcompare u w).
    change (SpecFloat.SFcompare (B2SF w) (B2SF u)) with (Bcompare w u). rewrite (Bcompare_swap 24 128 u w).
    destruct (Bcompare u w) as [[]|] eqn:Q; try discriminate; intros _; try reflexivity.
    exfalso. destruct u as [[]|[]| |[]], w as [[]|[]| |[]]; try congruence; cbn in Q; unfold Bcompare in Q; cbn in Q; try discriminate; destruct (_ ?= _)%Z in Q; discriminate. }
  assert (Refl : forall u : b32, u <> B754_nan -> a_le arith32 u u = true).
  { intros u Hu. apply Total; auto. cbn. unfold Bltb, SpecFloat.SFltb. change (SpecFloat.SFcompare (B2SF u) (B2SF u)) with (Bcompare u u).
    pose proof (Bcompare_swap 24 128 u u) as Q. destruct (Bcompare u u) as [[]|]; try discriminate; reflexivity. }
  assert (Less : forall u w : b32, a_lt arith32 u w = true -> a_le arith32 u w = true).
  { intros u w. cbn. unfold Bltb, Bleb, SpecFloat.SFltb, SpecFloat.SFleb. destruct (SpecFloat.SFcompare _ _) as [[]|]; congruence. }
  destruct (NotNan _ _ H) as [Na Nb].
  assert (Nan : forall u : b32, u = B754_nan \/ u <> B754_nan) by (intros []; [right|right|left|right]; congruence).
  destruct (Nan v) as [->|Nv]; [left; destruct b as [[]|[]| |[]]; reflexivity|]. right.
  destruct (a_lt arith32 v a) eqn:E1.
  - destruct (a_lt arith32 b a) eqn:E2; [split; [exact H | apply Refl; auto]|]. split; [apply Refl; auto | exact H].
  - destruct (a_lt arith32 b v) eqn:E2; [split; [exact H | apply Refl; auto]|]. split; [apply Total; auto | apply Total; auto].
Qed.
Print Assumptions C31_box_float.

(* Exact eigenvalues and eigenvectors of the symmetric matrix A. *)
Definition exact_eigen (D : nat) (A : nat -> nat -> R) (e : nat -> R) (E : nat -> nat -> R) : Prop :=
  orthonormal D E /\ forall a b, (a < D)%nat -> (b < D)%nat -> A a b = total D (fun k => e k * E k a * E k b).
Definition mass_point (s : solver R) : fvec R := fun c => q_sum s c / IZR (q_count s).
Definition distance2 (D : nat) (x y : fvec R) : R := total D (fun c => (x c - y c) * (x c - y c)).
(* the matrix A^T A in solve *)
Definition normal_matrix (D : nat) (s : solver R) (c r : nat) : R :=
  total D (fun k => q_mat (compress arithR least_normal D s) r k * q_mat (compress arithR least_normal D s) c k).

Lemma triangle_rows : forall D s, zeros D s -> no_tiny_column least_normal D s -> forall c r, (c < D)%nat -> (c < r <= D)%nat -> q_mat (compress arithR least_normal D s) c r = 0.
Proof.
  intros D s Hz C c r Hc Hr. cbn [compress q_mat]. change (householder arithR least_normal (S D) (q_mat s) (q_used s)) with (after least_normal (S D) (q_mat s) (q_used s) (S D)).
  set (n := Nat.max (q_used s) (S D)).
  assert (zs : forall c r, (c < S D)%nat -> (q_used s <= r < n)%nat -> q_mat s c r = 0) by (intros c0 r0 H0 H1; apply Hz; unfold n in *; lia).
  destruct (Nat.lt_ge_cases r (q_used s)) as [Hu|Hu].
  - pose proof (final_junk least_normal least_normal_pos (S D) (q_mat s) (q_used s) n ltac:(unfold n; lia) 0 ltac:(lra)) as J.
    assert (Hs : forall i, (i < S D)%nat -> col_norm arithR (after least_normal (S D) (q_mat s) (q_used s) i) i (q_used s) < least_normal ->
       sqrt (col_norm arithR (after least_normal (S D) (q_mat s) (q_used s) i) i (q_used s)) <= 0).
    { intros i Hi H. destruct (C i ltac:(lia)) as [Q|Q]; unfold after in *; [rewrite Q, sqrt_0; lra | lra]. }
    specialize (J Hs c ltac:(lia)). set (f := junk _ c) in J.
    assert (Z : nrm2 (q_used s) f = 0) by (rewrite <- nrm_sq; pose proof (nrm_pos (q_used s) f); replace (nrm (q_used s) f) with 0 by lra; ring).
    assert (ZZ : forall n f, rsum n (fun j => f j * f j) = 0 -> forall j, (j < n)%nat -> f j = 0).
    { induction n0 as [|n0 IH]; intros g Hf j Hj; [lia|]. cbn in Hf.
      pose proof (nrm2_pos n0 g) as P. unfold nrm2 in P. pose proof (Rle_0_sqr (g n0)) as P2. unfold Rsqr in P2.
      destruct (Nat.eq_dec j n0) as [->|Nj]; [apply Rsqr_0_uniq; unfold Rsqr; lra | apply IH; [lra|lia]]. }
    pose proof (ZZ _ f Z r Hu) as Q. unfold f, junk in Q. destruct (Nat.ltb_spec c r); [exact Q | lia].
  - apply (rows_zero least_normal (S D) (q_mat s) (q_used s) n); auto; unfold n; lia.
Qed.

(* C31, least squares: in exact arithmetic, for a history without tiny columns, if the eigenvalues and
   eigenvectors are exact and all eigenvalues other than zero are at least the tolerance, then solve
   clamps a point at which the sum of squared distances to the planes is minimal, and of all these
   the one nearest to the mass point. *)
Theorem C31_least : forall hypot copysign msin mcos matan D max_rows limit s L tune lo hi e E,
  solver_kind D max_rows limit ->
  history arithR least_normal hypot copysign msin mcos matan D max_rows limit (no_tiny_column least_normal D) s L 0 ->
  no_tiny_column least_normal D s ->
  jacobi arithR hypot copysign msin mcos matan D (mat_mul arithR D (transpose (q_mat (compress arithR least_normal D s))) (q_mat (compress arithR least_normal D s))) (t_jacobi tune) (t_iters tune) (t_fast tune) = (e, E) ->
  exact_eigen D (normal_matrix D s) e E ->
  0 < t_pinv tune -> (forall k, (k < D)%nat -> e k = 0 \/ t_pinv tune <= Rabs (e k)) ->
  exists x, (forall c, fst (solve arithR least_normal hypot copysign msin mcos matan D tune s lo hi) c = clampv arithR x lo hi c) /\
    (forall y, planes_error D L x <= planes_error D L y) /\
    (forall y, planes_error D L y = planes_error D L x -> distance2 D (mass_point s) x <= distance2 D (mass_point s) y).
Proof.
  intros hypot copysign msin mcos matan D max_rows limit s L tune lo hi e E K H C J [O EE] Hp Gap.
  assert (P : 0 < least_normal) by apply least_normal_pos.
  set (s1 := compress arithR least_normal D s) in *.
  assert (J2 : (fun m => jacobi arithR hypot copysign msin mcos matan D m (t_jacobi tune) (t_iters tune) (t_fast tune)) (mat_mul arithR D (transpose (q_mat s1)) (q_mat s1)) = (e, E)) by exact J.
  pose proof (solve_with_at D _ (t_pinv tune) s1 e E J2) as SW.
  set (z := zv D (q_mat s1) (q_mat s1 D) (fun c => q_sum s1 c / IZR (q_count s1)) e E (t_pinv tune)) in *.
  exists z. split.
  { intros c. unfold solve. fold s1. rewrite (surjective_pairing (solve_with _ _ _ _ _)). cbn [fst]. unfold clampv. rewrite SW. reflexivity. }
  assert (zs : zeros D s) by apply (history_error least_normal P hypot copysign msin mcos matan D max_rows limit s L 0 H).
  (* the error of the planes is the error of the first rows plus a constant *)
  assert (Er : forall y, planes_error D L y = err D (q_mat s1) (q_mat s1 D) y + q_mat s1 D D * q_mat s1 D D).
  { intros y. rewrite <- (C29_exact_partial hypot copysign msin mcos matan D max_rows limit s L K H y).
    assert (N0 : eval arithR D s1 y = eval arithR D s y).
    { assert (B : Rabs (nf D s1 y - nf D s y) <= 0).
      { eapply Rle_trans; [apply (compress_nf least_normal P D s zs True 0 I ltac:(left; split; [reflexivity | intros _; exact C]) y)|]. cbn [INR]. lra. }
      rewrite !eval_nrm. rewrite <- !nrm_sq. change (nf D s1 y * nf D s1 y = nf D s y * nf D s y).
      pose proof (Rabs_pos (nf D s1 y - nf D s y)). assert (Z : nf D s1 y - nf D s y = 0).
      { destruct (Req_dec (nf D s1 y - nf D s y) 0) as [Q|Q]; [auto|]. apply Rabs_pos_lt in Q. lra. }
      replace (nf D s1 y) with (nf D s y) by lra. reflexivity. }
    rewrite <- N0, eval_nrm. cbn [compress q_used s1]. unfold nrm2. cbn [rsum].
    assert (Row : forall r, full (S D) (ext D y) (q_mat s1) r = rsum D (fun c => q_mat s1 c r * y c) - q_mat s1 D r) by (intros r; unfold full; apply (ext_sum D y (fun c => q_mat s1 c r))).
    rewrite (Row D). rewrite (rsum_zero D (fun c => q_mat s1 c D * y c)).
    2:{ intros c Hc. unfold s1. rewrite (triangle_rows D s zs C c D Hc) by lia. ring. }
    unfold err, res. change (q_used s1) with (S D). cbn [rsum].
    rewrite (rsum_ext D (fun k => full (S D) (ext D y) (q_mat s1) k * full (S D) (ext D y) (q_mat s1) k)
      (fun r => (rsum D (fun c => q_mat s1 c r * y c) - q_mat s1 D r) * (rsum D (fun c => q_mat s1 c r * y c) - q_mat s1 D r))) by (intros r _; rewrite Row; reflexivity).
    rewrite ?(Row D). ring. }
  assert (H1 : forall a b, (a < D)%nat -> (b < D)%nat -> rsum D (fun k => E k a * E k b) = if Nat.eqb a b then 1 else 0) by (intros a b Ha Hb; apply (proj2 (O a b Ha Hb))).
  assert (H2 : forall a b, (a < D)%nat -> (b < D)%nat -> rsum D (fun r => E a r * E b r) = if Nat.eqb a b then 1 else 0) by (intros a b Ha Hb; apply (proj1 (O a b Ha Hb))).
  assert (H3 : forall a b, (a < D)%nat -> (b < D)%nat -> ata D (q_mat s1) a b = rsum D (fun k => e k * E k a * E k b)) by (intros a b Ha Hb; apply (EE a b Ha Hb)).
  split.
  - intros y. rewrite !Er. pose proof (least D (q_mat s1) (q_mat s1 D) (fun c => q_sum s1 c / IZR (q_count s1)) e E (t_pinv tune) Hp H1 H2 H3 Gap y). unfold z. lra.
  - intros y Hy. rewrite !Er in Hy.
    apply (nearest_p D (q_mat s1) (q_mat s1 D) (mass_point s) e E (t_pinv tune) Hp H1 H2 H3 Gap y). unfold z in Hy. change (fun c => q_sum s1 c / IZR (q_count s1)) with (mass_point s) in Hy. lra.
Qed.
Print Assumptions C31_least.
