(* C24 - C28: zero finders *)
From Coq Require Import ZArith Reals SpecFloat List Bool Lia Lra Psatz.
From Flocq Require Import Core BinarySingleNaN.
From Verif Require Import Base Arith RealArith FloatArith GridModel EdgeModel FillModel ZeroModel ZeroReal ZeroFloat FalsiFloat.
Import ListNotations.

Lemma step_count_positive : forall steps, (1 <= set_step_count steps)%Z /\ (1 <= steps -> set_step_count steps = steps)%Z.
Proof. intros. unfold set_step_count. destruct (1 <? steps)%Z eqn:E; [apply Z.ltb_lt in E|apply Z.ltb_ge in E]; lia. Qed.

Section Exact.
Local Open Scope R_scope.

(* The field along the line through p parallel to the axis d. *)
Definition along (f : field envR) (d : axis) (p : vec3 R) (c : R) : R :=
  fl_value f (match d with AX => V3 c (vy p) (vz p) | AY => V3 (vx p) c (vz p) | AZ => V3 (vx p) (vy p) c end).

Lemma along_value : forall f d p c, @value_at envR f d p c = along f d p c.
Proof. intros f [] p c; reflexivity. Qed.

(* C24 *)
Theorem C24_accuracy : forall (f : field envR) d (p : vec3 R) (c1 : R) steps,
  let F := along f d p in
  let c0 := vget d p in
  continuous_between F c0 c1 -> F c0 * F c1 <= 0 -> (1 <= steps)%Z ->
  let r := bisection steps (@ZfCall envR d p c1 (F c0) (F c1)) f in
  between c0 c1 r /\
  exists z, between c0 c1 z /\ F z = 0 /\ Rabs (r - z) <= Rabs (c1 - c0) / 2 ^ (Z.to_nat steps).
Proof.
  intros f d p c1 steps F c0 Hc Hs Hst r.
  destruct (bisect_accuracy F (Z.to_nat (set_step_count steps)) c0 c1 Hc Hs) as [H1 H2].
  rewrite (proj2 (step_count_positive steps) Hst) in H1, H2.
  assert (E : r = @bisect envR F (Z.to_nat steps) c0 c1 (F c0) (F c1)).
  { unfold r, bisection. cbn [zc_axis zc_start zc_end zc_f0 zc_f1].
    rewrite (proj2 (step_count_positive steps) Hst). destruct d; reflexivity. }
  rewrite E. split; assumption.
Qed.
Print Assumptions C24_accuracy.

(* No continuity needed: the point returned is the end with the smaller value of
   an interval with a sign change which is as short as the steps promise. *)
Theorem C24_best_end : forall (f : field envR) d (p : vec3 R) (c1 : R) steps,
  let F := along f d p in
  let c0 := vget d p in
  F c0 * F c1 <= 0 -> (1 <= steps)%Z ->
  let r := bisection steps (@ZfCall envR d p c1 (F c0) (F c1)) f in
  exists a b, between c0 c1 a /\ between c0 c1 b /\ F a * F b <= 0 /\ Rabs (b - a) <= Rabs (c1 - c0) / 2 ^ (Z.to_nat steps) /\
    (r = a \/ r = b) /\ Rabs (F r) <= Rabs (F a) /\ Rabs (F r) <= Rabs (F b).
Proof.
  intros f d p c1 steps F c0 Hs Hst r.
  assert (E : r = @bisect envR F (Z.to_nat steps) c0 c1 (F c0) (F c1)).
  { unfold r, bisection. cbn [zc_axis zc_start zc_end zc_f0 zc_f1].
    rewrite (proj2 (step_count_positive steps) Hst). destruct d; reflexivity. }
  rewrite E. apply bisect_bracket. exact Hs.
Qed.
Print Assumptions C24_best_end.

Lemma falsi_history : forall F steps side mid c0 c1 f0 f1, (0 < steps)%nat ->
  (0 < length (snd (@falsi envR F steps side mid c0 c1 f0 f1)))%nat.
Proof.
  intros F [|k] side mid c0 c1 f0 f1 H; [lia|]. cbn [falsi].
  destruct (same_sign _ _).
  - match goal with |- context [falsi ?a ?b ?c ?d ?e ?f ?g ?h] => destruct (falsi a b c d e f g h) end. apply Nat.lt_0_succ.
  - destruct (same_sign _ _); [|apply Nat.lt_0_succ].
    match goal with |- context [falsi ?a ?b ?c ?d ?e ?f ?g ?h] => destruct (falsi a b c d e f g h) end. apply Nat.lt_0_succ.
Qed.

(* C27 *)
Theorem C27_inside : forall (f : field envR) d (p : vec3 R) (c1 : R) steps,
  let F := along f d p in
  let c0 := vget d p in
  c0 <> c1 -> F c0 * F c1 < 0 -> (1 <= steps)%Z ->
  let '(r, h) := falsi_run steps (@ZfCall envR d p c1 (F c0) (F c1)) f in
  regula_falsi steps (@ZfCall envR d p c1 (F c0) (F c1)) f = r /\
  (* all iterations: working interval (a, b), new point m *)
  (forall a b m, In (a, b, m) h ->
    between c0 c1 a /\ between c0 c1 b /\ strictly_between a b m /\ F a * F b < 0 /\
    (continuous_between F c0 c1 -> exists z, between a b z /\ F z = 0)) /\
  (* the result is the last new point *)
  (0 < length h <= Z.to_nat steps)%nat /\ (exists a b h', h = h' ++ [(a, b, r)]) /\
  strictly_between c0 c1 r /\
  ((length h < Z.to_nat steps)%nat -> F r = 0).
Proof.
  intros f d p c1 steps F c0 Hne Hs Hst.
  assert (E : falsi_run steps (@ZfCall envR d p c1 (F c0) (F c1)) f
    = @falsi envR F (Z.to_nat steps) 0%Z c0 c0 c1 (F c0) (F c1)).
  { unfold falsi_run. cbn [zc_axis zc_start zc_end zc_f0 zc_f1].
    rewrite (proj2 (step_count_positive steps) Hst). destruct d; reflexivity. }
  unfold regula_falsi. rewrite E.
  assert (N0 : 0 < F c0 * F c0) by (apply Rsqr_pos_lt; intros Z; rewrite Z, ?Rmult_0_l, ?Rmult_0_r in Hs; exact (Rlt_irrefl _ Hs)).
  assert (N1 : 0 < F c1 * F c1) by (apply Rsqr_pos_lt; intros Z; rewrite Z, ?Rmult_0_l, ?Rmult_0_r in Hs; exact (Rlt_irrefl _ Hs)).
  pose proof (falsi_ok F c0 c1 (Z.to_nat steps) 0%Z c0 c0 c1 (F c0) (F c1)
    ltac:(unfold between; lra) ltac:(unfold between; lra) Hne Hs N0 N1) as H.
  pose proof (falsi_history F (Z.to_nat steps) 0%Z c0 c0 c1 (F c0) (F c1) ltac:(lia)) as Hlen.
  destruct (@falsi envR F (Z.to_nat steps) 0%Z c0 c0 c1 (F c0) (F c1)) as [r h].
  destruct H as (Hg & Hl & Hr & Hz). cbn [fst snd] in *.
  unfold good_history in Hg. rewrite Forall_forall in Hg.
  assert (Hlast : exists a b h', h = h' ++ [(a, b, r)]).
  { destruct (exists_last (l := h)) as (h' & [[a b] m] & Eh).
    - intros ->. cbn in Hlen. lia.
    - exists a, b, h'. rewrite Eh in Hr. rewrite map_app in Hr. cbn [map snd] in Hr. rewrite last_last in Hr. subst m. exact Eh. }
  split; [reflexivity|]. split.
  - intros a b m Hin. apply Hg in Hin. destruct Hin as (Ha & Hb & Hf & Hm).
    split; [exact Ha|]. split; [exact Hb|]. split; [exact Hm|]. split; [exact Hf|].
    intros Hcont. apply zero_exists; [|lra]. intros x Hx. apply Hcont. unfold between in *. lra.
  - split; [lia|]. split; [exact Hlast|]. split; [|exact Hz].
    destruct Hlast as (a & b & h' & Eh). specialize (Hg (a, b, r)). rewrite Eh in Hg.
    destruct Hg as (Ha & Hb & Hf & Hm); [apply in_or_app; right; left; reflexivity|].
    unfold between, strictly_between in *. lra.
Qed.
Print Assumptions C27_inside.

(* No division by zero: neither by the difference of the values nor by the
   values in the damping factor, for the values the loop works with. *)
Theorem C27_division : forall c0 c1 f0 f1 : R, c0 <> c1 -> f0 * f1 < 0 ->
  f1 - f0 <> 0 /\ f0 <> 0 /\ f1 <> 0 /\ 0 < damping envR f0 f1 /\ forall val, 0 < damping envR val f0.
Proof.
  intros c0 c1 f0 f1 Hne Hs. split; [apply (secant_inside c0 c1 f0 f1 Hne Hs)|].
  split; [nra|]. split; [nra|]. split; [apply damping_positive|]. intros. apply damping_positive.
Qed.
Print Assumptions C27_division.

(* A field and an interval meeting the hypotheses: x^2 - 2 on [1, 2]. *)
Definition sqrt2_field : field envR :=
  @Field envR (fun p => vx p * vx p - 2) (fun _ => V3 0 0 0) (fun _ _ => 1%Z).
Definition sqrt2_start : vec3 R := V3 1 0 0.
Example C24_C27_hypotheses_met :
  let F := along sqrt2_field AX sqrt2_start in
  continuous_between F (vget AX sqrt2_start) 2 /\ F (vget AX sqrt2_start) * F 2 < 0.
Proof.
  split.
  - intros x _. unfold along, sqrt2_field, sqrt2_start. cbn [fl_value vx vy vz].
    change (fp_D envR) with R. reg.
  - unfold along, sqrt2_field, sqrt2_start. cbn [fl_value vget vx vy vz]. change (fp_D envR) with R. lra.
Qed.
End Exact.

Section Double.
Local Open Scope Z_scope.
Notation f64c := (B2SF (prec := 53) (emax := 1024)).

Definition line_field (F : b64 -> b64) : field envIEEE :=
  @Field envIEEE (fun p => F (vx p)) (fun _ => V3 (f64 1 0) (f64 0 0) (f64 0 0)) (fun _ _ => 1).
Definition call_x (c0 c1 f0 f1 : b64) : zf_call envIEEE := @ZfCall envIEEE AX (V3 c0 (f64 0 0) (f64 0 0)) c1 f0 f1.

(* C25: the full statement, finite ends whose sum does not overflow, is false:
   the sum of the ends of a later interval may overflow. *)
Definition largest : b64 := f64 (2 ^ 53 - 1) 971.
Definition c25_field (x : b64) : b64 := if Beqb x largest then f64 1 0 else f64 (-1) 0.
Theorem C25_refuted : exists (F : b64 -> b64) (c0 c1 : b64) steps,
  is_finite c0 = true /\ is_finite c1 = true /\ is_finite (Bplus mode_NE c0 c1) = true /\
  let r := bisection steps (call_x c0 c1 (F c0) (F c1)) (line_field F) : b64 in
  B2SF r = S754_infinity false.
Proof. exists c25_field, (f64 0 0), largest, 2. repeat split; vm_compute; reflexivity. Qed.
Print Assumptions C25_refuted.

(* C25 for ends of less than half the range of doubles, every field, every
   pair of initial values, every number of steps, every axis. *)
Theorem C25_partial : forall (f : field envIEEE) d (p : vec3 b64) (c1 f0 f1 : b64) steps,
  let c0 := vget d p in
  is_finite c0 = true -> is_finite c1 = true ->
  (Rabs (B2R c0) < bpow radix2 1023)%R -> (Rabs (B2R c1) < bpow radix2 1023)%R ->
  let r := bisection steps (@ZfCall envIEEE d p c1 f0 f1) f : b64 in
  is_finite r = true /\ between (B2R c0) (B2R c1) (B2R r).
Proof.
  intros f d p c1 f0 f1 steps c0 F0 F1 L0 L1 r.
  destruct (bisect_64_inside (value_at f d p) (Z.to_nat (set_step_count steps)) c0 c1 f0 f1) as [[H1 _] H2];
    [split; assumption|split; assumption|]. split; [exact H1|exact H2].
Qed.
Print Assumptions C25_partial.
Example C25_ex :
  f64c (bisection 8 (call_x (f64 1 0) (f64 2 0) B754_nan B754_nan) (line_field (fun _ => B754_nan)) : b64)
  = S754_finite false 4503599627370496 (-51)
  /\ is_finite (f64 1 0) = true /\ (Rabs (B2R (f64 1 0)) < bpow radix2 1023)%R.
Proof.
  split; [vm_compute; reflexivity|]. split; [vm_compute; reflexivity|].
  assert (E : f64c (f64 1 0) = S754_finite false 4503599627370496 (-52)) by (vm_compute; reflexivity).
  rewrite <- SF2R_B2SF, E. unfold SF2R. cbn [cond_Zopp].
  replace (F2R _) with (bpow radix2 0).
  - rewrite Rabs_pos_eq by apply bpow_ge_0. apply bpow_lt. reflexivity.
  - unfold F2R. cbn -[bpow]. change (bpow radix2 (-52)) with (/ 4503599627370496)%R. change (bpow radix2 0) with 1%R. lra.
Qed.

(* C26: products of small values of the field vanish, the iteration then stops
   at the first step: ten steps on [0, 1] end at 1/2 although the field is
   negative at all doubles below 1/8 and positive at all others. *)
Definition c26_field (x : b64) : b64 := if Bltb x (f64 1 (-3)) then f64 (-1) (-600) else f64 1 (-600).
Theorem C26_refuted : exists (F : b64 -> b64) (c0 c1 : b64),
  (forall x : b64, is_finite (F x) = true) /\
  f64c c0 = f64c (f64 0 0) /\ f64c c1 = f64c (f64 1 0) /\
  (forall x, Bltb x (f64 1 (-3)) = true -> Bltb (F x) (f64 0 0) = true) /\
  (forall x, Bltb x (f64 1 (-3)) = false -> Bltb (f64 0 0) (F x) = true) /\
  let r := bisection 10 (call_x c0 c1 (F c0) (F c1)) (line_field F) : b64 in
  f64c r = f64c (f64 1 (-1)).
Proof.
  exists c26_field, (f64 0 0), (f64 1 0). unfold c26_field.
  split; [intros x; destruct (Bltb x (f64 1 (-3))); vm_compute; reflexivity|].
  split; [reflexivity|]. split; [reflexivity|].
  split; [intros x ->; vm_compute; reflexivity|]. split; [intros x ->; vm_compute; reflexivity|].
  vm_compute. reflexivity.
Qed.
Print Assumptions C26_refuted.
(* The same happens with the linear field 2^-600 * (x - 1/8). *)
Example C26_linear :
  let F := fun x : b64 => Bmult mode_NE (f64 1 (-600)) (Bminus mode_NE x (f64 1 (-3))) in
  f64c (bisection 10 (call_x (f64 0 0) (f64 1 0) (F (f64 0 0)) (F (f64 1 0))) (line_field F) : b64) = f64c (f64 0 0).
Proof. vm_compute. reflexivity. Qed.

(* C26 for fields whose values are zero or not below 2^-537 in magnitude: the
   result is an end of an interval with a sign change, whose length is that of
   exact bisection up to a few units of rounding. *)
Theorem C26_partial : forall (f : field envIEEE) d (p : vec3 b64) (c1 : b64) steps M,
  let c0 := vget d p in
  let F := fun c : b64 => fl_value f (vset envIEEE d p c) : b64 in
  (forall c : b64, is_finite c = true -> between (B2R c0) (B2R c1) (B2R c) ->
    is_finite (F c) = true /\ (B2R (F c) = 0 \/ bpow radix2 (-537) <= Rabs (B2R (F c))))%R ->
  is_finite c0 = true -> is_finite c1 = true ->
  (Rabs (B2R c0) <= M)%R -> (Rabs (B2R c1) <= M)%R -> (M < bpow radix2 1023)%R ->
  (B2R (F c0) * B2R (F c1) <= 0)%R -> 1 <= steps ->
  let r := bisection steps (@ZfCall envIEEE d p c1 (F c0) (F c1)) f : b64 in
  exists a b : b64, (r = a \/ r = b) /\
    between (B2R c0) (B2R c1) (B2R a) /\ between (B2R c0) (B2R c1) (B2R b) /\
    (B2R (F a) * B2R (F b) <= 0)%R /\
    (Rabs (B2R b - B2R a) <= Rabs (B2R c1 - B2R c0) / 2 ^ (Z.to_nat steps) + (bpow radix2 (-51) * M + bpow radix2 (-1073)))%R.
Proof.
  intros f d p c1 steps M c0 F HF F0 F1 M0 M1 HM Hs Hst r.
  destruct (bisect_64_bracket F M (B2R c0) (B2R c1) (Z.to_nat steps) c0 c1) as (a & b & Ba & Bb & Hab & Hl & Hr);
    try assumption; try (unfold between; lra); try (intros c [Fc _] Bc; exact (HF c Fc Bc)); try (split; [assumption|eapply Rle_lt_trans; eassumption]).
  exists a, b. split.
  - unfold r, bisection. cbn [zc_axis zc_start zc_end zc_f0 zc_f1].
    rewrite (proj2 (step_count_positive steps) Hst). destruct d; exact Hr.
  - split; [exact Ba|]. split; [exact Bb|]. split; [exact Hab|].
    eapply Rle_trans; [exact Hl|]. apply Rplus_le_compat_l. unfold unit_round, tiny.
    assert (E1 : bpow radix2 (-51) = (4 * bpow radix2 (-53))%R).
    { change (-51)%Z with (2 + -53)%Z. rewrite bpow_plus. reflexivity. }
    assert (E2 : bpow radix2 (-1073) = (4 * bpow radix2 (-1075))%R).
    { change (-1073)%Z with (2 + -1075)%Z. rewrite bpow_plus. reflexivity. }
    rewrite E1, E2.
    pose proof (bpow_gt_0 radix2 (-53)) as P1. pose proof (bpow_gt_0 radix2 (-1075)) as P2.
    set (u := bpow radix2 (-53)) in *. set (v := bpow radix2 (-1075)) in *.
    assert (PM : (0 <= M)%R) by (eapply Rle_trans; [apply Rabs_pos|exact M0]).
    assert (PQ : (0 < / 2 ^ Z.to_nat steps)%R) by (apply Rinv_0_lt_compat, pow_lt; lra).
    assert (PU : (0 <= u * M)%R) by (apply Rmult_le_pos; lra).
    set (q := (/ 2 ^ Z.to_nat steps)%R) in *.
    assert (0 <= q * (u * M))%R by (apply Rmult_le_pos; lra). assert (0 <= q * v)%R by (apply Rmult_le_pos; lra). nra.
Qed.
Print Assumptions C26_partial.
(* The hypotheses are met by the sign of x - 1/8 on [0, 1]. *)
Example C26_hypotheses_met :
  let F := fun x : b64 => if Bltb x (f64 1 (-3)) then f64 (-1) 0 else f64 1 0 in
  (forall c : b64, is_finite (F c) = true /\ (B2R (F c) = 0 \/ bpow radix2 (-537) <= Rabs (B2R (F c))))%R /\
  (B2R (F (f64 0 0)) * B2R (F (f64 1 0)) <= 0)%R.
Proof.
  assert (E1 : f64c (f64 1 0) = S754_finite false 4503599627370496 (-52)) by (vm_compute; reflexivity).
  assert (E2 : f64c (f64 (-1) 0) = S754_finite true 4503599627370496 (-52)) by (vm_compute; reflexivity).
  assert (V1 : B2R (f64 1 0) = 1%R).
  { rewrite <- SF2R_B2SF, E1. unfold SF2R, F2R. cbn -[bpow]. change (bpow radix2 (-52)) with (/ 4503599627370496)%R. lra. }
  assert (V2 : B2R (f64 (-1) 0) = (-1)%R).
  { rewrite <- SF2R_B2SF, E2. unfold SF2R, F2R. cbn -[bpow]. change (bpow radix2 (-52)) with (/ 4503599627370496)%R. lra. }
  assert (L : (bpow radix2 (-537) <= 1)%R) by (change 1%R with (bpow radix2 0); apply bpow_le; lia).
  intros F. split.
  - intros c. unfold F. destruct (Bltb c (f64 1 (-3))).
    + split; [vm_compute; reflexivity|right]. rewrite V2, Rabs_left by lra. lra.
    + split; [vm_compute; reflexivity|right]. rewrite V1, Rabs_R1. exact L.
  - replace (F (f64 0 0)) with (f64 (-1) 0) by reflexivity. replace (F (f64 1 0)) with (f64 1 0) by reflexivity.
    rewrite V1, V2. lra.
Qed.
(* The computed point for x - 1/8. *)
Example C26_ex :
  let F := fun x : b64 => Bminus mode_NE x (f64 1 (-3)) in
  f64c (bisection 10 (call_x (f64 0 0) (f64 1 0) (F (f64 0 0)) (F (f64 1 0))) (line_field F) : b64)
  = f64c (f64 1 (-3)).
Proof. vm_compute. reflexivity. Qed.

(* C28 is false: the rounded secant point may leave the interval. *)
Definition c28_field (x : b64) : b64 := if Beqb x (f64 29 (-3)) then f64 (-1) (-60) else f64 5146971002709138 (-54).
Theorem C28_refuted : exists (F : b64 -> b64) (c0 c1 : b64) steps,
  is_finite c0 = true /\ is_finite c1 = true /\ Bltb c0 c1 = true /\
  is_finite (F c0) = true /\ is_finite (F c1) = true /\
  Bltb (F c0) (f64 0 0) = true /\ Bltb (f64 0 0) (F c1) = true /\
  let r := regula_falsi steps (call_x c0 c1 (F c0) (F c1)) (line_field F) : b64 in
  Bltb r c0 = true.
Proof. exists c28_field, (f64 29 (-3)), (f64 37 (-3)), 1. repeat split; vm_compute; reflexivity. Qed.
Print Assumptions C28_refuted.

(* What holds: the result is finite and leaves the interval at most by a relative error of
   2^-49 per step, for fields whose values are zero or of moderate size.  It is that close to
   an interval at the ends of which the field has opposite signs. *)
Theorem C28_partial : forall (f : field envIEEE) d (p : vec3 b64) (c1 : b64) steps M,
  let c0 := vget d p : b64 in
  let F := fun c : b64 => fl_value f (vset envIEEE d p c) : b64 in
  let near := fun x : R => (Rmin (B2R c0) (B2R c1) - IZR steps * (bpow radix2 (-49) * M) <= x
    <= Rmax (B2R c0) (B2R c1) + IZR steps * (bpow radix2 (-49) * M))%R in
  1 <= steps <= 2 ^ 49 -> is_finite c0 = true -> is_finite c1 = true ->
  (Rabs (B2R c0) <= M)%R -> (Rabs (B2R c1) <= M)%R -> (bpow radix2 (-400) <= M <= bpow radix2 499)%R ->
  (forall c : b64, is_finite c = true -> near (B2R c) ->
    is_finite (F c) = true /\ (B2R (F c) = 0 \/ bpow radix2 (-500) <= Rabs (B2R (F c)) <= bpow radix2 500))%R ->
  (B2R (F c0) * B2R (F c1) < 0)%R ->
  let r := regula_falsi steps (@ZfCall envIEEE d p c1 (F c0) (F c1)) f : b64 in
  is_finite r = true /\ near (B2R r) /\
  exists a b : b64, near (B2R a) /\ near (B2R b) /\ (B2R (F a) * B2R (F b) < 0)%R /\
    exists s, between (B2R a) (B2R b) s /\ (Rabs (B2R r - s) <= bpow radix2 (-49) * M)%R.
Proof.
  intros f d p c1 steps M c0 F near Hst F0 F1 M0 M1 HM HF Hs r.
  set (n := Z.to_nat steps).
  assert (En : INR n = IZR steps) by (unfold n; rewrite INR_IZR_INZ, Z2Nat.id by lia; reflexivity).
  assert (Hn : (INR n <= bpow radix2 49)%R).
  { rewrite En. change (bpow radix2 49) with (IZR (2 ^ 49)). apply IZR_le. lia. }
  set (lo := Rmin (B2R c0) (B2R c1)). set (hi := Rmax (B2R c0) (B2R c1)).
  assert (Hlo : (- M <= lo)%R). { unfold lo, Rmin. apply Rabs_le_inv in M0, M1. destruct (Rle_dec _ _); lra. }
  assert (Hhi : (hi <= M)%R). { unfold hi, Rmax. apply Rabs_le_inv in M0, M1. destruct (Rle_dec _ _); lra. }
  assert (Nr : forall x, inside lo hi M n x <-> near x). { intros x. unfold inside, near, step_err. rewrite En. tauto. }
  assert (HF' : forall c, is_finite c = true -> inside lo hi M n (B2R c) -> good_value (F c)).
  { intros c Hc Hi. apply HF; [exact Hc|apply Nr; exact Hi]. }
  assert (Ends : inside lo hi M 0 (B2R c0) /\ inside lo hi M 0 (B2R c1)).
  { unfold inside. cbn [INR]. unfold lo, hi, Rmin, Rmax. destruct (Rle_dec _ _); lra. }
  destruct Ends as [I0 I1].
  assert (G0 : good_value (F c0)) by (apply HF'; [exact F0|apply (inside_mono lo hi M HM 0); [lia|exact I0]]).
  assert (G1 : good_value (F c1)) by (apply HF'; [exact F1|apply (inside_mono lo hi M HM 0); [lia|exact I1]]).
  assert (N0 : B2R (F c0) <> 0%R) by (intros Z; rewrite Z in Hs; lra).
  assert (N1 : B2R (F c1) <> 0%R) by (intros Z; rewrite Z in Hs; lra).
  assert (St : state_ok F lo hi M 0 0 c0 c1 (F c0) (F c1)).
  { constructor; try assumption; try (apply good_sized; assumption); try (intros _; apply good_big; assumption).
    - pose proof (Rle_0_sqr (B2R (F c0))) as Q. exact Q.
    - pose proof (Rle_0_sqr (B2R (F c1))) as Q. exact Q. }
  pose proof (falsi_loop F lo hi M n HM Hlo Hhi Hn HF' n 0 0 c0 c0 c1 (F c0) (F c1) ltac:(lia) St F0 I0) as L.
  pose proof (falsi_last F n 0 c0 c0 c1 (F c0) (F c1) ltac:(unfold n; lia)) as La.
  assert (E : r = fst (@falsi envIEEE F n 0 c0 c0 c1 (F c0) (F c1))).
  { unfold r, regula_falsi, falsi_run. cbn [zc_axis zc_start zc_end zc_f0 zc_f1].
    rewrite (proj2 (step_count_positive steps) (proj1 Hst)). destruct d; reflexivity. }
  clearbody r. destruct (@falsi envIEEE F n 0 c0 c0 c1 (F c0) (F c1)) as [r' h]. cbn [fst] in E. subst r'.
  destruct L as (L1 & L2 & L3). destruct La as (a & b & Hin). destruct (L3 _ Hin) as (_ & (J1 & J2 & _) & Q1 & Q2).
  split; [exact L1|]. split; [apply Nr; exact L2|]. exists a, b.
  split; [apply Nr; exact J1|]. split; [apply Nr; exact J2|]. split; [exact Q1|exact Q2].
Qed.
Print Assumptions C28_partial.
(* The field of C26_hypotheses_met on [0, 1]. *)
Example C28_partial_ex :
  let F := fun x : b64 => if Bltb x (f64 1 (-3)) then f64 (-1) 0 else f64 1 0 in
  let r := regula_falsi 10 (call_x (f64 0 0) (f64 1 0) (F (f64 0 0)) (F (f64 1 0))) (line_field F) : b64 in
  is_finite r = true /\ (- 10 * bpow radix2 (-49) <= B2R r <= 1 + 10 * bpow radix2 (-49))%R.
Proof.
  intros F r. destruct one_64 as [Fo Vo].
  assert (V0 : B2R (f64 0 0) = 0%R) by reflexivity.
  destruct C26_hypotheses_met as [H1 _]. fold F in H1.
  assert (E2 : f64c (f64 (-1) 0) = S754_finite true 4503599627370496 (-52)) by (vm_compute; reflexivity).
  assert (V2 : B2R (f64 (-1) 0) = (-1)%R).
  { rewrite <- SF2R_B2SF, E2. unfold SF2R, F2R. cbn -[bpow]. change (bpow radix2 (-52)) with (/ 4503599627370496)%R. lra. }
  assert (A : forall c, is_finite (F c) = true /\ Rabs (B2R (F c)) = 1%R).
  { intros c. split; [apply H1|]. unfold F. destruct (Bltb c (f64 1 (-3))).
    - rewrite V2, Rabs_left by lra. lra.
    - rewrite Vo. apply Rabs_R1. }
  destruct (C28_partial (line_field F) AX (V3 (f64 0 0) (f64 0 0) (f64 0 0)) (f64 1 0) 10 1%R) as (R1 & R2 & _); cbn [vget vx].
  - lia.
  - reflexivity.
  - exact Fo.
  - rewrite V0, Rabs_R0. lra.
  - rewrite Vo, Rabs_R1. lra.
  - change 1%R with (bpow radix2 0). split; apply bpow_le; lia.
  - intros c _ _. split; [apply (A c)|]. right. change (fl_value (line_field F) (vset envIEEE AX (V3 (f64 0 0) (f64 0 0) (f64 0 0)) c)) with (F c).
    rewrite (proj2 (A c)). change 1%R with (bpow radix2 0). split; apply bpow_le; lia.
  - change (B2R (f64 (-1) 0) * B2R (f64 1 0) < 0)%R. rewrite V2, Vo. lra.
  - split; [exact R1|]. cbn [vget vx] in R2. rewrite V0, Vo in R2. rewrite Rmin_left, Rmax_right in R2 by lra. destruct R2 as [R2 R3].
    split; [apply Rle_trans with (0 - 10 * (bpow radix2 (-49) * 1))%R; [lra|exact R2]|apply Rle_trans with (1 + 10 * (bpow radix2 (-49) * 1))%R; [exact R3|lra]].
Qed.
End Double.
