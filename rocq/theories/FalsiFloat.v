(* Regula falsi in IEEE binary64. *)
From Coq Require Import ZArith Reals SpecFloat List Bool Lia Lra Psatz.
From Flocq Require Import Core Relative BinarySingleNaN.
From Verif Require Import Base Arith RealArith FloatArith GridModel EdgeModel FillModel ZeroModel ZeroReal ZeroFloat.
Import ListNotations.
Local Open Scope R_scope.
Notation e2 := (bpow radix2).

Lemma rnd_bound : forall x k, (-1000 <= k <= 1022)%Z -> Rabs x <= e2 k -> Rabs (rnd64 x) <= e2 k.
Proof.
  intros x k Hk H. apply abs_round_le_generic; [apply fexp_correct; reflexivity|apply valid_rnd_N| |exact H].
  apply generic_format_bpow. unfold SpecFloat.fexp, SpecFloat.emin. lia.
Qed.
Lemma rnd_fits : forall x, Rabs x <= e2 1022 -> Rlt_bool (Rabs (rnd64 x)) (e2 1024) = true.
Proof.
  intros x H. apply Rlt_bool_true. eapply Rle_lt_trans; [apply (rnd_bound x 1022); [lia|exact H]|]. apply bpow_lt. lia.
Qed.
Lemma rnd_pos : forall x, 0 <= x -> 0 <= rnd64 x.
Proof. intros x H. apply round_ge_generic; [apply fexp_correct; reflexivity|apply valid_rnd_N|apply generic_format_0|exact H]. Qed.
Lemma rnd_neg : forall x, x <= 0 -> rnd64 x <= 0.
Proof. intros x H. apply round_le_generic; [apply fexp_correct; reflexivity|apply valid_rnd_N|apply generic_format_0|exact H]. Qed.

Lemma mul64 : forall a b : b64, is_finite a = true -> is_finite b = true -> Rabs (B2R a * B2R b) <= e2 1022 ->
  is_finite (Bmult mode_NE a b) = true /\ B2R (Bmult mode_NE a b) = rnd64 (B2R a * B2R b).
Proof.
  intros a b Fa Fb H. generalize (Bmult_correct 53 1024 _ _ mode_NE a b). cbn [round_mode]. rewrite (rnd_fits _ H).
  intros (V & F & _). rewrite Fa, Fb in F. auto.
Qed.
Lemma sub64 : forall a b : b64, is_finite a = true -> is_finite b = true -> Rabs (B2R a - B2R b) <= e2 1022 ->
  is_finite (Bminus mode_NE a b) = true /\ B2R (Bminus mode_NE a b) = rnd64 (B2R a - B2R b).
Proof.
  intros a b Fa Fb H. generalize (Bminus_correct 53 1024 _ _ mode_NE a b Fa Fb). cbn [round_mode]. rewrite (rnd_fits _ H).
  intros (V & F & _). auto.
Qed.
Lemma div64 : forall a b : b64, is_finite a = true -> B2R b <> 0 -> Rabs (B2R a / B2R b) <= e2 1022 ->
  is_finite (Bdiv mode_NE a b) = true /\ B2R (Bdiv mode_NE a b) = rnd64 (B2R a / B2R b).
Proof.
  intros a b Fa Nb H. generalize (Bdiv_correct 53 1024 _ _ mode_NE a b Nb). cbn [round_mode]. rewrite (rnd_fits _ H).
  intros (V & F & _). rewrite Fa in F. auto.
Qed.

(* The rounding errors of the secant point. *)
Lemma secant_real : forall (c0 c1 f0 f1 N u t p q n d : R), 0 < u <= / 1024 -> 0 < N -> f0 * f1 <= 0 -> f1 - f0 <> 0 ->
  Rabs c0 <= N -> Rabs c1 <= N -> 0 <= t -> 64 * t <= u * N * Rabs (f1 - f0) -> 64 * t <= u * Rabs (f1 - f0) ->
  Rabs (p - c0 * f1) <= u * Rabs (c0 * f1) + t -> Rabs (q - c1 * f0) <= u * Rabs (c1 * f0) + t ->
  Rabs (n - (p - q)) <= u * Rabs (p - q) + t -> Rabs (d - (f1 - f0)) <= u * Rabs (f1 - f0) + t ->
  let s := (c0 * f1 - c1 * f0) / (f1 - f0) in
  d <> 0 /\ between c0 c1 s /\ Rabs s <= N /\ Rabs (n / d - s) <= 4 * u * N.
Proof.
  intros c0 c1 f0 f1 N u t p q n d Hu HN Hs Hd H0 H1 Ht T1 T2 Ep Eq En Ed s.
  set (D := f1 - f0) in *. assert (AD : 0 < Rabs D) by (apply Rabs_pos_lt; exact Hd).
  assert (DD : Rabs D = Rabs f0 + Rabs f1).
  { unfold D. destruct (Rle_or_lt 0 f0), (Rle_or_lt 0 f1); unfold Rabs; repeat destruct (Rcase_abs _); nra. }
  assert (Pos : forall x, 0 <= Rabs x) by (intros; apply Rabs_pos).
  set (X := N * Rabs D). assert (PX : 0 < X) by (unfold X; nra).
  assert (S0 : Rabs (c0 * f1) + Rabs (c1 * f0) <= X).
  { rewrite !Rabs_mult. unfold X. rewrite DD. pose proof (Pos f0). pose proof (Pos f1). nra. }
  assert (TX : 64 * t <= u * X) by (unfold X; lra).
  assert (Epq : Rabs (p - q - (c0 * f1 - c1 * f0)) <= u * X + 2 * t).
  { replace (p - q - (c0 * f1 - c1 * f0)) with ((p - c0 * f1) - (q - c1 * f0)) by ring. eapply Rle_trans; [apply Rabs_triang|]. rewrite Rabs_Ropp. nra. }
  assert (Sn : Rabs (c0 * f1 - c1 * f0) <= X).
  { eapply Rle_trans; [apply Rabs_triang|]. rewrite Rabs_Ropp. exact S0. }
  assert (Apq : Rabs (p - q) <= X + u * X + 2 * t).
  { replace (p - q) with ((p - q - (c0 * f1 - c1 * f0)) + (c0 * f1 - c1 * f0)) by ring. eapply Rle_trans; [apply Rabs_triang|]. lra. }
  assert (En2 : Rabs (n - (c0 * f1 - c1 * f0)) <= (2 + / 8) * (u * X)).
  { replace (n - (c0 * f1 - c1 * f0)) with ((n - (p - q)) + (p - q - (c0 * f1 - c1 * f0))) by ring. eapply Rle_trans; [apply Rabs_triang|].
    assert (u * Rabs (p - q) <= u * (X + u * X + 2 * t)) by (apply Rmult_le_compat_l; lra).
    assert (u * (u * X) <= / 1024 * (u * X)) by (apply Rmult_le_compat_r; nra). assert (u * (2 * t) <= / 1024 * (2 * t)) by (apply Rmult_le_compat_r; lra). nra. }
  assert (Es : s * D = c0 * f1 - c1 * f0) by (unfold s; field; exact Hd).
  assert (As : Rabs s <= N).
  { apply Rmult_le_reg_r with (Rabs D); [exact AD|]. rewrite <- Rabs_mult, Es. exact Sn. }
  assert (Ed2 : Rabs (d - D) <= (1 + / 64) * (u * Rabs D)) by lra.
  assert (Ad : (1 - / 512) * Rabs D <= Rabs d).
  { assert (Rabs D <= Rabs d + Rabs (d - D)). { replace D with (d - (d - D)) at 1 by ring. eapply Rle_trans; [apply Rabs_triang|]. rewrite Rabs_Ropp. lra. }
    assert (u * Rabs D <= / 1024 * Rabs D) by (apply Rmult_le_compat_r; lra). lra. }
  assert (Nd : d <> 0). { intros Z. rewrite Z, Rabs_R0 in Ad. lra. }
  split; [exact Nd|]. split; [|split; [exact As|]].
  - (* a convex combination *)
    set (w := f1 / D).
    assert (Ew : s = w * c0 + (1 - w) * c1) by (unfold s, w; unfold D in *; field; exact Hd).
    assert (Hw : 0 <= w <= 1).
    { assert (w * D = f1) by (unfold w; field; exact Hd). assert ((1 - w) * D = - f0) by (unfold w; unfold D in *; field; exact Hd).
      assert (0 <= D * f1) by (unfold D; nra). assert (0 <= D * - f0) by (unfold D; nra). assert (0 < D * D) by nra.
      split; [apply Rmult_le_reg_r with (D * D); nra|apply Rmult_le_reg_r with (D * D); nra]. }
    rewrite Ew. unfold between. destruct (Rle_or_lt c0 c1); [left|right]; nra.
  - apply Rmult_le_reg_r with (Rabs d); [apply Rabs_pos_lt; exact Nd|]. rewrite <- Rabs_mult.
    replace ((n / d - s) * d) with ((n - (c0 * f1 - c1 * f0)) - s * (d - D)) by (rewrite <- Es; field; exact Nd).
    eapply Rle_trans; [apply Rabs_triang|]. rewrite Rabs_Ropp, Rabs_mult.
    assert (Rabs s * Rabs (d - D) <= N * ((1 + / 64) * (u * Rabs D))) by (apply Rmult_le_compat; auto using Rabs_pos).
    assert (4 * u * N * ((1 - / 512) * Rabs D) <= 4 * u * N * Rabs d) by (apply Rmult_le_compat_l; [nra|exact Ad]).
    replace (N * ((1 + / 64) * (u * Rabs D))) with ((1 + / 64) * (u * X)) in * by (unfold X; ring).
    replace (4 * u * N * ((1 - / 512) * Rabs D)) with (4 * (1 - / 512) * (u * X)) in * by (unfold X; ring).
    assert (0 <= u * X) by nra. lra.
Qed.

Lemma e2_le : forall a b, (a <= b)%Z -> e2 a <= e2 b.
Proof. intros. apply bpow_le. assumption. Qed.

(* Values the loop works with: one end may have been damped. *)
Definition sized (x : b64) : Prop := is_finite x = true /\ Rabs (B2R x) <= e2 500.
Definition big (x : b64) : Prop := e2 (-500) <= Rabs (B2R x).

Lemma secant_64 : forall (c0 c1 f0 f1 : b64) N, e2 (-400) <= N <= e2 500 ->
  is_finite c0 = true -> is_finite c1 = true -> Rabs (B2R c0) <= N -> Rabs (B2R c1) <= N ->
  sized f0 -> sized f1 -> B2R f0 * B2R f1 <= 0 -> big f0 \/ big f1 ->
  let m := @secant envIEEE c0 c1 f0 f1 : b64 in
  is_finite m = true /\ exists s, between (B2R c0) (B2R c1) s /\ Rabs (B2R m - s) <= e2 (-50) * N.
Proof.
  intros c0 c1 f0 f1 N [HN1 HN2] Fc0 Fc1 H0 H1 [Ff0 L0] [Ff1 L1] Hs Hb m.
  assert (PN : 0 < N) by (eapply Rlt_le_trans; [apply bpow_gt_0|exact HN1]).
  assert (B1000 : e2 1000 = e2 500 * e2 500) by (rewrite <- bpow_plus; reflexivity).
  assert (Prod : forall c f, Rabs c <= N -> Rabs f <= e2 500 -> Rabs (c * f) <= e2 1000).
  { intros c f Hc Hf. rewrite Rabs_mult, B1000. apply Rmult_le_compat; auto using Rabs_pos. lra. }
  assert (Up : forall x k, (k <= 1022)%Z -> Rabs x <= e2 k -> Rabs x <= e2 1022).
  { intros x k Hk Hx. eapply Rle_trans; [exact Hx|]. apply e2_le. exact Hk. }
  pose proof (Prod _ _ H0 L1) as P1. pose proof (Prod _ _ H1 L0) as P2.
  destruct (mul64 c0 f1 Fc0 Ff1 (Up _ 1000%Z ltac:(lia) P1)) as [Fp Vp].
  destruct (mul64 c1 f0 Fc1 Ff0 (Up _ 1000%Z ltac:(lia) P2)) as [Fq Vq].
  set (p := Bmult mode_NE c0 f1) in *. set (q := Bmult mode_NE c1 f0) in *.
  assert (Bp : Rabs (B2R p) <= e2 1000) by (rewrite Vp; apply rnd_bound; [lia|exact P1]).
  assert (Bq : Rabs (B2R q) <= e2 1000) by (rewrite Vq; apply rnd_bound; [lia|exact P2]).
  assert (B1001 : e2 1001 = 2 * e2 1000) by (change 1001%Z with (1 + 1000)%Z; rewrite bpow_plus; reflexivity).
  assert (B501 : e2 501 = 2 * e2 500) by (change 501%Z with (1 + 500)%Z; rewrite bpow_plus; reflexivity).
  assert (P3 : Rabs (B2R p - B2R q) <= e2 1001).
  { eapply Rle_trans; [apply Rabs_triang|]. rewrite Rabs_Ropp. lra. }
  assert (P4 : Rabs (B2R f1 - B2R f0) <= e2 501).
  { eapply Rle_trans; [apply Rabs_triang|]. rewrite Rabs_Ropp. lra. }
  destruct (sub64 p q Fp Fq (Up _ 1001%Z ltac:(lia) P3)) as [Fn Vn].
  destruct (sub64 f1 f0 Ff1 Ff0 (Up _ 501%Z ltac:(lia) P4)) as [Fd Vd].
  set (n := Bminus mode_NE p q) in *. set (d := Bminus mode_NE f1 f0) in *.
  assert (DD : Rabs (B2R f1 - B2R f0) = Rabs (B2R f0) + Rabs (B2R f1)).
  { clear -Hs. destruct (Rle_or_lt 0 (B2R f0)), (Rle_or_lt 0 (B2R f1)); unfold Rabs; repeat destruct (Rcase_abs _); nra. }
  assert (BD : e2 (-500) <= Rabs (B2R f1 - B2R f0)).
  { rewrite DD. pose proof (Rabs_pos (B2R f0)). pose proof (Rabs_pos (B2R f1)). unfold big in Hb. destruct Hb; lra. }
  assert (Pu : 0 < unit_round <= / 1024).
  { unfold unit_round. split; [apply bpow_gt_0|]. change (/ 1024) with (e2 (-10)). apply e2_le. lia. }
  assert (U1 : 0 < unit_round) by lra.
  assert (E500 : 0 < e2 (-500)) by apply bpow_gt_0. assert (E400 : 0 < e2 (-400)) by apply bpow_gt_0.
  assert (T64 : 64 * tiny = e2 (-1069)). { unfold tiny. change (-1069)%Z with (6 + -1075)%Z. rewrite bpow_plus. reflexivity. }
  assert (T1 : 64 * tiny <= unit_round * N * Rabs (B2R f1 - B2R f0)).
  { rewrite T64. apply Rle_trans with (unit_round * e2 (-400) * e2 (-500)).
    - unfold unit_round. rewrite <- !bpow_plus. apply e2_le. lia.
    - apply Rmult_le_compat; try lra; [|apply Rmult_le_compat_l; lra]. apply Rmult_le_pos; lra. }
  assert (T2 : 64 * tiny <= unit_round * Rabs (B2R f1 - B2R f0)).
  { rewrite T64. apply Rle_trans with (unit_round * e2 (-500)).
    - unfold unit_round. rewrite <- !bpow_plus. apply e2_le. lia.
    - apply Rmult_le_compat_l; lra. }
  destruct (secant_real (B2R c0) (B2R c1) (B2R f0) (B2R f1) N unit_round tiny (B2R p) (B2R q) (B2R n) (B2R d)) as (Nd & Bs & As & Es); auto.
  - intros Z. rewrite Z, Rabs_R0 in BD. lra.
  - unfold tiny. apply bpow_ge_0.
  - rewrite Vp. apply round_error.
  - rewrite Vq. apply round_error.
  - rewrite Vn. apply round_error.
  - rewrite Vd. apply round_error.
  - set (s := (B2R c0 * B2R f1 - B2R c1 * B2R f0) / (B2R f1 - B2R f0)) in *.
    assert (UN : unit_round * N <= / 1024 * N) by (apply Rmult_le_compat_r; lra).
    assert (Aq : Rabs (B2R n / B2R d) <= N + 4 * unit_round * N).
    { replace (B2R n / B2R d) with ((B2R n / B2R d - s) + s) by ring. eapply Rle_trans; [apply Rabs_triang|]. lra. }
    destruct (div64 n d Fn Nd) as [Fm Vm].
    { apply (Up _ 501%Z ltac:(lia)). rewrite B501. lra. }
    change m with (Bdiv mode_NE n d). split; [exact Fm|]. exists s. split; [exact Bs|]. rewrite Vm.
    replace (rnd64 (B2R n / B2R d) - s) with ((rnd64 (B2R n / B2R d) - B2R n / B2R d) + (B2R n / B2R d - s)) by ring.
    eapply Rle_trans; [apply Rabs_triang|]. pose proof (round_error (B2R n / B2R d)) as Er.
    assert (E50 : e2 (-50) = 8 * unit_round). { unfold unit_round. change (-50)%Z with (3 + -53)%Z. rewrite bpow_plus. reflexivity. }
    assert (TN : 64 * tiny <= unit_round * N).
    { rewrite T64. apply Rle_trans with (unit_round * e2 (-400)).
      - unfold unit_round. rewrite <- !bpow_plus. apply e2_le. lia.
      - apply Rmult_le_compat_l; lra. }
    assert (unit_round * Rabs (B2R n / B2R d) <= unit_round * (N + 4 * unit_round * N)) by (apply Rmult_le_compat_l; lra).
    assert (unit_round * (4 * unit_round * N) <= / 1024 * (4 * unit_round * N)) by (apply Rmult_le_compat_r; [|lra]; apply Rmult_le_pos; lra).
    rewrite E50. assert (P0 : 0 <= unit_round * N) by (apply Rmult_le_pos; lra).
    set (x := Rabs (B2R n / B2R d - s)) in *. set (y := Rabs (B2R n / B2R d)) in *. set (z := Rabs (rnd64 (B2R n / B2R d) - B2R n / B2R d)) in *.
    revert Er H H2 UN TN P0 Es. clearbody x y z. generalize unit_round tiny. clear. intros u t Er H H2 UN TN P0 Es.
    assert (u * (4 * u * N) = 4 * u * (u * N)) by ring. lra.
Qed.

Lemma one_64 : is_finite (f64 1 0) = true /\ B2R (f64 1 0) = 1.
Proof.
  assert (E : B2SF (f64 1 0) = SpecFloat.S754_finite false 4503599627370496 (-52)) by (vm_compute; reflexivity).
  rewrite <- is_finite_SF_B2SF, <- SF2R_B2SF, E. split; [reflexivity|].
  unfold SF2R, F2R. cbn -[bpow]. change (bpow radix2 (-52)) with (/ 4503599627370496). lra.
Qed.

Lemma product_positive : forall u v : b64, sized u -> sized v -> @same_sign envIEEE u v = true -> 0 < B2R u * B2R v.
Proof.
  intros u v [Fu Lu] [Fv Lv] H. change (@same_sign envIEEE u v) with (Bltb (f64 0 0) (Bmult mode_NE u v)) in H.
  assert (E0 : f64 0 0 = B754_zero false) by reflexivity. rewrite E0 in H.
  destruct (mul64 u v Fu Fv) as [F V].
  { rewrite Rabs_mult. apply Rle_trans with (e2 500 * e2 500); [apply Rmult_le_compat; auto using Rabs_pos|]. rewrite <- bpow_plus. apply e2_le. lia. }
  rewrite Bltb_correct in H by (assumption || reflexivity). rewrite V in H. cbn [B2R] in H.
  destruct (Rlt_bool_spec 0 (rnd64 (B2R u * B2R v))) as [L|L]; [|discriminate].
  destruct (Rle_or_lt (B2R u * B2R v) 0) as [Ng|P]; [|exact P]. apply rnd_neg in Ng. lra.
Qed.

(* A damped value keeps its sign, or becomes zero, and does not grow. *)
Lemma damped : forall val fe f : b64, sized val -> sized fe -> big fe -> sized f -> 0 < B2R val * B2R fe ->
  let g := Bmult mode_NE f (damping envIEEE val fe) in
  sized g /\ forall x, 0 <= B2R f * x -> 0 <= B2R g * x.
Proof.
  intros val fe f [Fv Lv] [Fe Le] Be [Ff Lf] Hp g.
  assert (Ne : B2R fe <> 0) by (intros Z; rewrite Z in Hp; lra).
  assert (Ae : 0 < Rabs (B2R fe)) by (apply Rabs_pos_lt; exact Ne).
  assert (Q0 : 0 < B2R val / B2R fe).
  { replace (B2R val / B2R fe) with ((B2R val * B2R fe) * / (B2R fe * B2R fe)) by (field; exact Ne).
    apply Rmult_lt_0_compat; [exact Hp|]. apply Rinv_0_lt_compat. nra. }
  assert (Q1 : Rabs (B2R val / B2R fe) <= e2 1000).
  { apply Rmult_le_reg_r with (Rabs (B2R fe)); [exact Ae|]. rewrite <- Rabs_mult. replace (B2R val / B2R fe * B2R fe) with (B2R val) by (field; exact Ne).
    eapply Rle_trans; [exact Lv|]. apply Rle_trans with (e2 1000 * e2 (-500)).
    - rewrite <- bpow_plus. apply e2_le. lia.
    - apply Rmult_le_compat_l; [apply bpow_ge_0|exact Be]. }
  destruct (div64 val fe Fv Ne) as [Fq Vq]. { eapply Rle_trans; [exact Q1|]. apply e2_le. lia. }
  set (q := Bdiv mode_NE val fe) in *.
  assert (Pq : 0 <= B2R q) by (rewrite Vq; apply rnd_pos; lra).
  assert (Bq : Rabs (B2R q) <= e2 1000) by (rewrite Vq; apply rnd_bound; [lia|exact Q1]).
  destruct one_64 as [F1 V1].
  assert (S1 : Rabs (B2R (f64 1 0) - B2R q) <= e2 1022).
  { rewrite V1. eapply Rle_trans; [apply Rabs_triang|]. rewrite Rabs_Ropp, Rabs_R1. apply Rle_trans with (e2 1000 + e2 1000).
    - apply Rplus_le_compat; [|exact Bq]. change 1 with (e2 0). apply e2_le. lia.
    - replace (e2 1000 + e2 1000) with (e2 1 * e2 1000) by (change (e2 1) with 2; ring). rewrite <- bpow_plus. apply e2_le. lia. }
  destruct (sub64 (f64 1 0) q F1 Fq S1) as [Fm Vm]. rewrite V1 in Vm.
  set (m := Bminus mode_NE (f64 1 0) q) in *.
  assert (M1 : B2R m <= 1).
  { rewrite Vm. apply round_le_generic; [apply fexp_correct; reflexivity|apply valid_rnd_N| |lra].
    change 1 with (e2 0). apply generic_format_bpow. vm_compute. discriminate. }
  destruct one_half_64 as [Fh Vh].
  assert (D : is_finite (damping envIEEE val fe : b64) = true /\ 0 <= B2R (damping envIEEE val fe : b64) <= 1).
  { change (damping envIEEE val fe) with (if Bleb m (f64 0 0) then one_half envIEEE else m).
    assert (E0 : f64 0 0 = B754_zero false) by reflexivity. rewrite E0.
    destruct (Bleb m (B754_zero false)) eqn:C.
    - split; [exact Fh|]. rewrite Vh. lra.
    - split; [exact Fm|]. rewrite Bleb_correct in C by (assumption || reflexivity). cbn [B2R] in C.
      destruct (Rle_bool_spec (B2R m) 0); [discriminate|]. lra. }
  destruct D as [Fd Dd]. set (k := damping envIEEE val fe : b64) in *.
  assert (K : Rabs (B2R f * B2R k) <= Rabs (B2R f)).
  { rewrite Rabs_mult, (Rabs_pos_eq (B2R k)) by lra. pose proof (Rabs_pos (B2R f)). nra. }
  assert (K2 : Rabs (B2R f * B2R k) <= e2 1022). { eapply Rle_trans; [exact K|]. eapply Rle_trans; [exact Lf|]. apply e2_le. lia. }
  destruct (mul64 f k Ff Fd K2) as [Fg Vg]. change g with (Bmult mode_NE f k). split.
  - split; [exact Fg|]. rewrite Vg. apply rnd_bound; [lia|lra].
  - intros x Hx. rewrite Vg. destruct (Rtotal_order (B2R f) 0) as [P|[P|P]].
    + assert (rnd64 (B2R f * B2R k) <= 0) by (apply rnd_neg; nra). assert (x <= 0) by nra. nra.
    + rewrite P, Rmult_0_l, round_0 by apply valid_rnd_N. lra.
    + assert (0 <= rnd64 (B2R f * B2R k)) by (apply rnd_pos; nra). assert (0 <= x) by nra. nra.
Qed.

Section Loop.
Variable F : b64 -> b64.
Variables lo hi M : R.
Variable n : nat.
Hypothesis HM : e2 (-400) <= M <= e2 499.
Hypothesis Hlo : - M <= lo.
Hypothesis Hhi : hi <= M.
Hypothesis Hn : INR n <= e2 49.
(* Error of one step *)
Definition step_err : R := e2 (-49) * M.
Definition inside (k : nat) (x : R) : Prop := lo - INR k * step_err <= x <= hi + INR k * step_err.
Definition good_value (v : b64) : Prop := is_finite v = true /\ (B2R v = 0 \/ e2 (-500) <= Rabs (B2R v) <= e2 500).
Hypothesis HF : forall c, is_finite c = true -> inside n (B2R c) -> good_value (F c).

Lemma step_err_pos : 0 < step_err.
Proof. unfold step_err. apply Rmult_lt_0_compat; [apply bpow_gt_0|]. eapply Rlt_le_trans; [apply bpow_gt_0|apply HM]. Qed.
Lemma inside_mono : forall k j x, (k <= j)%nat -> inside k x -> inside j x.
Proof. intros k j x H [H1 H2]. pose proof step_err_pos. apply le_INR in H. assert (INR k * step_err <= INR j * step_err) by (apply Rmult_le_compat_r; lra). split; lra. Qed.
Lemma inside_abs : forall x, inside n x -> Rabs x <= 2 * M.
Proof.
  intros x [H1 H2]. assert (INR n * step_err <= M).
  { unfold step_err. rewrite <- Rmult_assoc. apply Rle_trans with (1 * M); [|lra]. apply Rmult_le_compat_r; [destruct HM; pose proof (bpow_gt_0 radix2 (-400)); lra|].
    apply Rle_trans with (e2 49 * e2 (-49)); [apply Rmult_le_compat_r; [apply bpow_ge_0|exact Hn]|]. rewrite <- bpow_plus. change (e2 (49 + -49)) with 1. lra. }
  apply Rabs_le. lra.
Qed.
Lemma good_sized : forall v, good_value v -> sized v.
Proof. intros v [Fv [Z|[_ H]]]; split; auto. rewrite Z, Rabs_R0. apply bpow_ge_0. Qed.
Lemma good_big : forall v, good_value v -> B2R v <> 0 -> big v.
Proof. intros v [Fv [Z|[H _]]] Hz; [congruence|exact H]. Qed.

Record state_ok (k : nat) (side : Z) (c0 c1 f0 f1 : b64) : Prop := {
  so_f0 : is_finite c0 = true; so_f1 : is_finite c1 = true; so_i0 : inside k (B2R c0); so_i1 : inside k (B2R c1);
  so_s0 : sized f0; so_s1 : sized f1; so_b0 : side <> 1%Z -> big f0; so_b1 : side <> (-1)%Z -> big f1;
  so_g0 : 0 <= B2R f0 * B2R (F c0); so_g1 : 0 <= B2R f1 * B2R (F c1); so_br : B2R (F c0) * B2R (F c1) < 0 }.

Lemma opposite : forall a b p q : R, 0 <= a * p -> 0 <= b * q -> p * q < 0 -> a * b <= 0.
Proof. intros. destruct (Rle_or_lt (a * b) 0); auto. exfalso. nra. Qed.
Lemma moved : forall v f p q : R, 0 < v * f -> 0 <= f * p -> p * q < 0 -> v * q < 0.
Proof. intros. destruct (Rlt_or_le 0 p), (Rlt_or_le 0 f), (Rlt_or_le 0 q); nra. Qed.

Definition record_ok (x : b64 * b64 * b64) : Prop :=
  let '(a, b, m) := x in
  (is_finite a = true /\ is_finite b = true /\ is_finite m = true) /\ (inside n (B2R a) /\ inside n (B2R b) /\ inside n (B2R m)) /\
  B2R (F a) * B2R (F b) < 0 /\ exists s, between (B2R a) (B2R b) s /\ Rabs (B2R m - s) <= step_err.

Lemma falsi_loop : forall steps k side (mid c0 c1 f0 f1 : b64), (k + steps <= n)%nat -> state_ok k side c0 c1 f0 f1 ->
  is_finite mid = true -> inside k (B2R mid) ->
  let '(r, h) := @falsi envIEEE F steps side mid c0 c1 f0 f1 in
  is_finite (r : b64) = true /\ inside n (B2R (r : b64)) /\ forall x, In x h -> record_ok x.
Proof.
  induction steps as [|steps IH]; intros k side mid c0 c1 f0 f1 Hk H Fm Im.
  - cbn [falsi]. split; [exact Fm|]. split; [apply (inside_mono k); [lia|exact Im]|]. intros x [].
  - cbn [falsi]. clear mid Fm Im. destruct H as [Fc0 Fc1 I0 I1 S0 S1 B0 B1 G0 G1 Br].
    pose proof (opposite _ _ _ _ G0 G1 Br) as Hop.
    assert (J0 : inside n (B2R c0)) by (apply (inside_mono k); [lia|exact I0]).
    assert (J1 : inside n (B2R c1)) by (apply (inside_mono k); [lia|exact I1]).
    assert (Hb : big f0 \/ big f1). { destruct (Z.eq_dec side 1) as [->|Hs]; [right; apply B1; lia|left; apply B0; exact Hs]. }
    assert (N2 : e2 (-400) <= 2 * M <= e2 500).
    { destruct HM as [M1 M2]. pose proof (bpow_gt_0 radix2 (-400)). split; [lra|]. change 500%Z with (1 + 499)%Z. rewrite bpow_plus. change (e2 1) with 2. lra. }
    destruct (secant_64 c0 c1 f0 f1 (2 * M) N2 Fc0 Fc1 (inside_abs _ J0) (inside_abs _ J1) S0 S1 Hop Hb) as (Fm & s & Bs & Es).
    set (mid := @secant envIEEE c0 c1 f0 f1 : b64) in *. change (@secant envIEEE c0 c1 f0 f1) with mid.
    assert (Es' : Rabs (B2R mid - s) <= step_err).
    { eapply Rle_trans; [exact Es|]. unfold step_err. change (-49)%Z with (1 + -50)%Z. rewrite bpow_plus. change (e2 1) with 2. lra. }
    assert (Im : inside (S k) (B2R mid)).
    { pose proof step_err_pos as Pe. unfold inside in *. rewrite S_INR. apply Rabs_le_inv in Es'. unfold between in Bs. lra. }
    assert (Jm : inside n (B2R mid)) by (apply (inside_mono (S k)); [lia|exact Im]).
    pose proof (HF mid Fm Jm) as Gm. set (val := F mid) in *. change (F mid) with val.
    assert (Rec : record_ok (c0, c1, mid)). { split; [auto|]. split; [auto|]. split; [exact Br|]. exists s. auto. }
    destruct (@same_sign envIEEE val f0) eqn:E0.
    + pose proof (product_positive val f0 (good_sized _ Gm) S0 E0) as Pp.
      assert (Nv : B2R val <> 0) by (intros Z; rewrite Z in Pp; lra).
      set (f1' := if (side =? -1)%Z then Bmult mode_NE f1 (damping envIEEE val f0) else f1).
      assert (D : sized f1' /\ 0 <= B2R f1' * B2R (F c1) /\ (side <> (-1)%Z -> big f1')).
      { unfold f1'. destruct (Z.eqb_spec side (-1)) as [->|Hs]; [|auto]. destruct (damped val f0 f1 (good_sized _ Gm) S0 (B0 ltac:(lia)) S1 Pp) as [D1 D2].
        split; [exact D1|]. split; [apply D2; exact G1|]. intros Q; exfalso; apply Q; reflexivity. }
      destruct D as (D1 & D2 & D3).
      assert (St : state_ok (S k) (-1) mid c1 val f1').
      { constructor; try assumption.
        - apply (inside_mono k); [lia|exact I1].
        - apply good_sized; exact Gm.
        - intros _. apply good_big; [exact Gm|exact Nv].
        - intros Q. exfalso. apply Q. reflexivity.
        - fold val. nra.
        - fold val. apply (moved _ (B2R f0) (B2R (F c0))); assumption. }
      specialize (IH (S k) (-1)%Z mid mid c1 val f1' ltac:(lia) St Fm Im).
      match goal with |- context [@falsi envIEEE F steps (-1) mid mid c1 val ?y] => change y with f1' end.
      destruct (@falsi envIEEE F steps (-1) mid mid c1 val f1') as [r h]. destruct IH as (R1 & R2 & R3).
      split; [exact R1|]. split; [exact R2|]. intros x [<-|Hx]; [exact Rec|apply R3; exact Hx].
    + destruct (@same_sign envIEEE val f1) eqn:E1.
      * pose proof (product_positive val f1 (good_sized _ Gm) S1 E1) as Pp.
        assert (Nv : B2R val <> 0) by (intros Z; rewrite Z in Pp; lra).
        set (f0' := if (side =? 1)%Z then Bmult mode_NE f0 (damping envIEEE val f1) else f0).
        assert (D : sized f0' /\ 0 <= B2R f0' * B2R (F c0) /\ (side <> 1%Z -> big f0')).
        { unfold f0'. destruct (Z.eqb_spec side 1) as [->|Hs]; [|auto]. destruct (damped val f1 f0 (good_sized _ Gm) S1 (B1 ltac:(lia)) S0 Pp) as [D1 D2].
          split; [exact D1|]. split; [apply D2; exact G0|]. intros Q; exfalso; apply Q; reflexivity. }
        destruct D as (D1 & D2 & D3).
        assert (St : state_ok (S k) 1 c0 mid f0' val).
        { constructor; try assumption.
          - apply (inside_mono k); [lia|exact I0].
          - apply good_sized; exact Gm.
          - intros Q. exfalso. apply Q. reflexivity.
          - intros _. apply good_big; [exact Gm|exact Nv].
          - fold val. nra.
          - fold val. rewrite Rmult_comm. apply (moved _ (B2R f1) (B2R (F c1))); [assumption|assumption|]. rewrite Rmult_comm. exact Br. }
        specialize (IH (S k) 1%Z mid c0 mid f0' val ltac:(lia) St Fm Im).
        match goal with |- context [@falsi envIEEE F steps 1 mid c0 mid ?y val] => change y with f0' end.
        destruct (@falsi envIEEE F steps 1 mid c0 mid f0' val) as [r h]. destruct IH as (R1 & R2 & R3).
        split; [exact R1|]. split; [exact R2|]. intros x [<-|Hx]; [exact Rec|apply R3; exact Hx].
      * split; [exact Fm|]. split; [exact Jm|]. intros x [<-|[]]. exact Rec.
Qed.
End Loop.

(* The result is the point of the last iteration. *)
Lemma falsi_last : forall F steps side mid c0 c1 f0 f1, (0 < steps)%nat ->
  let '(r, h) := @falsi envIEEE F steps side mid c0 c1 f0 f1 in exists a b, In (a, b, r) h.
Proof.
  intros F steps. induction steps as [|k IH]; intros side mid c0 c1 f0 f1 H; [lia|]. cbn [falsi].
  assert (G : forall side' mid' c0' c1' f0' f1', let '(r, h) := @falsi envIEEE F k side' mid' c0' c1' f0' f1' in
    (k = O -> r = mid') /\ ((0 < k)%nat -> exists a b, In (a, b, r) h)).
  { intros side' mid' c0' c1' f0' f1'. destruct k as [|k']; [cbn; split; [auto|lia]|]. specialize (IH side' mid' c0' c1' f0' f1' ltac:(lia)).
    destruct (@falsi envIEEE F (S k') side' mid' c0' c1' f0' f1'). split; [discriminate|auto]. }
  set (m := @secant envIEEE c0 c1 f0 f1). change (@secant envIEEE c0 c1 f0 f1) with m.
  destruct (same_sign _ _).
  - match goal with |- context [@falsi envIEEE F k ?b m ?d ?e ?f ?g] => specialize (G b m d e f g); destruct (@falsi envIEEE F k b m d e f g) as [r h] end.
    destruct G as [G1 G2]. destruct k as [|k']; [exists c0, c1; left; rewrite G1; reflexivity|]. destruct (G2 ltac:(lia)) as (a & b & Hin). exists a, b. right. exact Hin.
  - destruct (same_sign _ _); [|exists c0, c1; left; reflexivity].
    match goal with |- context [@falsi envIEEE F k ?b m ?d ?e ?f ?g] => specialize (G b m d e f g); destruct (@falsi envIEEE F k b m d e f g) as [r h] end.
    destruct G as [G1 G2]. destruct k as [|k']; [exists c0, c1; left; rewrite G1; reflexivity|]. destruct (G2 ltac:(lia)) as (a & b & Hin). exists a, b. right. exact Hin.
Qed.
