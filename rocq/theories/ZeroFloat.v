(* Zero finders in IEEE binary64. *)
From Coq Require Import ZArith Reals SpecFloat List Bool Lia Lra Psatz.
From Flocq Require Import Core Relative BinarySingleNaN.
From Verif Require Import Base Arith RealArith FloatArith GridModel EdgeModel FillModel ZeroModel ZeroReal.
Import ListNotations.
Local Open Scope R_scope.

Notation fexp64 := (SpecFloat.fexp 53 1024).
Notation rnd64 := (round radix2 fexp64 ZnearestE).

(* The values below half of the range of doubles. *)
Definition half_range (x : b64) : Prop := is_finite x = true /\ Rabs (B2R x) < bpow radix2 1023.

Lemma format64 : forall x : b64, generic_format radix2 fexp64 (B2R x).
Proof. intros. apply generic_format_B2R. Qed.

Lemma mag_double : forall x, x <> 0 -> (mag radix2 (2 * x) = mag radix2 x + 1 :> Z)%Z.
Proof.
  intros x Hx. replace (2 * x) with (x * bpow radix2 1) by (change (bpow radix2 1) with 2; lra).
  apply mag_mult_bpow. assumption.
Qed.

Lemma format_double : forall x, generic_format radix2 fexp64 x -> generic_format radix2 fexp64 (2 * x).
Proof.
  intros x Hf. destruct (Req_dec x 0) as [->|Hx]; [rewrite Rmult_0_r; apply generic_format_0|].
  replace (2 * x) with (x * bpow radix2 1) by (change (bpow radix2 1) with 2; lra).
  apply generic_format_FLT. apply FLT_format_generic in Hf; [|reflexivity].
  destruct Hf as [f Ef Mf Xf]. exists (Float radix2 (Fnum f) (Fexp f + 1)).
  - rewrite Ef. unfold F2R. cbn [Fnum Fexp]. rewrite bpow_plus. ring.
  - exact Mf.
  - cbn [Fexp]. lia.
Qed.

Lemma one_half_64 : is_finite (one_half envIEEE) = true /\ B2R (one_half envIEEE) = / 2.
Proof.
  assert (E : B2SF (one_half envIEEE) = SpecFloat.S754_finite false 4503599627370496 (-53)) by (vm_compute; reflexivity).
  rewrite <- is_finite_SF_B2SF, <- SF2R_B2SF, E. split; [reflexivity|].
  unfold SF2R, F2R. cbn -[bpow]. change (bpow radix2 (-53)) with (/ 9007199254740992). lra.
Qed.

Lemma midpoint_64_value : forall a b, half_range a -> half_range b ->
  is_finite (@midpoint envIEEE a b) = true /\
  B2R (@midpoint envIEEE a b) = rnd64 (rnd64 (B2R a + B2R b) * / 2) /\
  Rmin (B2R a) (B2R b) <= B2R (@midpoint envIEEE a b) <= Rmax (B2R a) (B2R b).
Proof.
  intros a b [Fa La] [Fb Lb].
  set (x := B2R a) in *. set (y := B2R b) in *.
  assert (Hs : Rmin (2 * x) (2 * y) <= rnd64 (x + y) <= Rmax (2 * x) (2 * y)).
  { split.
    - apply round_ge_generic; [apply fexp_correct; reflexivity|apply valid_rnd_N| |].
      + unfold Rmin. destruct (Rle_dec _ _); apply format_double, format64.
      + unfold Rmin. destruct (Rle_dec _ _); lra.
    - apply round_le_generic; [apply fexp_correct; reflexivity|apply valid_rnd_N| |].
      + unfold Rmax. destruct (Rle_dec _ _); apply format_double, format64.
      + unfold Rmax. destruct (Rle_dec _ _); lra. }
  assert (B2 : bpow radix2 1024 = 2 * bpow radix2 1023).
  { change 1024%Z with (1 + 1023)%Z. rewrite bpow_plus. reflexivity. }
  apply Rabs_lt_inv in La. apply Rabs_lt_inv in Lb.
  assert (Ls : Rabs (rnd64 (x + y)) < bpow radix2 1024).
  { apply Rabs_lt. unfold Rmin, Rmax in Hs. destruct (Rle_dec _ _) in Hs; lra. }
  generalize (Bplus_correct 53 1024 _ _ mode_NE a b Fa Fb). cbn [round_mode]. fold x y.
  rewrite Rlt_bool_true by exact Ls. intros (Vs & Fs & _).
  destruct one_half_64 as [Fh Vh].
  assert (Hm : Rmin x y <= rnd64 (rnd64 (x + y) * / 2) <= Rmax x y).
  { split.
    - apply round_ge_generic; [apply fexp_correct; reflexivity|apply valid_rnd_N| |].
      + unfold Rmin. destruct (Rle_dec _ _); apply format64.
      + unfold Rmin in *. destruct (Rle_dec x y), (Rle_dec (2 * x) (2 * y)); lra.
    - apply round_le_generic; [apply fexp_correct; reflexivity|apply valid_rnd_N| |].
      + unfold Rmax. destruct (Rle_dec _ _); apply format64.
      + unfold Rmax in *. destruct (Rle_dec x y), (Rle_dec (2 * x) (2 * y)); lra. }
  generalize (Bmult_correct 53 1024 _ _ mode_NE (Bplus mode_NE a b) (one_half envIEEE)). cbn [round_mode].
  rewrite Vs, Vh. rewrite Rlt_bool_true.
  - intros (Vm & Fm & _). rewrite Fs, Fh in Fm. split; [exact Fm|]. split; [exact Vm|].
    change (@midpoint envIEEE a b) with (Bmult mode_NE (Bplus mode_NE a b) (one_half envIEEE)). rewrite Vm. exact Hm.
  - apply Rabs_lt. unfold Rmin, Rmax in Hm. destruct (Rle_dec x y); lra.
Qed.

Lemma midpoint_64 : forall a b, half_range a -> half_range b ->
  half_range (@midpoint envIEEE a b) /\ between (B2R a) (B2R b) (B2R (@midpoint envIEEE a b)).
Proof.
  intros a b Ha Hb. destruct (midpoint_64_value a b Ha Hb) as (Fm & _ & Hm).
  destruct Ha as [Fa La], Hb as [Fb Lb].
  apply Rabs_lt_inv in La. apply Rabs_lt_inv in Lb.
  split; [split; [exact Fm|apply Rabs_lt]|unfold between];
    unfold Rmin, Rmax in Hm; destruct (Rle_dec _ _); lra.
Qed.

(* Whatever the field returns. *)
Lemma bisect_64_inside : forall (F : b64 -> b64) steps c0 c1 f0 f1, half_range c0 -> half_range c1 ->
  half_range (@bisect envIEEE F steps c0 c1 f0 f1) /\
  between (B2R c0) (B2R c1) (B2R (@bisect envIEEE F steps c0 c1 f0 f1)).
Proof.
  intros F. induction steps as [|steps IH]; intros c0 c1 f0 f1 H0 H1.
  - cbn [bisect]. destruct (a_le _ _ _); (split; [assumption|unfold between; lra]).
  - cbn [bisect]. destruct (midpoint_64 c0 c1 H0 H1) as [Hm Bm].
    set (mid := @midpoint envIEEE c0 c1) in *.
    destruct (@same_sign envIEEE (F mid) f0).
    + destruct (IH mid c1 (F mid) f1 Hm H1) as [R1 R2]. split; [exact R1|]. unfold between in *. lra.
    + destruct (@same_sign envIEEE (F mid) f1).
      * destruct (IH c0 mid f0 (F mid) H0 Hm) as [R1 R2]. split; [exact R1|]. unfold between in *. lra.
      * destruct (a_le _ _ _); [split; assumption|].
        destruct (a_le _ _ _); (split; [assumption|unfold between; lra]).
Qed.

(* ---- accuracy ---- *)
Definition unit_round : R := bpow radix2 (-53).
Definition tiny : R := bpow radix2 (-1075).

Lemma round_error : forall x, Rabs (rnd64 x - x) <= unit_round * Rabs x + tiny.
Proof.
  intros x. destruct (error_N_FLT radix2 (-1074) 53 eq_refl (fun n => negb (Z.even n)) x) as (eps & eta & He & Ht & _ & E).
  change (round radix2 (FLT_exp (-1074) 53) (Znearest (fun n => negb (Z.even n))) x) with (rnd64 x) in E.
  rewrite E. replace (x * (1 + eps) + eta - x) with (eps * x + eta) by ring.
  eapply Rle_trans; [apply Rabs_triang|]. apply Rplus_le_compat.
  - rewrite Rabs_mult. apply Rmult_le_compat_r; [apply Rabs_pos|]. eapply Rle_trans; [exact He|].
    unfold unit_round. change (bpow radix2 (- (53) + 1)) with (bpow radix2 (1 + -53)). rewrite (bpow_plus radix2 1 (-53)). change (bpow radix2 1) with 2.
    clear. generalize (bpow radix2 (-53)). intros r. lra.
  - eapply Rle_trans; [exact Ht|]. unfold tiny. change (-1074)%Z with (1 + -1075)%Z. rewrite bpow_plus.
    change (bpow radix2 1) with 2. clear. generalize (bpow radix2 (-1075)). intros r. lra.
Qed.

Lemma midpoint_error : forall a b M, half_range a -> half_range b ->
  Rabs (B2R a) <= M -> Rabs (B2R b) <= M ->
  Rabs (B2R (@midpoint envIEEE a b) - (B2R a + B2R b) / 2) <= 2 * unit_round * M + 2 * tiny.
Proof.
  intros a b M Ha Hb Ma Mb. destruct (midpoint_64_value a b Ha Hb) as (_ & -> & _).
  set (x := B2R a) in *. set (y := B2R b) in *.
  assert (P1 : 0 < unit_round) by apply bpow_gt_0. assert (P2 : 0 < tiny) by apply bpow_gt_0.
  assert (Hs : Rmin (2 * x) (2 * y) <= rnd64 (x + y) <= Rmax (2 * x) (2 * y)).
  { split.
    - apply round_ge_generic; [apply fexp_correct; reflexivity|apply valid_rnd_N| |].
      + unfold Rmin. destruct (Rle_dec _ _); apply format_double, format64.
      + unfold Rmin. destruct (Rle_dec _ _); lra.
    - apply round_le_generic; [apply fexp_correct; reflexivity|apply valid_rnd_N| |].
      + unfold Rmax. destruct (Rle_dec _ _); apply format_double, format64.
      + unfold Rmax. destruct (Rle_dec _ _); lra. }
  pose proof (round_error (x + y)) as E1. pose proof (round_error (rnd64 (x + y) * / 2)) as E2.
  apply Rabs_le_inv in Ma. apply Rabs_le_inv in Mb.
  set (s := rnd64 (x + y)) in *. set (m := rnd64 (s * / 2)) in *.
  assert (A1 : Rabs (x + y) <= 2 * M) by (apply Rabs_le; lra).
  assert (A2 : Rabs (s * / 2) <= M).
  { apply Rabs_le. unfold Rmin, Rmax in Hs. destruct (Rle_dec (2 * x) (2 * y)); lra. }
  assert (B1 : unit_round * Rabs (x + y) <= unit_round * (2 * M)) by (apply Rmult_le_compat_l; lra).
  assert (B2 : unit_round * Rabs (s * / 2) <= unit_round * M) by (apply Rmult_le_compat_l; lra).
  assert (C1 : Rabs (s - (x + y)) <= unit_round * (2 * M) + tiny) by lra.
  assert (C2 : Rabs (m - s * / 2) <= unit_round * M + tiny) by lra.
  apply Rabs_le_inv in C1. apply Rabs_le_inv in C2. apply Rabs_le.
  assert (0 <= unit_round * M) by (apply Rmult_le_pos; lra). lra.
Qed.

(* Values whose products do not underflow. *)
Definition no_underflow (v : b64) : Prop :=
  is_finite v = true /\ (B2R v = 0 \/ bpow radix2 (-537) <= Rabs (B2R v)).

Lemma same_sign_64 : forall u v, no_underflow u -> no_underflow v ->
  (@same_sign envIEEE u v = true <-> 0 < B2R u * B2R v).
Proof.
  intros u v [Fu Lu] [Fv Lv].
  change (@same_sign envIEEE u v) with (Bltb (f64 0 0) (Bmult mode_NE u v)).
  assert (E0 : f64 0 0 = B754_zero false) by reflexivity. rewrite E0.
  generalize (Bmult_correct 53 1024 _ _ mode_NE u v). cbn [round_mode].
  destruct (Rlt_bool _ _) eqn:O.
  - intros (V & F & _). rewrite Fu, Fv in F. rewrite Bltb_correct by (assumption || reflexivity).
    rewrite V. cbn [B2R]. set (x := B2R u) in *. set (y := B2R v) in *.
    split.
    + intros T. destruct (Rlt_bool_spec 0 (rnd64 (x * y))) as [L|L]; [|discriminate].
      destruct (Rle_or_lt (x * y) 0) as [N|P]; [|exact P]. exfalso.
      assert (rnd64 (x * y) <= 0); [|lra].
      apply round_le_generic; [apply fexp_correct; reflexivity|apply valid_rnd_N|apply generic_format_0|exact N].
    + intros P. apply Rlt_bool_true.
      assert (bpow radix2 (-1074) <= rnd64 (x * y)).
      { apply round_ge_generic; [apply fexp_correct; reflexivity|apply valid_rnd_N| |].
        - apply generic_format_bpow. vm_compute. discriminate.
        - destruct Lu as [Z|Lu]; [rewrite Z in P; lra|]. destruct Lv as [Z|Lv]; [rewrite Z in P; lra|].
          rewrite <- (Rabs_pos_eq (x * y)) by lra. rewrite Rabs_mult.
          change (-1074)%Z with (-537 + -537)%Z. rewrite bpow_plus.
          apply Rmult_le_compat; try apply bpow_ge_0; assumption. }
      pose proof (bpow_gt_0 radix2 (-1074)). lra.
  - intros V. unfold Bltb. rewrite V. unfold binary_overflow, overflow_to_inf.
    assert (Hn : B2R u * B2R v <> 0).
    { intros Z. rewrite Z, round_0, Rabs_R0 in O by apply valid_rnd_N.
      rewrite Rlt_bool_true in O by apply bpow_gt_0. discriminate. }
    assert (Nu : B2R u <> 0) by (intros Z; rewrite Z, Rmult_0_l in Hn; auto).
    assert (Nv : B2R v <> 0) by (intros Z; rewrite Z, Rmult_0_r in Hn; auto).
    assert (S : forall w : b64, is_finite w = true -> B2R w <> 0 ->
      (Bsign w = true /\ B2R w < 0) \/ (Bsign w = false /\ 0 < B2R w)).
    { intros w Fw Nw. destruct w as [s|s| |s m e H]; try discriminate Fw; [cbn in Nw; lra|].
      destruct s; [left|right]; (split; [reflexivity|]); cbn [B2R].
      - apply F2R_lt_0. reflexivity.
      - apply F2R_gt_0. reflexivity. }
    destruct (S u Fu Nu) as [[-> Pu]|[-> Pu]], (S v Fv Nv) as [[-> Pv]|[-> Pv]]; cbn;
      (split; [intros T; try discriminate T; nra|intros T; try reflexivity; nra]).
Qed.

Lemma abs_le_64 : forall u v : b64, is_finite u = true -> is_finite v = true ->
  (Bleb u v = true <-> B2R u <= B2R v).
Proof.
  intros u v Fu Fv. rewrite Bleb_correct by assumption.
  destruct (Rle_bool_spec (B2R u) (B2R v)); split; intros; try reflexivity; try assumption; try discriminate; lra.
Qed.

(* One of the ends of a shrinking interval with a sign change. *)
Lemma bisect_64_bracket : forall (F : b64 -> b64) M A B steps c0 c1,
  (forall c, half_range c -> between A B (B2R c) -> no_underflow (F c)) ->
  between A B (B2R c0) -> between A B (B2R c1) ->
  half_range c0 -> half_range c1 -> Rabs (B2R c0) <= M -> Rabs (B2R c1) <= M ->
  B2R (F c0) * B2R (F c1) <= 0 ->
  exists a b, between (B2R c0) (B2R c1) (B2R a) /\ between (B2R c0) (B2R c1) (B2R b) /\
    B2R (F a) * B2R (F b) <= 0 /\
    Rabs (B2R b - B2R a) <= Rabs (B2R c1 - B2R c0) / 2 ^ steps + 2 * (2 * unit_round * M + 2 * tiny) * (1 - / 2 ^ steps) /\
    (@bisect envIEEE F steps c0 c1 (F c0) (F c1) = a \/ @bisect envIEEE F steps c0 c1 (F c0) (F c1) = b).
Proof.
  intros F M A B steps c0 c1 HF B0 B1 H0 H1 M0 M1 Hs. set (D := 2 * unit_round * M + 2 * tiny).
  assert (HD : 0 <= D).
  { unfold D. assert (0 < unit_round) by apply bpow_gt_0. assert (0 < tiny) by apply bpow_gt_0.
    assert (0 <= M) by (pose proof (Rabs_pos (B2R c0)); lra).
    assert (0 <= unit_round * M) by (apply Rmult_le_pos; lra). lra. }
  revert c0 c1 B0 B1 H0 H1 M0 M1 Hs.
  induction steps as [|steps IH]; intros c0 c1 B0 B1 H0 H1 M0 M1 Hs.
  - exists c0, c1. split; [unfold between; lra|]. split; [unfold between; lra|]. split; [assumption|].
    split; [simpl; lra|]. cbn [bisect]. destruct (a_le _ _ _); auto.
  - cbn [bisect]. destruct (midpoint_64 c0 c1 H0 H1) as [Hm Bm].
    pose proof (midpoint_error c0 c1 M H0 H1 M0 M1) as Em. fold D in Em.
    set (mid := @midpoint envIEEE c0 c1) in *.
    assert (Mm : Rabs (B2R mid) <= M).
    { apply Rabs_le_inv in M0. apply Rabs_le_inv in M1. apply Rabs_le. unfold between in Bm. lra. }
    assert (P2 : 0 < 2 ^ steps) by (apply pow_lt; lra).
    assert (P1 : 1 <= 2 ^ steps) by (apply pow_R1_Rle; lra).
    set (L := Rabs (B2R c1 - B2R c0)) in *.
    apply Rabs_le_inv in Em.
    assert (HL : Rabs (B2R c1 - B2R mid) <= L / 2 + D /\ Rabs (B2R mid - B2R c0) <= L / 2 + D).
    { unfold L. split; apply Rabs_le; unfold Rabs; destruct (Rcase_abs _); lra. }
    destruct HL as [HL1 HL0].
    assert (Step : forall u v : b64, Rabs (B2R v - B2R u) <= L / 2 + D ->
      Rabs (B2R v - B2R u) / 2 ^ steps + 2 * D * (1 - / 2 ^ steps) <= L / 2 ^ S steps + 2 * D * (1 - / 2 ^ S steps)).
    { intros u v Hl. cbn [pow]. rewrite Rinv_mult by lra. unfold Rdiv. rewrite Rinv_mult by lra.
      assert (0 < / 2 ^ steps) by (apply Rinv_0_lt_compat; lra). set (q := / 2 ^ steps) in *.
      assert (Rabs (B2R v - B2R u) * q <= (L / 2 + D) * q) by (apply Rmult_le_compat_r; lra). nra. }
    assert (BM : between A B (B2R mid)) by (unfold between in *; lra).
    pose proof (HF c0 H0 B0) as U0. pose proof (HF c1 H1 B1) as U1. pose proof (HF mid Hm BM) as UM.
    assert (Ff0 := proj1 U0). assert (Ff1 := proj1 U1). assert (Ffm := proj1 UM).
    destruct (@same_sign envIEEE (F mid) (F c0)) eqn:S0.
    + apply same_sign_64 in S0; [|assumption|assumption].
      destruct (IH mid c1 BM B1 Hm H1 Mm M1) as (a & b & Ba & Bb & Hab & Hl & Hr).
      * destruct (Req_dec (B2R (F c0)) 0); nra.
      * exists a, b. split; [unfold between in *; lra|]. split; [unfold between in *; lra|]. split; [assumption|].
        split; [|assumption]. eapply Rle_trans; [exact Hl|]. apply Step. assumption.
    + assert (N0 : B2R (F mid) * B2R (F c0) <= 0).
      { destruct (Rle_or_lt (B2R (F mid) * B2R (F c0)) 0) as [N|N]; [exact N|].
        apply same_sign_64 in N; [congruence|assumption|assumption]. }
      destruct (@same_sign envIEEE (F mid) (F c1)) eqn:S1.
      * apply same_sign_64 in S1; [|assumption|assumption].
        destruct (IH c0 mid B0 BM H0 Hm M0 Mm) as (a & b & Ba & Bb & Hab & Hl & Hr); [lra|].
        exists a, b. split; [unfold between in *; lra|]. split; [unfold between in *; lra|]. split; [assumption|].
        split; [|assumption]. eapply Rle_trans; [exact Hl|]. apply Step. assumption.
      * assert (N1 : B2R (F mid) * B2R (F c1) <= 0).
        { destruct (Rle_or_lt (B2R (F mid) * B2R (F c1)) 0) as [N|N]; [exact N|].
          apply same_sign_64 in N; [congruence|assumption|assumption]. }
        set (x := B2R (F c0)) in *. set (y := B2R (F c1)) in *. set (z := B2R (F mid)) in *.
        assert (Hz : z = 0 \/ x = 0 \/ y = 0).
        { destruct (Rtotal_order x 0) as [?|[?|?]]; auto; destruct (Rtotal_order y 0) as [?|[?|?]]; auto;
          destruct (Rtotal_order z 0) as [?|[?|?]]; auto; exfalso; nra. }
        assert (Hpow : 0 <= L / 2 ^ S steps + 2 * D * (1 - / 2 ^ S steps)).
        { assert (0 < / 2 ^ S steps <= 1).
          { split; [apply Rinv_0_lt_compat, pow_lt; lra|]. rewrite <- Rinv_1. apply Rinv_le_contravar; [lra|]. apply pow_R1_Rle. lra. }
          assert (0 <= L) by apply Rabs_pos. unfold Rdiv.
          assert (0 <= L * / 2 ^ S steps) by (apply Rmult_le_pos; lra).
          assert (0 <= D * (1 - / 2 ^ S steps)) by (apply Rmult_le_pos; lra). lra. }
        assert (Hzero : forall r, between (B2R c0) (B2R c1) (B2R r) -> B2R (F r) = 0 -> 
          exists a b, between (B2R c0) (B2R c1) (B2R a) /\ between (B2R c0) (B2R c1) (B2R b) /\
            B2R (F a) * B2R (F b) <= 0 /\ Rabs (B2R b - B2R a) <= L / 2 ^ S steps + 2 * D * (1 - / 2 ^ S steps) /\ (r = a \/ r = b)).
        { intros r Br Zr. exists r, r. rewrite Zr. split; [exact Br|]. split; [exact Br|]. split; [lra|].
          split; [|auto]. unfold Rminus at 1. rewrite Rplus_opp_r, Rabs_R0. exact Hpow. }
        assert (Fabs : forall u : b64, is_finite u = true -> is_finite (Babs u) = true) by (intros u; rewrite is_finite_Babs; auto).
        change (fp_d envIEEE) with arith64. unfold std_min. change (fp_d envIEEE) with arith64.
        change (a_abs arith64) with (@Babs 53 1024). change (a_lt arith64) with (@Bltb 53 1024).
        set (mn := if Bltb (Babs (F c1)) (Babs (F c0)) then Babs (F c1) else Babs (F c0)).
        match goal with |- context [a_le arith64 (Babs (F mid)) ?m] => change m with mn end.
        assert (Hmn : is_finite mn = true /\ B2R mn = Rmin (Rabs x) (Rabs y)).
        { unfold mn. rewrite Bltb_correct by auto. rewrite !B2R_Babs. fold x y.
          destruct (Rlt_bool_spec (Rabs y) (Rabs x)); (split; [auto|]); rewrite B2R_Babs; [fold y|fold x];
            unfold Rmin; destruct (Rle_dec _ _); lra. }
        destruct Hmn as [Fmn Vmn].
        pose proof (Rabs_pos x) as Px. pose proof (Rabs_pos y) as Py. pose proof (Rabs_pos z) as Pz.
        assert (NZ : forall r, Rabs r <= 0 -> r = 0).
        { intros r Hr. destruct (Req_dec r 0) as [?|N]; [assumption|]. apply Rabs_pos_lt in N. lra. }
        assert (ZR : forall r, r = 0 -> Rabs r = 0) by (intros r ->; apply Rabs_R0).
        match goal with |- context [if ?q then mid else _] => change q with (Bleb (Babs (F mid)) mn) end.
        match goal with |- context [if ?q then c0 else _] => change q with (Bleb (Babs (F c0)) (Babs (F c1))) end.
        destruct (Bleb (Babs (F mid)) mn) eqn:Q1.
        -- apply abs_le_64 in Q1; auto. rewrite Vmn, B2R_Babs in Q1. fold z in Q1. apply Hzero; [exact Bm|]. fold z.
           destruct Hz as [Z|[Z|Z]]; [exact Z| |]; apply NZ; pose proof (ZR _ Z); unfold Rmin in Q1; destruct (Rle_dec _ _); lra.
        -- assert (Q1' : Rmin (Rabs x) (Rabs y) < Rabs z).
           { destruct (Rle_or_lt (Rabs z) (Rmin (Rabs x) (Rabs y))) as [W|W]; [|exact W].
             rewrite <- Vmn in W. unfold z in W. rewrite <- B2R_Babs in W. apply abs_le_64 in W; auto. congruence. }
           assert (Hz' : x = 0 \/ y = 0).
           { destruct Hz as [Z|[Z|Z]]; auto. pose proof (ZR _ Z). unfold Rmin in Q1'. destruct (Rle_dec _ _); lra. }
           destruct (Bleb (Babs (F c0)) (Babs (F c1))) eqn:Q2.
           ++ apply abs_le_64 in Q2; auto. rewrite !B2R_Babs in Q2. fold x y in Q2. apply Hzero; [unfold between; lra|]. fold x.
              destruct Hz' as [Z|Z]; [exact Z|]. apply NZ. rewrite (ZR _ Z) in Q2. lra.
           ++ apply Hzero; [unfold between; lra|]. fold y. destruct Hz' as [Z|Z]; [|exact Z].
              exfalso. assert (W : B2R (Babs (F c0)) <= B2R (Babs (F c1))).
              { rewrite !B2R_Babs. fold x y. rewrite (ZR _ Z). exact Py. }
              apply abs_le_64 in W; auto. congruence.
Qed.
