(* Zero finders in exact arithmetic. *)
From Coq Require Import ZArith Reals Ranalysis5 List Bool Lia Lra Psatz.
From Verif Require Import Base Arith RealArith GridModel EdgeModel FillModel ZeroModel.
Import ListNotations.
Local Open Scope R_scope.

(* x lies in the closed interval with the ends a and b. *)
Definition between (a b x : R) : Prop := (a <= x <= b) \/ (b <= x <= a).

Definition continuous_between (F : R -> R) (a b : R) : Prop := forall x, between a b x -> continuity_pt F x.

Lemma zero_exists : forall F a b, continuous_between F a b -> F a * F b <= 0 -> exists z, between a b z /\ F z = 0.
Proof.
  intros F a b Hc Hs.
  destruct (Req_dec (F a) 0) as [Ha|Ha]; [exists a; split; [unfold between; lra|assumption]|].
  destruct (Req_dec (F b) 0) as [Hb|Hb]; [exists b; split; [unfold between; lra|assumption]|].
  assert (Hlt : F a * F b < 0) by (assert (F a * F b <> 0) by (apply Rmult_integral_contrapositive; auto); lra).
  assert (G : forall G u v, (forall x, u <= x <= v -> continuity_pt G x) -> u < v -> G u * G v < 0 -> exists z, u <= z <= v /\ G z = 0).
  { intros G u v HG Huv Hp. destruct (Rlt_dec (G u) 0) as [Hu|Hu].
    - destruct (IVT_interv G u v) as (z & Hz & Ez); [assumption|assumption|assumption|nra|]. exists z. split; assumption.
    - destruct (IVT_interv (fun x => - G x) u v) as (z & Hz & Ez); [|assumption| | |].
      + intros x Hx. apply continuity_pt_opp. apply HG. assumption.
      + destruct (Req_dec (G u) 0) as [Z|Z]; [rewrite Z in Hp; lra|lra].
      + assert (0 < G u) by (destruct (Req_dec (G u) 0) as [Z|Z]; [rewrite Z in Hp; lra|lra]). nra.
      + exists z. split; [assumption|lra]. }
  destruct (Rtotal_order a b) as [L|[->|L]].
  - destruct (G F a b) as (z & Hz & Ez); [intros; apply Hc; left; assumption|assumption|assumption|]. exists z. split; [left|]; assumption.
  - nra.
  - destruct (G F b a) as (z & Hz & Ez); [intros; apply Hc; right; assumption|assumption|lra|]. exists z. split; [right|]; assumption.
Qed.

Lemma same_sign_R : forall u v, @same_sign envR u v = true <-> 0 < u * v.
Proof. intros. apply Rltb_iff. Qed.
Lemma same_sign_R_false : forall u v, @same_sign envR u v = false <-> u * v <= 0.
Proof. intros. apply Rltb_false. Qed.

Lemma midpoint_R : forall a b, @midpoint envR a b = (a + b) / 2.
Proof. intros. unfold midpoint, one_half. cbn. lra. Qed.

(* One of the ends of a shrinking interval with a sign change, or an exact zero. *)
Lemma bisect_bracket : forall F steps c0 c1,
  F c0 * F c1 <= 0 ->
  exists a b, between c0 c1 a /\ between c0 c1 b /\ F a * F b <= 0 /\ Rabs (b - a) <= Rabs (c1 - c0) / 2 ^ steps /\
    (let r := @bisect envR F steps c0 c1 (F c0) (F c1) in
     (r = a \/ r = b) /\ Rabs (F r) <= Rabs (F a) /\ Rabs (F r) <= Rabs (F b)).
Proof.
  intros F. induction steps as [|steps IH]; intros c0 c1 Hs.
  - exists c0, c1. split; [unfold between; lra|]. split; [unfold between; lra|]. split; [assumption|].
    split; [simpl; lra|]. cbn [bisect].
    destruct (a_le (fp_d envR) (a_abs (fp_d envR) (F c0)) (a_abs (fp_d envR) (F c1))) eqn:Y;
      change (Rleb (Rabs (F c0)) (Rabs (F c1)) = true) in Y || change (Rleb (Rabs (F c0)) (Rabs (F c1)) = false) in Y.
    + apply Rleb_iff in Y. cbv zeta. split; [auto|]. split; [apply Rle_refl|exact Y].
    + apply Rleb_false in Y. cbv zeta. split; [auto|]. split; [apply Rlt_le; exact Y|apply Rle_refl].
  - cbn [bisect]. rewrite midpoint_R. set (mid := (c0 + c1) / 2).
    assert (Hm : between c0 c1 mid) by (unfold between, mid; lra).
    assert (P2 : 0 < 2 ^ steps) by (apply pow_lt; lra).
    assert (Half : forall u v, Rabs (v - u) = Rabs (c1 - c0) / 2 -> Rabs (v - u) / 2 ^ steps = Rabs (c1 - c0) / 2 ^ S steps).
    { intros u v ->. simpl. field. lra. }
    assert (L0 : Rabs (c1 - mid) = Rabs (c1 - c0) / 2).
    { replace (c1 - mid) with ((c1 - c0) / 2) by (unfold mid; lra). unfold Rdiv. rewrite Rabs_mult. f_equal. apply Rabs_pos_eq; lra. }
    assert (L1 : Rabs (mid - c0) = Rabs (c1 - c0) / 2).
    { replace (mid - c0) with ((c1 - c0) / 2) by (unfold mid; lra). unfold Rdiv. rewrite Rabs_mult. f_equal. apply Rabs_pos_eq; lra. }
    destruct (@same_sign envR (F mid) (F c0)) eqn:S0.
    + apply same_sign_R in S0. destruct (IH mid c1) as (a & b & Ba & Bb & Hab & Hl & Hr).
      * destruct (Req_dec (F c0) 0); [nra|]. nra.
      * rewrite (Half _ _ L0) in Hl. exists a, b. split; [unfold between in *; lra|]. split; [unfold between in *; lra|]. auto.
    + apply same_sign_R_false in S0. destruct (@same_sign envR (F mid) (F c1)) eqn:S1.
      * apply same_sign_R in S1. destruct (IH c0 mid) as (a & b & Ba & Bb & Hab & Hl & Hr).
        -- lra.
        -- rewrite (Half _ _ L1) in Hl. exists a, b. split; [unfold between in *; lra|]. split; [unfold between in *; lra|]. auto.
      * apply same_sign_R_false in S1.
        assert (Hz : F mid = 0 \/ F c0 = 0 \/ F c1 = 0).
        { destruct (Req_dec (F mid) 0); [auto|]. destruct (Req_dec (F c0) 0); [auto|]. right; right.
          destruct (Req_dec (F c1) 0); [auto|]. exfalso.
          assert (N : forall x, x <> 0 -> 0 < x * x) by (intros; nra).
          assert (0 < (F mid * F c0) * (F mid * F c0)) by (apply N, Rmult_integral_contrapositive; auto).
          assert (0 < (F mid * F c1) * (F mid * F c1)) by (apply N, Rmult_integral_contrapositive; auto).
          assert (X0 : F mid * F c0 < 0) by nra. assert (X1 : F mid * F c1 < 0) by nra.
          assert (0 < (F mid * F c0) * (F mid * F c1)) by nra.
          assert (0 < F mid * F mid) by (apply N; assumption). nra. }
        assert (Hpow : 0 <= Rabs (c1 - c0) / 2 ^ S steps).
        { apply Rmult_le_pos; [apply Rabs_pos|]. apply Rlt_le, Rinv_0_lt_compat. simpl. lra. }
        (* the point returned is a zero *)
        assert (Hzero : exists r, between c0 c1 r /\ F r = 0 /\
          (if a_le (fp_d envR) (a_abs (fp_d envR) (F mid)) (std_min envR (a_abs (fp_d envR) (F c0)) (a_abs (fp_d envR) (F c1)))
           then mid
           else if a_le (fp_d envR) (a_abs (fp_d envR) (F c0)) (a_abs (fp_d envR) (F c1)) then c0 else c1) = r).
        { eexists. split; [|split; [|reflexivity]].
          - match goal with |- between _ _ (if ?t then _ else _) => destruct t end; [assumption|].
            match goal with |- between _ _ (if ?t then _ else _) => destruct t end; unfold between; lra.
          - match goal with |- F (if ?t then _ else _) = 0 => destruct t eqn:Y end;
              change (Rleb (Rabs (F mid)) (if Rltb (Rabs (F c1)) (Rabs (F c0)) then Rabs (F c1) else Rabs (F c0)) = true) in Y ||
              change (Rleb (Rabs (F mid)) (if Rltb (Rabs (F c1)) (Rabs (F c0)) then Rabs (F c1) else Rabs (F c0)) = false) in Y.
            + apply Rleb_iff in Y. destruct Hz as [Hz|[Hz|Hz]]; [assumption| |].
              * rewrite Hz, Rabs_R0 in Y. destruct (Rltb (Rabs (F c1)) 0) eqn:W.
                -- apply Rltb_iff in W. pose proof (Rabs_pos (F c1)). lra.
                -- destruct (Req_dec (F mid) 0) as [|N]; [assumption|]. apply Rabs_pos_lt in N. lra.
              * rewrite Hz, Rabs_R0 in Y. destruct (Rltb 0 (Rabs (F c0))) eqn:W.
                -- destruct (Req_dec (F mid) 0) as [|N]; [assumption|]. apply Rabs_pos_lt in N. lra.
                -- apply Rltb_false in W. destruct (Req_dec (F mid) 0) as [|N]; [assumption|]. apply Rabs_pos_lt in N. lra.
            + apply Rleb_false in Y. match goal with |- F (if ?t then _ else _) = 0 => destruct t eqn:W end;
              change (Rleb (Rabs (F c0)) (Rabs (F c1)) = true) in W || change (Rleb (Rabs (F c0)) (Rabs (F c1)) = false) in W.
              * apply Rleb_iff in W. destruct Hz as [Hz|[Hz|Hz]].
                -- rewrite Hz, Rabs_R0 in Y. destruct (Rltb (Rabs (F c1)) (Rabs (F c0)));
                     [pose proof (Rabs_pos (F c1))|pose proof (Rabs_pos (F c0))]; lra.
                -- assumption.
                -- rewrite Hz, Rabs_R0 in W. destruct (Req_dec (F c0) 0) as [|N]; [assumption|]. apply Rabs_pos_lt in N. lra.
              * apply Rleb_false in W. destruct Hz as [Hz|[Hz|Hz]].
                -- rewrite Hz, Rabs_R0 in Y. destruct (Rltb (Rabs (F c1)) (Rabs (F c0)));
                     [pose proof (Rabs_pos (F c1))|pose proof (Rabs_pos (F c0))]; lra.
                -- rewrite Hz, Rabs_R0 in W. pose proof (Rabs_pos (F c1)). lra.
                -- assumption. }
        destruct Hzero as (r & Hb & Hr0 & Hr). exists r, r. split; [assumption|]. split; [assumption|].
        split; [rewrite Hr0; lra|]. split; [rewrite Rminus_diag_eq, Rabs_R0; [assumption|reflexivity]|].
        cbv zeta. cbn [bisect] in *. match goal with |- (?x = r \/ _) /\ _ => assert (Hx : x = r) by exact Hr; rewrite Hx end.
        split; [auto|]. split; apply Rle_refl.
Qed.

Lemma bisect_accuracy : forall F steps c0 c1, continuous_between F c0 c1 -> F c0 * F c1 <= 0 ->
  let r := @bisect envR F steps c0 c1 (F c0) (F c1) in
  between c0 c1 r /\ exists z, between c0 c1 z /\ F z = 0 /\ Rabs (r - z) <= Rabs (c1 - c0) / 2 ^ steps.
Proof.
  intros F steps c0 c1 Hc Hs. destruct (bisect_bracket F steps c0 c1 Hs) as (a & b & Ba & Bb & Hab & Hl & Hr & _).
  destruct (zero_exists F a b) as (z & Bz & Hz); [|assumption|].
  { intros x Hx. apply Hc. unfold between in *. lra. }
  cbv zeta. split; [destruct Hr as [-> | ->]; assumption|].
  exists z. split; [unfold between in *; lra|]. split; [assumption|]. eapply Rle_trans; [|exact Hl].
  destruct Hr as [-> | ->]; unfold Rabs; destruct (Rcase_abs _), (Rcase_abs _); unfold between in Bz; lra.
Qed.

(* ---- regula falsi ---- *)

(* Strictly inside the interval. *)
Definition strictly_between (a b x : R) : Prop := (a < x < b) \/ (b < x < a).

Lemma secant_inside : forall c0 c1 f0 f1, c0 <> c1 -> f0 * f1 < 0 ->
  f1 - f0 <> 0 /\ strictly_between c0 c1 (@secant envR c0 c1 f0 f1).
Proof.
  intros c0 c1 f0 f1 Hc Hf. assert (Hd : f1 - f0 <> 0) by (intro; assert (f1 = f0) by lra; subst; nra).
  split; [assumption|]. unfold secant. cbn.
  set (t := - f0 / (f1 - f0)).
  assert (Ht : 0 < t < 1).
  { unfold t. destruct (Rlt_dec f0 0).
    - assert (0 < f1) by nra. split.
      + apply Rmult_lt_0_compat; [lra|apply Rinv_0_lt_compat; lra].
      + apply (Rmult_lt_reg_r (f1 - f0)); [lra|]. unfold Rdiv. rewrite Rmult_assoc, Rinv_l by lra. lra.
    - assert (0 < f0) by nra. assert (f1 < 0) by nra. replace (- f0 / (f1 - f0)) with (f0 / (f0 - f1)) by (field; lra). split.
      + apply Rmult_lt_0_compat; [lra|apply Rinv_0_lt_compat; lra].
      + apply (Rmult_lt_reg_r (f0 - f1)); [lra|]. unfold Rdiv. rewrite Rmult_assoc, Rinv_l by lra. lra. }
  replace ((c0 * f1 - c1 * f0) / (f1 - f0)) with (c0 + t * (c1 - c0)) by (unfold t; field; assumption).
  unfold strictly_between. destruct (Rtotal_order c0 c1) as [L|[L|L]]; [left|contradiction|right]; nra.
Qed.

Lemma damping_positive : forall v fe, 0 < @damping envR v fe.
Proof.
  intros v fe. unfold damping, one_half. cbn. destruct (Rleb (1 - v / fe) 0) eqn:Y; [lra|]. apply Rleb_false in Y. assumption.
Qed.

Lemma sign_trans : forall x y z, 0 < x * y -> y * z < 0 -> x * z < 0.
Proof.
  intros x y z H1 H2. destruct (Rlt_dec (x * z) 0) as [|N]; [assumption|]. exfalso.
  assert (0 <= (y * y) * (x * z)) by (apply Rmult_le_pos; [nra|lra]).
  assert (0 < (x * y) * - (y * z)) by (apply Rmult_lt_0_compat; lra). nra.
Qed.

Lemma sign_scale : forall x k, x < 0 -> 0 < k -> x * k < 0.
Proof. intros. assert (0 < - x * k) by (apply Rmult_lt_0_compat; lra). lra. Qed.

Definition history := list (R * R * R).

(* What the history of a run says. *)
Definition good_history (F : R -> R) (a b : R) (h : history) : Prop :=
  Forall (fun x => let '(c0, c1, mid) := x in
    between a b c0 /\ between a b c1 /\ F c0 * F c1 < 0 /\ strictly_between c0 c1 mid) h.

Lemma last_cons : forall A (l : list A) x d, last l x = last (x :: l) d.
Proof. induction l as [|a l IH]; intros x d; [reflexivity|]. change (last (x :: a :: l) d) with (last (a :: l) d). rewrite <- !IH. reflexivity. Qed.

Lemma falsi_ok : forall F a b steps side mid c0 c1 f0 f1,
  between a b c0 -> between a b c1 -> c0 <> c1 -> f0 * f1 < 0 -> 0 < f0 * F c0 -> 0 < f1 * F c1 ->
  let '(r, h) := @falsi envR F steps side mid c0 c1 f0 f1 in
  good_history F a b h /\ (length h <= steps)%nat /\ r = last (map snd h) mid /\
  ((length h < steps)%nat -> F r = 0).
Proof.
  intros F a b. induction steps as [|steps IH]; intros side mid c0 c1 f0 f1 B0 B1 Hc Hf S0 S1.
  - cbn [falsi]. split; [constructor|]. split; [constructor|]. split; [reflexivity|]. intro X. inversion X.
  - cbn [falsi]. set (m := @secant envR c0 c1 f0 f1).
    destruct (secant_inside c0 c1 f0 f1 Hc Hf) as [_ Hm]. fold m in Hm.
    assert (Bm : between a b m) by (unfold between, strictly_between in *; lra).
    assert (SC : F c0 * F c1 < 0).
    { assert (0 < (f0 * F c0) * (f1 * F c1)) by (apply Rmult_lt_0_compat; assumption). nra. }
    destruct (@same_sign envR (F m) f0) eqn:T0.
    + apply same_sign_R in T0.
      set (f1' := if (side =? -1)%Z then a_mul (fp_d envR) f1 (damping envR (F m) f0) else f1).
      assert (P : exists k, 0 < k /\ f1' = f1 * k).
      { unfold f1'. destruct (side =? -1)%Z; [exists (damping envR (F m) f0); split; [apply damping_positive|reflexivity]|exists 1; split; lra]. }
      destruct P as (k & Hk & Ek).
      specialize (IH (-1)%Z m m c1 (F m) f1' Bm B1).
      destruct (@falsi envR F steps (-1) m m c1 (F m) f1') as [r h].
      destruct IH as (G & L & R & Z).
      * unfold strictly_between in Hm. lra.
      * rewrite Ek, <- Rmult_assoc. apply sign_scale; [|assumption]. exact (sign_trans _ _ _ T0 Hf).
      * destruct (Req_dec (F m) 0) as [Y|Y]; [rewrite Y in T0; lra|]. pose proof (Rsqr_pos_lt _ Y). unfold Rsqr in *. assumption.
      * rewrite Ek. replace (f1 * k * F c1) with ((f1 * F c1) * k) by ring. apply Rmult_lt_0_compat; assumption.
      * split; [constructor; auto|]. split; [apply le_n_S; exact L|]. split.
        -- rewrite R. cbn [map snd]. apply last_cons.
        -- intro X. apply Z. exact (le_S_n _ _ X).
    + apply same_sign_R_false in T0. destruct (@same_sign envR (F m) f1) eqn:T1.
      * apply same_sign_R in T1.
        set (f0' := if (side =? 1)%Z then a_mul (fp_d envR) f0 (damping envR (F m) f1) else f0).
        assert (P : exists k, 0 < k /\ f0' = f0 * k).
        { unfold f0'. destruct (side =? 1)%Z; [exists (damping envR (F m) f1); split; [apply damping_positive|reflexivity]|exists 1; split; lra]. }
        destruct P as (k & Hk & Ek).
        specialize (IH 1%Z m c0 m f0' (F m) B0 Bm).
        destruct (@falsi envR F steps 1 m c0 m f0' (F m)) as [r h].
        destruct IH as (G & L & R & Z).
        -- unfold strictly_between in Hm. lra.
        -- rewrite Ek. replace (f0 * k * F m) with ((F m * f0) * k) by ring. apply sign_scale; [|assumption].
           apply (sign_trans _ f1); [assumption|lra].
        -- rewrite Ek. replace (f0 * k * F c0) with ((f0 * F c0) * k) by ring. apply Rmult_lt_0_compat; assumption.
        -- destruct (Req_dec (F m) 0) as [Y|Y]; [rewrite Y in T1; lra|]. pose proof (Rsqr_pos_lt _ Y). unfold Rsqr in *. assumption.
        -- split; [constructor; auto|]. split; [apply le_n_S; exact L|]. split.
           ++ rewrite R. cbn [map snd]. apply last_cons.
           ++ intro X. apply Z. exact (le_S_n _ _ X).
      * apply same_sign_R_false in T1.
        split; [constructor; [auto|constructor]|]. split; [simpl; lia|]. split; [reflexivity|]. intros _.
        destruct (Req_dec (F m) 0) as [|N]; [assumption|]. exfalso.
        destruct (Rlt_dec f0 0).
        -- assert (0 < f1) by nra. assert (0 <= F m) by nra. assert (F m <= 0) by nra. lra.
        -- assert (0 < f0) by nra. assert (f1 < 0) by nra. assert (F m <= 0) by nra. assert (0 <= F m) by nra. lra.
Qed.
