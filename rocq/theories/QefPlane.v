(* The QEF solver in three dimensions given planes with one common normal: merging, and how many
   directions it counts. *)
From Coq Require Import ZArith List Bool Lia Reals Lra.
From Verif Require Import Base Arith RealArith FillModel UdcModel QefModel QefSpec QefLin QefHouse QefProofs XReal QefJacobi QefFlat SolverModel.
Import ListNotations.
Local Open Scope R_scope.

(* the functions of the mathematical library without rounding *)
Definition true_hypot (x y : R) : R := sqrt (x * x + y * y).
Definition true_copysign (x y : R) : R := if Rltb y 0 then - Rabs x else Rabs x.

(* ---- sine and cosine ---- *)
Lemma true_angle : forall (fast : bool) t c s,
  (if fast then sincos_fast arithR true_hypot true_copysign t else sincos_accurate arithR sin cos atan t) = (s, c) -> angle (Fin t) c s.
Proof.
  intros fast t c s H. destruct fast.
  - unfold sincos_fast in H. cbn [arithR a_div a_add a_sub a_ofZ a_sqrt] in H. unfold true_hypot, true_copysign in H. injection H as <- <-. cbn [angle].
    replace (1 * 1) with 1 by ring. pose proof (hyp_ge1 t) as H1. set (h := sqrt (1 + t * t)) in *.
    assert (I1 : 0 < / h) by (apply Rinv_0_lt_compat; lra). assert (I2 : / h <= 1) by (rewrite <- Rinv_1; apply Rinv_le_contravar; lra).
    replace (1 / 2 / h) with (/ 2 * / h) by (field; lra).
    assert (S1 : sqrt (1 / 2 + / 2 * / h) * sqrt (1 / 2 + / 2 * / h) = 1 / 2 + / 2 * / h) by (apply sqrt_sqrt; lra).
    assert (S2 : sqrt (1 / 2 - / 2 * / h) * sqrt (1 / 2 - / 2 * / h) = 1 / 2 - / 2 * / h) by (apply sqrt_sqrt; lra).
    pose proof (sqrt_pos (1 / 2 - / 2 * / h)) as P2. rewrite Rabs_right by lra.
    assert (Q : 2 * (sqrt (1 / 2 + / 2 * / h) * sqrt (1 / 2 - / 2 * / h)) = Rabs t * / h).
    { rewrite <- sqrt_mult by lra. transitivity (sqrt (2 * 2) * sqrt ((1 / 2 + / 2 * / h) * (1 / 2 - / 2 * / h))); [rewrite sqrt_square by lra; reflexivity|]. rewrite <- sqrt_mult; [|lra|apply Rmult_le_pos; lra].
      replace (Rabs t * / h) with (sqrt ((Rabs t * / h) * (Rabs t * / h))) by (apply sqrt_square; apply Rmult_le_pos; [apply Rabs_pos | lra]).
      f_equal. assert (Hh : h * h = 1 + t * t) by (apply sqrt_sqrt; pose proof (Rle_0_sqr t); unfold Rsqr in *; lra).
      replace (Rabs t * / h * (Rabs t * / h)) with ((Rabs t * Rabs t) / (h * h)) by (field; lra).
      rewrite <- Rabs_mult, Rabs_right by (pose proof (Rle_0_sqr t); unfold Rsqr in *; lra).
      replace (2 * 2 * ((1 / 2 + / 2 * / h) * (1 / 2 - / 2 * / h))) with ((h * h - 1) / (h * h)) by (field; lra). rewrite Hh. f_equal. ring. }
    destruct (Rltb t 0) eqn:E; [apply Rltb_iff in E | apply Rltb_false in E].
    + rewrite Rabs_left in Q by auto. split; [|split]; nra.
    + rewrite Rabs_right in Q by lra. split; [|split]; nra.
  - unfold sincos_accurate in H. cbn [arithR a_div a_mul a_ofZ] in H. injection H as <- <-. cbn [angle].
    replace (1 / 2 * atan t) with (atan t * / 2) by field. set (u := atan t).
    pose proof (cos_2a (u * / 2)) as E1. pose proof (sin_2a (u * / 2)) as E2. replace (2 * (u * / 2)) with u in * by field.
    pose proof (sin2_cos2 (u * / 2)) as E3. unfold Rsqr in E3. destruct (double_atan t) as [D1 D2]. fold u in D1, D2. split; [lra|]. split; lra.
Qed.

(* ---- Jacobi rotations of a matrix of rank one ---- *)
(* the entries on and above the diagonal are those of K v v^T *)
Definition rank_one (K : R) (v : nat -> R) (m : fmat R) : Prop := forall i j, (i <= j < 3)%nat -> m i j = K * v i * v j.
Definition rotated (v : nat -> R) (c s : R) (i j : nat) : nat -> R :=
  fun k => if Nat.eqb k i then c * v i + s * v j else if Nat.eqb k j then - s * v i + c * v j else v k.

Lemma rotate_rank_one : forall K v m h c s i j, rank_one K v m -> (i < j < 3)%nat -> c * c + s * s = 1 ->
  K * (c * s * (v j * v j - v i * v i) + (c * c - s * s) * (v i * v j)) = 0 ->
  rank_one K (rotated v c s i j) (fst (rotate arithR 3 m h c s i j)).
Proof.
  intros K v m h c s i j H Hij Hcs Hz.
  assert (C : ((i = 0 /\ j = 1) \/ (i = 0 /\ j = 2) \/ (i = 1 /\ j = 2))%nat) by lia.
  pose proof (H 0%nat 0%nat ltac:(lia)) as H00. pose proof (H 0%nat 1%nat ltac:(lia)) as H01. pose proof (H 0%nat 2%nat ltac:(lia)) as H02.
  pose proof (H 1%nat 1%nat ltac:(lia)) as H11. pose proof (H 1%nat 2%nat ltac:(lia)) as H12. pose proof (H 2%nat 2%nat ltac:(lia)) as H22. clear H.
  intros a b Hab.
  assert (B : ((a = 0 /\ b = 0) \/ (a = 0 /\ b = 1) \/ (a = 0 /\ b = 2) \/ (a = 1 /\ b = 1) \/ (a = 1 /\ b = 2) \/ (a = 2 /\ b = 2))%nat) by lia.
  destruct C as [[-> ->]|[[-> ->]|[-> ->]]]; decompose [or and] B; subst; unfold rotate, rotate_entry, rotated, upd;
    cbn -[Rmult Rplus Rminus Ropp IZR]; rewrite ?H00, ?H01, ?H02, ?H11, ?H12, ?H22; first [ring|etransitivity; [symmetry; exact Hz|cbn; ring]].
Qed.

Lemma rotated_norm : forall v c s i j, (i < j < 3)%nat -> c * c + s * s = 1 ->
  rotated v c s i j 0%nat * rotated v c s i j 0%nat + rotated v c s i j 1%nat * rotated v c s i j 1%nat + rotated v c s i j 2%nat * rotated v c s i j 2%nat =
  v 0%nat * v 0%nat + v 1%nat * v 1%nat + v 2%nat * v 2%nat.
Proof.
  intros v c s i j Hij Hcs. assert (E : c * c = 1 - s * s) by lra.
  assert (P : forall a b, (c * a + s * b) * (c * a + s * b) + (- s * a + c * b) * (- s * a + c * b) = a * a + b * b).
  { intros a b. replace ((c * a + s * b) * (c * a + s * b) + (- s * a + c * b) * (- s * a + c * b)) with ((c * c + s * s) * (a * a + b * b)) by ring. rewrite Hcs. ring. }
  assert (C : ((i = 0 /\ j = 1) \/ (i = 0 /\ j = 2) \/ (i = 1 /\ j = 2))%nat) by lia.
  destruct C as [[-> ->]|[[-> ->]|[-> ->]]]; unfold rotated; cbn [Nat.eqb].
  - pose proof (P (v 0%nat) (v 1%nat)). lra.
  - pose proof (P (v 0%nat) (v 2%nat)). lra.
  - pose proof (P (v 1%nat) (v 2%nat)). lra.
Qed.

Definition settled (K tol : R) (v : nat -> R) : Prop := forall i j, (i < j < 3)%nat -> Rabs (K * v i * v j) <= tol.
Definition norm_of (v : nat -> R) : R := v 0%nat * v 0%nat + v 1%nat * v 1%nat + v 2%nat * v 2%nat.

Lemma step_rank_one : forall (fast : bool) K v m h i j s c, 0 < K -> rank_one K v m -> (i < j < 3)%nat -> v i * v i <> v j * v j ->
  (if fast then sincos_fast arithR true_hypot true_copysign ((m i j + m i j) / (m i i - m j j)) else sincos_accurate arithR sin cos atan ((m i j + m i j) / (m i i - m j j))) = (s, c) ->
  let v' := rotated v c s i j in
  rank_one K v' (fst (rotate arithR 3 m h c s i j)) /\ v' i * v' j = 0 /\ v' i * v' i + v' j * v' j = v i * v i + v j * v j /\
  (forall k, k <> i -> k <> j -> v' k = v k) /\ norm_of v' = norm_of v.
Proof.
  intros fast K v m h i j s c HK Hm Hij Hne Hsc v'. apply true_angle in Hsc. cbn [angle] in Hsc. destruct Hsc as (A1 & A2 & A3).
  rewrite (Hm i j ltac:(lia)), (Hm i i ltac:(lia)), (Hm j j ltac:(lia)) in A2, A3.
  assert (Ht : (K * v i * v j + K * v i * v j) / (K * v i * v i - K * v j * v j) = 2 * (v i * v j) / (v i * v i - v j * v j)).
  { field. split; [lra|]. replace (K * v i * v i - K * v j * v j) with (K * (v i * v i - v j * v j)) by ring. apply Rmult_integral_contrapositive_currified; lra. }
  rewrite Ht in A2, A3. set (t := 2 * (v i * v j) / (v i * v i - v j * v j)) in *. pose proof (hyp_ge1 t) as H1. set (hh := sqrt (1 + t * t)) in *.
  assert (Z : c * s * (v j * v j - v i * v i) + (c * c - s * s) * (v i * v j) = 0).
  { rewrite A2. replace (c * s) with (t * / hh / 2) by lra. assert (E : t * (v i * v i - v j * v j) = 2 * (v i * v j)) by (unfold t; field; lra).
    replace (t * / hh / 2 * (v j * v j - v i * v i) + / hh * (v i * v j)) with (/ hh * (v i * v j - t * (v i * v i - v j * v j) / 2)) by (field; lra). rewrite E. field. lra. }
  assert (Ei : v' i = c * v i + s * v j) by (unfold v', rotated; rewrite Nat.eqb_refl; reflexivity).
  assert (Ej : v' j = - s * v i + c * v j) by (unfold v', rotated; rewrite Nat.eqb_refl; destruct (Nat.eqb_spec j i); [lia|reflexivity]).
  split; [apply rotate_rank_one; [exact Hm|exact Hij|exact A1|rewrite Z; ring]|].
  split; [rewrite Ei, Ej, <- Z; ring|].
  split. { rewrite Ei, Ej. replace ((c * v i + s * v j) * (c * v i + s * v j) + (- s * v i + c * v j) * (- s * v i + c * v j)) with ((c * c + s * s) * (v i * v i + v j * v j)) by ring. rewrite A1. ring. }
  split. { intros k K1 K2. unfold v', rotated. destruct (Nat.eqb_spec k i); [contradiction|]. destruct (Nat.eqb_spec k j); [contradiction|reflexivity]. }
  apply rotated_norm; assumption.
Qed.

Notation true_loop tol fast := (jacobi_loop arithR true_hypot true_copysign sin cos atan 3 tol fast).

Lemma loop_settled : forall tol fast iters K v m h, rank_one K v m -> settled K tol v -> fst (true_loop tol fast iters m h) = m.
Proof.
  intros tol fast iters K v m h Hm Hs. destruct iters as [|iters]; [reflexivity|]. cbn [jacobi_loop].
  destruct (largest_at 3 (or_introl eq_refl) m) as (i & j & Hij & -> & _). cbn [arithR a_le].
  rewrite (Hm i j ltac:(lia)). rewrite (proj2 (Rleb_iff _ _) (Hs i j Hij)). reflexivity.
Qed.

(* one component is zero *)
Lemma loop_two : forall tol fast iters K v m h z, 0 <= tol -> 0 < K -> (0 < iters)%nat -> rank_one K v m -> (z < 3)%nat -> v z = 0 ->
  (forall i j, (i < j < 3)%nat -> i <> z -> j <> z -> v i * v i <> v j * v j) ->
  exists v', rank_one K v' (fst (true_loop tol fast iters m h)) /\ settled K tol v' /\ norm_of v' = norm_of v.
Proof.
  intros tol fast iters K v m h z Ht HK Hi Hm Hz0 Hz Hne. destruct iters as [|iters]; [lia|]. cbn [jacobi_loop].
  destruct (largest_at 3 (or_introl eq_refl) m) as (i & j & Hij & -> & Hmax). cbn [arithR a_le a_add a_sub a_div]. rewrite (Hm i j ltac:(lia)).
  destruct (Rleb (Rabs (K * v i * v j)) tol) eqn:E.
  - apply Rleb_iff in E. exists v. split; [exact Hm|]. split; [|reflexivity]. intros a b Hab. specialize (Hmax a b Hab). rewrite !Hm in Hmax by lia. lra.
  - apply Rleb_false in E.
    assert (Ni : i <> z) by (intros ->; rewrite Hz, Rmult_0_r, Rmult_0_l, Rabs_R0 in E; lra).
    assert (Nj : j <> z) by (intros ->; rewrite Hz, Rmult_0_r, Rabs_R0 in E; lra).
    destruct (if fast then _ else _) as [s c] eqn:X. rewrite <- (Hm i j ltac:(lia)) in X.
    destruct (step_rank_one fast K v m h i j s c HK Hm Hij (Hne i j Hij Ni Nj) X) as (S1 & S2 & S3 & S4 & S5). cbv zeta in S1, S2, S3, S4, S5.
    destruct (rotate arithR 3 m h c s i j) as [m' h']. cbn [fst] in S1. set (v' := rotated v c s i j) in *.
    assert (Hs : settled K tol v').
    { intros a b Hab. assert (Zk : v' z = 0) by (rewrite S4 by auto; exact Hz).
      assert (P : v' a * v' b = 0).
      { destruct (Nat.eq_dec a z) as [->|Na]; [rewrite Zk; ring|]. destruct (Nat.eq_dec b z) as [->|Nb]; [rewrite Zk; ring|].
        assert (a = i /\ b = j) as [-> ->] by lia. exact S2. }
      rewrite Rmult_assoc, P, Rmult_0_r, Rabs_R0. exact Ht. }
    exists v'. rewrite (loop_settled tol fast iters K v' m' h' S1 Hs). split; [exact S1|]. split; [exact Hs|exact S5].
Qed.

(* one component is larger than the other two *)
Definition dominant (v : nat -> R) : Prop := exists p, (p < 3)%nat /\ forall j, (j < 3)%nat -> j <> p -> Rabs (v j) < Rabs (v p).

Lemma loop_dominant : forall tol fast iters K v m h, 0 <= tol -> 0 < K -> (1 < iters)%nat -> rank_one K v m -> dominant v ->
  exists v', rank_one K v' (fst (true_loop tol fast iters m h)) /\ settled K tol v' /\ norm_of v' = norm_of v.
Proof.
  intros tol fast iters K v m h Ht HK Hi Hm (p & Hp & Hd). destruct iters as [|iters]; [lia|]. cbn [jacobi_loop].
  destruct (largest_at 3 (or_introl eq_refl) m) as (i & j & Hij & -> & Hmax). cbn [arithR a_le a_add a_sub a_div]. rewrite (Hm i j ltac:(lia)).
  destruct (Rleb (Rabs (K * v i * v j)) tol) eqn:E.
  - apply Rleb_iff in E. exists v. split; [exact Hm|]. split; [|reflexivity]. intros a b Hab. specialize (Hmax a b Hab). rewrite !Hm in Hmax by lia. lra.
  - apply Rleb_false in E.
    assert (Pr : forall a b, (a < 3)%nat -> (b < 3)%nat -> a <> b -> Rabs (v a) * Rabs (v b) <= Rabs (v i) * Rabs (v j)).
    { intros a b Ha Hb Hab. assert (C : (a < b \/ b < a)%nat) by lia.
      assert (G : forall a b, (a < b < 3)%nat -> Rabs (v a) * Rabs (v b) <= Rabs (v i) * Rabs (v j)).
      { clear - Hmax Hm HK Hij. intros a b H. specialize (Hmax a b H). rewrite !Hm, !Rabs_mult, (Rabs_right K) in Hmax by (lia || lra). rewrite !Rmult_assoc in Hmax. apply Rmult_le_reg_l in Hmax; assumption. }
      destruct C as [C|C]; [apply G; lia|]. rewrite Rmult_comm. apply G. lia. }
    assert (Nz : 0 < Rabs (v i) * Rabs (v j)).
    { rewrite !Rabs_mult, (Rabs_right K), Rmult_assoc in E by lra. assert (0 < K * (Rabs (v i) * Rabs (v j))) by lra. apply Rmult_lt_reg_l with K; lra. }
    pose proof (Rabs_pos (v i)) as Pi. pose proof (Rabs_pos (v j)) as Pj.
    assert (Hpij : i = p \/ j = p).
    { destruct (Nat.eq_dec i p) as [X|X]; [left; exact X|]. destruct (Nat.eq_dec j p) as [Y|Y]; [right; exact Y|exfalso].
      pose proof (Hd i ltac:(lia) X). pose proof (Pr p j Hp ltac:(lia) ltac:(auto)). nra. }
    assert (Sq : forall a, v a * v a = Rabs (v a) * Rabs (v a)) by (intro a; rewrite <- Rabs_mult, Rabs_right; [reflexivity|apply Rle_ge, Rle_0_sqr]).
    assert (Hne : v i * v i <> v j * v j).
    { rewrite !Sq. intro X. destruct Hpij as [Y|Y]; subst p; [pose proof (Hd j ltac:(lia) ltac:(lia))|pose proof (Hd i ltac:(lia) ltac:(lia))]; nra. }
    destruct (if fast then _ else _) as [s c] eqn:X. rewrite <- (Hm i j ltac:(lia)) in X.
    destruct (step_rank_one fast K v m h i j s c HK Hm Hij Hne X) as (S1 & S2 & S3 & S4 & S5). cbv zeta in S1, S2, S3, S4, S5.
    destruct (rotate arithR 3 m h c s i j) as [m' h']. cbn [fst] in S1. set (v' := rotated v c s i j) in *.
    assert (Big : forall k, (k < 3)%nat -> k <> i -> k <> j -> v k * v k < v i * v i + v j * v j).
    { intros k Hk K1 K2. pose proof (Pr i k ltac:(lia) Hk ltac:(auto)) as Q1. pose proof (Pr j k ltac:(lia) Hk ltac:(auto)) as Q2. rewrite !Sq. pose proof (Rabs_pos (v k)).
      assert (0 < Rabs (v i)) by nra. assert (0 < Rabs (v j)) by nra. assert (Rabs (v k) <= Rabs (v j)) by (apply Rmult_le_reg_l with (Rabs (v i)); lra). nra. }
    assert (Zr : exists z, (z < 3)%nat /\ v' z = 0 /\ (z = i \/ z = j)).
    { apply Rmult_integral in S2 as [S2|S2]; [exists i|exists j]; (split; [lia|auto]). }
    destruct Zr as (z & Hz & Ez & Hzij).
    destruct (loop_two tol fast iters K v' m' h' z Ht HK ltac:(lia) S1 Hz Ez) as (v2 & R1 & R2 & R3).
    { intros a b Hab Na Nb.
      assert (Q : exists k w, (k < 3)%nat /\ k <> i /\ k <> j /\ (w = i \/ w = j) /\ w <> z /\ ((a = k /\ b = w) \/ (a = w /\ b = k))).
      { assert (CI : ((i = 0 /\ j = 1) \/ (i = 0 /\ j = 2) \/ (i = 1 /\ j = 2))%nat) by lia.
        destruct Hzij as [-> | ->]; [exists (3 - i - j)%nat, j|exists (3 - i - j)%nat, i]; destruct CI as [[-> ->]|[[-> ->]|[-> ->]]]; cbn [Nat.sub]; lia. }
      destruct Q as (k & w & Hk & K1 & K2 & Hw & Wz & Hab2).
      assert (Ww : v' w * v' w = v i * v i + v j * v j).
      { destruct Hw as [-> | ->], Hzij as [-> | ->]; try congruence; rewrite <- S3, Ez; ring. }
      pose proof (Big k Hk K1 K2) as Bk. rewrite <- (S4 k K1 K2) in Bk.
      destruct Hab2 as [[-> ->]|[-> ->]]; lra. }
    exists v2. split; [exact R1|]. split; [exact R2|]. rewrite R3. exact S5.
Qed.

(* Exactly one eigenvalue is counted. *)
Definition one_direction hypot copysign msin mcos matan (tune : tuning R) (N : nat -> R) : Prop :=
  forall k (m : fmat R), (0 < k)%nat -> (forall c r, (c < 3)%nat -> (r < 3)%nat -> m c r = INR k * N c * N r) ->
  length (filter (fun i => Rleb (t_pinv tune) (Rabs (fst (jacobi arithR hypot copysign msin mcos matan 3 m (t_jacobi tune) (t_iters tune) (t_fast tune)) i))) (seq 0 3)) = 1%nat.

Lemma settled_count : forall K tol pinv v m, 1 <= K -> 0 <= tol -> 3 * (tol * tol) < pinv -> pinv <= / 3 -> norm_of v = 1 -> rank_one K v m -> settled K tol v ->
  length (filter (fun i => Rleb pinv (Rabs (m i i))) (seq 0 3)) = 1%nat.
Proof.
  intros K tol pinv v m HK Ht Hp Hp3 Hn Hm Hs.
  assert (Dg : forall i, (i < 3)%nat -> Rabs (m i i) = K * (v i * v i)).
  { intros i Hi. rewrite Hm by lia. rewrite Rabs_right; [ring|]. apply Rle_ge. rewrite Rmult_assoc. apply Rmult_le_pos; [lra|apply Rle_0_sqr]. }
  assert (Big : exists p, (p < 3)%nat /\ / 3 <= v p * v p).
  { unfold norm_of in Hn. destruct (Rle_lt_dec (/ 3) (v 0%nat * v 0%nat)); [exists 0%nat; split; [lia|assumption]|].
    destruct (Rle_lt_dec (/ 3) (v 1%nat * v 1%nat)); [exists 1%nat; split; [lia|assumption]|]. exists 2%nat. split; [lia|lra]. }
  destruct Big as (p & Hp0 & Big).
  assert (Large : Rleb pinv (Rabs (m p p)) = true) by (apply Rleb_iff; rewrite Dg by lia; nra).
  assert (Small : forall j, (j < 3)%nat -> j <> p -> Rleb pinv (Rabs (m j j)) = false).
  { intros j Hj Hne. apply Rleb_false. rewrite Dg by lia.
    assert (B : Rabs (K * v p * v j) <= tol).
    { assert (C : (p < j \/ j < p)%nat) by lia. destruct C as [C|C]; [apply Hs; lia|]. replace (K * v p * v j) with (K * v j * v p) by ring. apply Hs; lia. }
    assert (B2 : (K * v p * v j) * (K * v p * v j) <= tol * tol).
    { rewrite <- (Rabs_right ((K * v p * v j) * (K * v p * v j))) by (apply Rle_ge, Rle_0_sqr). rewrite Rabs_mult. pose proof (Rabs_pos (K * v p * v j)). nra. }
    set (a := v p * v p) in *. set (b := v j * v j) in *. replace (K * v p * v j * (K * v p * v j)) with (K * K * a * b) in B2 by (unfold a, b; ring).
    assert (Pb : 0 <= b) by apply Rle_0_sqr. clearbody a b. clear - HK Hp Big B2 Pb.
    assert (Kb : 0 <= K * b) by (apply Rmult_le_pos; lra). assert (Kb2 : K * b <= K * (K * b)) by (rewrite <- (Rmult_1_l (K * b)) at 1; apply Rmult_le_compat_r; lra).
    assert (Kb3 : K * (K * b) * / 3 <= K * (K * b) * a) by (apply Rmult_le_compat_l; [apply Rmult_le_pos; lra|lra]).
    replace (K * K * a * b) with (K * (K * b) * a) in B2 by ring. lra. }
  assert (C : (p = 0 \/ p = 1 \/ p = 2)%nat) by lia. cbn [seq filter].
  destruct C as [->|[->| ->]]; rewrite Large, ?(Small 0%nat), ?(Small 1%nat), ?(Small 2%nat) by lia; reflexivity.
Qed.

Lemma dominant_direction : forall tune N, norm_of N = 1 -> dominant N -> 0 <= t_jacobi tune -> 3 * (t_jacobi tune * t_jacobi tune) < t_pinv tune -> t_pinv tune <= / 3 -> (1 < t_iters tune)%nat ->
  one_direction true_hypot true_copysign sin cos atan tune N.
Proof.
  intros tune N HN Hd Ht Hp Hp3 Hi k m Hk Hm. unfold jacobi.
  assert (HK : 1 <= INR k) by (apply (le_INR 1); lia).
  destruct (loop_dominant (t_jacobi tune) (t_fast tune) (t_iters tune) (INR k) N m (identity arithR) Ht ltac:(lra) Hi) as (v' & R1 & R2 & R3); [intros i j Hij; apply Hm; lia|exact Hd|].
  destruct (jacobi_loop _ _ _ _ _ _ _ _ _ _ m (identity arithR)) as [m' h']. cbn [fst] in *.
  apply (settled_count (INR k) (t_jacobi tune) (t_pinv tune) v'); try assumption. rewrite R3. exact HN.
Qed.
