(* Finite sums of real numbers and Euclidean norms. *)
From Coq Require Import ZArith List Bool Reals Lra Lia.
Import ListNotations.
Local Open Scope R_scope.

(* f 0 + ... + f (n - 1) *)
Fixpoint rsum (n : nat) (f : nat -> R) : R := match n with O => 0 | S n' => rsum n' f + f n' end.

Lemma rsum_ext : forall n f g, (forall k, (k < n)%nat -> f k = g k) -> rsum n f = rsum n g.
Proof. induction n as [|n IH]; intros f g H; cbn; [reflexivity|]. rewrite (IH f g) by (intros; apply H; lia). rewrite H by lia. reflexivity. Qed.
Lemma rsum_plus : forall n f g, rsum n (fun k => f k + g k) = rsum n f + rsum n g.
Proof. induction n as [|n IH]; intros f g; cbn; [ring|]. rewrite IH. ring. Qed.
Lemma rsum_scal : forall n a f, rsum n (fun k => a * f k) = a * rsum n f.
Proof. induction n as [|n IH]; intros a f; cbn; [ring|]. rewrite IH. ring. Qed.
Lemma rsum_scal_r : forall n a f, rsum n (fun k => f k * a) = rsum n f * a.
Proof. induction n as [|n IH]; intros a f; cbn; [ring|]. rewrite IH. ring. Qed.
Lemma rsum_zero : forall n f, (forall k, (k < n)%nat -> f k = 0) -> rsum n f = 0.
Proof. induction n as [|n IH]; intros f H; cbn; [reflexivity|]. rewrite IH by (intros; apply H; lia). rewrite H by lia. ring. Qed.
Lemma rsum_nonneg : forall n f, (forall k, (k < n)%nat -> 0 <= f k) -> 0 <= rsum n f.
Proof. induction n as [|n IH]; intros f H; cbn; [lra|]. pose proof (IH f ltac:(intros; apply H; lia)). pose proof (H n ltac:(lia)). lra. Qed.
Lemma rsum_le : forall n f g, (forall k, (k < n)%nat -> f k <= g k) -> rsum n f <= rsum n g.
Proof. induction n as [|n IH]; intros f g H; cbn; [lra|]. pose proof (IH f g ltac:(intros; apply H; lia)). pose proof (H n ltac:(lia)). lra. Qed.
Lemma rsum_extend : forall n m f, (n <= m)%nat -> (forall k, (n <= k < m)%nat -> f k = 0) -> rsum m f = rsum n f.
Proof.
  intros n m f H. induction m as [|m IH]; intros Hz.
  - replace n with 0%nat by lia. reflexivity.
  - destruct (Nat.eq_dec n (S m)) as [->|N]; [reflexivity|]. cbn. rewrite IH by (try lia; intros; apply Hz; lia). rewrite Hz by lia. ring.
Qed.
Lemma rsum_shift : forall n f, rsum (S n) f = f 0%nat + rsum n (fun k => f (S k)).
Proof. induction n as [|n IH]; intros f; cbn; [ring|]. cbn in IH. rewrite IH. ring. Qed.
Lemma rsum_app : forall n m f, rsum (n + m) f = rsum n f + rsum m (fun k => f (n + k)%nat).
Proof. intros n m f. induction m as [|m IH]; cbn; [rewrite Nat.add_0_r; ring|]. rewrite Nat.add_succ_r. cbn. rewrite IH. ring. Qed.
Lemma rsum_delta : forall n i a, (i < n)%nat -> rsum n (fun k => if Nat.eqb k i then a else 0) = a.
Proof.
  induction n as [|n IH]; intros i a H; [lia|]. cbn. destruct (Nat.eqb_spec n i) as [->|N].
  - rewrite rsum_zero; [ring|]. intros k Hk. destruct (Nat.eqb_spec k i); [lia | reflexivity].
  - rewrite IH by lia. ring.
Qed.
Lemma rsum_swap : forall n m (f : nat -> nat -> R), rsum n (fun i => rsum m (fun j => f i j)) = rsum m (fun j => rsum n (fun i => f i j)).
Proof.
  induction n as [|n IH]; intros m f; cbn.
  - rewrite rsum_zero; [reflexivity|auto].
  - rewrite IH, rsum_plus. reflexivity.
Qed.
(* Two terms changed, with the same sum. *)
Lemma rsum_two : forall n f g i j, (i < n)%nat -> (j < n)%nat -> i <> j -> f i + f j = g i + g j ->
  (forall k, k <> i -> k <> j -> f k = g k) -> rsum n f = rsum n g.
Proof.
  intros n f g i j Hi Hj N E H.
  assert (G : rsum n (fun k => f k + (-1) * g k) = 0).
  { rewrite (rsum_ext n _ (fun k => (if Nat.eqb k i then f i - g i else 0) + (if Nat.eqb k j then f j - g j else 0))).
    - rewrite rsum_plus, !rsum_delta by auto. lra.
    - intros k _. destruct (Nat.eqb_spec k i) as [E1|N1]; destruct (Nat.eqb_spec k j) as [E2|N2]; [congruence | rewrite E1; ring | rewrite E2; ring |].
      rewrite (H k N1 N2). ring. }
  rewrite rsum_plus, rsum_scal in G. lra.
Qed.
Lemma rsum_fold : forall n i g z, fold_left (fun s j => s + g j) (seq i n) z = z + rsum n (fun k => g (i + k)%nat).
Proof.
  induction n as [|n IH]; intros i g z; cbn [seq fold_left]; [cbn; ring|].
  rewrite IH, rsum_shift. rewrite Nat.add_0_r. rewrite (rsum_ext n (fun k => g (i + S k)%nat) (fun k => g (S i + k)%nat)); [ring|].
  intros k _. f_equal. lia.
Qed.

(* ---- norms ---- *)
Definition nrm2 (n : nat) (f : nat -> R) : R := rsum n (fun k => f k * f k).
Definition nrm (n : nat) (f : nat -> R) : R := sqrt (nrm2 n f).
Lemma nrm2_pos : forall n f, 0 <= nrm2 n f.
Proof. intros. apply rsum_nonneg. intros k _. pose proof (Rle_0_sqr (f k)). unfold Rsqr in *. lra. Qed.
Lemma nrm_pos : forall n f, 0 <= nrm n f.
Proof. intros. apply sqrt_pos. Qed.
Lemma nrm_sq : forall n f, nrm n f * nrm n f = nrm2 n f.
Proof. intros. apply sqrt_sqrt. apply nrm2_pos. Qed.
Lemma nrm_ext : forall n f g, (forall k, (k < n)%nat -> f k = g k) -> nrm n f = nrm n g.
Proof. intros n f g H. unfold nrm, nrm2. f_equal. apply rsum_ext. intros k Hk. rewrite H by auto. reflexivity. Qed.
Lemma nrm_zero : forall n f, (forall k, (k < n)%nat -> f k = 0) -> nrm n f = 0.
Proof. intros n f H. unfold nrm, nrm2. rewrite rsum_zero; [apply sqrt_0|]. intros k Hk. rewrite H by auto. ring. Qed.
Lemma nrm_extend : forall n m f, (n <= m)%nat -> (forall k, (n <= k < m)%nat -> f k = 0) -> nrm m f = nrm n f.
Proof. intros n m f H Hz. unfold nrm, nrm2. f_equal. apply rsum_extend; auto. intros k Hk. rewrite Hz by auto. ring. Qed.
Lemma nrm_scal : forall n a f, nrm n (fun k => a * f k) = Rabs a * nrm n f.
Proof.
  intros n a f. unfold nrm, nrm2. rewrite (rsum_ext n _ (fun k => (a * a) * (f k * f k))) by (intros; ring).
  rewrite rsum_scal. rewrite sqrt_mult; [|pose proof (Rle_0_sqr a); unfold Rsqr in *; lra | apply nrm2_pos].
  f_equal. apply sqrt_Rsqr_abs.
Qed.

(* the triangle inequality in the plane *)
Lemma plane_triangle : forall a b c d, sqrt ((a + b) * (a + b) + (c + d) * (c + d)) <= sqrt (a * a + c * c) + sqrt (b * b + d * d).
Proof.
  intros a b c d. set (A := a * a + c * c). set (B := b * b + d * d).
  assert (HA : 0 <= A) by (unfold A; pose proof (Rle_0_sqr a); pose proof (Rle_0_sqr c); unfold Rsqr in *; lra).
  assert (HB : 0 <= B) by (unfold B; pose proof (Rle_0_sqr b); pose proof (Rle_0_sqr d); unfold Rsqr in *; lra).
  pose proof (sqrt_pos A). pose proof (sqrt_pos B).
  apply Rsqr_incr_0_var; [|lra]. rewrite Rsqr_sqrt by (pose proof (Rle_0_sqr (a + b)); pose proof (Rle_0_sqr (c + d)); unfold Rsqr in *; lra).
  rewrite (Rsqr_plus (sqrt A) (sqrt B)), !Rsqr_sqrt by auto.
  assert (C : a * b + c * d <= sqrt A * sqrt B).
  { rewrite <- sqrt_mult by auto. apply Rle_trans with (Rabs (a * b + c * d)); [apply Rle_abs|].
    rewrite <- sqrt_Rsqr_abs. apply sqrt_le_1_alt. unfold A, B, Rsqr. pose proof (Rle_0_sqr (a * d - c * b)). unfold Rsqr in *. lra. }
  unfold A, B in *. lra.
Qed.
Lemma nrm_S : forall n f, nrm (S n) f = sqrt (nrm n f * nrm n f + f n * f n).
Proof. intros n f. rewrite nrm_sq. reflexivity. Qed.
Lemma sqrt_mono2 : forall a b c, 0 <= a <= b -> sqrt (a * a + c * c) <= sqrt (b * b + c * c).
Proof. intros a b c [H1 H2]. apply sqrt_le_1_alt. pose proof (Rmult_le_compat a b a b H1 H1 H2 H2). lra. Qed.
Lemma nrm_triangle : forall n f g, nrm n (fun k => f k + g k) <= nrm n f + nrm n g.
Proof.
  induction n as [|n IH]; intros f g.
  - unfold nrm, nrm2. cbn. rewrite sqrt_0. lra.
  - rewrite !nrm_S. pose proof (IH f g). pose proof (nrm_pos n f). pose proof (nrm_pos n g). pose proof (nrm_pos n (fun k => f k + g k)).
    eapply Rle_trans; [apply (sqrt_mono2 _ (nrm n f + nrm n g)); lra|]. apply plane_triangle.
Qed.
(* norms of vectors that differ little *)
Lemma nrm_diff : forall n f g e, nrm n (fun k => f k - g k) <= e -> Rabs (nrm n f - nrm n g) <= e.
Proof.
  intros n f g e H.
  pose proof (nrm_triangle n g (fun k => f k - g k)) as T1. cbn beta in T1. rewrite (nrm_ext n (fun k => g k + (f k - g k)) f) in T1 by (intros; ring).
  pose proof (nrm_triangle n f (fun k => (-1) * (f k - g k))) as T2. cbn beta in T2. rewrite (nrm_ext n (fun k => f k + -1 * (f k - g k)) g) in T2 by (intros; ring).
  rewrite (nrm_scal n (-1)) in T2. replace (Rabs (-1)) with 1 in T2 by (rewrite Rabs_left; lra).
  apply Rabs_le. lra.
Qed.
Lemma nrm_sum : forall n m (f : nat -> nat -> R), nrm n (fun k => rsum m (fun c => f c k)) <= rsum m (fun c => nrm n (f c)).
Proof.
  intros n m f. induction m as [|m IH]; cbn.
  - rewrite nrm_zero by auto. lra.
  - eapply Rle_trans; [apply (nrm_triangle n (fun k => rsum m (fun c => f c k)) (f m))|]. lra.
Qed.
Lemma nrm_le : forall n f g, (forall k, (k < n)%nat -> f k * f k <= g k * g k) -> nrm n f <= nrm n g.
Proof. intros n f g H. apply sqrt_le_1_alt. apply rsum_le. exact H. Qed.
Lemma nrm_shrink : forall n m f, (n <= m)%nat -> nrm n f <= nrm m f.
Proof.
  intros n m f H. apply sqrt_le_1_alt. unfold nrm2. replace m with (n + (m - n))%nat by lia. rewrite rsum_app.
  pose proof (rsum_nonneg (m - n) (fun k => f (n + k)%nat * f (n + k)%nat)) as P.
  assert (0 <= rsum (m - n) (fun k => f (n + k)%nat * f (n + k)%nat)); [|lra].
  apply P. intros k _. pose proof (Rle_0_sqr (f (n + k)%nat)). unfold Rsqr in *. lra.
Qed.
(* reflections *)
Lemma reflect_nrm : forall n y v g, (g * nrm2 n v = 2 \/ (forall k, (k < n)%nat -> v k = 0)) ->
  nrm n (fun k => y k - rsum n (fun l => y l * v l) * g * v k) = nrm n y.
Proof.
  intros n y v g H. set (d := rsum n (fun l => y l * v l)). unfold nrm. f_equal. unfold nrm2.
  rewrite (rsum_ext n _ (fun k => y k * y k + ((-2 * (d * g)) * (y k * v k) + (d * g * (d * g)) * (v k * v k)))) by (intros; ring).
  rewrite !rsum_plus, !rsum_scal. fold d. change (rsum n (fun k => v k * v k)) with (nrm2 n v).
  destruct H as [H|H].
  - replace (d * g * (d * g) * nrm2 n v) with (d * d * g * (g * nrm2 n v)) by ring. rewrite H. ring.
  - assert (d = 0) as -> by (apply rsum_zero; intros k Hk; rewrite H by auto; ring). ring.
Qed.
