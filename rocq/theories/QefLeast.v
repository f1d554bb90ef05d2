(* The point that solve returns: least squares in exact arithmetic. *)
From Coq Require Import ZArith List Bool Reals Lra Lia.
From Verif Require Import Base Arith RealArith QefModel QefLin QefHouse QefSpec QefProofs.
Import ListNotations.
Local Open Scope R_scope.

Section Least.
Variable D : nat.
Notation sum := (rsum D).
Lemma mat_mul_at : forall a b c r, mat_mul arithR D a b c r = sum (fun k => a k r * b c k).
Proof. intros. unfold mat_mul. apply (sum_left_rsum D (fun k => a k r * b c k)). Qed.
Lemma mat_vec_at : forall a v r, mat_vec arithR D a v r = sum (fun k => a k r * v k).
Proof. intros. unfold mat_vec. apply (sum_left_rsum D (fun k => a k r * v k)). Qed.

Variable M : nat -> nat -> R.
Variable b p : nat -> R.
Variable e : nat -> R.
Variable E : nat -> nat -> R.
Variable pinv : R.
Hypothesis pinv_pos : 0 < pinv.
Definition ata (c r : nat) : R := sum (fun k => M r k * M c k).
Hypothesis E_rows : forall a b, (a < D)%nat -> (b < D)%nat -> sum (fun k => E k a * E k b) = if Nat.eqb a b then 1 else 0.
Hypothesis E_cols : forall a b, (a < D)%nat -> (b < D)%nat -> sum (fun r => E a r * E b r) = if Nat.eqb a b then 1 else 0.
Hypothesis E_eigen : forall a b, (a < D)%nat -> (b < D)%nat -> ata a b = sum (fun k => e k * E k a * E k b).
Hypothesis E_gap : forall k, (k < D)%nat -> e k = 0 \/ pinv <= Rabs (e k).

Definition res (x : nat -> R) (r : nat) : R := sum (fun c => M c r * x c) - b r.
Definition err (x : nat -> R) : R := sum (fun r => res x r * res x r).

Definition sig (k : nat) : R := if Rleb pinv (Rabs (e k)) then 1 / e k else 0.
Definition l (r : nat) : R := sum (fun k => M r k * b k).
Definition rhs (r : nat) : R := l r - sum (fun k => ata k r * p k).
Definition wv (r : nat) : R := sum (fun c => sum (fun k => E k r * sig k * E k c) * rhs c).
Definition zv (r : nat) : R := wv r + p r.

(* coefficients in the basis of the eigenvectors *)
Definition co (x : nat -> R) (k : nat) : R := sum (fun r => E k r * x r).
Lemma co_back : forall x r, (r < D)%nat -> x r = sum (fun k => co x k * E k r).
Proof.
  intros x r Hr. unfold co. rewrite (rsum_ext D _ (fun k => sum (fun a => x a * (E k a * E k r)))).
  - rewrite rsum_swap. rewrite (rsum_ext D _ (fun a => if Nat.eqb a r then x r else 0)); [symmetry; apply rsum_delta; auto|].
    intros a Ha. rewrite rsum_scal, E_rows by auto. destruct (Nat.eqb_spec a r) as [->|]; ring.
  - intros k _. rewrite <- rsum_scal_r. apply rsum_ext. intros; ring.
Qed.
(* the matrix applied to x *)
Definition ax (x : nat -> R) (r : nat) : R := sum (fun k => ata k r * x k).
Lemma co_ax : forall x k, (k < D)%nat -> co (ax x) k = e k * co x k.
Proof.
  intros x k Hk. unfold co at 1, ax.
  rewrite (rsum_ext D _ (fun r => sum (fun c => sum (fun m => (e m * E m c * x c) * (E m r * E k r))))).
  - rewrite rsum_swap. rewrite (rsum_ext D _ (fun c => e k * (E k c * x c))).
    + rewrite rsum_scal. reflexivity.
    + intros c Hc. rewrite rsum_swap. rewrite (rsum_ext D _ (fun m => if Nat.eqb m k then e k * (E k c * x c) else 0)); [apply rsum_delta; auto|].
      intros m Hm. rewrite rsum_scal, E_cols by auto. destruct (Nat.eqb_spec m k) as [->|]; ring.
  - intros r Hr. rewrite <- rsum_scal. apply rsum_ext. intros c Hc. rewrite E_eigen by auto. rewrite <- rsum_scal_r, <- rsum_scal. apply rsum_ext. intros; ring.
Qed.
Lemma co_ext : forall x y k, (forall r, (r < D)%nat -> x r = y r) -> co x k = co y k.
Proof. intros x y k H. apply rsum_ext. intros r Hr. rewrite H by auto. reflexivity. Qed.
Lemma co_sub : forall x y k, co (fun r => x r - y r) k = co x k - co y k.
Proof. intros. unfold co. rewrite (rsum_ext D _ (fun r => E k r * x r + (-1) * (E k r * y r))) by (intros; ring). rewrite rsum_plus, rsum_scal. ring. Qed.
Lemma co_add : forall x y k, co (fun r => x r + y r) k = co x k + co y k.
Proof. intros. unfold co. rewrite (rsum_ext D _ (fun r => E k r * x r + E k r * y r)) by (intros; ring). rewrite rsum_plus. ring. Qed.

Lemma co_w : forall k, (k < D)%nat -> co wv k = sig k * co rhs k.
Proof.
  intros k Hk. unfold co at 1, wv.
  rewrite (rsum_ext D _ (fun r => sum (fun c => sum (fun m => (sig m * E m c * rhs c) * (E m r * E k r))))).
  - rewrite rsum_swap. rewrite (rsum_ext D _ (fun c => sig k * (E k c * rhs c))).
    + rewrite rsum_scal. reflexivity.
    + intros c Hc. rewrite rsum_swap. rewrite (rsum_ext D _ (fun m => if Nat.eqb m k then sig k * (E k c * rhs c) else 0)); [apply rsum_delta; auto|].
      intros m Hm. rewrite rsum_scal, E_cols by auto. destruct (Nat.eqb_spec m k) as [->|]; ring.
  - intros r Hr. rewrite <- rsum_scal. apply rsum_ext. intros c Hc. rewrite <- rsum_scal_r, <- rsum_scal. apply rsum_ext. intros; ring.
Qed.

(* M applied to an eigenvector *)
Lemma null_vector : forall k, (k < D)%nat -> e k = 0 -> forall j, (j < D)%nat -> sum (fun c => M c j * E k c) = 0.
Proof.
  intros k Hk Ek. 
  assert (Q : sum (fun j => sum (fun c => M c j * E k c) * sum (fun c => M c j * E k c)) = 0).
  { transitivity (co (ax (E k)) k).
    - unfold co, ax, ata.
      rewrite (rsum_ext D (fun r => E k r * _) (fun r => sum (fun c => sum (fun j => (M r j * E k r) * (M c j * E k c))))).
      + rewrite (rsum_ext D _ (fun j => sum (fun r => sum (fun c => (M r j * E k r) * (M c j * E k c))))).
        * rewrite rsum_swap. apply rsum_ext. intros r _. apply rsum_swap.
        * intros j _. rewrite <- rsum_scal_r. apply rsum_ext. intros r _. rewrite <- rsum_scal. apply rsum_ext. intros; ring.
      + intros r _. rewrite <- rsum_scal. apply rsum_ext. intros c _. rewrite <- rsum_scal_r, <- rsum_scal. apply rsum_ext. intros; ring.
    - rewrite co_ax by auto. rewrite Ek. ring. }
  assert (Z : forall n f, rsum n (fun j => f j * f j) = 0 -> forall j, (j < n)%nat -> f j = 0).
  { induction n as [|n IH]; intros f H j Hj; [lia|]. cbn in H.
    pose proof (nrm2_pos n f) as P. unfold nrm2 in P. pose proof (Rle_0_sqr (f n)) as P2. unfold Rsqr in P2.
    destruct (Nat.eq_dec j n) as [->|Nj].
    - apply Rsqr_0_uniq. unfold Rsqr. lra.
    - apply IH; [lra|lia]. }
  intros j Hj. apply (Z D (fun j => sum (fun c => M c j * E k c)) Q j Hj).
Qed.
Lemma co_l_null : forall k, (k < D)%nat -> e k = 0 -> co l k = 0.
Proof.
  intros k Hk Ek. unfold co, l.
  rewrite (rsum_ext D _ (fun r => sum (fun j => b j * (M r j * E k r)))).
  - rewrite rsum_swap. apply rsum_zero. intros j Hj. rewrite rsum_scal, null_vector by auto. ring.
  - intros r _. rewrite <- rsum_scal. apply rsum_ext. intros; ring.
Qed.
Lemma co_rhs : forall k, (k < D)%nat -> co rhs k = co l k - e k * co p k.
Proof. intros k Hk. unfold rhs. rewrite (co_sub l (ax p)). rewrite co_ax by auto. reflexivity. Qed.

(* the normal equations *)
Lemma normal_eq : forall r, (r < D)%nat -> ax zv r = l r.
Proof.
  assert (Hco : forall k, (k < D)%nat -> co (ax zv) k = co l k).
  { intros k Hk. rewrite co_ax by auto. unfold zv. rewrite co_add, co_w, co_rhs by auto. unfold sig.
    destruct (E_gap k Hk) as [Z|G].
    - rewrite Z, co_l_null by auto. ring.
    - rewrite (proj2 (Rleb_iff pinv (Rabs (e k))) G). assert (e k <> 0) by (intros Z; rewrite Z, Rabs_R0 in G; lra). field. auto. }
  intros r Hr. rewrite (co_back (ax zv) r Hr), (co_back l r Hr). apply rsum_ext. intros k Hk. rewrite Hco by auto. reflexivity.
Qed.

(* the gradient *)
Lemma orth : forall y, sum (fun r => res zv r * sum (fun c => M c r * y c)) = 0.
Proof.
  intros y. rewrite (rsum_ext D _ (fun r => sum (fun c => y c * (M c r * res zv r)))).
  - rewrite rsum_swap. apply rsum_zero. intros c Hc. rewrite rsum_scal.
    replace (sum (fun r => M c r * res zv r)) with (ax zv c - l c); [rewrite normal_eq by auto; ring|].
    unfold res. rewrite (rsum_ext D _ (fun r => sum (fun c' => (M c r * M c' r) * zv c') + (-1) * (M c r * b r))).
    + rewrite rsum_plus, rsum_scal, rsum_swap. unfold ax, l, ata.
      rewrite (rsum_ext D (fun k => sum (fun r => _) * zv k) (fun c' => sum (fun r => M c r * M c' r * zv c'))); [ring|].
      intros c' _. rewrite <- rsum_scal_r. reflexivity.
    + intros r _. rewrite Rmult_minus_distr_l, <- rsum_scal. rewrite (rsum_ext D (fun c' => M c r * (M c' r * zv c')) (fun c' => M c r * M c' r * zv c')) by (intros; ring). ring.
  - intros r _. rewrite <- rsum_scal. apply rsum_ext. intros; ring.
Qed.
Lemma err_split : forall x, err x = err zv + sum (fun r => sum (fun c => M c r * (x c - zv c)) * sum (fun c => M c r * (x c - zv c))).
Proof.
  intros x. pose proof (orth (fun c => x c - zv c)) as O. unfold err.
  rewrite (rsum_ext D (fun r => res x r * res x r) (fun r => res zv r * res zv r + (2 * (res zv r * sum (fun c => M c r * (x c - zv c)))
    + sum (fun c => M c r * (x c - zv c)) * sum (fun c => M c r * (x c - zv c))))).
  - rewrite !rsum_plus, rsum_scal, O. ring.
  - intros r _. replace (res x r) with (res zv r + sum (fun c => M c r * (x c - zv c))); [ring|].
    unfold res. rewrite (rsum_ext D (fun c => M c r * (x c - zv c)) (fun c => M c r * x c + (-1) * (M c r * zv c))) by (intros; ring).
    rewrite rsum_plus, rsum_scal. ring.
Qed.
Theorem least : forall x, err zv <= err x.
Proof.
  intros x. rewrite (err_split x). pose proof (nrm2_pos D (fun r => sum (fun c => M c r * (x c - zv c)))) as P. unfold nrm2 in P. lra.
Qed.

(* among all minimisers the one nearest to p *)
Definition dist2 (x y : nat -> R) : R := sum (fun c => (x c - y c) * (x c - y c)).
Theorem nearest_p : forall x, err x = err zv -> dist2 p zv <= dist2 p x.
Proof.
  intros x H. rewrite (err_split x) in H.
  assert (Z0 : forall r, (r < D)%nat -> sum (fun c => M c r * (x c - zv c)) = 0).
  { assert (Z : forall n f, rsum n (fun j => f j * f j) = 0 -> forall j, (j < n)%nat -> f j = 0).
    { induction n as [|n IH]; intros f Hf j Hj; [lia|]. cbn in Hf.
      pose proof (nrm2_pos n f) as P. unfold nrm2 in P. pose proof (Rle_0_sqr (f n)) as P2. unfold Rsqr in P2.
      destruct (Nat.eq_dec j n) as [->|Nj]; [apply Rsqr_0_uniq; unfold Rsqr; lra | apply IH; [lra|lia]]. }
    apply (Z D (fun r => sum (fun c => M c r * (x c - zv c)))). lra. }
  (* then x - z has no component along the eigenvectors that are kept *)
  assert (C0 : forall k, (k < D)%nat -> e k * co (fun c => x c - zv c) k = 0).
  { intros k Hk. rewrite <- co_ax by auto. apply rsum_zero. intros r Hr. unfold ax, ata.
    rewrite (rsum_ext D _ (fun c => sum (fun j => M r j * (M c j * (x c - zv c))))) by (intros; rewrite <- rsum_scal_r; apply rsum_ext; intros; ring).
    rewrite rsum_swap. rewrite rsum_zero; [ring|]. intros j Hj. rewrite rsum_scal, Z0 by auto. ring. }
  assert (O : sum (fun c => wv c * (x c - zv c)) = 0).
  { rewrite (rsum_ext D _ (fun c => sum (fun k => co wv k * (E k c * (x c - zv c))))).
    - rewrite rsum_swap. apply rsum_zero. intros k Hk. rewrite rsum_scal. fold (co (fun c => x c - zv c) k). rewrite co_w by auto. unfold sig.
      destruct (Rleb pinv (Rabs (e k))) eqn:G; [|ring]. apply Rleb_iff in G.
      assert (e k <> 0) by (intros Z; rewrite Z, Rabs_R0 in G; lra). destruct (Rmult_integral _ _ (C0 k Hk)) as [Q|Q]; [contradiction|]. rewrite Q. ring.
    - intros c Hc. rewrite (co_back wv c Hc) at 1. rewrite <- rsum_scal_r. apply rsum_ext. intros; ring. }
  unfold dist2. rewrite (rsum_ext D (fun c => (p c - x c) * (p c - x c)) (fun c => (p c - zv c) * (p c - zv c) + (2 * (wv c * (x c - zv c)) + (x c - zv c) * (x c - zv c)))).
  - rewrite !rsum_plus, rsum_scal, O. pose proof (nrm2_pos D (fun c => x c - zv c)) as P. unfold nrm2 in P. lra.
  - intros c _. replace (p c - x c) with ((p c - zv c) - (x c - zv c)) by ring. assert (W : p c - zv c = - wv c) by (unfold zv; ring). rewrite W. ring.
Qed.
End Least.

(* ---- the code ---- *)
Section Code.
Variable D : nat.
Lemma solve_with_at : forall eigen pinv s e E, eigen (mat_mul arithR D (transpose (q_mat s)) (q_mat s)) = (e, E) ->
  forall r, fst (solve_with arithR D eigen pinv s) r =
    zv D (q_mat s) (q_mat s D) (fun c => q_sum s c / IZR (q_count s)) e E pinv r.
Proof.
  intros eigen pinv s e E H r. unfold solve_with. rewrite H. cbn [fst]. cbn [arithR a_add a_sub a_div a_ofZ a_le a_abs]. unfold zv. f_equal.
  rewrite mat_vec_at. unfold wv. apply rsum_ext. intros c Hc. f_equal.
  - rewrite mat_mul_at. apply rsum_ext. intros k Hk. rewrite mat_mul_at. unfold transpose at 1. f_equal.
    rewrite (rsum_ext D _ (fun m => if Nat.eqb m k then E k r * sig e pinv k else 0)); [apply rsum_delta; auto|].
    intros m _. rewrite (Nat.eqb_sym k m). unfold sig. destruct (Nat.eqb_spec m k) as [->|]; cbn [andb]; [|ring].
    destruct (Rleb pinv (Rabs (e k))); ring.
  - unfold rhs, l. rewrite !mat_vec_at. f_equal. apply rsum_ext. intros k Hk. rewrite mat_mul_at. unfold ata, transpose. reflexivity.
Qed.
End Code.
