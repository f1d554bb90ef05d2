(* Householder reflections in exact arithmetic. *)
From Coq Require Import ZArith List Bool Reals Lra Lia.
From Verif Require Import Base Arith RealArith QefModel QefLin.
Import ListNotations.
Local Open Scope R_scope.

Section House.
Variable tiny : R.
Hypothesis tiny_pos : 0 < tiny.
Variable N : nat.
Notation fmat := (nat -> nat -> R).

Lemma upd_at : forall (m : fmat) c r x c' r', upd m c r x c' r' = if (Nat.eqb c' c && Nat.eqb r' r)%bool then x else m c' r'.
Proof. reflexivity. Qed.

Lemma fold_upd : forall j f n i (m : fmat) c r,
  fold_left (fun m k => upd m j k (m j k - f k)) (seq i n) m c r =
  if (Nat.eqb c j && (Nat.leb i r && Nat.ltb r (i + n)))%bool then m j r - f r else m c r.
Proof.
  intros j f n. induction n as [|n IH]; intros i m c r; cbn [seq fold_left].
  - destruct (Nat.eqb c j); [|reflexivity]. destruct (Nat.leb_spec i r), (Nat.ltb_spec r (i + 0)); try reflexivity. lia.
  - rewrite IH, !upd_at. destruct (Nat.eqb_spec c j) as [->|]; cbn [andb].
    + rewrite Nat.eqb_refl. cbn [andb]. destruct (Nat.eqb_spec r i) as [->|].
      * destruct (Nat.leb_spec (S i) i); [lia|]. destruct (Nat.leb_spec i i); [|lia]. destruct (Nat.ltb_spec i (i + S n)); [|lia]. reflexivity.
      * destruct (Nat.leb_spec (S i) r), (Nat.leb_spec i r), (Nat.ltb_spec r (S i + n)), (Nat.ltb_spec r (i + S n)); cbn [andb]; try reflexivity; lia.
    + reflexivity.
Qed.

(* The part of a vector in the used rows. *)
Definition cut (used : nat) (v : nat -> R) : nat -> R := fun r => if Nat.ltb r used then v r else 0.

Lemma rows_fold : forall i used (g : nat -> R), (forall k, (k < i)%nat -> g k = 0) ->
  fold_left (fun s j => s + g j) (rows_from i used) 0 = rsum used g.
Proof.
  intros i used g H. unfold rows_from. rewrite rsum_fold. rewrite Rplus_0_l. destruct (Nat.le_gt_cases i used) as [L|L].
  - replace used with (i + (used - i))%nat at 2 by lia. rewrite rsum_app. rewrite (rsum_zero i) by (intros; apply H; lia). ring.
  - replace (used - i)%nat with 0%nat by lia. cbn. symmetry. apply rsum_zero. intros k Hk. apply H. lia.
Qed.
Lemma cut_sum : forall used n (g v : nat -> R), (used <= n)%nat -> rsum n (fun k => g k * cut used v k) = rsum used (fun k => g k * v k).
Proof.
  intros used n g v H. rewrite (rsum_extend used n) by (auto; intros k Hk; unfold cut; destruct (Nat.ltb_spec k used); try lia; ring).
  apply rsum_ext. intros k Hk. unfold cut. destruct (Nat.ltb_spec k used); [reflexivity | lia].
Qed.

Lemma reflect_column_at : forall v g i used n m j c r, (forall k, (k < i)%nat -> v k = 0) -> (used <= n)%nat ->
  reflect_column arithR v g i used m j c r =
  if Nat.eqb c j then m j r - rsum n (fun k => m j k * cut used v k) * g * cut used v r else m c r.
Proof.
  intros v g i used n m j c r Hv Hn. unfold reflect_column. cbn [arithR a_add a_sub a_mul a_ofZ].
  rewrite (rows_fold i used (fun k => m j k * v k)) by (intros k Hk; rewrite Hv by auto; ring).
  rewrite cut_sum by auto. set (d := rsum used _). unfold rows_from. rewrite (fold_upd j (fun k => d * g * v k)).
  destruct (Nat.eqb_spec c j) as [->|]; cbn [andb]; [|reflexivity]. unfold cut.
  destruct (Nat.leb_spec i r), (Nat.ltb_spec r (i + (used - i))), (Nat.ltb_spec r used); cbn [andb]; try reflexivity; try lia; try ring.
  rewrite Hv by lia. ring.
Qed.

Lemma reflect_columns_at : forall v g i used n k j m c r, (forall k, (k < i)%nat -> v k = 0) -> (used <= n)%nat ->
  fold_left (reflect_column arithR v g i used) (seq j k) m c r =
  if (Nat.leb j c && Nat.ltb c (j + k))%bool then m c r - rsum n (fun k => m c k * cut used v k) * g * cut used v r else m c r.
Proof.
  intros v g i used n k. induction k as [|k IH]; intros j m c r Hv Hn; cbn [seq fold_left].
  - destruct (Nat.leb_spec j c), (Nat.ltb_spec c (j + 0)); cbn [andb]; try reflexivity. lia.
  - rewrite IH by auto. rewrite (reflect_column_at v g i used n m j c r Hv Hn).
    rewrite (rsum_ext n (fun l => reflect_column arithR v g i used m j c l * cut used v l)
      (fun l => (if Nat.eqb c j then m j l - rsum n (fun k => m j k * cut used v k) * g * cut used v l else m c l) * cut used v l))
      by (intros l _; rewrite (reflect_column_at v g i used n m j c l Hv Hn); reflexivity).
    destruct (Nat.eqb_spec c j) as [->|Nc].
    + destruct (Nat.leb_spec (S j) j); [lia|]. destruct (Nat.leb_spec j j); [|lia]. destruct (Nat.ltb_spec j (j + S k)); [|lia]. reflexivity.
    + destruct (Nat.leb_spec (S j) c), (Nat.leb_spec j c), (Nat.ltb_spec c (S j + k)), (Nat.ltb_spec c (j + S k)); cbn [andb]; try reflexivity; lia.
Qed.

Definition vec_of (m : fmat) (i used : nat) : nat -> R := fst (reflection arithR tiny m i used).
Definition gam_of (m : fmat) (i used : nat) : R := snd (reflection arithR tiny m i used).

Lemma vec_before : forall m i used k, (k < i)%nat -> vec_of m i used k = 0.
Proof.
  intros m i used k H. unfold vec_of, reflection. cbn [arithR a_lt]. destruct (Rltb _ tiny); cbn [fst].
  - destruct (Nat.eqb_spec k i); [lia | reflexivity].
  - destruct (Nat.eqb_spec k i); [lia|]. destruct (Nat.leb_spec i k); [lia | reflexivity].
Qed.

Lemma step_at : forall m i used n c r, (i < N)%nat -> (used <= n)%nat ->
  householder_step arithR tiny N used m i c r =
  if (Nat.leb i c && Nat.ltb c N)%bool
  then m c r - rsum n (fun k => m c k * cut used (vec_of m i used) k) * gam_of m i used * cut used (vec_of m i used) r else m c r.
Proof.
  intros m i used n c r Hi Hn. unfold householder_step. rewrite (surjective_pairing (reflection arithR tiny m i used)).
  fold (vec_of m i used) (gam_of m i used). rewrite (reflect_columns_at _ _ i used n) by (auto; intros; apply vec_before; auto).
  replace (i + (N - i))%nat with N by lia. reflexivity.
Qed.

Lemma fold_left_ext_in : forall {X Y} (f g : X -> Y -> X) l s, (forall s y, In y l -> f s y = g s y) -> fold_left f l s = fold_left g l s.
Proof. induction l as [|y l IH]; intros s H; [reflexivity|]. cbn. rewrite (H s y (or_introl eq_refl)). apply IH. intros s' y' Hy. apply H. right. auto. Qed.
Lemma col_norm_sum : forall m i used, col_norm arithR m i used = nrm2 used (fun k => if Nat.ltb k i then 0 else m i k).
Proof.
  intros m i used. unfold nrm2. rewrite <- (rows_fold i used (fun k => (if Nat.ltb k i then 0 else m i k) * (if Nat.ltb k i then 0 else m i k))).
  - unfold col_norm. cbn [arithR a_add a_mul a_ofZ]. apply fold_left_ext_in. intros s k Hk. unfold rows_from in Hk. apply in_seq in Hk. destruct (Nat.ltb_spec k i); [lia | reflexivity].
  - intros k Hk. destruct (Nat.ltb_spec k i); [ring | lia].
Qed.

Section Facts.
Variable m : fmat.
Variable i used : nat.
Let a : R := col_norm arithR m i used.
Let v := vec_of m i used.
Let g := gam_of m i used.

Lemma small_vec : a < tiny -> v = (fun j => if Nat.eqb j i then 1 else 0) /\ g = 2.
Proof. intros H. unfold v, g, vec_of, gam_of, reflection. cbn [arithR a_lt]. fold a. rewrite (proj2 (Rltb_iff a tiny) H). split; reflexivity. Qed.

(* The vector in the ordinary case. *)
Let mu : R := 1 / sqrt a.
Let sg : R := if Rleb 0 (m i i * mu) then 1 else -1.
Lemma large_vec : tiny <= a -> (i < used)%nat /\ (forall j, v j = if Nat.eqb j i then m i i * mu + sg else if (Nat.leb i j && Nat.ltb j used)%bool then m i j * mu else 0) /\
  g = 1 / Rabs (m i i * mu + sg).
Proof.
  intros H. assert (Hi : (i < used)%nat).
  { destruct (Nat.lt_ge_cases i used); auto. exfalso. unfold a in H. rewrite col_norm_sum in H. unfold nrm2 in H.
    rewrite rsum_zero in H; [lra|]. intros k Hk. destruct (Nat.ltb_spec k i); [ring | lia]. }
  split; [auto|]. unfold v, g, vec_of, gam_of, reflection. cbn [arithR a_lt a_sqrt a_div a_mul a_add a_sub a_ofZ a_le a_abs]. fold a.
  rewrite (proj2 (Rltb_false a tiny) H). fold mu. rewrite Nat.leb_refl, (proj2 (Nat.ltb_lt i used) Hi). cbn [andb fst snd].
  assert (E : (if Rleb 0 (m i i * mu) then m i i * mu + 1 else m i i * mu - 1) = m i i * mu + sg).
  { unfold sg. destruct (Rleb 0 (m i i * mu)); ring. }
  rewrite E. split; [|reflexivity]. intros j. reflexivity.
Qed.

Lemma mu_pos : tiny <= a -> 0 < mu /\ mu * mu * a = 1.
Proof.
  intros H. assert (P : 0 < sqrt a) by (apply sqrt_lt_R0; lra). split; [unfold mu; apply Rdiv_lt_0_compat; lra|].
  unfold mu. replace (1 / sqrt a * (1 / sqrt a) * a) with (a / (sqrt a * sqrt a)) by (field; lra). rewrite sqrt_sqrt by lra. field. lra.
Qed.
Lemma sg_abs : Rabs (m i i * mu + sg) = Rabs (m i i * mu) + 1 /\ sg * sg = 1 /\ sg * (m i i * mu) = Rabs (m i i * mu).
Proof.
  unfold sg. destruct (Rleb 0 (m i i * mu)) eqn:E; [apply Rleb_iff in E | apply Rleb_false in E].
  - rewrite !Rabs_right by lra. split; [ring|]. split; ring.
  - rewrite !Rabs_left by lra. split; [ring|]. split; ring.
Qed.

(* the part of the column that is reflected *)
Let w := fun k => if Nat.ltb k i then 0 else m i k.
Lemma a_w : a = nrm2 used w.
Proof. apply col_norm_sum. Qed.

Lemma large_dot : tiny <= a -> rsum used (fun k => m i k * v k) = a * mu + sg * m i i /\ nrm2 used v = 2 * Rabs (m i i * mu + sg).
Proof.
  intros H. destruct (large_vec H) as (Hi & Hv & _). destruct (mu_pos H) as [_ Hm]. destruct sg_abs as (S1 & S2 & S3).
  assert (Hv' : forall k, (k < used)%nat -> v k = w k * mu + (if Nat.eqb k i then sg else 0)).
  { intros k Hk. rewrite Hv. unfold w. destruct (Nat.eqb_spec k i) as [->|].
    - rewrite Nat.ltb_irrefl. reflexivity.
    - destruct (Nat.leb_spec i k), (Nat.ltb_spec k used), (Nat.ltb_spec k i); cbn [andb]; try lia; ring. }
  assert (D : rsum used (fun k => (if Nat.eqb k i then sg else 0) * w k) = sg * m i i).
  { rewrite (rsum_ext used _ (fun k => if Nat.eqb k i then sg * m i i else 0)).
    - apply rsum_delta. auto.
    - intros k _. destruct (Nat.eqb_spec k i) as [->|]; [|ring]. unfold w. rewrite Nat.ltb_irrefl. reflexivity. }
  split.
  - rewrite (rsum_ext used _ (fun k => mu * (w k * w k) + (if Nat.eqb k i then sg else 0) * w k)).
    + rewrite rsum_plus, rsum_scal, D. change (rsum used (fun k => w k * w k)) with (nrm2 used w). rewrite <- a_w. ring.
    + intros k Hk. rewrite Hv' by auto. unfold w. destruct (Nat.ltb_spec k i).
      * destruct (Nat.eqb_spec k i); [lia | ring].
      * ring.
  - unfold nrm2. rewrite (rsum_ext used _ (fun k => (mu * mu) * (w k * w k) + ((2 * mu) * ((if Nat.eqb k i then sg else 0) * w k) + (if Nat.eqb k i then sg * sg else 0)))).
    + rewrite !rsum_plus, !rsum_scal, D, rsum_delta by auto. change (rsum used (fun k => w k * w k)) with (nrm2 used w). rewrite <- a_w, Hm, S1, S2. rewrite <- S3. ring.
    + intros k Hk. rewrite Hv' by auto. destruct (Nat.eqb_spec k i); ring.
Qed.

Lemma cut_nrm2 : forall n, (used <= n)%nat -> nrm2 n (cut used v) = nrm2 used v.
Proof.
  intros n Hn. unfold nrm2. rewrite (rsum_extend used n) by (auto; intros k Hk; unfold cut; destruct (Nat.ltb_spec k used); try lia; ring).
  apply rsum_ext. intros k Hk. unfold cut. destruct (Nat.ltb_spec k used); [reflexivity | lia].
Qed.

Lemma is_reflection : forall n, (used <= n)%nat -> g * nrm2 n (cut used v) = 2 \/ (forall k, (k < n)%nat -> cut used v k = 0).
Proof.
  intros n Hn. destruct (Rlt_le_dec a tiny) as [H|H].
  - destruct (small_vec H) as [Ev Eg]. destruct (Nat.lt_ge_cases i used) as [Hi|Hi].
    + left. rewrite cut_nrm2 by auto. rewrite Ev, Eg. unfold nrm2.
      rewrite (rsum_ext used _ (fun k => if Nat.eqb k i then 1 else 0)) by (intros k _; destruct (Nat.eqb k i); ring).
      rewrite rsum_delta by auto. ring.
    + right. intros k Hk. unfold cut. destruct (Nat.ltb_spec k used); [|reflexivity]. rewrite Ev. destruct (Nat.eqb_spec k i); [lia | reflexivity].
  - left. rewrite cut_nrm2 by auto. destruct (large_vec H) as (_ & _ & Eg). rewrite Eg. destruct (large_dot H) as [_ Ed]. rewrite Ed.
    destruct sg_abs as (S1 & _ & _). pose proof (Rabs_pos (m i i * mu)). rewrite S1. field. lra.
Qed.

(* What remains of the column below the diagonal. *)
Hypothesis Hi : (i < N)%nat.
Lemma column_large : tiny <= a -> forall r, (i < r < used)%nat -> householder_step arithR tiny N used m i i r = 0.
Proof.
  intros H r Hr. rewrite (step_at m i used used) by lia. rewrite Nat.leb_refl, (proj2 (Nat.ltb_lt i N) Hi). cbn [andb].
  fold v g. rewrite cut_sum by lia. destruct (large_dot H) as [Ed _]. rewrite Ed. destruct (large_vec H) as (_ & Hv & Eg). rewrite Eg.
  unfold cut. destruct (Nat.ltb_spec r used); [|lia]. rewrite Hv.
  destruct (Nat.eqb_spec r i); [lia|]. destruct (Nat.leb_spec i r); [|lia]. destruct (Nat.ltb_spec r used); [|lia]. cbn [andb].
  destruct sg_abs as (S1 & S2 & S3). destruct (mu_pos H) as [Hm1 Hm2]. rewrite S1. pose proof (Rabs_pos (m i i * mu)).
  assert (Q : (a * mu + sg * m i i) * mu = Rabs (m i i * mu) + 1).
  { rewrite <- S3. replace ((a * mu + sg * m i i) * mu) with (mu * mu * a + sg * (m i i * mu)) by ring. rewrite Hm2. ring. }
  replace ((a * mu + sg * m i i) * (1 / (Rabs (m i i * mu) + 1)) * (m i r * mu)) with ((a * mu + sg * m i i) * mu * (m i r * (1 / (Rabs (m i i * mu) + 1)))) by ring.
  rewrite Q. field. lra.
Qed.
Lemma column_small : a < tiny -> forall r, r <> i -> householder_step arithR tiny N used m i i r = m i r.
Proof.
  intros H r Hr. rewrite (step_at m i used used) by lia. destruct (_ && _)%bool; [|reflexivity].
  fold v g. destruct (small_vec H) as [Ev Eg]. rewrite Ev, Eg. unfold cut. destruct (Nat.ltb r used); [|ring]. destruct (Nat.eqb_spec r i); [lia | ring].
Qed.

Lemma junk_bound : forall d, 0 <= d -> (a < tiny -> sqrt a <= d) ->
  nrm used (fun r => if Nat.ltb i r then householder_step arithR tiny N used m i i r else 0) <= d.
Proof.
  intros d Hd Ha. destruct (Rlt_le_dec a tiny) as [H|H].
  - eapply Rle_trans; [|apply Ha; auto]. rewrite a_w. apply nrm_le. intros k Hk. unfold w.
    destruct (Nat.ltb_spec i k).
    + rewrite column_small by (auto; lia). destruct (Nat.ltb_spec k i); [lia|]. lra.
    + rewrite Rmult_0_l. destruct (Nat.ltb k i); [lra|]. pose proof (Rle_0_sqr (m i k)). unfold Rsqr in *. lra.
  - rewrite nrm_zero; auto. intros k Hk. destruct (Nat.ltb_spec i k); [apply column_large; auto; lia | reflexivity].
Qed.
End Facts.

(* ---- all columns ---- *)

(* The matrix after the first i columns. *)
Definition after (m : fmat) (used i : nat) : fmat := fold_left (householder_step arithR tiny N used) (seq 0 i) m.
Lemma after_S : forall m used i, after m used (S i) = householder_step arithR tiny N used (after m used i) i.
Proof. intros. unfold after. rewrite seq_S, fold_left_app. reflexivity. Qed.

(* Row r of the product with x, without the entries below the diagonal in the first i columns. *)
Definition part (x : nat -> R) (i : nat) (m : fmat) (r : nat) : R := rsum N (fun c => if Nat.leb (Nat.min r i) c then m c r * x c else 0).
Definition full (x : nat -> R) (m : fmat) (r : nat) : R := rsum N (fun c => m c r * x c).
(* What is left below the diagonal in column c. *)
Definition junk (m : fmat) (c r : nat) : R := if Nat.ltb c r then m c r else 0.

(* The norm of a column is not between 0 and tiny. *)
Definition clean (m : fmat) (used : nat) : Prop := forall i, (i < N)%nat ->
  col_norm arithR (after m used i) i used = 0 \/ tiny <= col_norm arithR (after m used i) i used.

Section Steps.
Variable m : fmat.
Variable used n : nat.
Hypothesis Hn : (used <= n)%nat.
Hypothesis Hz : forall c r, (c < N)%nat -> (used <= r < n)%nat -> m c r = 0.
Variable x : nat -> R.
Variable d : R.
Hypothesis Hd : 0 <= d.
Hypothesis Hs : forall i, (i < N)%nat -> col_norm arithR (after m used i) i used < tiny -> sqrt (col_norm arithR (after m used i) i used) <= d.

Lemma rows_zero : forall i, (i <= N)%nat -> forall c r, (c < N)%nat -> (used <= r < n)%nat -> after m used i c r = 0.
Proof.
  induction i as [|i IH]; intros Hi c r Hc Hr; [apply Hz; auto|]. rewrite after_S, (step_at _ _ _ n) by (auto; lia).
  rewrite (IH ltac:(lia) c r Hc Hr). unfold cut at 2. destruct (Nat.ltb_spec r used); [lia|]. destruct (_ && _)%bool; ring.
Qed.

Lemma column_kept : forall i k c r, (i + k <= N)%nat -> (c < i)%nat -> after m used (i + k) c r = after m used i c r.
Proof.
  intros i k. induction k as [|k IH]; intros c r Hk Hc; [rewrite Nat.add_0_r; reflexivity|].
  rewrite Nat.add_succ_r, after_S, (step_at _ _ _ n) by (auto; lia). destruct (Nat.leb_spec (i + k) c); [lia|]. apply IH; lia.
Qed.

Lemma step_junk : forall i, (i < N)%nat -> nrm used (junk (after m used (S i)) i) <= d.
Proof. intros i Hi. rewrite after_S. apply junk_bound; auto. Qed.
Lemma final_junk : forall c, (c < N)%nat -> nrm used (junk (after m used N) c) <= d.
Proof.
  intros c Hc. rewrite (nrm_ext _ _ (junk (after m used (S c)) c)); [apply step_junk; auto|].
  intros k _. unfold junk. destruct (Nat.ltb c k); auto. pose proof (column_kept (S c) (N - S c) c k ltac:(lia) ltac:(lia)) as Q.
  replace (S c + (N - S c))%nat with N in Q by lia. exact Q.
Qed.
Lemma junk_n : forall i c, (i <= N)%nat -> (c < N)%nat -> nrm n (junk (after m used i) c) = nrm used (junk (after m used i) c).
Proof.
  intros i c Hi Hc. apply nrm_extend; auto. intros k Hk. unfold junk. rewrite rows_zero by auto. destruct (Nat.ltb c k); reflexivity.
Qed.

Lemma step_part : forall i, (i < N)%nat ->
  Rabs (nrm n (part x (S i) (after m used (S i))) - nrm n (part x i (after m used i))) <= d * Rabs (x i).
Proof.
  intros i Hi. set (m0 := after m used i). set (m1 := after m used (S i)).
  set (v := cut used (vec_of m0 i used)). set (g := gam_of m0 i used). set (y := part x i m0).
  assert (Hat : forall c r, m1 c r = if (Nat.leb i c && Nat.ltb c N)%bool then m0 c r - rsum n (fun k => m0 c k * v k) * g * v r else m0 c r).
  { intros c r. unfold m1. rewrite after_S. apply (step_at m0 i used n); auto. }
  assert (Hv0 : forall k, (k < i)%nat -> v k = 0) by (intros k Hk; unfold v, cut; rewrite vec_before by auto; destruct (Nat.ltb k used); reflexivity).
  assert (Hy : forall r, part x i m1 r = y r - rsum n (fun l => y l * v l) * g * v r).
  { assert (S : rsum n (fun l => y l * v l) = rsum N (fun c => if Nat.leb i c then rsum n (fun k => m0 c k * v k) * x c else 0)).
    { unfold y, part. rewrite (rsum_ext n _ (fun l => rsum N (fun c => (if Nat.leb i c then m0 c l * x c else 0) * v l))).
      - rewrite rsum_swap. apply rsum_ext. intros c _. destruct (Nat.leb i c).
        + rewrite <- rsum_scal_r. apply rsum_ext. intros l _. ring.
        + apply rsum_zero. intros; ring.
      - intros l _. rewrite <- rsum_scal_r. apply rsum_ext. intros c _. destruct (Nat.lt_ge_cases l i) as [Hl|Hl].
        + rewrite Hv0 by auto. ring.
        + replace (Nat.min l i) with i by lia. reflexivity. }
    intros r. rewrite S. unfold y, part.
    transitivity (rsum N (fun c => (if Nat.leb (Nat.min r i) c then m0 c r * x c else 0) + (-1) * ((if Nat.leb i c then rsum n (fun k => m0 c k * v k) * x c else 0) * g * v r))).
    - apply rsum_ext. intros c Hc. rewrite Hat. rewrite (proj2 (Nat.ltb_lt c N) Hc), andb_true_r.
      destruct (Nat.lt_ge_cases r i) as [Hl|Hl].
      + rewrite (Hv0 r Hl). destruct (Nat.leb (Nat.min r i) c), (Nat.leb i c); ring.
      + replace (Nat.min r i) with i by lia. destruct (Nat.leb i c); ring.
    - rewrite rsum_plus, rsum_scal, !rsum_scal_r. ring. }
  assert (E : nrm n (part x i m1) = nrm n y).
  { rewrite (nrm_ext n _ (fun k => y k - rsum n (fun l => y l * v l) * g * v k)) by (intros; apply Hy).
    apply reflect_nrm. apply is_reflection. auto. }
  rewrite <- E. apply nrm_diff.
  rewrite (nrm_ext n _ (fun k => (- x i) * junk m1 i k)).
  - rewrite nrm_scal, Rabs_Ropp, Rmult_comm. apply Rmult_le_compat_r; [apply Rabs_pos|].
    unfold m1. rewrite junk_n by lia. apply step_junk. auto.
  - intros r _. unfold part, junk.
    transitivity (rsum N (fun c => if Nat.eqb c i then (- x i) * (if Nat.ltb i r then m1 i r else 0) else 0)).
    + transitivity (rsum N (fun c => (if Nat.leb (Nat.min r (S i)) c then m1 c r * x c else 0) + (-1) * (if Nat.leb (Nat.min r i) c then m1 c r * x c else 0))).
      * rewrite rsum_plus, rsum_scal. ring.
      * apply rsum_ext. intros c _. destruct (Nat.eqb_spec c i) as [->|Nc].
        -- destruct (Nat.ltb_spec i r).
           ++ replace (Nat.min r (S i)) with (S i) by lia. replace (Nat.min r i) with i by lia.
              destruct (Nat.leb_spec (S i) i); [lia|]. rewrite Nat.leb_refl. ring.
           ++ replace (Nat.min r (S i)) with r by lia. replace (Nat.min r i) with r by lia. ring.
        -- destruct (Nat.leb_spec (Nat.min r (S i)) c), (Nat.leb_spec (Nat.min r i) c); try lia; ring.
    + rewrite rsum_delta by auto. reflexivity.
Qed.

Lemma steps_part : forall i, (i <= N)%nat ->
  Rabs (nrm n (part x i (after m used i)) - nrm n (part x 0 m)) <= d * rsum i (fun c => Rabs (x c)).
Proof.
  induction i as [|i IH]; intros Hi.
  - cbn. change (after m used 0) with m. rewrite Rminus_eq_0, Rabs_R0. lra.
  - cbn [rsum]. pose proof (IH ltac:(lia)) as H1. pose proof (step_part i ltac:(lia)) as H2.
    replace (nrm n (part x (S i) (after m used (S i))) - nrm n (part x 0 m))
      with ((nrm n (part x (S i) (after m used (S i))) - nrm n (part x i (after m used i))) + (nrm n (part x i (after m used i)) - nrm n (part x 0 m))) by ring.
    eapply Rle_trans; [apply Rabs_triang|]. lra.
Qed.

Lemma part_0 : forall r, part x 0 m r = full x m r.
Proof. intros r. unfold part, full. apply rsum_ext. intros c _. rewrite Nat.min_0_r. reflexivity. Qed.
Lemma full_used : nrm n (full x m) = nrm used (full x m).
Proof. apply nrm_extend; auto. intros k Hk. apply rsum_zero. intros c Hc. rewrite Hz by auto. ring. Qed.
Lemma part_N : forall m' r, (N <= r)%nat -> part x N m' r = 0.
Proof. intros m' r Hr. apply rsum_zero. intros c Hc. destruct (Nat.leb_spec (Nat.min r N) c); [lia | reflexivity]. Qed.

(* The triangle above the diagonal has almost the norm of the whole. *)
Hypothesis HN : (N <= n)%nat.
Lemma house_upper : Rabs (nrm N (part x N (householder arithR tiny N m used)) - nrm used (full x m)) <= d * rsum N (fun c => Rabs (x c)).
Proof.
  rewrite <- full_used. rewrite (nrm_ext n (full x m) (part x 0 m)) by (intros; symmetry; apply part_0).
  rewrite <- (nrm_extend N n) by (auto; intros k Hk; apply part_N; lia). apply (steps_part N). lia.
Qed.
Lemma house_full : Rabs (nrm N (full x (householder arithR tiny N m used)) - nrm used (full x m)) <= 2 * (d * rsum N (fun c => Rabs (x c))).
Proof.
  change (householder arithR tiny N m used) with (after m used N).
  pose proof house_upper as H1. change (householder arithR tiny N m used) with (after m used N) in H1.
  assert (H2 : Rabs (nrm N (full x (after m used N)) - nrm N (part x N (after m used N))) <= d * rsum N (fun c => Rabs (x c))).
  { apply nrm_diff. rewrite (nrm_ext N _ (fun r => rsum N (fun c => x c * junk (after m used N) c r))).
    - eapply Rle_trans; [apply nrm_sum|]. rewrite <- rsum_scal. apply rsum_le. intros c Hc. rewrite nrm_scal, Rmult_comm.
      apply Rmult_le_compat_r; [apply Rabs_pos|]. eapply Rle_trans; [apply (nrm_shrink N n); auto|].
      rewrite junk_n by lia. apply final_junk. auto.
    - intros r Hr. unfold full, part.
      transitivity (rsum N (fun c => after m used N c r * x c + (-1) * (if Nat.leb (Nat.min r N) c then after m used N c r * x c else 0))).
      + rewrite rsum_plus, rsum_scal. ring.
      + apply rsum_ext. intros c _. unfold junk. replace (Nat.min r N) with r by lia.
        destruct (Nat.leb_spec r c), (Nat.ltb_spec c r); try lia; ring. }
  replace (nrm N (full x (after m used N)) - nrm used (full x m))
    with ((nrm N (full x (after m used N)) - nrm N (part x N (after m used N))) + (nrm N (part x N (after m used N)) - nrm used (full x m))) by ring.
  eapply Rle_trans; [apply Rabs_triang|]. lra.
Qed.
End Steps.
End House.
