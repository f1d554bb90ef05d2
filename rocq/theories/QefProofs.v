(* Proofs about the matrix of a QEF solver. *)
From Coq Require Import ZArith List Bool Reals Lra Lia.
From Verif Require Import Base Arith RealArith QefModel QefLin QefHouse QefSpec.
Import ListNotations.

(* ---- rows, in any arithmetic ---- *)
Section Rows.
Context {T : Type}.
Variable A : arith T.
Variable float_min : T.
Variable hypot copysign : T -> T -> T.
Variable msin mcos matan : T -> T.
Variable D max_rows : nat.
Variable points_limit : Z.
Variable free : solver T -> Prop.
Hypothesis enough : (2 * S D <= max_rows)%nat.

Lemma add_plane_runs : forall s q n, (q_used s <= max_rows)%nat ->
  exists s', add_plane A float_min D max_rows s q n = Ret s' /\ (1 <= q_used s' <= max_rows)%nat.
Proof.
  intros s q n H. unfold add_plane. destruct (Nat.eqb_spec (q_used s) max_rows).
  - cbn [compress q_used]. destruct (Nat.ltb_spec (S D) max_rows); [|lia]. eexists. split; [reflexivity|]. cbn [q_used]. lia.
  - destruct (Nat.ltb_spec (q_used s) max_rows); [|lia]. eexists. split; [reflexivity|]. cbn [q_used]. lia.
Qed.
Lemma merge_runs : forall s d, (q_used s <= max_rows)%nat ->
  exists s', merge A float_min D max_rows s d = Ret s' /\ (q_used s' <= max_rows)%nat.
Proof.
  intros s d H. unfold merge. destruct (if (q_dim s <? s_dim d)%Z then _ else _) as [[dim sum] count].
  destruct (Nat.ltb_spec (max_rows - S D) (q_used s)).
  - cbn [compress q_used]. destruct (Nat.ltb_spec (S D + D) max_rows); [|lia]. eexists. split; [reflexivity|]. cbn [q_used]. lia.
  - destruct (Nat.ltb_spec (q_used s + D) max_rows); [|lia]. eexists. split; [reflexivity|]. cbn [q_used]. lia.
Qed.
Lemma state_used : forall s d s', state A float_min D points_limit s = Ret (d, s') -> s' = compress A float_min D s /\
  d = QState (fun c r => if Nat.leb r c then q_mat (compress A float_min D s) c r else a_ofZ A 0) (q_sum s) (q_count s) (q_dim s) /\ (q_count s < points_limit)%Z.
Proof.
  intros s d s' H. unfold state, oassert in H. cbn [obind] in H. cbn [compress q_count] in H.
  destruct (q_count s <? points_limit)%Z eqn:E; cbn in H; [|discriminate].
  apply Z.ltb_lt in E. injection H as <- <-. split; [reflexivity|]. split; [reflexivity|auto].
Qed.
Lemma solve_solver : forall tune s lo hi z s', solve A float_min hypot copysign msin mcos matan D tune s lo hi = (z, s') ->
  q_mat s' = q_mat (compress A float_min D s) /\ q_used s' = S D /\ q_sum s' = q_sum s /\ q_count s' = q_count s.
Proof.
  intros tune s lo hi z s' H. unfold solve in H. destruct (solve_with _ _ _ _ _) as [x dim] in H. injection H as <- <-. repeat split.
Qed.
Lemma history_rows : forall s L k, history A float_min hypot copysign msin mcos matan D max_rows points_limit free s L k -> (q_used s <= max_rows)%nat.
Proof.
  intros s L k H. induction H as [|s L k q n s' k1 H IH E C|s L k d s' k1 H IH E C|s L k s2 L2 k2 d s2' s' k1 k3 H IH H2 IH2 E C2 M C|s L k tune lo hi z s' k1 H IH E C].
  - cbn. lia.
  - destruct (add_plane_runs s q n IH) as (s0 & E0 & Hs). rewrite E0 in E. injection E as <-. lia.
  - apply state_used in E. destruct E as [-> _]. cbn. lia.
  - destruct (merge_runs s d IH) as (s0 & E0 & Hs). rewrite E0 in M. injection M as <-. lia.
  - apply solve_solver in E. lia.
Qed.
End Rows.

Local Open Scope R_scope.
Lemma total_rsum : forall n f, total n f = rsum n f.
Proof. induction n as [|n IH]; intros f; cbn; [reflexivity|]. rewrite IH. reflexivity. Qed.

Lemma two_norms : forall a b a' b', Rabs (sqrt (a * a + b * b) - sqrt (a' * a' + b' * b')) <= Rabs (a - a') + Rabs (b - b').
Proof.
  assert (K : forall a b, sqrt (a * a + b * b) <= Rabs a + Rabs b).
  { intros a b. pose proof (plane_triangle a 0 0 b) as P. rewrite Rplus_0_r, Rplus_0_l in P.
    replace (a * a + 0 * 0) with (Rsqr a) in P by (unfold Rsqr; ring). replace (0 * 0 + b * b) with (Rsqr b) in P by (unfold Rsqr; ring).
    rewrite !sqrt_Rsqr_abs in P. exact P. }
  assert (W : forall a b a' b', sqrt (a * a + b * b) <= sqrt (a' * a' + b' * b') + (Rabs (a - a') + Rabs (b - b'))).
  { intros a b a' b'. pose proof (plane_triangle a' (a - a') b' (b - b')) as P.
    replace (a' + (a - a')) with a in P by ring. replace (b' + (b - b')) with b in P by ring. pose proof (K (a - a') (b - b')). lra. }
  intros a b a' b'. pose proof (W a b a' b') as H1. pose proof (W a' b' a b) as H2. rewrite (Rabs_minus_sym a' a), (Rabs_minus_sym b' b) in H2.
  apply Rabs_le. lra.
Qed.

Section Real.
Variable tiny : R.
Hypothesis tiny_pos : 0 < tiny.
Variable hypot copysign : R -> R -> R.
Variable msin mcos matan : R -> R.
Variable D max_rows : nat.
Variable points_limit : Z.
Notation hist := (history arithR tiny hypot copysign msin mcos matan D max_rows points_limit (no_tiny_column tiny D)).
Notation comp := (compress arithR tiny D).

Definition ext (p : nat -> R) : nat -> R := fun c => if Nat.eqb c D then -1 else p c.
Definition nf (s : solver R) (p : nat -> R) : R := nrm (q_used s) (full (S D) (ext p) (q_mat s)).

Lemma ext_sum : forall (p g : nat -> R), rsum (S D) (fun c => g c * ext p c) = rsum D (fun c => g c * p c) - g D.
Proof.
  intros p g. cbn [rsum]. unfold ext at 2. rewrite Nat.eqb_refl. rewrite (rsum_ext D _ (fun c => g c * p c)); [ring|].
  intros c Hc. unfold ext. destruct (Nat.eqb_spec c D); [lia | reflexivity].
Qed.
Lemma ext_taxi : forall p, rsum (S D) (fun c => Rabs (ext p c)) = taxi D p + 1.
Proof.
  intros p. cbn [rsum]. unfold ext at 2. rewrite Nat.eqb_refl, Rabs_left by lra. unfold taxi. change (total D) with (rsum D).
  rewrite (rsum_ext D _ (fun c => Rabs (p c))); [ring|]. intros c Hc. unfold ext. destruct (Nat.eqb_spec c D); [lia | reflexivity].
Qed.
Lemma sum_left_rsum : forall (n : nat) (f : nat -> R), sum_left arithR (map f (seq 0 n)) = rsum n f.
Proof.
  intros n f. destruct n as [|n]; [reflexivity|]. cbn [seq map sum_left]. unfold sum_from. cbn [arithR a_add].
  rewrite <- seq_shift, map_map. rewrite rsum_shift.
  assert (G : forall l z, fold_left (fun s x => s + x) (map (fun k => f (S k)) l) z = fold_left (fun s k => s + f (S k)) l z).
  { induction l as [|k l IH]; intros z; cbn; auto. }
  rewrite G. rewrite (rsum_fold n 0 (fun k => f (S k))). reflexivity.
Qed.
Lemma eval_nrm : forall s p, eval arithR D s p = nrm2 (q_used s) (full (S D) (ext p) (q_mat s)).
Proof.
  intros s p. unfold eval. cbn [arithR a_add a_sub a_mul a_ofZ]. unfold nrm2.
  rewrite (rsum_fold (q_used s) 0 (fun i => _)). rewrite Rplus_0_l. apply rsum_ext. intros k _. cbn [Nat.add].
  unfold full. rewrite (ext_sum p (fun c => q_mat s c k)). rewrite (sum_left_rsum D (fun c => q_mat s c k * p c)). reflexivity.
Qed.
Lemma eval_nf : forall s p, sqrt (eval arithR D s p) = nf s p.
Proof. intros. rewrite eval_nrm. reflexivity. Qed.

(* Rows that are not used yet are zero as long as there are few. *)
Definition zeros (s : solver R) : Prop := (q_used s < S D)%nat -> forall c r, (q_used s <= r)%nat -> q_mat s c r = 0.

Lemma comp_used : forall s, q_used (comp s) = S D.
Proof. reflexivity. Qed.
Lemma comp_zeros : forall s, zeros (comp s).
Proof. intros s H. rewrite comp_used in H. lia. Qed.

Notation unit_of := (sqrt tiny).
(* What a compression costs. *)
Lemma charge_bound : forall (c : Prop) s k, c -> charge (no_tiny_column tiny D) c s k ->
  exists d, 0 <= d /\ d <= INR k * sqrt tiny /\
    (forall i, (i < S D)%nat -> col_norm arithR (after tiny (S D) (q_mat s) (q_used s) i) i (q_used s) < tiny ->
       sqrt (col_norm arithR (after tiny (S D) (q_mat s) (q_used s) i) i (q_used s)) <= d).
Proof.
  intros c s k Hc [[-> F] | ->].
  - exists 0. split; [lra|]. split; [cbn; lra|]. intros i Hi Hs. destruct (F Hc i ltac:(lia)) as [E|E]; unfold after in *.
    + rewrite E, sqrt_0. lra.
    + lra.
  - exists (sqrt tiny). pose proof (sqrt_pos tiny). split; [auto|]. split; [cbn; lra|]. intros i Hi Hs. apply sqrt_le_1_alt. lra.
Qed.
Section Compress.
Variable s : solver R.
Hypothesis Hz : zeros s.
Variable c : Prop.
Variable k : nat.
Hypothesis Hc : c.
Hypothesis Hk : charge (no_tiny_column tiny D) c s k.
Variable p : nat -> R.
Let n := Nat.max (q_used s) (S D).
Let zs : forall c r, (c < S D)%nat -> (q_used s <= r < n)%nat -> q_mat s c r = 0.
Proof. intros c0 r Hc0 Hr. apply Hz; unfold n in *; lia. Qed.
Lemma weight : 0 <= taxi D p.
Proof. unfold taxi. change (total D) with (rsum D). apply rsum_nonneg. intros. apply Rabs_pos. Qed.

Lemma compress_nf : Rabs (nf (comp s) p - nf s p) <= 2 * INR k * sqrt tiny * (taxi D p + 1).
Proof.
  destruct (charge_bound c s k Hc Hk) as (d & H0 & H1 & H2).
  pose proof (house_full tiny tiny_pos (S D) (q_mat s) (q_used s) n ltac:(unfold n; lia) zs (ext p) d H0 H2 ltac:(unfold n; lia)) as B.
  unfold nf. rewrite comp_used. cbn [compress q_mat]. eapply Rle_trans; [exact B|]. rewrite ext_taxi.
  pose proof weight. pose proof (Rmult_le_compat_r (taxi D p + 1) _ _ ltac:(lra) H1). lra.
Qed.
Lemma compress_upper : Rabs (nrm (S D) (part (S D) (ext p) (S D) (q_mat (comp s))) - nf s p) <= 2 * INR k * sqrt tiny * (taxi D p + 1).
Proof.
  destruct (charge_bound c s k Hc Hk) as (d & H0 & H1 & H2).
  pose proof (house_upper tiny tiny_pos (S D) (q_mat s) (q_used s) n ltac:(unfold n; lia) zs (ext p) d H0 H2 ltac:(unfold n; lia)) as B.
  unfold nf. cbn [compress q_mat]. eapply Rle_trans; [exact B|]. rewrite ext_taxi.
  pose proof weight. pose proof (Rmult_le_compat_r (taxi D p + 1) _ _ ltac:(lra) H1).
  pose proof (Rmult_le_pos _ _ H0 (Rlt_le 0 (taxi D p + 1) ltac:(lra))). lra.
Qed.
End Compress.

Lemma planes_error_nonneg : forall L p, 0 <= planes_error D L p.
Proof.
  intros L p. unfold planes_error. induction L as [|l L IH]; cbn; [lra|].
  unfold plane_error at 1. pose proof (Rle_0_sqr (total D (fun c => snd l c * (p c - fst l c)))). unfold Rsqr in *. lra.
Qed.
Lemma planes_error_app : forall L1 L2 p, planes_error D (L1 ++ L2) p = planes_error D L1 p + planes_error D L2 p.
Proof. intros L1 L2 p. unfold planes_error. induction L1 as [|l L IH]; cbn; [ring|]. rewrite IH. ring. Qed.

(* rows added below *)
Lemma nrm_stack : forall a b f, nrm (a + b) f = sqrt (nrm a f * nrm a f + nrm b (fun r => f (a + r)%nat) * nrm b (fun r => f (a + r)%nat)).
Proof. intros a b f. rewrite !nrm_sq. unfold nrm, nrm2. rewrite rsum_app. reflexivity. Qed.

Lemma plane_row : forall (q n p : nat -> R) (m : nat -> nat -> R) id,
  full (S D) (ext p) (fun c r => if (Nat.eqb r id && Nat.leb c D)%bool then (if Nat.eqb c D then dotn arithR D n q else n c) else m c r) id
  = total D (fun c => n c * (p c - q c)).
Proof.
  intros q n p m id. unfold full. rewrite (ext_sum p (fun c => if (Nat.eqb id id && Nat.leb c D)%bool then (if Nat.eqb c D then dotn arithR D n q else n c) else m c id)).
  rewrite !Nat.eqb_refl, Nat.leb_refl. cbn [andb]. unfold dotn. cbn [arithR a_mul].
  rewrite (sum_left_rsum D (fun c => n c * q c)). change (total D) with (rsum D).
  rewrite (rsum_ext D (fun c => n c * (p c - q c)) (fun c => n c * p c + (-1) * (n c * q c))) by (intros; ring).
  rewrite rsum_plus, rsum_scal. rewrite (rsum_ext D (fun c => (if Nat.leb c D then _ else _) * p c) (fun c => n c * p c)); [ring|].
  intros c Hc. destruct (Nat.leb_spec c D); [|lia]. destruct (Nat.eqb_spec c D); [lia | reflexivity].
Qed.

Definition bound (k : nat) (p : nat -> R) : R := 2 * INR k * sqrt tiny * (taxi D p + 1).
Lemma bound_plus : forall a b p, bound (a + b) p = bound a p + bound b p.
Proof. intros. unfold bound. rewrite plus_INR. ring. Qed.
Lemma bound_nonneg : forall k p, 0 <= bound k p.
Proof.
  intros k p. unfold bound. pose proof (weight p). pose proof (sqrt_pos tiny). pose proof (pos_INR k).
  pose proof (Rmult_le_pos _ _ H1 H0). pose proof (Rmult_le_pos _ _ H2 (Rlt_le 0 (taxi D p + 1) ltac:(lra))). lra.
Qed.
Lemma near_trans : forall a b c x y, Rabs (a - b) <= x -> Rabs (b - c) <= y -> Rabs (a - c) <= x + y.
Proof. intros a b c x y H1 H2. replace (a - c) with ((a - b) + (b - c)) by ring. eapply Rle_trans; [apply Rabs_triang|]. lra. Qed.

(* compression that may take place *)
Lemma maybe_compress : forall (b : bool) (P : Prop) s k p, (b = true -> P) -> zeros s -> charge (no_tiny_column tiny D) P s k ->
  let s1 := if b then comp s else s in zeros s1 /\ Rabs (nf s1 p - nf s p) <= bound k p.
Proof.
  intros b P s k p HP Hz C. destruct b; cbn zeta.
  - split; [apply comp_zeros|]. apply (compress_nf s Hz P k (HP eq_refl) C).
  - split; [auto|]. rewrite Rminus_eq_0, Rabs_R0. apply bound_nonneg.
Qed.

Lemma add_nf : forall s q n s' k p, zeros s -> add_plane arithR tiny D max_rows s q n = Ret s' ->
  charge (no_tiny_column tiny D) (q_used s = max_rows) s k ->
  zeros s' /\ exists e, Rabs (e - nf s p) <= bound k p /\
    nf s' p = sqrt (e * e + total D (fun c => n c * (p c - q c)) * total D (fun c => n c * (p c - q c))).
Proof.
  intros s q n s' k p Hz E C. unfold add_plane in E.
  destruct (maybe_compress (Nat.eqb (q_used s) max_rows) _ s k p (fun b => proj1 (Nat.eqb_eq _ _) b) Hz C) as [Hz1 B].
  set (s1 := if Nat.eqb (q_used s) max_rows then comp s else s) in *.
  destruct (Nat.ltb (q_used s1) max_rows); [|discriminate]. injection E as <-. split.
  - intros H c r Hr. cbn [q_used q_mat] in *. destruct (Nat.eqb_spec r (q_used s1)); [lia|]. cbn [andb]. apply Hz1; lia.
  - exists (nf s1 p). split; [exact B|]. unfold nf at 1. cbn [q_used q_mat]. rewrite nrm_S, plane_row. unfold nf.
    rewrite (nrm_ext (q_used s1) _ (full (S D) (ext p) (q_mat s1))); [reflexivity|].
    intros r Hr. unfold full. apply rsum_ext. intros c Hc. destruct (Nat.eqb_spec r (q_used s1)); [lia | reflexivity].
Qed.
Lemma merge_nf : forall s s2 d s2' s' k k3 p, zeros s -> zeros s2 -> state arithR tiny D points_limit s2 = Ret (d, s2') ->
  charge (no_tiny_column tiny D) True s2 k3 ->
  merge arithR tiny D max_rows s d = Ret s' -> charge (no_tiny_column tiny D) (max_rows - S D < q_used s)%nat s k ->
  zeros s' /\ exists e e2, Rabs (e - nf s p) <= bound k p /\ Rabs (e2 - nf s2 p) <= bound k3 p /\ nf s' p = sqrt (e * e + e2 * e2).
Proof.
  intros s s2 d s2' s' k k3 p Hz Hz2 Es C3 E C.
  apply (state_used arithR) in Es. destruct Es as (_ & -> & _). unfold merge in E.
  destruct (if (q_dim s <? _)%Z then _ else _) as [[dim sum] count].
  destruct (maybe_compress (Nat.ltb (max_rows - S D) (q_used s)) _ s k p (fun b => proj1 (Nat.ltb_lt _ _) b) Hz C) as [Hz1 B].
  set (s1 := if Nat.ltb (max_rows - S D) (q_used s) then comp s else s) in *.
  destruct (Nat.ltb (q_used s1 + D) max_rows); [|discriminate]. injection E as <-. split.
  - intros H. cbn [q_used] in H. lia.
  - exists (nf s1 p), (nrm (S D) (part (S D) (ext p) (S D) (q_mat (comp s2)))). split; [exact B|].
    split; [apply (compress_upper s2 Hz2 True k3 I C3)|]. unfold nf at 1. cbn [q_used q_mat s_mat]. rewrite nrm_stack.
    rewrite (nrm_ext (q_used s1) _ (full (S D) (ext p) (q_mat s1))).
    2:{ intros r Hr. unfold full. apply rsum_ext. intros c Hc. unfold put_rows.
        destruct (Nat.leb_spec (q_used s1) r); [lia|]. rewrite andb_false_r. reflexivity. }
    rewrite (nrm_ext (S D) (fun r => full _ _ _ (q_used s1 + r)) (part (S D) (ext p) (S D) (q_mat (comp s2)))); [reflexivity|].
    intros r Hr. unfold full, part. apply rsum_ext. intros c Hc. unfold put_rows.
    destruct (Nat.leb_spec c D); [|lia]. destruct (Nat.leb_spec (q_used s1) (q_used s1 + r)); [|lia].
    destruct (Nat.leb_spec (q_used s1 + r) (q_used s1 + D)); [|lia]. cbn [andb].
    replace (q_used s1 + r - q_used s1)%nat with r by lia. replace (Nat.min r (S D)) with r by lia.
    destruct (Nat.leb r c); [reflexivity|]. cbn. ring.
Qed.

Theorem history_error : forall s L k, hist s L k -> zeros s /\ forall p, Rabs (nf s p - sqrt (planes_error D L p)) <= bound k p.
Proof.
  intros s L k H. induction H as [|s L k q n s' k1 H IH E C|s L k d s' k1 H IH E C|s L k s2 L2 k2 d s2' s' k1 k3 H IH H2 IH2 E C2 M C|s L k tune lo hi z s' k1 H IH E C].
  - split; [intros _ c r _; reflexivity|]. intros p. unfold nf. cbn [q_new q_used]. unfold nrm, nrm2. cbn. rewrite sqrt_0, Rminus_eq_0, Rabs_R0. apply bound_nonneg.
  - destruct IH as [Hz IH]. destruct (add_nf s q n s' k1 (fun _ => 0) Hz E C) as [Hz' _]. split; [exact Hz'|]. intros p.
    destruct (add_nf s q n s' k1 p Hz E C) as (_ & e & He & ->). rewrite planes_error_app.
    replace (planes_error D L p) with (sqrt (planes_error D L p) * sqrt (planes_error D L p)) by (apply sqrt_sqrt, planes_error_nonneg).
    unfold planes_error at 3. cbn [fold_right]. rewrite Rplus_0_r. unfold plane_error. cbn [fst snd].
    eapply Rle_trans; [apply two_norms|]. rewrite Rminus_eq_0, Rabs_R0, Rplus_0_r.
    rewrite bound_plus, Rplus_comm. eapply near_trans; [exact He | apply IH].
  - destruct IH as [Hz IH]. apply (state_used arithR) in E. destruct E as (-> & _ & _). split; [apply comp_zeros|]. intros p.
    rewrite bound_plus, Rplus_comm. eapply near_trans; [apply (compress_nf s Hz True k1 I C) | apply IH].
  - destruct IH as [Hz IH]. destruct IH2 as [Hz2 IH2]. destruct (merge_nf s s2 d s2' s' k1 k3 (fun _ => 0) Hz Hz2 E C2 M C) as [Hz' _].
    split; [exact Hz'|]. intros p. destruct (merge_nf s s2 d s2' s' k1 k3 p Hz Hz2 E C2 M C) as (_ & e & e2 & He & He2 & ->). rewrite planes_error_app.
    replace (planes_error D L p) with (sqrt (planes_error D L p) * sqrt (planes_error D L p)) by (apply sqrt_sqrt, planes_error_nonneg).
    replace (planes_error D L2 p) with (sqrt (planes_error D L2 p) * sqrt (planes_error D L2 p)) by (apply sqrt_sqrt, planes_error_nonneg).
    eapply Rle_trans; [apply two_norms|]. rewrite !bound_plus.
    pose proof (near_trans _ _ _ _ _ He (IH p)). pose proof (near_trans _ _ _ _ _ He2 (IH2 p)). lra.
  - destruct IH as [Hz IH]. apply solve_solver in E. destruct E as (Em & Eu & _). split; [intros H0; lia|]. intros p.
    assert (N : nf s' p = nf (comp s) p) by (unfold nf; rewrite Em, Eu; reflexivity). rewrite N.
    rewrite bound_plus, Rplus_comm. eapply near_trans; [apply (compress_nf s Hz True k1 I C) | apply IH].
Qed.

(* The sums of points and the number of rows of planes that were put directly. *)
End Real.
