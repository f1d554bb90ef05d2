(* Planes with one common normal: the matrix stays a list of multiples of the normal, and the
   solution is the mean of the points. *)
From Coq Require Import ZArith List Bool Reals Lra Lia.
From Verif Require Import Base Arith RealArith QefModel QefSpec QefLin QefHouse QefProofs QefLeast.
Import ListNotations.
Local Open Scope R_scope.

Lemma reflect_dot : forall n y z v g, (g * nrm2 n v = 2 \/ (forall k, (k < n)%nat -> v k = 0)) ->
  rsum n (fun k => (y k - rsum n (fun l => y l * v l) * g * v k) * (z k - rsum n (fun l => z l * v l) * g * v k)) = rsum n (fun k => y k * z k).
Proof.
  intros n y z v g H. set (d := rsum n (fun l => y l * v l)). set (e := rsum n (fun l => z l * v l)).
  rewrite (rsum_ext n _ (fun k => y k * z k + ((- (e * g)) * (y k * v k) + ((- (d * g)) * (z k * v k) + (d * g * (e * g)) * (v k * v k))))) by (intros; ring).
  rewrite !rsum_plus, !rsum_scal. fold d e. change (rsum n (fun k => v k * v k)) with (nrm2 n v).
  destruct H as [H|H].
  - replace (d * g * (e * g) * nrm2 n v) with (d * e * g * (g * nrm2 n v)) by ring. rewrite H. ring.
  - assert (d = 0) as -> by (apply rsum_zero; intros k Hk; rewrite H by auto; ring). 
    assert (e = 0) as -> by (apply rsum_zero; intros k Hk; rewrite H by auto; ring). ring.
Qed.
Lemma rsum_nat : forall n f, (forall k, (k < n)%nat -> exists j, f k = INR j) -> exists j, rsum n f = INR j.
Proof.
  induction n as [|n IH]; intros f H; [exists 0%nat; reflexivity|]. destruct (IH f) as (j & Hj); [intros; apply H; lia|].
  destruct (H n ltac:(lia)) as (j' & Hj'). exists (j + j')%nat. cbn [rsum]. rewrite Hj, Hj', plus_INR. reflexivity.
Qed.
Lemma rsum_squares_0 : forall n f, rsum n (fun j => f j * f j) = 0 -> forall j, (j < n)%nat -> f j = 0.
Proof.
  induction n as [|n IH]; intros g Hf j Hj; [lia|]. cbn in Hf.
  pose proof (nrm2_pos n g) as P. unfold nrm2 in P. pose proof (Rle_0_sqr (g n)) as P2. unfold Rsqr in P2.
  destruct (Nat.eq_dec j n) as [->|Nj]; [apply Rsqr_0_uniq; unfold Rsqr; lra | apply IH; [lra|lia]].
Qed.

Section Flat.
Variable tiny : R.
Hypothesis tiny_pos : 0 < tiny.
Variable D : nat.
Notation N := (S D).
(* the normal; its first component other than zero is number i0 *)
Variable n : nat -> R.
Variable i0 : nat.
Hypothesis Hi0 : (i0 < D)%nat.
Hypothesis Hbefore : forall c, (c < i0)%nat -> n c = 0.
Hypothesis Hfirst : tiny <= n i0 * n i0.

(* Every row is a multiple of the normal; the squares of the factors are natural numbers. *)
Record multiples (m : nat -> nat -> R) (used : nat) (lam : nat -> R) : Prop := {
  mu_cols : forall c r, (c < D)%nat -> (r < used)%nat -> m c r = lam r * n c;
  mu_nats : forall r, (r < used)%nat -> exists j, lam r * lam r = INR j }.

Lemma step_flat : forall m used lam i, (i < N)%nat -> multiples m used lam -> ((i0 < i)%nat -> forall r, (i0 < r < used)%nat -> lam r = 0) ->
  let m' := householder_step arithR tiny N used m i in
  exists lam', multiples m' used lam' /\ ((i0 < S i)%nat -> forall r, (i0 < r < used)%nat -> lam' r = 0) /\
    rsum used (fun r => lam' r * lam' r) = rsum used (fun r => lam r * lam r) /\
    rsum used (fun r => lam' r * m' D r) = rsum used (fun r => lam r * m D r) /\
    forall h, (forall r, (r < used)%nat -> m D r = lam r * h) -> forall r, (r < used)%nat -> m' D r = lam' r * h.
Proof.
  intros m used lam i Hi [Hc Hn] Hv m'.
  set (v := cut used (vec_of tiny m i used)). set (g := gam_of tiny m i used).
  set (lam' := fun r => lam r - rsum used (fun k => lam k * v k) * g * v r).
  assert (Hat : forall c r, m' c r = if (Nat.leb i c && Nat.ltb c N)%bool then m c r - rsum used (fun k => m c k * v k) * g * v r else m c r)
    by (intros c r; apply step_at; lia).
  assert (Vz : forall k, (k < i)%nat -> v k = 0).
  { intros k Hk. unfold v, cut. destruct (Nat.ltb k used); [apply vec_before; assumption|reflexivity]. }
  assert (Rf : g * nrm2 used v = 2 \/ (forall k, (k < used)%nat -> v k = 0)) by (apply is_reflection; auto).
  (* if the factors from row i on are zero nothing happens *)
  assert (Same : (forall r, (i <= r < used)%nat -> lam r = 0) -> forall r, lam' r = lam r).
  { intros H r. unfold lam'. rewrite (rsum_zero used); [ring|]. intros k Hk. destruct (Nat.lt_ge_cases k i) as [L|L].
    - rewrite Vz by assumption. ring.
    - rewrite H by lia. ring. }
  assert (Late : (i0 < i)%nat -> forall r, lam' r = lam r) by (intros L; apply Same; intros r Hr; apply Hv; lia).
  assert (Cols : forall c r, (c < D)%nat -> (r < used)%nat -> m' c r = lam' r * n c).
  { intros c r Hcd Hr. rewrite Hat. destruct (Nat.leb_spec i c) as [L|L]; cbn [andb].
    - destruct (Nat.ltb_spec c N); [|lia]. unfold lam'. rewrite (Hc c r) by assumption.
      rewrite (rsum_ext used (fun k => m c k * v k) (fun k => n c * (lam k * v k))) by (intros k Hk; rewrite (Hc c k) by assumption; ring).
      rewrite rsum_scal. ring.
    - rewrite (Hc c r) by assumption. destruct (Nat.lt_ge_cases c i0) as [L'|L'].
      + rewrite (Hbefore c L'). ring.
      + rewrite Late by lia. reflexivity. }
  assert (Vanish : (i0 < S i)%nat -> forall r, (i0 < r < used)%nat -> lam' r = 0).
  { intros L r Hr. destruct (Nat.eq_dec i i0) as [->|Ne]; [|rewrite Late by lia; apply Hv; lia].
    destruct (Rlt_le_dec (col_norm arithR m i0 used) tiny) as [S|S].
    - assert (Z : forall k, (k < used)%nat -> (if Nat.ltb k i0 then 0 else lam k) = 0).
      { apply rsum_squares_0. rewrite col_norm_sum in S. unfold nrm2 in S.
        rewrite (rsum_ext used _ (fun k => (n i0 * n i0) * ((if Nat.ltb k i0 then 0 else lam k) * (if Nat.ltb k i0 then 0 else lam k)))) in S.
        2:{ intros k Hk. destruct (Nat.ltb k i0); [ring|]. rewrite (Hc i0 k) by assumption. ring. }
        rewrite rsum_scal in S.
        destruct (rsum_nat used (fun k => (if Nat.ltb k i0 then 0 else lam k) * (if Nat.ltb k i0 then 0 else lam k))) as (j & Hj).
        { intros k Hk. destruct (Nat.ltb k i0); [exists 0%nat; cbn; ring|auto]. }
        rewrite Hj in *. destruct j as [|j]; [reflexivity|]. rewrite S_INR in *. pose proof (pos_INR j). exfalso. nra. }
      rewrite Same.
      + specialize (Z r ltac:(lia)). destruct (Nat.ltb_spec r i0); [lia|exact Z].
      + intros k Hk. specialize (Z k ltac:(lia)). destruct (Nat.ltb_spec k i0); [lia|exact Z].
    - pose proof (column_large tiny tiny_pos N m i0 used Hi S r Hr) as Q. change (m' i0 r = 0) in Q. rewrite (Cols i0 r) in Q by lia.
      apply Rmult_integral in Q as [Q|Q]; [exact Q|]. exfalso. rewrite Q in Hfirst. lra. }
  assert (Nrm : rsum used (fun r => lam' r * lam' r) = rsum used (fun r => lam r * lam r)) by (apply (reflect_dot used lam lam v g Rf)).
  exists lam'. split; [split; [exact Cols|]|split; [exact Vanish|split; [exact Nrm|split]]].
  - intros r Hr. destruct (Nat.lt_trichotomy i i0) as [L|[L|L]].
    + assert (Sm : col_norm arithR m i used < tiny).
      { rewrite col_norm_sum. unfold nrm2. rewrite rsum_zero; [assumption|]. intros k Hk. destruct (Nat.ltb k i); [ring|].
        rewrite (Hc i k) by lia. rewrite (Hbefore i L). ring. }
      destruct (small_vec tiny m i used Sm) as [Ev Eg]. destruct (Nat.lt_ge_cases i used) as [Hiu|Hiu].
      * assert (El : lam' r = if Nat.eqb r i then - lam r else lam r).
        { unfold lam'. rewrite (rsum_ext used _ (fun k => if Nat.eqb k i then lam i else 0)).
          2:{ intros k Hk. unfold v, cut. rewrite Ev. destruct (Nat.ltb_spec k used); [|lia]. destruct (Nat.eqb_spec k i) as [->|]; ring. }
          rewrite rsum_delta by assumption. unfold g. rewrite Eg. unfold v, cut. rewrite Ev. destruct (Nat.ltb_spec r used); [|lia].
          destruct (Nat.eqb_spec r i) as [->|]; ring. }
        rewrite El. destruct (Hn r Hr) as (j & Hj). exists j. destruct (Nat.eqb r i); rewrite <- Hj; ring.
      * rewrite Same by (intros; lia). auto.
    + subst i. destruct (Nat.lt_trichotomy r i0) as [M|[M|M]].
      * unfold lam'. rewrite Vz by assumption. replace (lam r - _ * g * 0) with (lam r) by ring. auto.
      * subst r. replace used with (i0 + S (used - S i0))%nat in Nrm by lia. rewrite !rsum_app, !(rsum_shift (used - S i0)) in Nrm. rewrite !Nat.add_0_r in Nrm.
        rewrite (rsum_zero (used - S i0) (fun k => lam' (i0 + S k)%nat * lam' (i0 + S k)%nat)) in Nrm.
        2:{ intros k Hk. rewrite Vanish by lia. ring. }
        rewrite (rsum_ext i0 (fun r => lam' r * lam' r) (fun r => lam r * lam r)) in Nrm.
        2:{ intros k Hk. unfold lam'. rewrite Vz by assumption. ring. }
        destruct (rsum_nat (used - S i0) (fun k => lam (i0 + S k)%nat * lam (i0 + S k)%nat)) as (j & Hj); [intros k Hk; apply Hn; lia|].
        destruct (Hn i0 Hr) as (j' & Hj'). exists (j' + j)%nat. rewrite plus_INR, <- Hj, <- Hj'. lra.
      * exists 0%nat. rewrite Vanish by lia. cbn. ring.
    + rewrite Late by assumption. auto.
  - rewrite (rsum_ext used _ (fun r => lam' r * (m D r - rsum used (fun k => m D k * v k) * g * v r))).
    + apply (reflect_dot used lam (m D) v g Rf).
    + intros r Hr. rewrite Hat. destruct (Nat.leb_spec i D), (Nat.ltb_spec D N); try lia. reflexivity.
  - intros h Hh r Hr. rewrite Hat. destruct (Nat.leb_spec i D), (Nat.ltb_spec D N); try lia. cbn [andb]. unfold lam'. rewrite (Hh r Hr).
    rewrite (rsum_ext used (fun k => m D k * v k) (fun k => h * (lam k * v k))) by (intros k Hk; rewrite (Hh k Hk); ring). rewrite rsum_scal. ring.
Qed.

Lemma house_flat : forall m used lam, multiples m used lam -> forall i, (i <= N)%nat ->
  exists lam', multiples (after tiny N m used i) used lam' /\ ((i0 < i)%nat -> forall r, (i0 < r < used)%nat -> lam' r = 0) /\
    rsum used (fun r => lam' r * lam' r) = rsum used (fun r => lam r * lam r) /\
    rsum used (fun r => lam' r * after tiny N m used i D r) = rsum used (fun r => lam r * m D r) /\
    forall h, (forall r, (r < used)%nat -> m D r = lam r * h) -> forall r, (r < used)%nat -> after tiny N m used i D r = lam' r * h.
Proof.
  intros m used lam Hm. induction i as [|i IH]; intros Hi.
  - exists lam. split; [exact Hm|]. split; [intros; lia|]. split; [reflexivity|]. split; [reflexivity|auto].
  - destruct (IH ltac:(lia)) as (l1 & A1 & A2 & A3 & A4 & A5). destruct (step_flat _ used l1 i ltac:(lia) A1 A2) as (l2 & B1 & B2 & B3 & B4 & B5).
    exists l2. rewrite after_S. split; [exact B1|]. split; [exact B2|]. split; [congruence|]. split; [congruence|]. auto.
Qed.

(* The solver after k planes, the sum of the normal times the points being t. *)
Definition flat_solver (s : solver R) (k : nat) (t : R) : Prop :=
  zeros D s /\ exists lam, multiples (q_mat s) (q_used s) lam /\ rsum (q_used s) (fun r => lam r * lam r) = INR k /\
    rsum (q_used s) (fun r => lam r * q_mat s D r) = t.

Lemma compress_flat : forall s k t, flat_solver s k t -> flat_solver (compress arithR tiny D s) k t /\
  exists lam, multiples (q_mat (compress arithR tiny D s)) N lam /\ (forall r, (i0 < r)%nat -> lam r = 0) /\ rsum D (fun r => lam r * lam r) = INR k /\
    rsum D (fun r => lam r * q_mat (compress arithR tiny D s) D r) = t.
Proof.
  intros s k t (Hz & lam & Hm & Hk & Ht).
  destruct (house_flat _ _ _ Hm N ltac:(lia)) as (l1 & [A0 A1] & A2 & A3 & A4 & _). specialize (A2 ltac:(lia)).
  set (l2 := fun r => if Nat.ltb r (q_used s) then l1 r else 0).
  set (s1 := compress arithR tiny D s).
  assert (Em : q_mat s1 = after tiny N (q_mat s) (q_used s) N) by reflexivity.
  assert (Hm2 : multiples (q_mat s1) N l2).
  { split.
    - intros c r Hc Hr. rewrite Em. unfold l2. destruct (Nat.ltb_spec r (q_used s)) as [L|L]; [apply A0; assumption|].
      rewrite (rows_zero tiny N (q_mat s) (q_used s) N) ; try lia; [ring|]. intros c0 r0 H0 H1. apply Hz; lia.
    - intros r Hr. unfold l2. destruct (Nat.ltb_spec r (q_used s)) as [L|L]; [auto|exists 0%nat; cbn; ring]. }
  assert (Hl2 : forall r, (i0 < r)%nat -> l2 r = 0).
  { intros r Hr. unfold l2. destruct (Nat.ltb_spec r (q_used s)); [apply A2; lia|reflexivity]. }
  assert (Sums : forall b, (D <= b)%nat -> forall f : nat -> R, rsum b (fun r => l2 r * f r) = rsum (q_used s) (fun r => l1 r * f r)).
  { intros b Hb f. rewrite (rsum_ext (q_used s) (fun r => l1 r * f r) (fun r => l2 r * f r)).
    2:{ intros r Hr. unfold l2. destruct (Nat.ltb_spec r (q_used s)); [reflexivity|lia]. }
    destruct (Nat.le_ge_cases b (q_used s)) as [L|L].
    - symmetry. apply rsum_extend; [assumption|]. intros r Hr. rewrite Hl2 by lia. ring.
    - apply rsum_extend; [assumption|]. intros r Hr. unfold l2. destruct (Nat.ltb_spec r (q_used s)); [lia|ring]. }
  assert (Sq : forall b, (D <= b)%nat -> rsum b (fun r => l2 r * l2 r) = INR k).
  { intros b Hb. rewrite (Sums b Hb l2). rewrite <- Hk, <- A3. apply rsum_ext. intros r Hr. unfold l2. destruct (Nat.ltb_spec r (q_used s)); [reflexivity|lia]. }
  assert (St : forall b, (D <= b)%nat -> rsum b (fun r => l2 r * q_mat s1 D r) = t).
  { intros b Hb. rewrite (Sums b Hb). rewrite <- Ht, <- A4. reflexivity. }
  split; [split; [apply comp_zeros|]; exists l2|exists l2].
  - change (q_used s1) with N. split; [exact Hm2|]. split; [apply Sq; lia|apply St; lia].
  - split; [exact Hm2|]. split; [exact Hl2|]. split; [apply Sq|apply St]; lia.
Qed.

(* All planes are the same: every row, with its last column, is a multiple of the normal and [h]. *)
Definition level_solver (s : solver R) (k : nat) (h : R) : Prop :=
  zeros D s /\ exists lam, multiples (q_mat s) (q_used s) lam /\ rsum (q_used s) (fun r => lam r * lam r) = INR k /\
    forall r, (r < q_used s)%nat -> q_mat s D r = lam r * h.

Lemma level_flat : forall s k h, level_solver s k h -> flat_solver s k (INR k * h).
Proof.
  intros s k h (Hz & lam & Hm & Hk & Hh). split; [exact Hz|]. exists lam. split; [exact Hm|]. split; [exact Hk|].
  rewrite (rsum_ext _ _ (fun r => h * (lam r * lam r))) by (intros r Hr; rewrite Hh by exact Hr; ring). rewrite rsum_scal, Hk. ring.
Qed.

Lemma compress_level : forall s k h, level_solver s k h -> level_solver (compress arithR tiny D s) k h.
Proof.
  intros s k h (Hz & lam & Hm & Hk & Hh).
  destruct (house_flat _ _ _ Hm N ltac:(lia)) as (l1 & [A0 A1] & A2 & A3 & _ & A5). specialize (A2 ltac:(lia)). specialize (A5 h Hh).
  set (l2 := fun r => if Nat.ltb r (q_used s) then l1 r else 0). split; [apply comp_zeros|]. exists l2.
  assert (Em : q_mat (compress arithR tiny D s) = after tiny N (q_mat s) (q_used s) N) by reflexivity. rewrite Em. change (q_used (compress arithR tiny D s)) with N.
  assert (Z : forall c r, (c <= D)%nat -> (q_used s <= r < N)%nat -> after tiny N (q_mat s) (q_used s) N c r = 0).
  { intros c r Hc Hr. rewrite (rows_zero tiny N (q_mat s) (q_used s) N); try lia; [reflexivity|]. intros c0 r0 H0 H1. apply Hz; lia. }
  split; [split|split].
  - intros c r Hc Hr. unfold l2. destruct (Nat.ltb_spec r (q_used s)) as [L|L]; [apply A0; assumption|]. rewrite Z by lia. ring.
  - intros r Hr. unfold l2. destruct (Nat.ltb_spec r (q_used s)) as [L|L]; [auto|exists 0%nat; cbn; ring].
  - rewrite <- Hk, <- A3. rewrite (rsum_ext (q_used s) (fun r => l1 r * l1 r) (fun r => l2 r * l2 r)).
    2:{ intros r Hr. unfold l2. destruct (Nat.ltb_spec r (q_used s)); [reflexivity|lia]. }
    destruct (Nat.le_ge_cases N (q_used s)) as [L|L].
    + symmetry. apply rsum_extend; [assumption|]. intros r Hr. unfold l2. destruct (Nat.ltb_spec r (q_used s)); [|ring]. rewrite A2 by lia. ring.
    + apply rsum_extend; [assumption|]. intros r Hr. unfold l2. destruct (Nat.ltb_spec r (q_used s)); [lia|ring].
  - intros r Hr. unfold l2. destruct (Nat.ltb_spec r (q_used s)) as [L|L]; [apply A5; exact L|]. rewrite Z by lia. ring.
Qed.

Lemma new_level : forall h, level_solver (q_new arithR) 0 h.
Proof.
  clear Hi0 Hbefore Hfirst i0.
  intros h. split; [intros _ c r _; reflexivity|]. exists (fun _ => 0). split; [split; intros; cbn in *; lia|]. split; [reflexivity|]. intros r Hr. cbn in Hr. lia.
Qed.

Lemma add_level : forall max_rows s k h q s', level_solver s k h -> rsum D (fun c => n c * q c) = h -> add_plane arithR tiny D max_rows s q n = Ret s' ->
  level_solver s' (S k) h.
Proof.
  intros max_rows s k h q s' H Hq A. unfold add_plane in A.
  set (s0 := if Nat.eqb (q_used s) max_rows then compress arithR tiny D s else s) in *.
  assert (H0 : level_solver s0 k h) by (unfold s0; destruct (Nat.eqb _ _); [apply compress_level; assumption|assumption]).
  clearbody s0. clear H s. destruct (Nat.ltb _ max_rows); [|discriminate]. injection A as <-.
  destruct H0 as (Hz & lam & [A0 A1] & Hk & Hh). split.
  - intros L c r Hr. cbn [q_used q_mat] in *. destruct (Nat.eqb_spec r (q_used s0)); [lia|]. cbn [andb]. apply Hz; lia.
  - exists (fun r => if Nat.eqb r (q_used s0) then 1 else lam r). cbn [q_used q_mat]. split; [split|split].
    + intros c r Hc Hr. destruct (Nat.eqb_spec r (q_used s0)) as [->|]; cbn [andb].
      * destruct (Nat.leb_spec c D); [|lia]. destruct (Nat.eqb_spec c D); [lia|]. ring.
      * apply A0; lia.
    + intros r Hr. destruct (Nat.eqb_spec r (q_used s0)); [exists 1%nat; cbn; ring|apply A1; lia].
    + cbn [rsum]. rewrite Nat.eqb_refl, S_INR, <- Hk. f_equal; [|ring]. apply rsum_ext. intros r Hr. destruct (Nat.eqb_spec r (q_used s0)); [lia|reflexivity].
    + intros r Hr. destruct (Nat.eqb_spec r (q_used s0)) as [->|]; cbn [andb]; [|apply Hh; lia].
      rewrite Nat.leb_refl, Nat.eqb_refl. unfold dotn. rewrite sum_left_rsum. cbn [arithR a_mul]. rewrite Hq. ring.
Qed.

(* The error is the square of the distance from the plane, as often as there are planes. *)
Lemma eval_level : forall s k h z, level_solver s k h -> eval arithR D s z = INR k * ((rsum D (fun c => n c * z c) - h) * (rsum D (fun c => n c * z c) - h)).
Proof.
  clear Hi0 Hbefore Hfirst i0.
  intros s k h z (_ & lam & [A0 _] & Hk & Hh). set (g := rsum D (fun c => n c * z c) - h).
  assert (E : forall l e, (forall r, In r l -> (r < q_used s)%nat) ->
    fold_left (fun error i => a_add arithR error (a_mul arithR (a_sub arithR (sum_left arithR (map (fun c => a_mul arithR (q_mat s c i) (z c)) (seq 0 D))) (q_mat s D i))
      (a_sub arithR (sum_left arithR (map (fun c => a_mul arithR (q_mat s c i) (z c)) (seq 0 D))) (q_mat s D i)))) l e = fold_left (fun e i => e + lam i * lam i * (g * g)) l e).
  { induction l as [|i l IH]; intros e Hl; [reflexivity|]. cbn [fold_left]. rewrite IH by (intros; apply Hl; right; assumption). f_equal.
    rewrite sum_left_rsum. cbn [arithR a_add a_mul a_sub]. rewrite (rsum_ext D _ (fun c => lam i * (n c * z c))).
    - rewrite rsum_scal, Hh by (apply Hl; left; reflexivity). unfold g. ring.
    - intros c Hc. rewrite A0; [ring|exact Hc|apply Hl; left; reflexivity]. }
  unfold eval. etransitivity; [apply E; intros r Hr; apply in_seq in Hr; lia|]. rewrite <- Hk. change (a_ofZ arithR 0) with 0.
  generalize (q_used s). clear. induction n0 as [|u IH]; [cbn; ring|]. rewrite seq_S, fold_left_app, IH. cbn [fold_left rsum Nat.add]. ring.
Qed.

Lemma new_flat : flat_solver (q_new arithR) 0 0.
Proof.
  clear Hi0 Hbefore Hfirst i0.
  split; [intros _ c r _; reflexivity|]. exists (fun _ => 0). split; [split; intros; cbn in *; lia|]. split; reflexivity.
Qed.
Lemma add_flat : forall max_rows s k t q s', flat_solver s k t -> add_plane arithR tiny D max_rows s q n = Ret s' ->
  flat_solver s' (S k) (t + rsum D (fun c => n c * q c)).
Proof.
  intros max_rows s k t q s' H A. unfold add_plane in A.
  set (s0 := if Nat.eqb (q_used s) max_rows then compress arithR tiny D s else s) in *.
  assert (H0 : flat_solver s0 k t) by (unfold s0; destruct (Nat.eqb _ _); [apply compress_flat; assumption|assumption]).
  clearbody s0. clear H s. destruct (Nat.ltb _ max_rows); [|discriminate]. injection A as <-.
  destruct H0 as (Hz & lam & [A0 A1] & Hk & Ht). split.
  - intros L c r Hr. cbn [q_used q_mat] in *. destruct (Nat.eqb_spec r (q_used s0)); [lia|]. cbn [andb]. apply Hz; lia.
  - exists (fun r => if Nat.eqb r (q_used s0) then 1 else lam r). cbn [q_used q_mat]. split; [split|split].
    + intros c r Hc Hr. destruct (Nat.eqb_spec r (q_used s0)) as [->|]; cbn [andb].
      * destruct (Nat.leb_spec c D); [|lia]. destruct (Nat.eqb_spec c D); [lia|]. ring.
      * apply A0; lia.
    + intros r Hr. destruct (Nat.eqb_spec r (q_used s0)); [exists 1%nat; cbn; ring|apply A1; lia].
    + cbn [rsum]. rewrite Nat.eqb_refl, S_INR, <- Hk. f_equal; [|ring]. apply rsum_ext. intros r Hr. destruct (Nat.eqb_spec r (q_used s0)); [lia|reflexivity].
    + cbn [rsum]. rewrite !Nat.eqb_refl, Nat.leb_refl. cbn [andb]. rewrite <- Ht. f_equal.
      * apply rsum_ext. intros r Hr. destruct (Nat.eqb_spec r (q_used s0)); [lia|reflexivity].
      * unfold dotn. rewrite sum_left_rsum. cbn [arithR a_mul]. ring.
Qed.

(* data of a solver, and merging it *)
Definition flat_state (d : qstate R) (k : nat) (t : R) : Prop :=
  exists lam, multiples (s_mat d) N lam /\ (forall r, (i0 < r)%nat -> lam r = 0) /\ rsum N (fun r => lam r * lam r) = INR k /\ rsum N (fun r => lam r * s_mat d D r) = t.

Lemma state_flat : forall limit s k t d s', flat_solver s k t -> state arithR tiny D limit s = Ret (d, s') -> flat_state d k t.
Proof.
  intros limit s k t d s' H X. destruct (compress_flat s k t H) as (_ & lam & [A0 A1] & AD & A2 & A3). unfold state in X.
  set (s1 := compress arithR tiny D s) in *. destruct (q_count s1 <? limit)%Z; [|discriminate]. cbn [oassert obind] in X. injection X as <- _.
  exists lam. cbn [s_mat]. split; [split; [|exact A1]|].
  - intros c r Hc Hr. destruct (Nat.leb_spec r c) as [L|L]; [apply A0; assumption|]. destruct (Nat.lt_ge_cases c i0) as [Q|Q]; [rewrite Hbefore by assumption; ring|rewrite AD by lia; ring].
  - split; [exact AD|]. split.
    + cbn [rsum]. rewrite A2, (AD D) by lia. ring.
    + rewrite (rsum_ext N _ (fun r => lam r * q_mat s1 D r)); [cbn [rsum]; rewrite A3, (AD D) by lia; ring|]. intros r Hr. destruct (Nat.leb_spec r D); [reflexivity|lia].
Qed.

Lemma rsum_app : forall a b f, rsum (a + b) f = rsum a f + rsum b (fun r => f (a + r)%nat).
Proof. induction b as [|b IH]; intro f; [rewrite Nat.add_0_r; cbn; ring|]. rewrite Nat.add_succ_r. cbn [rsum]. rewrite IH. ring. Qed.

Lemma merge_flat : forall max_rows s k t d k2 t2 s', flat_solver s k t -> flat_state d k2 t2 -> merge arithR tiny D max_rows s d = Ret s' -> flat_solver s' (k + k2) (t + t2).
Proof.
  intros max_rows s k t d k2 t2 s' H (l2 & [B0 B1] & B2 & B3 & B4) X. unfold merge in X.
  destruct (if (q_dim s <? s_dim d)%Z then _ else _) as [[dim sum] count].
  set (s0 := if Nat.ltb (max_rows - S D) (q_used s) then compress arithR tiny D s else s) in *.
  assert (H0 : flat_solver s0 k t) by (unfold s0; destruct (Nat.ltb _ _); [apply compress_flat; assumption|assumption]).
  clearbody s0. clear H s. destruct (Nat.ltb _ max_rows); [|discriminate]. injection X as <-.
  destruct H0 as (Hz & lam & [A0 A1] & Hk & Ht). set (id := q_used s0) in *. split.
  - intros L. cbn [q_used] in L. lia.
  - exists (fun r => if Nat.ltb r id then lam r else l2 (r - id)%nat). cbn [q_used q_mat].
    assert (P1 : forall c r, (r < id)%nat -> put_rows arithR D (q_mat s0) (s_mat d) id c r = q_mat s0 c r).
    { intros c r Hr. unfold put_rows. destruct (Nat.leb_spec id r); [lia|]. rewrite Bool.andb_false_r. reflexivity. }
    assert (P2 : forall c r, (c <= D)%nat -> (r <= D)%nat -> put_rows arithR D (q_mat s0) (s_mat d) id c (id + r) = if Nat.leb r c then s_mat d c r else 0).
    { intros c r Hc Hr. unfold put_rows. destruct (Nat.leb_spec c D); [|lia]. destruct (Nat.leb_spec id (id + r)%nat); [|lia]. destruct (Nat.leb_spec (id + r)%nat (id + D)%nat); [|lia].
      replace (id + r - id)%nat with r by lia. reflexivity. }
    assert (L1 : forall r, (r < id)%nat -> (if Nat.ltb r id then lam r else l2 (r - id)%nat) = lam r) by (intros r Hr; destruct (Nat.ltb_spec r id); [reflexivity|lia]).
    assert (L2 : forall r, (if Nat.ltb (id + r) id then lam (id + r)%nat else l2 (id + r - id)%nat) = l2 r) by (intros r; destruct (Nat.ltb_spec (id + r) id); [lia|f_equal; lia]).
    split; [split|split].
    + intros c r Hc Hr. destruct (Nat.lt_ge_cases r id) as [Q|Q]; [rewrite P1, L1 by exact Q; apply A0; assumption|].
      replace r with (id + (r - id))%nat by lia. rewrite L2, P2 by lia. set (r' := (r - id)%nat) in *.
      destruct (Nat.leb_spec r' c) as [W|W]; [apply B0; lia|]. destruct (Nat.lt_ge_cases c i0) as [Y|Y]; [rewrite Hbefore by assumption; ring|rewrite B2 by lia; ring].
    + intros r Hr. destruct (Nat.ltb_spec r id); [apply A1; assumption|apply B1; lia].
    + rewrite rsum_app, plus_INR, <- Hk, <- B3. f_equal; apply rsum_ext; intros r Hr; [rewrite L1 by exact Hr|rewrite L2]; reflexivity.
    + rewrite rsum_app, <- Ht, <- B4. f_equal; apply rsum_ext; intros r Hr.
      * rewrite L1, P1 by exact Hr. reflexivity.
      * rewrite L2, P2 by lia. destruct (Nat.leb_spec r D); [reflexivity|lia].
Qed.

(* The solution is the mass point if the normal times the sum of the points is the stored sum. *)
Lemma solve_flat : forall hypot copysign msin mcos matan tune s k t lo hi, flat_solver s k t -> (0 < k)%nat -> q_count s = Z.of_nat k ->
  t = rsum D (fun c => n c * q_sum s c) ->
  forall c, fst (solve arithR tiny hypot copysign msin mcos matan D tune s lo hi) c = clampv arithR (fun c => q_sum s c / INR k) lo hi c.
Proof.
  intros hypot copysign msin mcos matan tune s k t lo hi H Hk Hq Ht c. destruct (compress_flat s k t H) as (_ & lam & [A0 _] & AD & A2 & A3).
  unfold solve. set (s1 := compress arithR tiny D s) in *. rewrite (surjective_pairing (solve_with _ _ _ _ _)). cbn [fst]. unfold clampv.
  rewrite (solve_with_at D _ _ _ _ _ (surjective_pairing _)).
  set (e := fst _). set (E := snd _). clearbody e E.
  assert (R0 : forall r, (r < D)%nat -> rhs D (q_mat s1) (q_mat s1 D) (fun c => q_sum s1 c / IZR (q_count s1)) r = 0).
  { intros r Hr. unfold rhs, l.
    rewrite (rsum_ext D (fun k0 => q_mat s1 r k0 * q_mat s1 D k0) (fun k0 => n r * (lam k0 * q_mat s1 D k0))) by (intros j Hj; rewrite A0 by lia; ring).
    rewrite rsum_scal, A3.
    rewrite (rsum_ext D _ (fun c => (n r * INR k / INR k) * (n c * q_sum s c))).
    - rewrite rsum_scal, <- Ht. pose proof (lt_0_INR k Hk). field. lra.
    - intros j Hj. unfold ata. rewrite (rsum_ext D _ (fun i => (n r * n j) * (lam i * lam i))) by (intros i Hi; rewrite !A0 by lia; ring).
      rewrite rsum_scal, A2. change (q_sum s1) with (q_sum s). change (q_count s1) with (q_count s). rewrite Hq, <- INR_IZR_INZ.
      pose proof (lt_0_INR k Hk). field. lra. }
  assert (Z : zv D (q_mat s1) (q_mat s1 D) (fun c => q_sum s1 c / IZR (q_count s1)) e E (t_pinv tune) c = q_sum s c / INR k).
  { unfold zv, wv. rewrite rsum_zero; [|intros j Hj; rewrite R0 by assumption; ring].
    change (q_sum s1) with (q_sum s). change (q_count s1) with (q_count s). rewrite Hq, <- INR_IZR_INZ. ring. }
  rewrite Z. reflexivity.
Qed.
End Flat.
