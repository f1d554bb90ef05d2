(* C82: the position and the step of a grid are only a change of coordinates. *)
From Coq Require Import ZArith Reals List Bool Lia Lra Psatz.
From Verif Require Import Base Arith RealArith GridModel EdgeModel FillModel ZeroModel MeshModel MCModel UdcModel OctreeModel DcModel MdcModel.
Import ListNotations.
Local Open Scope R_scope.

(* The coordinates of a point of the local space in the global one, and back. *)
Definition outwards (s : R) (p l : vec3 R) : vec3 R := V3 (vx l * s + vx p) (vy l * s + vy p) (vz l * s + vz p).
Definition inwards (s : R) (p x : vec3 R) : vec3 R := V3 ((vx x - vx p) / s) ((vy x - vy p) / s) ((vz x - vz p) / s).

(* The field [f] enlarged [s] times and moved by [p].  Its values are distances as much as those of [f] are; the
   gradient stays the same. *)
Definition moved (f : field envR) (s : R) (p : vec3 R) : field envR :=
  @Field envR (fun x => s * fl_value f (inwards s p x)) (fun x => fl_grad f (inwards s p x))
    (fun x v => fl_material f (inwards s p x) (v / s)).

Definition origin : vec3 R := V3 0 0 0.

(* The same grid data at another place. *)
Definition placed (s : R) (p : vec3 R) (g : ugrid envR) : ugrid envR :=
  @UGrid envR (g_size g) p s (g_mat g) (g_ex g) (g_ey g) (g_ez g).

(* A zero finder that commutes with the change of coordinates, if called for an interval with a sign change. *)
Definition equivariant (solver : zero_finder envR) : Prop := forall f s p d (x : vec3 R) (c1 v0 v1 : R), 0 < s ->
  Rleb v0 0 <> Rleb v1 0 ->
  solver (@ZfCall envR d (outwards s p x) (c1 * s + vget d p) (s * v0) (s * v1)) (moved f s p)
  = solver (@ZfCall envR d x c1 v0 v1) f * s + vget d p.

Lemma in_out : forall s p l, 0 < s -> inwards s p (outwards s p l) = l.
Proof. intros s p [x y z] Hs. unfold inwards, outwards. cbn [vx vy vz]. f_equal; field; lra. Qed.

Lemma get_out : forall s p d l, vget d (outwards s p l) = vget d l * s + vget d p.
Proof. intros s p [] l; reflexivity. Qed.

Lemma unscale : forall s v, 0 < s -> s * v / s = v.
Proof. intros. field. lra. Qed.

Lemma get_next : forall s p d l, vget d (outwards s p l) + s = (vget d l + 1) * s + vget d p.
Proof. intros. rewrite get_out. ring. Qed.
Lemma get_offset : forall s p d l r, 0 < s -> (r * s + vget d p - vget d (outwards s p l)) / s = (r - vget d l) / 1.
Proof. intros. rewrite get_out. field. lra. Qed.

Lemma eq_bool : forall a b : bool, (a = true <-> b = true) -> a = b.
Proof. intros [] [] H; try reflexivity; [symmetry|]; apply H; reflexivity. Qed.

Lemma le_scale : forall s a b, 0 < s -> Rleb (s * a) (s * b) = Rleb a b.
Proof. intros. apply eq_bool. rewrite !Rleb_iff. split; intro; nra. Qed.
Lemma lt_scale : forall s a b, 0 < s -> Rltb (s * a) (s * b) = Rltb a b.
Proof. intros. apply eq_bool. rewrite !Rltb_iff. split; intro; nra. Qed.
Lemma le0_scale : forall s a, 0 < s -> Rleb (s * a) 0 = Rleb a 0.
Proof. intros. rewrite <- (le_scale s a 0) by assumption. f_equal. ring. Qed.
Lemma gt0_scale : forall s a, 0 < s -> Rltb 0 (s * a) = Rltb 0 a.
Proof. intros. rewrite <- (lt_scale s 0 a) by assumption. f_equal. ring. Qed.
Lemma sign_scale : forall s a b, 0 < s -> Rltb 0 ((s * a) * (s * b)) = Rltb 0 (a * b).
Proof.
  intros. rewrite <- (gt0_scale (s * s) (a * b)) by nra. f_equal. ring.
Qed.
Lemma abs_scale : forall s a, 0 < s -> Rabs (s * a) = s * Rabs a.
Proof. intros. rewrite Rabs_mult, (Rabs_pos_eq s) by lra. reflexivity. Qed.

(* ---- the zero finders ---- *)

Lemma value_moved : forall f s p d x c, 0 < s ->
  @value_at envR (moved f s p) d (outwards s p x) (c * s + vget d p) = s * @value_at envR f d x c.
Proof.
  intros f s p d x c Hs. unfold value_at.
  replace (vset envR d (outwards s p x) (c * s + vget d p)) with (outwards s p (vset envR d x c)).
  - cbn [moved fl_value]. rewrite in_out by assumption. reflexivity.
  - destruct d; reflexivity.
Qed.

Lemma bisect_moved : forall (F F' : R -> R) s q, 0 < s -> (forall c, F' (c * s + q) = s * F c) ->
  forall steps c0 c1 f0 f1,
  @bisect envR F' steps (c0 * s + q) (c1 * s + q) (s * f0) (s * f1) = @bisect envR F steps c0 c1 f0 f1 * s + q.
Proof.
  intros F F' s q Hs HF. induction steps as [|n IH]; intros c0 c1 f0 f1; cbn [bisect].
  - cbn [envR fp_d arithR a_le a_abs]. rewrite !abs_scale, le_scale by assumption.
    destruct (Rleb (Rabs f0) (Rabs f1)); reflexivity.
  - assert (Hm : @midpoint envR (c0 * s + q) (c1 * s + q) = @midpoint envR c0 c1 * s + q).
    { change (((c0 * s + q) + (c1 * s + q)) * (1 / 2) = ((c0 + c1) * (1 / 2)) * s + q). field. }
    rewrite Hm. rewrite HF. set (mid := @midpoint envR c0 c1). generalize (F mid). intro val.
    assert (S0 : forall f, @same_sign envR (s * val) (s * f) = @same_sign envR val f).
    { intro f. unfold same_sign. cbn [envR fp_d arithR a_lt a_mul a_ofZ]. apply sign_scale. assumption. }
    rewrite !S0. destruct (@same_sign envR val f0); [apply IH|].
    destruct (@same_sign envR val f1); [apply IH|].
    unfold std_min. cbn [envR fp_d arithR a_le a_lt a_abs]. rewrite !abs_scale by assumption.
    rewrite lt_scale, (le_scale s (Rabs f0) (Rabs f1)) by assumption.
    destruct (Rltb (Rabs f1) (Rabs f0)); rewrite le_scale by assumption;
      destruct (Rleb (Rabs val) _); try reflexivity; destruct (Rleb (Rabs f0) (Rabs f1)); reflexivity.
Qed.

Theorem C82_bisection : forall steps, equivariant (@bisection envR steps).
Proof.
  intros steps f s p d x c1 v0 v1 Hs _. unfold bisection. cbn [zc_axis zc_start zc_end zc_f0 zc_f1].
  refine (eq_ind_r (fun z : R => @bisect envR (@value_at envR (moved f s p) d (outwards s p x)) (Z.to_nat (set_step_count steps)) z
    (c1 * s + vget d p) (s * v0) (s * v1) = _) _ (get_out s p d x)).
  apply bisect_moved; [assumption|]. intro c. apply value_moved. assumption.
Qed.
Print Assumptions C82_bisection.

Lemma opposite_keep : forall v a b j, 0 < v * a -> a * b <= 0 -> 0 < j -> v * (b * j) <= 0 /\ v <> b * j.
Proof.
  intros v a b j H1 H2 H3.
  assert (Hv : v <> 0) by (intros ->; lra).
  assert (H : v * b <= 0).
  { destruct (Rle_or_lt (v * b) 0); [assumption|]. exfalso.
    destruct (Rdichotomy v 0 Hv); assert (0 < a * b) by (destruct (Rtotal_order a 0) as [|[->|]]; nra); lra. }
  split; [nra|]. intros E. assert (v * v <= 0) by (rewrite E at 2; nra). nra.
Qed.

Lemma falsi_moved : forall (F F' : R -> R) s q, 0 < s -> (forall c, F' (c * s + q) = s * F c) ->
  forall steps side mid c0 c1 f0 f1, f0 <> f1 -> f0 * f1 <= 0 ->
  fst (@falsi envR F' steps side (mid * s + q) (c0 * s + q) (c1 * s + q) (s * f0) (s * f1))
  = fst (@falsi envR F steps side mid c0 c1 f0 f1) * s + q.
Proof.
  intros F F' s q Hs HF. induction steps as [|n IH]; intros side mid c0 c1 f0 f1 Hne Hop; cbn [falsi]; [reflexivity|].
  assert (Hm : @secant envR (c0 * s + q) (c1 * s + q) (s * f0) (s * f1) = @secant envR c0 c1 f0 f1 * s + q).
  { change (((c0 * s + q) * (s * f1) - (c1 * s + q) * (s * f0)) / (s * f1 - s * f0) = ((c0 * f1 - c1 * f0) / (f1 - f0)) * s + q).
    field. split; nra. }
  rewrite Hm, HF. set (m := @secant envR c0 c1 f0 f1). generalize (F m). intro val.
  assert (S0 : forall f, @same_sign envR (s * val) (s * f) = @same_sign envR val f).
  { intro f. unfold same_sign. cbn [envR fp_d arithR a_lt a_mul a_ofZ]. apply sign_scale. assumption. }
  assert (Hd : forall f, f <> 0 -> damping envR (s * val) (s * f) = damping envR val f).
  { intros f Hf. unfold damping. cbn [envR fp_d arithR a_sub a_div a_ofZ a_le].
    replace (s * val / (s * f)) with (val / f) by (field; split; lra). reflexivity. }
  assert (Pd : forall f, 0 < damping envR val f).
  { intro f. unfold damping, one_half. cbn [envR fp_d arithR a_sub a_div a_ofZ a_le].
    destruct (Rleb (1 - val / f) 0) eqn:El; [lra|]. apply Rleb_false in El. lra. }
  rewrite !S0. destruct (@same_sign envR val f0) eqn:E0.
  - unfold same_sign in E0. cbn [envR fp_d arithR a_lt a_mul a_ofZ] in E0. apply Rltb_iff in E0.
    assert (N0 : f0 <> 0) by nra. rewrite (Hd f0 N0).
    set (k := if (side =? -1)%Z then @a_mul R (fp_d envR) f1 (damping envR val f0) else f1).
    match goal with |- context [@falsi envR F' n (-1) _ _ _ _ ?e] => assert (He : e = s * k) end.
    { unfold k. destruct (side =? -1)%Z; [|reflexivity]. change ((s * f1) * damping envR val f0 = s * (f1 * damping envR val f0)). apply Rmult_assoc. }
    rewrite He. clear He.
    assert (K : exists j, 0 < j /\ k = f1 * j).
    { unfold k. destruct (side =? -1)%Z; [exists (damping envR val f0)|exists 1]; split; try apply Pd; try lra; reflexivity. }
    destruct K as (j & Hj & Kj).
    destruct (opposite_keep val f0 f1 j E0 Hop Hj) as [H2 H1]. rewrite <- Kj in H1, H2.
    specialize (IH (-1)%Z m m c1 val k H1 H2).
    destruct (@falsi envR F' n (-1) _ _ _ _ _) as [r' h']. destruct (@falsi envR F n (-1) _ _ _ _ _) as [r h]. exact IH.
  - destruct (@same_sign envR val f1) eqn:E1.
    + unfold same_sign in E1. cbn [envR fp_d arithR a_lt a_mul a_ofZ] in E1. apply Rltb_iff in E1.
      assert (N1 : f1 <> 0) by nra. rewrite (Hd f1 N1).
      set (k := if (side =? 1)%Z then @a_mul R (fp_d envR) f0 (damping envR val f1) else f0).
      match goal with |- context [@falsi envR F' n 1 _ _ _ ?e _] => assert (He : e = s * k) end.
    { unfold k. destruct (side =? 1)%Z; [|reflexivity]. change ((s * f0) * damping envR val f1 = s * (f0 * damping envR val f1)). apply Rmult_assoc. }
    rewrite He. clear He.
      assert (K : exists j, 0 < j /\ k = f0 * j).
      { unfold k. destruct (side =? 1)%Z; [exists (damping envR val f1)|exists 1]; split; try apply Pd; try lra; reflexivity. }
      destruct K as (j & Hj & Kj).
      rewrite Rmult_comm in Hop. destruct (opposite_keep val f1 f0 j E1 Hop Hj) as [H2 H1]. rewrite <- Kj in H1, H2.
      rewrite Rmult_comm in H2. specialize (IH 1%Z m c0 m k val (not_eq_sym H1) H2).
      destruct (@falsi envR F' n 1 _ _ _ _ _) as [r' h']. destruct (@falsi envR F n 1 _ _ _ _ _) as [r h]. exact IH.
    + reflexivity.
Qed.

Theorem C82_regula_falsi : forall steps, equivariant (@regula_falsi envR steps).
Proof.
  intros steps f s p d x c1 v0 v1 Hs Hv. unfold regula_falsi, falsi_run. cbn [zc_axis zc_start zc_end zc_f0 zc_f1].
  refine (eq_ind_r (fun z : R => fst (@falsi envR (@value_at envR (moved f s p) d (outwards s p x)) (Z.to_nat (set_step_count steps)) 0 z z
    (c1 * s + vget d p) (s * v0) (s * v1)) = _) _ (get_out s p d x)).
  apply falsi_moved.
  - assumption.
  - intro c. apply value_moved. assumption.
  - congruence.
  - destruct (Rleb v0 0) eqn:E0; destruct (Rleb v1 0) eqn:E1; try congruence;
      try apply Rleb_iff in E0; try apply Rleb_iff in E1; try apply Rleb_false in E0; try apply Rleb_false in E1; nra.
Qed.
Print Assumptions C82_regula_falsi.

(* ---- related runs ---- *)

Definition orel {S S'} (P : S -> S' -> Prop) (o : outcome S) (o' : outcome S') : Prop :=
  match o, o' with
  | Ret a, Ret a' => P a a'
  | Throw e, Throw e' => e = e'
  | AssertFail, AssertFail => True
  | UB, UB => True
  | NoFuel, NoFuel => True
  | _, _ => False
  end.

Lemma orel_bind : forall A A' B B' (P : A -> A' -> Prop) (Q : B -> B' -> Prop) o o' k k',
  orel P o o' -> (forall a a', P a a' -> orel Q (k a) (k' a')) -> orel Q (obind o k) (obind o' k').
Proof. intros A A' B B' P Q [] [] k k' H H'; cbn in *; try contradiction; auto. Qed.

Lemma orel_fold : forall X A A' (P : A -> A' -> Prop) (k : A -> X -> outcome A) k' l,
  (forall a a' x, P a a' -> orel P (k a x) (k' a' x)) ->
  forall a a', P a a' -> orel P (ofold k l a) (ofold k' l a').
Proof.
  intros X A A' P k k' l H. induction l as [|x l IH]; intros a a' Ha; cbn [ofold]; [exact Ha|].
  eapply orel_bind; [apply H; exact Ha|]. exact IH.
Qed.

Section Fill.
Variables (f : field envR) (s : R) (p : vec3 R) (solver : zero_finder envR).
Hypothesis Hs : 0 < s.
Hypothesis Heq : equivariant solver.

(* scaled values *)
Definition rvals (v v' : Z -> option R) : Prop := forall i, v' i = option_map (Rmult s) (v i).

Definition rsample (a a' : sample_state envR) : Prop :=
  ss_idx envR a' = ss_idx envR a /\ ss_pos envR a' = outwards s p (ss_pos envR a) /\
  rvals (ss_values envR a) (ss_values envR a') /\ ss_mat envR a' = ss_mat envR a.

Lemma write_vals : forall n v v' i x, rvals v v' ->
  orel rvals (array_write n v i x) (array_write n v' i (s * x)).
Proof.
  intros n v v' i x H. unfold array_write. destruct ((0 <=? i)%Z && (i <? n)%Z); [|exact I].
  intro j. destruct (j =? i)%Z; [reflexivity|apply H].
Qed.

Lemma write_mat : forall n (m : mat_array) i x, orel eq (array_write n m i x) (array_write n m i x).
Proof. intros n m i x. unfold array_write. destruct ((0 <=? i)%Z && (i <? n)%Z); [reflexivity|exact I]. Qed.

Lemma point_moved : forall n a a' x, rsample a a' ->
  orel rsample (sample_point envR n 1 f a x) (sample_point envR n s (moved f s p) a' x).
Proof.
  intros n [i x v m] [i' x' v' m'] k (H1 & H2 & H3 & H4). cbn [ss_idx ss_pos ss_values ss_mat] in *. subst i' x' m'.
  unfold sample_point. cbn [ss_idx ss_pos ss_values ss_mat].
  change (fl_value (moved f s p) (outwards s p x)) with (s * fl_value f (inwards s p (outwards s p x))).
  change (fl_material (moved f s p) (outwards s p x)) with (fun v => fl_material f (inwards s p (outwards s p x)) (v / s)).
  cbv beta. rewrite in_out by assumption.
  rewrite (unscale s (fl_value f x) Hs).
  eapply orel_bind; [apply write_vals; exact H3|]. intros w w' Hw.
  replace (gt0 envR (s * fl_value f x)) with (gt0 envR (fl_value f x)).
  2:{ unfold gt0. cbn [envR fp_d arithR a_lt a_ofZ]. symmetry. apply gt0_scale. assumption. }
  eapply orel_bind; [apply write_mat|]. intros m1 m1' ->. cbn [orel].
  split; [reflexivity|]. split; [|split; [exact Hw|reflexivity]].
  cbn [ss_pos]. destruct x as [a b c]. unfold outwards, vset. cbn [vx vy vz envR fp_d arithR a_add]. f_equal. ring.
Qed.

Lemma row_moved : forall n low a a' x, rsample a a' ->
  orel rsample (sample_row envR n 1 low f a x) (sample_row envR n s (outwards s p low) (moved f s p) a' x).
Proof.
  intros n low a a' k (H1 & H2 & H3 & H4). unfold sample_row.
  eapply orel_bind.
  - apply orel_fold; [intros; apply point_moved; assumption|].
    split; [exact H1|]. split; [|split; [exact H3|exact H4]].
    cbn [ss_pos]. rewrite H2. reflexivity.
  - intros b b' (J1 & J2 & J3 & J4). cbn [orel]. split; [exact J1|]. split; [|split; [exact J3|exact J4]].
    cbn [ss_pos]. rewrite J2. destruct (ss_pos envR b) as [u v w]. unfold outwards, vset. cbn [vx vy vz envR fp_d arithR a_add]. f_equal. ring.
Qed.

Lemma plane_moved : forall n low a a' x, rsample a a' ->
  orel rsample (sample_plane envR n 1 low f a x) (sample_plane envR n s (outwards s p low) (moved f s p) a' x).
Proof.
  intros n low a a' k (H1 & H2 & H3 & H4). unfold sample_plane.
  eapply orel_bind.
  - apply orel_fold; [intros; apply row_moved; assumption|].
    split; [exact H1|]. split; [|split; [exact H3|exact H4]].
    cbn [ss_pos]. rewrite H2. reflexivity.
  - intros b b' (J1 & J2 & J3 & J4). cbn [orel]. split; [exact J1|]. split; [|split; [exact J3|exact J4]].
    cbn [ss_pos]. rewrite J2. destruct (ss_pos envR b) as [u v w]. unfold outwards, vset. cbn [vx vy vz envR fp_d arithR a_add]. f_equal. ring.
Qed.

(* two grids with the same data, one at the origin with step 1 *)
Definition rgrid (g g' : ugrid envR) : Prop :=
  g_pos g = origin /\ g_step g = 1 /\ g' = placed s p g.

Lemma global_moved : forall l, local_to_global envR s p l = outwards s p (local_to_global envR 1 origin l).
Proof.
  intros [a b c]. change (V3 (a * s + vx p) (b * s + vy p) (c * s + vz p)
    = V3 ((a * 1 + 0) * s + vx p) ((b * 1 + 0) * s + vy p) ((c * 1 + 0) * s + vz p)).
  rewrite !Rmult_1_r, !Rplus_0_r. reflexivity.
Qed.

Lemma samples_moved : forall g g', rgrid g g' ->
  orel rsample (fill_samples envR g f) (fill_samples envR g' (moved f s p)).
Proof.
  intros g g' (G1 & G2 & ->). unfold fill_samples. cbn [placed g_size g_step g_pos g_mat]. rewrite G1, G2.
  apply orel_fold.
  - intros. rewrite global_moved. apply plane_moved. assumption.
  - split; [reflexivity|]. split; [apply global_moved|]. split; [|reflexivity].
    intro i. cbn [ss_values]. destruct ((0 <=? i)%Z && (i <? data_size (g_size g))%Z); [|reflexivity].
    cbn [option_map envR fp_d arithR a_ofZ]. f_equal. ring.
Qed.

Definition redges (a a' : edge_state envR) : Prop :=
  es_i1 envR a' = es_i1 envR a /\ es_i2 envR a' = es_i2 envR a /\ es_edges envR a' = es_edges envR a.

Lemma body_moved : forall g g' d v v' m y x a a' z, rgrid g g' -> rvals v v' -> redges a a' ->
  orel redges (edge_body envR d g f solver v m y x a z) (edge_body envR d g' (moved f s p) solver v' m y x a' z).
Proof.
  intros g g' d v v' m y x [i1 i2 es cs] [i1' i2' es' cs'] z (G1 & G2 & ->) Hv (H1 & H2 & H3).
  cbn [es_i1 es_i2 es_edges] in *. subst i1' i2' es'. unfold edge_body. cbn [es_i1 es_i2 es_edges es_calls].
  rewrite !Hv. destruct (v i1) as [v1|]; cbn [option_map oread obind]; [|exact I].
  destruct (v i2) as [v2|]; cbn [option_map oread obind]; [|exact I].
  assert (L1 : le0 envR (s * v1) = le0 envR v1) by (unfold le0; cbn [envR fp_d arithR a_le a_ofZ]; apply le0_scale; assumption).
  assert (L2 : le0 envR (s * v2) = le0 envR v2) by (unfold le0; cbn [envR fp_d arithR a_le a_ofZ]; apply le0_scale; assumption).
  rewrite L1, L2.
  eapply orel_bind with (P := redges).
  2:{ intros b b' (J1 & J2 & J3). cbn [orel]. unfold redges. cbn [es_i1 es_i2 es_edges]. rewrite J1, J2, J3. auto. }
  destruct (eqb (le0 envR v1) (le0 envR v2)) eqn:Eb; cbn [negb]; [unfold redges; cbn; auto|].
  cbn [placed g_step g_pos]. rewrite G1, G2.
  set (q := local_to_global envR 1 origin (vofZ3 (fp_d envR) (V3 x y z))).
  set (q' := local_to_global envR s p (vofZ3 (fp_d envR) (V3 x y z))).
  assert (Q : q' = outwards s p q) by apply global_moved. clearbody q q'. subst q'.
  set (r := solver (@ZfCall envR d q (vget d q + 1) v1 v2) f).
  assert (Z : solver (@ZfCall envR d (outwards s p q) (vget d (outwards s p q) + s) (s * v1) (s * v2)) (moved f s p) = r * s + vget d p).
  { refine (eq_trans (f_equal (fun c : R => solver (@ZfCall envR d (outwards s p q) c (s * v1) (s * v2)) (moved f s p)) _)
      (Heq f s p d q (vget d q + 1) v1 v2 Hs _)).
    - exact (get_next s p d q).
    - unfold le0 in Eb. cbn [envR fp_d arithR a_le a_ofZ] in Eb. intro C. rewrite C, eqb_reflx in Eb. discriminate. }
  match goal with |- orel _ (obind _ (fun mt => obind (make_edge envR x y z ?G ?O _ _ mt) _))
      (obind _ (fun mt => obind (make_edge envR x y z ?G' ?O' _ _ mt) _)) =>
    assert (HG : G' = G); [|assert (HO : O' = O)] end.
  { refine (eq_trans (f_equal (fun c : R => fl_grad (moved f s p) (vset envR d (outwards s p q) c)) Z) _).
    change (fl_grad (moved f s p)) with (fun x => fl_grad f (inwards s p x)). cbv beta.
    replace (vset envR d (outwards s p q) (r * s + vget d p)) with (outwards s p (vset envR d q r)) by (destruct d; reflexivity).
    rewrite in_out by assumption. reflexivity. }
  { refine (eq_trans (f_equal (fun c : R => (vget d (vset envR d (outwards s p q) c) - vget d (outwards s p q)) / s) Z) _).
    change ((vget d (vset envR d (outwards s p q) (r * s + vget d p)) - vget d (outwards s p q)) / s = (vget d (vset envR d q r) - vget d q) / 1).
    replace (vget d (vset envR d (outwards s p q) (r * s + vget d p))) with (r * s + vget d p) by (destruct d; reflexivity).
    replace (vget d (vset envR d q r)) with r by (destruct d; reflexivity).
    exact (get_offset s p d q r Hs). }
  rewrite HG, HO.
  destruct (oread (if le0 envR v1 then m i1 else m i2)) as [mt| | | |]; cbn [obind orel]; auto.
  destruct (make_edge envR x y z _ _ (axis_num d) (le0 envR v1) mt) as [e| | | |];
    cbn [obind orel]; auto.
  unfold redges. cbn [es_i1 es_i2 es_edges]. auto.
Qed.

Lemma skip_moved : forall k a a', redges a a' -> redges (edge_skip envR k a) (edge_skip envR k a').
Proof. intros k a a' (H1 & H2 & H3). unfold redges, edge_skip. cbn [es_i1 es_i2 es_edges]. rewrite H1, H2, H3. auto. Qed.

Lemma edges_moved : forall g g' d v v' m, rgrid g g' -> rvals v v' ->
  orel redges (fill_edges envR d g f solver v m) (fill_edges envR d g' (moved f s p) solver v' m).
Proof.
  intros g g' d v v' m G Hv. unfold fill_edges.
  assert (Sz : g_size g' = g_size g) by (destruct G as (_ & _ & ->); reflexivity). rewrite Sz.
  apply orel_fold; [|unfold redges; cbn; auto].
  intros a a' y Ha. unfold edge_plane. rewrite Sz. eapply orel_bind with (P := redges).
  - apply orel_fold; [|exact Ha]. intros b b' x Hb. unfold edge_row. rewrite Sz.
    eapply orel_bind with (P := redges).
    + apply orel_fold; [|exact Hb]. intros c c' z Hc. apply body_moved; assumption.
    + intros c c' Hc. cbn [orel]. destruct d; [exact Hc|exact Hc|apply skip_moved; exact Hc].
  - intros c c' Hc. cbn [orel]. destruct d; [apply skip_moved; exact Hc|exact Hc|exact Hc].
Qed.

Lemma fill_moved : forall g g', rgrid g g' ->
  orel (fun a a' => fst a' = placed s p (fst a)) (fill g f solver) (fill g' (moved f s p) solver).
Proof.
  intros g g' G. pose proof G as (_ & _ & E). unfold fill.
  eapply orel_bind; [apply samples_moved; exact G|]. intros a a' (_ & _ & Hv & Hm). rewrite Hm.
  eapply orel_bind; [apply edges_moved; eassumption|]. intros ex ex' (_ & _ & Hx).
  eapply orel_bind; [apply edges_moved; eassumption|]. intros ey ey' (_ & _ & Hy).
  eapply orel_bind; [apply edges_moved; eassumption|]. intros ez ez' (_ & _ & Hz).
  cbn [orel fst]. rewrite Hx, Hy, Hz, E. reflexivity.
Qed.
End Fill.

(* C82, fill: the materials and edges of a grid at [p] with step [s], filled with the field moved there, are those
   of a grid at the origin with step 1, filled with the field itself. *)
Theorem C82_fill : forall f s p solver n, 0 < s -> equivariant solver ->
  forall g calls, fill (@new_grid envR n origin 1) f solver = Ret (g, calls) ->
  exists calls', fill (@new_grid envR n p s) (moved f s p) solver = Ret (placed s p g, calls').
Proof.
  intros f s p solver n Hs He g calls H.
  pose proof (fill_moved f s p solver Hs He (@new_grid envR n origin 1) (@new_grid envR n p s)) as F.
  rewrite H in F. specialize (F (conj eq_refl (conj eq_refl eq_refl))).
  destruct (fill (@new_grid envR n p s) (moved f s p) solver) as [[g' c']| | | |]; try contradiction.
  cbn [orel fst] in F. subst g'. exists c'. reflexivity.
Qed.
Print Assumptions C82_fill.

(* The grid [g] is the result of filling a new one of size [n] at [p] with step [s]. *)
Definition filled_at (n : Z) (p : vec3 R) (s : R) (f : field envR) (solver : zero_finder envR) (g : ugrid envR) : Prop :=
  exists calls, fill (@new_grid envR n p s) f solver = Ret (g, calls).

Lemma filled_moved : forall f s p solver n g, 0 < s -> equivariant solver -> filled_at n origin 1 f solver g ->
  filled_at n p s (moved f s p) solver (placed s p g).
Proof. intros f s p solver n g Hs He [calls H]. exact (C82_fill f s p solver n Hs He g calls H). Qed.

(* C82, marching cubes and uniform dual contouring: the same mesh in local coordinates. *)
Theorem C82_mc : forall f s p solver n g sort, 0 < s -> equivariant solver -> filled_at n origin 1 f solver g ->
  exists g', filled_at n p s (moved f s p) solver g' /\ marching_cubes sort g' = marching_cubes sort g.
Proof. intros. exists (placed s p g). split; [apply filled_moved; assumption|reflexivity]. Qed.
Print Assumptions C82_mc.

Theorem C82_udc : forall f s p solver n g sort qef, 0 < s -> equivariant solver -> filled_at n origin 1 f solver g ->
  exists g', filled_at n p s (moved f s p) solver g' /\ dual_contouring sort qef g' = dual_contouring sort qef g.
Proof. intros. exists (placed s p g). split; [apply filled_moved; assumption|reflexivity]. Qed.
Print Assumptions C82_udc.

(* ---- octrees ---- *)

Lemma fold_same : forall X A (k k' : A -> X -> outcome A) l a, (forall a x, k a x = k' a x) -> ofold k l a = ofold k' l a.
Proof.
  intros X A k k' l. induction l as [|x l IH]; intros a H; cbn [ofold]; [reflexivity|].
  rewrite H. destruct (k' a x); cbn [obind]; auto.
Qed.

Section Octrees.
Context {Q S : Type} (ops : qef_ops (fp_F envR) Q S).

Lemma dc_node_placed : forall s p g eps simplify fuel t q size sol,
  @build_node envR Q S ops fuel (@DcArgs envR (placed s p g) eps simplify) t q size sol
  = @build_node envR Q S ops fuel (@DcArgs envR g eps simplify) t q size sol.
Proof.
  intros s p g eps simplify. induction fuel as [|fuel IH]; intros t q size sol; [reflexivity|].
  cbn [build_node]. destruct (size =? 1)%Z; [reflexivity|].
  destruct (dc_subdivide t) as [node| | | |]; try reflexivity. cbn [obind].
  match goal with |- obind (ofold ?k ?l ?a) _ = obind (ofold ?k' _ _) _ => rewrite (fold_same _ _ k k' l a) end.
  - reflexivity.
  - intros [cs so] i. destruct (child node i); try reflexivity. cbn [obind]. rewrite IH. reflexivity.
Qed.

Lemma mdc_node_placed : forall s p g fuel t q size st sol,
  @mdc_build_node envR Q S ops fuel (placed s p g) t q size st sol
  = @mdc_build_node envR Q S ops fuel g t q size st sol.
Proof.
  intros s p g. induction fuel as [|fuel IH]; intros t q size st sol; [reflexivity|].
  cbn [mdc_build_node]. destruct (size =? 1)%Z; [reflexivity|].
  destruct (mdc_subdivide t) as [node| | | |]; try reflexivity. cbn [obind].
  match goal with |- obind (ofold ?k ?l ?a) _ = obind (ofold ?k' _ _) _ => rewrite (fold_same _ _ k k' l a) end.
  - reflexivity.
  - intros [[cs st'] so] i. destruct (child node i); try reflexivity. cbn [obind]. rewrite IH. reflexivity.
Qed.

Lemma eps_scaled : forall eps s, 0 < s -> eps * (s * s) / (s * s) = eps / (1 * 1).
Proof. intros. field. lra. Qed.

(* C82, DC_Octree: an octree at scale [s], with the tolerance for squared distances enlarged accordingly, gets the
   same mesh in local coordinates. *)
Theorem C82_dc : forall f s p solver n g, 0 < s -> equivariant solver -> filled_at n origin 1 f solver g ->
  exists g', filled_at n p s (moved f s p) solver g' /\
  forall size root eps simplify sol t1 sol1 t2 m,
    @dc_build envR Q S ops g eps simplify (@DcOctree envR S 1 size root) sol = Ret (t1, sol1) -> dc_contour t1 = Ret (t2, m) ->
    exists t1' t2', @dc_build envR Q S ops g' (eps * (s * s)) simplify (@DcOctree envR S s size root) sol = Ret (t1', sol1) /\
      dc_contour t1' = Ret (t2', m).
Proof.
  intros f s p solver n g Hs He Hf. exists (placed s p g). split; [apply filled_moved; assumption|].
  intros size root eps simplify sol t1 sol1 t2 m H Hm. unfold dc_build in *. cbn [ot_scale ot_size ot_root] in *.
  cbn [envR fp_f fp_d arithR a_div a_mul fp_narrow] in *. rewrite (eps_scaled eps s Hs).
  destruct (if is_subdivided root then _ else _) as [r| | | |]; try discriminate. cbn [obind] in *.
  rewrite dc_node_placed. destruct (build_node _ _ _ _ _ _ _) as [[r1 so1]| | | |]; try discriminate. cbn [obind] in *.
  injection H as <- <-. exists (@DcOctree envR S s size r1). unfold dc_contour in *. cbn [ot_scale ot_size ot_root] in *.
  destruct (make_vertices _ _ _) as [[r2 m2]| | | |]; try discriminate. cbn [obind] in *.
  destruct (cell_proc _ _ _ _ _) as [m3| | | |]; try discriminate. cbn [obind] in *. injection Hm as <- <-.
  eexists. split; reflexivity.
Qed.

(* C82, MDC_Octree, with the tolerance given to contour *)
Theorem C82_mdc : forall f s p solver n g, 0 < s -> equivariant solver -> filled_at n origin 1 f solver g ->
  exists g', filled_at n p s (moved f s p) solver g' /\
  forall size root st eps sol t1 sol1 t2 m,
    @mdc_build envR Q S ops g (@MdcOctree envR S 1 size root st) sol = Ret (t1, sol1) -> mdc_contour eps t1 = Ret (t2, m) ->
    exists t1' t2', @mdc_build envR Q S ops g' (@MdcOctree envR S s size root st) sol = Ret (t1', sol1) /\
      @mdc_contour envR S (eps * (s * s)) t1' = Ret (t2', m).
Proof.
  intros f s p solver n g Hs He Hf. exists (placed s p g). split; [apply filled_moved; assumption|].
  intros size root st eps sol t1 sol1 t2 m H Hm. unfold mdc_build in *. cbn [mo_scale mo_size mo_root mo_store] in *.
  destruct (mdc_collapse root st) as [l st0]. rewrite mdc_node_placed.
  destruct (mdc_build_node _ _ _ _ _ _ _ _) as [[[r1 st1] so1]| | | |]; try discriminate. cbn [obind] in *.
  destruct (cluster_cell _ _ _ _ _ _ _) as [[[r2 st2] so2]| | | |]; try discriminate. cbn [obind] in *.
  injection H as <- <-. exists (@MdcOctree envR S s size r2 st2).
  unfold mdc_contour in *. cbn [mo_scale mo_size mo_root mo_store] in *.
  cbn [envR fp_f fp_d arithR a_div a_mul fp_narrow] in *. rewrite (eps_scaled eps s Hs).
  destruct (add_vertices _ _ _ _ _ _) as [[st3 m3]| | | |]; try discriminate. cbn [obind] in *.
  destruct (cell_proc _ _ _ _ _) as [m4| | | |]; try discriminate. cbn [obind] in *. injection Hm as <- <-.
  eexists. split; reflexivity.
Qed.
End Octrees.
Print Assumptions C82_dc.
Print Assumptions C82_mdc.
