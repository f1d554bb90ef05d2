From Coq Require Import ZArith Reals List Bool Lia Lra Psatz.
From Verif Require Import Base Arith Tables MeshModel MeshSpec MeshProofs GridModel GridSpec GridProofs
  EdgeModel CellSpec CellTables OrientSpec.
Import ListNotations.
Local Open Scope Z_scope.

Definition crossZ (a b : ivec3) : ivec3 :=
  V3 (vy a * vz b - vz a * vy b) (vz a * vx b - vx a * vz b) (vx a * vy b - vy a * vx b).

(* coefficients of the bilinear functions of t and u *)
Definition coef1 (d : axis) (s : Z) (e1 e2 : gedge) (x : Z) : Z :=
  (2 * s - 1) * (vget d (crossZ (vsub (snd e2) (snd e1)) (unit_vec (fst e1))) +
                 x * vget d (crossZ (unit_vec (fst e2)) (unit_vec (fst e1)))).
Definition coef2 (d : axis) (s : Z) (e1 e2 : gedge) (x : Z) : Z :=
  (2 * s - 1) * (vget d (crossZ (vsub (snd e2) (snd e1)) (unit_vec (fst e2))) -
                 x * vget d (crossZ (unit_vec (fst e1)) (unit_vec (fst e2)))).

Definition neg_on (f : Z -> Z) : bool := (f 0 <=? 0) && (f 1 <=? 0) && (f 0 + f 1 <? 0).

Definition check_ends (bs : list bool) (d : axis) (s : Z) (i j : Z) : bool :=
  let e1 := local_edge i in let e2 := local_edge j in
  (negb (tab false bs (edge_start i)) || neg_on (fun x => - coef1 d s e1 e2 x)) &&
  (negb (tab false bs (edge_end i)) || neg_on (coef1 d s e1 e2)) &&
  (negb (tab false bs (edge_start j)) || neg_on (fun x => - coef2 d s e1 e2 x)) &&
  (negb (tab false bs (edge_end j)) || neg_on (coef2 d s e1 e2)).

Definition in_planeb (d : axis) (s : Z) (e : gedge) : bool := negb (axis_eqb (fst e) d) && (vget d (snd e) =? s).

Definition check_side (bs : list bool) (p : Z * Z) : bool :=
  let '(i, j) := p in
  forallb (fun d => forallb (fun s => negb (in_planeb d s (local_edge i) && in_planeb d s (local_edge j)) ||
    check_ends bs d s i j) [0; 1]) [AX; AY; AZ].

Lemma sides_checked : forallb (fun bs => forallb (check_side bs) (flat_map sides (mc_tris bs))) configs = true.
Proof. vm_compute. reflexivity. Qed.

Lemma side_ok : forall bs i j d s, length bs = 8%nat -> In (i, j) (flat_map sides (mc_tris bs)) ->
  s = 0 \/ s = 1 -> edge_in_plane d s (local_edge i) -> edge_in_plane d s (local_edge j) -> check_ends bs d s i j = true.
Proof.
  intros bs i j d s Hl Hin Hs [A1 A2] [B1 B2]. pose proof sides_checked as G. rewrite forallb_forall in G.
  specialize (G bs (in_configs _ Hl)). rewrite forallb_forall in G. specialize (G _ Hin).
  unfold check_side in G. rewrite forallb_forall in G.
  assert (Hd : In d [AX; AY; AZ]) by (destruct d; cbn [In]; auto).
  specialize (G d Hd). rewrite forallb_forall in G.
  assert (Hs' : In s [0; 1]) by (cbn [In]; intuition auto).
  specialize (G s Hs').
  assert (P : forall e, fst e <> d -> vget d (snd e) = s -> in_planeb d s e = true).
  { intros e H1 H2. unfold in_planeb. apply andb_true_intro. split; [|apply Z.eqb_eq; exact H2].
    apply negb_true_iff. destruct (axis_eqb (fst e) d) eqn:X; [apply axis_eqb_eq in X; contradiction|exact X]. }
  rewrite (P _ A1 A2), (P _ B1 B2) in G. exact G.
Qed.

Local Open Scope R_scope.

Lemma neg_on_lift : forall f (a b x : R), neg_on f = true -> IZR (f 0%Z) = a -> IZR (f 1%Z) = a + b -> 0 < x < 1 -> a + x * b < 0.
Proof.
  intros f a b x H Ha Hb Hx. unfold neg_on in H. rewrite !andb_true_iff, !Z.leb_le, Z.ltb_lt in H.
  destruct H as [[H0 H1] H2]. apply IZR_le in H0. apply IZR_le in H1. apply IZR_lt in H2. rewrite plus_IZR in H2.
  rewrite Ha, Hb in H2. rewrite Ha in H0. rewrite Hb in H1. clear Ha Hb.
  replace (a + x * b) with ((1 - x) * a + x * (a + b)) by ring.
  assert (A1 : (1 - x) * a <= 0) by nra. assert (A2 : x * (a + b) <= 0) by nra.
  destruct (Rlt_or_le a 0) as [A|A]; [assert ((1 - x) * a < 0) by nra; lra|].
  assert (x * (a + b) < 0) by nra. lra.
Qed.

Lemma vget_crossZ : forall d a b,
  IZR (vget d (crossZ a b)) = vget d (crossR (grid_point a) (grid_point b)).
Proof.
  intros d a b. destruct d; cbn [vget crossZ crossR grid_point vx vy vz]; rewrite minus_IZR, !mult_IZR; reflexivity.
Qed.

Lemma cross1 : forall q i j d s t u sg, 0 < t < 1 -> 0 < u < 1 ->
  let e1 := cell_edge q i in let e2 := cell_edge q j in
  on_right d (2 * IZR s - 1) (edge_point e1 t) (edge_point e2 u) (edge_point e1 sg) <->
  (sg - t) * (IZR (coef1 d s (local_edge i) (local_edge j) 0) +
     u * (IZR (coef1 d s (local_edge i) (local_edge j) 1) - IZR (coef1 d s (local_edge i) (local_edge j) 0))) < 0.
Proof.
  intros q i j d s t u sg Ht Hu e1 e2. unfold on_right, coef1.
  unfold e1, e2, cell_edge, edge_point. cbn [fst snd].
  destruct (local_edge i) as [d1 l1]. destruct (local_edge j) as [d2 l2]. cbn [fst snd].
  rewrite !mult_IZR, !plus_IZR, !mult_IZR, !minus_IZR, !mult_IZR, !vget_crossZ.
  destruct (unit_vec d1) as [a1 a2 a3]. destruct (unit_vec d2) as [b1 b2 b3].
  destruct l1 as [x1 y1 z1]. destruct l2 as [x2 y2 z2]. destruct q as [qx qy qz].
  unfold vadd, vsub, grid_point, subR, crossR. destruct d; cbn [vget vx vy vz];
    rewrite ?plus_IZR, ?minus_IZR;
    match goal with |- ?A < 0 <-> ?B < 0 => replace A with B by ring; reflexivity end.
Qed.

Lemma cross2 : forall q i j d s t u sg, 0 < t < 1 -> 0 < u < 1 ->
  let e1 := cell_edge q i in let e2 := cell_edge q j in
  on_right d (2 * IZR s - 1) (edge_point e1 t) (edge_point e2 u) (edge_point e2 sg) <->
  (sg - u) * (IZR (coef2 d s (local_edge i) (local_edge j) 0) +
     t * (IZR (coef2 d s (local_edge i) (local_edge j) 1) - IZR (coef2 d s (local_edge i) (local_edge j) 0))) < 0.
Proof.
  intros q i j d s t u sg Ht Hu e1 e2. unfold on_right, coef2.
  unfold e1, e2, cell_edge, edge_point. cbn [fst snd].
  destruct (local_edge i) as [d1 l1]. destruct (local_edge j) as [d2 l2]. cbn [fst snd].
  rewrite !mult_IZR, !minus_IZR, !mult_IZR, !vget_crossZ.
  destruct (unit_vec d1) as [a1 a2 a3]. destruct (unit_vec d2) as [b1 b2 b3].
  destruct l1 as [x1 y1 z1]. destruct l2 as [x2 y2 z2]. destruct q as [qx qy qz].
  unfold vadd, vsub, grid_point, subR, crossR. destruct d; cbn [vget vx vy vz];
    rewrite ?plus_IZR, ?minus_IZR;
    match goal with |- ?A < 0 <-> ?B < 0 => replace A with B by ring; reflexivity end.
Qed.

Lemma end_point0 : forall e, edge_point e 0 = grid_point (snd e).
Proof. intros [d p]. unfold edge_point, grid_point. cbn [fst snd]. f_equal; ring. Qed.
Lemma end_point1 : forall e, edge_point e 1 = grid_point (vadd (snd e) (unit_vec (fst e))).
Proof. intros [d p]. unfold edge_point, grid_point, vadd. cbn [fst snd vx vy vz]. rewrite !plus_IZR. f_equal; ring. Qed.

Lemma oriented_ok : forall solid q i j, (0 <= i < 12)%Z -> (0 <= j < 12)%Z ->
  In (i, j) (flat_map sides (mc_tris (config solid q))) ->
  side_oriented solid q (cell_edge q i) (cell_edge q j).
Proof.
  intros solid q i j Hi Hj Hin d s t u S Hs [P1 P1'] [P2 P2'] Ht Hu HS Hsol.
  assert (Q1 : edge_in_plane d s (local_edge i)).
  { split; [exact P1|]. cbn [cell_edge snd] in P1'. destruct d; cbn [vget vadd vx vy vz] in *; lia. }
  assert (Q2 : edge_in_plane d s (local_edge j)).
  { split; [exact P2|]. cbn [cell_edge snd] in P2'. destruct d; cbn [vget vadd vx vy vz] in *; lia. }
  pose proof (side_ok _ _ _ _ _ (config_length solid q) Hin Hs Q1 Q2) as G. unfold check_ends in G.
  rewrite !andb_true_iff in G. destruct G as [[[G1 G2] G3] G4].
  assert (End : forall k, (0 <= k < 12)%Z ->
    tab false (config solid q) (edge_start k) = solid (snd (cell_edge q k)) /\
    tab false (config solid q) (edge_end k) = solid (vadd (snd (cell_edge q k)) (unit_vec (fst (cell_edge q k))))).
  { intros k Hk. destruct (local_edge_ends k Hk) as [L1 L2]. unfold edge_start, edge_end.
    rewrite !config_corner by assumption. split; [reflexivity|]. f_equal. unfold cell_edge. cbn [fst snd].
    unfold vadd. cbn [vx vy vz]. f_equal; lia. }
  destruct (End i Hi) as [Ei0 Ei1]. destruct (End j Hj) as [Ej0 Ej1]. clear End.
  destruct HS as [HS|HS]; cbn [edge_ends edge_corners In] in HS; destruct HS as [HS|[HS|[]]].
  - rewrite <- HS in *. rewrite <- end_point0. apply cross1; try assumption.
    rewrite Ei0, Hsol in G1. cbn [negb orb] in G1.
    pose proof (neg_on_lift _ (- IZR (coef1 d s (local_edge i) (local_edge j) 0))
      (IZR (coef1 d s (local_edge i) (local_edge j) 0) - IZR (coef1 d s (local_edge i) (local_edge j) 1)) u G1) as H.
    cbv beta in H. rewrite !opp_IZR in H. specialize (H eq_refl ltac:(lra) Hu). nra.
  - rewrite <- HS in *. rewrite <- end_point1. apply cross1; try assumption.
    rewrite Ei1, Hsol in G2. cbn [negb orb] in G2.
    pose proof (neg_on_lift _ (IZR (coef1 d s (local_edge i) (local_edge j) 0))
      (IZR (coef1 d s (local_edge i) (local_edge j) 1) - IZR (coef1 d s (local_edge i) (local_edge j) 0)) u G2) as H.
    specialize (H eq_refl ltac:(lra) Hu). nra.
  - rewrite <- HS in *. rewrite <- end_point0. apply cross2; try assumption.
    rewrite Ej0, Hsol in G3. cbn [negb orb] in G3.
    pose proof (neg_on_lift _ (- IZR (coef2 d s (local_edge i) (local_edge j) 0))
      (IZR (coef2 d s (local_edge i) (local_edge j) 0) - IZR (coef2 d s (local_edge i) (local_edge j) 1)) t G3) as H.
    cbv beta in H. rewrite !opp_IZR in H. specialize (H eq_refl ltac:(lra) Ht). nra.
  - rewrite <- HS in *. rewrite <- end_point1. apply cross2; try assumption.
    rewrite Ej1, Hsol in G4. cbn [negb orb] in G4.
    pose proof (neg_on_lift _ (IZR (coef2 d s (local_edge i) (local_edge j) 0))
      (IZR (coef2 d s (local_edge i) (local_edge j) 1) - IZR (coef2 d s (local_edge i) (local_edge j) 0)) t G4) as H.
    specialize (H eq_refl ltac:(lra) Ht). nra.
Qed.
