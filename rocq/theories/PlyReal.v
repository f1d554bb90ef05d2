(* Normalisation of loaded files in exact arithmetic. *)
From Coq Require Import ZArith List Bool Reals Lra Lia.
From Verif Require Import Base Arith RealArith MeshModel MCModel TriModel TriProofs PlyModel PlySpec PlyProofs.
Import ListNotations.
Local Open Scope R_scope.

Lemma low_fold : forall l m, let r := fold_left (fun m x => if Rltb x m then x else m) l m in
  r <= m /\ (forall x, In x l -> r <= x) /\ (r = m \/ In r l).
Proof.
  induction l as [|x l IH]; intros m; cbn [fold_left].
  - split; [lra|]. split; [intros x []|auto].
  - destruct (IH (if Rltb x m then x else m)) as (H1 & H2 & H3). cbv zeta in *.
    destruct (Rltb x m) eqn:E; [apply Rltb_iff in E | apply Rltb_false in E].
    + split; [lra|]. split; [intros y [<-|Hy]; auto|]. destruct H3 as [->|H3]; right; [left|right]; auto.
    + split; [lra|]. split; [intros y [<-|Hy]; auto; lra|]. destruct H3 as [H3|H3]; auto. right. right. auto.
Qed.
Lemma high_fold : forall l m, let r := fold_left (fun m x => if Rltb m x then x else m) l m in
  m <= r /\ (forall x, In x l -> x <= r) /\ (r = m \/ In r l).
Proof.
  induction l as [|x l IH]; intros m; cbn [fold_left].
  - split; [lra|]. split; [intros x []|auto].
  - destruct (IH (if Rltb m x then x else m)) as (H1 & H2 & H3). cbv zeta in *.
    destruct (Rltb m x) eqn:E; [apply Rltb_iff in E | apply Rltb_false in E].
    + split; [lra|]. split; [intros y [<-|Hy]; auto|]. destruct H3 as [->|H3]; right; [left|right]; auto.
    + split; [lra|]. split; [intros y [<-|Hy]; auto; lra|]. destruct H3 as [H3|H3]; auto. right. right. auto.
Qed.

Section Bounds.
Variable float_max float_min : R.
Notation bounds := (bounds arithR float_max float_min).

Lemma bounds_folds : forall d vs,
  vget d (fst (bounds vs)) = fold_left (fun m x => if Rltb x m then x else m) (map (vget d) vs) float_max /\
  vget d (snd (bounds vs)) = fold_left (fun m x => if Rltb m x then x else m) (map (vget d) vs) float_min.
Proof.
  intros d vs. unfold PlyModel.bounds.
  assert (G : forall vs lo hi,
    vget d (fst (fold_left (bounds_step arithR) vs (lo, hi))) = fold_left (fun m x => if Rltb x m then x else m) (map (vget d) vs) (vget d lo) /\
    vget d (snd (fold_left (bounds_step arithR) vs (lo, hi))) = fold_left (fun m x => if Rltb m x then x else m) (map (vget d) vs) (vget d hi)).
  { induction vs0 as [|v vs0 IH]; intros lo hi; [split; reflexivity|]. cbn [fold_left map].
    unfold bounds_step at 2 4. destruct (IH (V3 (if Rltb (vx v) (vx lo) then vx v else vx lo) (if Rltb (vy v) (vy lo) then vy v else vy lo) (if Rltb (vz v) (vz lo) then vz v else vz lo))
      (V3 (if Rltb (vx hi) (vx v) then vx v else vx hi) (if Rltb (vy hi) (vy v) then vy v else vy hi) (if Rltb (vz hi) (vz v) then vz v else vz hi))) as [H1 H2].
    cbn [arithR a_lt]. destruct d; cbn [vget vx vy vz] in *; auto. }
  destruct (G vs (V3 float_max float_max float_max) (V3 float_min float_min float_min)) as [H1 H2].
  destruct d; cbn [vget vx vy vz] in *; auto.
Qed.

Definition lowest (d : axis) (vs : list (vec3 R)) : R := vget d (fst (bounds vs)).
Definition highest (d : axis) (vs : list (vec3 R)) : R := vget d (snd (bounds vs)).

Lemma lowest_ok : forall d vs, lowest d vs <= float_max /\ (forall v, In v vs -> lowest d vs <= vget d v) /\
  (lowest d vs = float_max \/ exists v, In v vs /\ vget d v = lowest d vs).
Proof.
  intros d vs. unfold lowest. rewrite (proj1 (bounds_folds d vs)). destruct (low_fold (map (vget d) vs) float_max) as (H1 & H2 & H3).
  cbv zeta in *. split; [auto|]. split; [intros v Hv; apply H2; apply in_map; auto|].
  destruct H3 as [H3|H3]; auto. right. apply in_map_iff in H3. destruct H3 as (v & E & Hv). eauto.
Qed.
Lemma highest_ok : forall d vs, float_min <= highest d vs /\ (forall v, In v vs -> vget d v <= highest d vs) /\
  (highest d vs = float_min \/ exists v, In v vs /\ vget d v = highest d vs).
Proof.
  intros d vs. unfold highest. rewrite (proj2 (bounds_folds d vs)). destruct (high_fold (map (vget d) vs) float_min) as (H1 & H2 & H3).
  cbv zeta in *. split; [auto|]. split; [intros v Hv; apply H2; apply in_map; auto|].
  destruct H3 as [H3|H3]; auto. right. apply in_map_iff in H3. destruct H3 as (v & E & Hv). eauto.
Qed.

Definition extent (vs : list (vec3 R)) : R := max_extent arithR (bounds vs).
Lemma glm_maxR : forall x y, glm_max arithR x y = Rmax x y.
Proof. intros x y. unfold glm_max. cbn [arithR a_lt]. destruct (Rltb x y) eqn:E; [apply Rltb_iff in E | apply Rltb_false in E]; unfold Rmax; destruct (Rle_dec x y); lra. Qed.
Lemma extent_ok : forall vs, (forall d, highest d vs - lowest d vs <= extent vs) /\ exists d, extent vs = highest d vs - lowest d vs.
Proof.
  intros vs. unfold extent, max_extent, highest, lowest. destruct (bounds vs) as [lo hi]. cbn [fst snd]. rewrite !glm_maxR. cbn [arithR a_sub].
  split.
  - intros d. destruct d; cbn [vget]; unfold Rmax; repeat destruct (Rle_dec _ _); lra.
  - unfold Rmax; repeat destruct (Rle_dec _ _); [exists AZ | exists AY | exists AX | exists AX]; reflexivity.
Qed.

Lemma centre_get : forall f d, vget d (centre arithR float_max float_min f) = (highest d (pf_verts f) + lowest d (pf_verts f)) / 2.
Proof.
  intros f d. unfold centre, ply_load, highest, lowest. destruct (bounds (pf_verts f)) as [lo hi]. destruct d; reflexivity.
Qed.
Lemma mult_get : forall f, mult arithR float_max float_min f = extent (pf_verts f) / 32.
Proof. intros f. unfold mult, ply_load, extent. destruct (bounds (pf_verts f)) as [lo hi]. reflexivity. Qed.

Lemma vec_neq : forall u v : vec3 R, u <> v -> exists d, vget d u <> vget d v.
Proof.
  intros [u1 u2 u3] [v1 v2 v3] H. destruct (Req_dec u1 v1); [|exists AX; auto]. destruct (Req_dec u2 v2); [|exists AY; auto].
  destruct (Req_dec u3 v3); [|exists AZ; auto]. exfalso. apply H. congruence.
Qed.

Lemma extent_pos : forall vs u v, In u vs -> In v vs -> u <> v -> 0 < extent vs.
Proof.
  intros vs u v Hu Hv N. destruct (vec_neq u v N) as [d Hd]. destruct (extent_ok vs) as [E _]. specialize (E d).
  destruct (lowest_ok d vs) as (_ & L & _). destruct (highest_ok d vs) as (_ & H & _).
  pose proof (L u Hu). pose proof (L v Hv). pose proof (H u Hu). pose proof (H v Hv). lra.
Qed.

Lemma placed_get : forall d c k v, vget d (placed arithR c k v) = (vget d v - vget d c) / k.
Proof. intros d c k v. destruct d; reflexivity. Qed.

Lemma place_box : forall f v d, 0 < extent (pf_verts f) -> In v (pf_verts f) -> -16 <= vget d (place arithR float_max float_min f v) <= 16.
Proof.
  intros f v d He Hv. unfold place. rewrite placed_get, centre_get, mult_get.
  destruct (extent_ok (pf_verts f)) as [E _]. specialize (E d).
  destruct (lowest_ok d (pf_verts f)) as (_ & L & _). destruct (highest_ok d (pf_verts f)) as (_ & H & _).
  pose proof (L v Hv). pose proof (H v Hv).
  set (e := extent (pf_verts f)) in *. set (lo := lowest d (pf_verts f)) in *. set (hi := highest d (pf_verts f)) in *.
  replace ((vget d v - (hi + lo) / 2) / (e / 32)) with ((vget d v - (hi + lo) / 2) * (32 / e)) by (field; lra).
  assert (P : 0 < 32 / e) by (apply Rdiv_lt_0_compat; lra).
  assert (Q : 16 = (e / 2) * (32 / e)) by (field; lra).
  assert (Q' : -16 = (- (e / 2)) * (32 / e)) by (field; lra).
  split.
  - rewrite Q'. apply Rmult_le_compat_r; lra.
  - rewrite Q. apply Rmult_le_compat_r; lra.
Qed.

(* Extreme vertices on one axis. *)
Definition reached (f : ply_file R) : Prop := forall d,
  (exists v, In v (pf_verts f) /\ vget d v = lowest d (pf_verts f)) /\ (exists v, In v (pf_verts f) /\ vget d v = highest d (pf_verts f)).
Lemma reached_if : forall f, (forall d, exists v, In v (pf_verts f) /\ float_min <= vget d v <= float_max) -> reached f.
Proof.
  intros f H d. destruct (H d) as (v & Hv & L1 & L2). destruct (lowest_ok d (pf_verts f)) as (A1 & A2 & A3).
  destruct (highest_ok d (pf_verts f)) as (B1 & B2 & B3). pose proof (A2 v Hv). pose proof (B2 v Hv). split.
  - destruct A3 as [A3|A3]; auto. exists v. split; auto. lra.
  - destruct B3 as [B3|B3]; auto. exists v. split; auto. lra.
Qed.

Lemma place_low : forall f v d, 0 < extent (pf_verts f) -> vget d v = lowest d (pf_verts f) ->
  vget d (place arithR float_max float_min f v) = - (16 * (highest d (pf_verts f) - lowest d (pf_verts f)) / extent (pf_verts f)).
Proof. intros f v d He Hv. unfold place. rewrite placed_get, centre_get, mult_get, Hv. field. lra. Qed.
Lemma place_high : forall f v d, 0 < extent (pf_verts f) -> vget d v = highest d (pf_verts f) ->
  vget d (place arithR float_max float_min f v) = 16 * (highest d (pf_verts f) - lowest d (pf_verts f)) / extent (pf_verts f).
Proof. intros f v d He Hv. unfold place. rewrite placed_get, centre_get, mult_get, Hv. field. lra. Qed.
Lemma place_mono : forall f u v d, 0 < extent (pf_verts f) -> vget d u <= vget d v ->
  vget d (place arithR float_max float_min f u) <= vget d (place arithR float_max float_min f v).
Proof.
  intros f u v d He H. unfold place. rewrite !placed_get, mult_get. apply Rmult_le_compat_r; [|lra].
  left. apply Rinv_0_lt_compat. lra.
Qed.

(* Bounds of a list with known extreme members. *)
Lemma lowest_is : forall d vs v, In v vs -> (forall w, In w vs -> vget d v <= vget d w) -> vget d v <= float_max -> lowest d vs = vget d v.
Proof.
  intros d vs v Hv M Hm. destruct (lowest_ok d vs) as (A1 & A2 & A3). pose proof (A2 v Hv).
  destruct A3 as [A3|(w & Hw & A3)]; [lra|]. pose proof (M w Hw). lra.
Qed.
Lemma highest_is : forall d vs v, In v vs -> (forall w, In w vs -> vget d w <= vget d v) -> float_min <= vget d v -> highest d vs = vget d v.
Proof.
  intros d vs v Hv M Hm. destruct (highest_ok d vs) as (A1 & A2 & A3). pose proof (A2 v Hv).
  destruct A3 as [A3|(w & Hw & A3)]; [lra|]. pose proof (M w Hw). lra.
Qed.
End Bounds.
