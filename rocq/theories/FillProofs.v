From Coq Require Import ZArith List Bool Lia Sorted.
From Verif Require Import Base Arith MeshProofs GridModel GridSpec GridProofs EdgeModel EdgeSpec EdgeProofs
  LoopLemmas FillModel FillSpec.
Import ListNotations.
Local Open Scope Z_scope.

Section Fill.
Variable E : fpenv.
Variable g : ugrid E.
Variable f : field E.
Variable n h : Z.
Hypothesis Hn : g_size g = n.
Hypothesis Hv : valid_size n.
Hypothesis Hnh : n = 2 * h.
Hypothesis Hh : 1 <= h <= 512.
Hypothesis E1 : half n = h.
Hypothesis E2 : n / 2 = h.

Let idx (x y z : Z) : Z := ((y + h) * (n + 1) + (x + h)) * (n + 1) + (z + h).

Lemma idx_yxz : forall x y z, yxz_index n (V3 x y z) = idx x y z.
Proof. intros. unfold yxz_index, idx. cbn [vx vy vz]. rewrite E2. reflexivity. Qed.

Lemma idx_bound : forall x y z, - h <= x <= h -> - h <= y <= h -> - h <= z <= h ->
  0 <= idx x y z < (n + 1) * (n + 1) * (n + 1).
Proof.
  intros. rewrite <- idx_yxz. apply point_to_index_ok; [assumption|].
  apply (vertex_in_iff n h); [assumption|]. cbn [vx vy vz]. lia.
Qed.

Lemma size_bound : (n + 1) * (n + 1) * (n + 1) <= 1076890625.
Proof. apply (cube_bound n h); assumption. Qed.

(* The samples of the points before position [i] are in place. *)
Definition sampled_below (i : Z) (values : Z -> option (fp_D E)) (mat : mat_array) : Prop :=
  forall p, vertex_in n p -> yxz_index n p < i ->
    values (yxz_index n p) = Some (sample g f p) /\
    mat (yxz_index n p) = Some (promised_material g f p).

Let low := local_to_global E (g_step g) (g_pos g)
  (V3 (a_ofZ (fp_d E) (- h)) (a_ofZ (fp_d E) (- h)) (a_ofZ (fp_d E) (- h))).
Let acc (c : fp_D E) (k : Z) : fp_D E := accum (fp_d E) c (g_step g) (Z.to_nat (k + h)).

Lemma acc_first : forall c, acc c (- h) = c.
Proof. intros. unfold acc. replace (- h + h) with 0 by lia. reflexivity. Qed.

Lemma acc_next : forall c k, - h <= k -> a_add (fp_d E) (acc c k) (g_step g) = acc c (k + 1).
Proof.
  intros. unfold acc. replace (Z.to_nat (k + 1 + h)) with (S (Z.to_nat (k + h))) by lia. reflexivity.
Qed.

Lemma sample_pos_eq : forall x y z, sample_pos g (V3 x y z) = V3 (acc (vx low) x) (acc (vy low) y) (acc (vz low) z).
Proof. intros. unfold sample_pos. rewrite Hn, E2. reflexivity. Qed.

Definition point_inv (x y z : Z) (s : sample_state E) : Prop :=
  ss_idx _ s = idx x y z /\
  ss_pos _ s = V3 (acc (vx low) x) (acc (vy low) y) (acc (vz low) z) /\
  sampled_below (idx x y z) (ss_values _ s) (ss_mat _ s).

Lemma sample_point_ok : forall x y z s, - h <= x <= h -> - h <= y <= h -> - h <= z <= h ->
  point_inv x y z s ->
  exists s', sample_point E n (g_step g) f s z = Ret s' /\ point_inv x y (z + 1) s'.
Proof.
  intros x y z s Hx Hy Hz (Hi & Hp & Hs).
  pose proof (idx_bound x y z Hx Hy Hz) as Hb. pose proof size_bound as Hsz.
  unfold sample_point. rewrite Hi, data_size_valid by assumption. unfold array_write.
  replace ((0 <=? idx x y z) && (idx x y z <? (n + 1) * (n + 1) * (n + 1))) with true
    by (symmetry; rewrite andb_true_iff, Z.leb_le, Z.ltb_lt; lia).
  cbn [obind]. eexists. split; [reflexivity|].
  unfold point_inv. cbn [ss_idx ss_pos ss_values ss_mat].
  assert (Hnext : idx x y (z + 1) = idx x y z + 1) by (unfold idx; ring).
  split; [|split].
  - rewrite Hnext. apply u32_small. unfold two32. lia.
  - rewrite Hp. cbn [vset vx vy vz]. rewrite acc_next by lia. reflexivity.
  - intros q Hq Hlt. rewrite Hnext in Hlt.
    destruct (Z.eqb_spec (yxz_index n q) (idx x y z)) as [Heq|Hne].
    + rewrite <- idx_yxz in Heq.
      assert (q = V3 x y z).
      { apply (yxz_index_inj n); try assumption. apply (vertex_in_iff n h); [assumption|]. cbn [vx vy vz]. lia. }
      subst q. unfold promised_material, sample. rewrite sample_pos_eq, Hp. auto.
    + apply Hs; [assumption|]. lia.
Qed.

Lemma sample_row_ok : forall x y s, - h <= x <= h -> - h <= y <= h ->
  (ss_idx _ s = idx x y (- h) /\ vx (ss_pos _ s) = acc (vx low) x /\ vy (ss_pos _ s) = acc (vy low) y /\
   sampled_below (idx x y (- h)) (ss_values _ s) (ss_mat _ s)) ->
  exists s', sample_row E n (g_step g) low f s x = Ret s' /\
   (ss_idx _ s' = idx (x + 1) y (- h) /\ vx (ss_pos _ s') = acc (vx low) (x + 1) /\
    vy (ss_pos _ s') = acc (vy low) y /\
    sampled_below (idx (x + 1) y (- h)) (ss_values _ s') (ss_mat _ s')).
Proof.
  intros x y s Hx Hy (Hi & Hpx & Hpy & Hs). unfold sample_row. rewrite E1.
  destruct (ofold_range _ (point_inv x y) (sample_point E n (g_step g) f) (- h) (h + 1)
     (SS E (ss_idx _ s) (vset E AZ (ss_pos _ s) (vz low)) (ss_values _ s) (ss_mat _ s)))
    as (s' & Hs' & Hinv); [lia| | |].
  - split; [assumption|split; [|assumption]]. cbn [ss_pos vset].
    rewrite Hpx, Hpy, acc_first. reflexivity.
  - intros z s0 Hz Hinv. apply sample_point_ok; try assumption; lia.
  - rewrite Hs'. cbn [obind]. eexists. split; [reflexivity|]. cbn [ss_idx ss_pos ss_values ss_mat vset vx vy vz].
    destruct Hinv as (Ji & Jp & Js). rewrite Jp. cbn [vx vy vz].
    assert (Hnext : idx (x + 1) y (- h) = idx x y (h + 1)) by (unfold idx; rewrite Hnh; ring).
    rewrite Hnext. rewrite acc_next by lia. auto.
Qed.

Lemma sample_plane_ok : forall y s, - h <= y <= h ->
  (ss_idx _ s = idx (- h) y (- h) /\ vy (ss_pos _ s) = acc (vy low) y /\
   sampled_below (idx (- h) y (- h)) (ss_values _ s) (ss_mat _ s)) ->
  exists s', sample_plane E n (g_step g) low f s y = Ret s' /\
   (ss_idx _ s' = idx (- h) (y + 1) (- h) /\ vy (ss_pos _ s') = acc (vy low) (y + 1) /\
    sampled_below (idx (- h) (y + 1) (- h)) (ss_values _ s') (ss_mat _ s')).
Proof.
  intros y s Hy (Hi & Hpy & Hs). unfold sample_plane. rewrite E1.
  destruct (ofold_range _ (fun x s => ss_idx _ s = idx x y (- h) /\ vx (ss_pos _ s) = acc (vx low) x /\
     vy (ss_pos _ s) = acc (vy low) y /\
     sampled_below (idx x y (- h)) (ss_values _ s) (ss_mat _ s))
     (sample_row E n (g_step g) low f) (- h) (h + 1)
     (SS E (ss_idx _ s) (vset E AX (ss_pos _ s) (vx low)) (ss_values _ s) (ss_mat _ s)))
    as (s' & Hs' & Ji & Jx & Jy & Js); [lia| | |].
  - cbn [ss_idx ss_pos ss_values ss_mat vset vx vy vz]. rewrite acc_first. auto.
  - intros x s0 Hx Hinv. apply sample_row_ok; try assumption; lia.
  - rewrite Hs'. cbn [obind]. eexists. split; [reflexivity|]. cbn [ss_idx ss_pos ss_values ss_mat vset vx vy vz].
    assert (Hnext : idx (- h) (y + 1) (- h) = idx (h + 1) y (- h)) by (unfold idx; rewrite Hnh; ring).
    rewrite Hnext, Jy, acc_next by lia. auto.
Qed.

Lemma fill_samples_ok : exists s, fill_samples E g f = Ret s /\
  forall p, vertex_in n p -> ss_values _ s (yxz_index n p) = Some (sample g f p) /\
    ss_mat _ s (yxz_index n p) = Some (promised_material g f p).
Proof.
  unfold fill_samples. rewrite Hn, E1. fold low.
  destruct (ofold_range _ (fun y s => ss_idx _ s = idx (- h) y (- h) /\ vy (ss_pos _ s) = acc (vy low) y /\
     sampled_below (idx (- h) y (- h)) (ss_values _ s) (ss_mat _ s))
     (sample_plane E n (g_step g) low f) (- h) (h + 1)
     (SS E 0 low (fun i => if (0 <=? i) && (i <? data_size n) then Some (a_ofZ (fp_d E) 0) else None) (g_mat g)))
    as (s' & Hs' & Ji & Jy & Js); [lia| | |].
  - cbn [ss_idx ss_pos ss_values ss_mat]. rewrite acc_first.
    split; [unfold idx; ring|split; [reflexivity|]].
    intros p Hp Hlt. exfalso. destruct (point_to_index_ok n p Hv Hp) as [_ Hb].
    replace (idx (- h) (- h) (- h)) with 0 in Hlt by (unfold idx; ring). lia.
  - intros y s0 Hy Hinv. apply sample_plane_ok; try assumption; lia.
  - rewrite Hs'. exists s'. split; [reflexivity|]. intros p Hp. apply Js; [assumption|].
    destruct (point_to_index_ok n p Hv Hp) as [_ Hb].
    replace (idx (- h) (h + 1) (- h)) with ((n + 1) * (n + 1) * (n + 1)) by (unfold idx; rewrite Hnh; ring). lia.
Qed.

(* ---- edges ---- *)

Variable solver : zero_finder E.
Variable values : Z -> option (fp_D E).
Variable mat : mat_array.
Hypothesis Hval : forall p, vertex_in n p -> values (yxz_index n p) = Some (sample g f p) /\
    mat (yxz_index n p) = Some (promised_material g f p).

Lemma omap_app : forall A B (k : A -> outcome B) l1 l2 b1 b2,
  omap k l1 = Ret b1 -> omap k l2 = Ret b2 -> omap k (l1 ++ l2) = Ret (b1 ++ b2).
Proof.
  induction l1 as [|a l1 IH]; intros l2 b1 b2 H1 H2; simpl in *.
  - injection H1 as <-. assumption.
  - destruct (k a); try discriminate. simpl in *.
    destruct (omap k l1); try discriminate. simpl in *. injection H1 as <-.
    rewrite (IH l2 a1 b2 eq_refl H2). reflexivity.
Qed.

Definition off (d : axis) : Z := match d with AX => n + 1 | AY => (n + 1) * (n + 1) | AZ => 1 end.

Lemma idx_unit : forall d x y z, yxz_index n (vadd (V3 x y z) (unit_vec d)) = idx x y z + off d.
Proof.
  intros. unfold yxz_index, idx, off. rewrite E2. destruct d; cbn [unit_vec vadd vx vy vz]; ring.
Qed.

(* Storage and calls after the edges at [ps] have been processed. *)
Definition stored (d : axis) (ps : list ivec3) (s : edge_state E) : Prop :=
  omap (stored_edge g f solver d) (filter (crosses g f d) ps) = Ret (es_edges _ s) /\
  es_calls _ s = map (solver_call g f d) (filter (crosses g f d) ps).

Definition edge_inv (d : axis) (x y z : Z) (ps : list ivec3) (s : edge_state E) : Prop :=
  es_i1 _ s = idx x y z /\ es_i2 _ s = idx x y z + off d /\ stored d ps s.

Lemma off_bound : forall d, 0 < off d <= 1050625.
Proof. intros. destruct (cube_bound n h Hnh Hh) as [B _]. destruct d; cbn [off]; nia. Qed.

Lemma edge_body_ok : forall d x y z ps s, edge_in n d (V3 x y z) ->
  edge_inv d x y z ps s ->
  exists s', edge_body E d g f solver values mat y x s z = Ret s' /\
    edge_inv d x y (z + 1) (ps ++ [V3 x y z]) s'.
Proof.
  intros d x y z ps s He (H1 & H2 & Hst & Hca).
  pose proof He as He'. apply (edge_in_iff n h) in He'; [|assumption]. cbn [vx vy vz] in He'.
  assert (Hux : 0 <= vx (unit_vec d) <= 1 /\ 0 <= vy (unit_vec d) <= 1 /\ 0 <= vz (unit_vec d) <= 1)
    by (destruct d; cbn; lia).
  assert (P1 : vertex_in n (V3 x y z)) by (apply He; left; reflexivity).
  assert (P2 : vertex_in n (vadd (V3 x y z) (unit_vec d))) by (apply He; right; left; reflexivity).
  destruct (Hval _ P1) as [V1 M1]. destruct (Hval _ P2) as [V2 M2].
  rewrite idx_unit in V2, M2. rewrite idx_yxz in V1, M1.
  unfold edge_body. rewrite H1, H2, V1, V2. cbn [oread obind].
  pose proof (idx_bound x y z) as Hb. pose proof size_bound as Hsz. pose proof (off_bound d) as Ho.
  assert (Hnext : idx x y (z + 1) = idx x y z + 1) by (unfold idx; ring).
  assert (U1 : u32 (idx x y z + 1) = idx x y z + 1) by (apply u32_small; unfold two32; lia).
  assert (U2 : u32 (idx x y z + off d + 1) = idx x y z + 1 + off d)
    by (rewrite u32_small by (unfold two32; lia); lia).
  change (negb (eqb (le0 E (sample g f (V3 x y z))) (le0 E (sample g f (vadd (V3 x y z) (unit_vec d))))))
    with (negb (eqb (le0 E (sample g f (V3 x y z))) (le0 E (sample g f (vadd (V3 x y z) (unit_vec d)))))).
  assert (Hc : negb (eqb (le0 E (sample g f (V3 x y z))) (le0 E (sample g f (vadd (V3 x y z) (unit_vec d)))))
     = crosses g f d (V3 x y z)).
  { unfold crosses. destruct (le0 E (sample g f (V3 x y z))), (le0 E (sample g f (vadd (V3 x y z) (unit_vec d)))); reflexivity. }
  rewrite Hc. destruct (crosses g f d (V3 x y z)) eqn:Ec.
  - cbv zeta.
    assert (Hm : oread (if le0 E (sample g f (V3 x y z)) then mat (idx x y z) else mat (idx x y z + off d)) =
       Ret (promised_material g f (if le0 E (sample g f (V3 x y z)) then V3 x y z else vadd (V3 x y z) (unit_vec d)))).
    { destruct (le0 E (sample g f (V3 x y z))); [rewrite M1|rewrite M2]; reflexivity. }
    rewrite Hm. cbn [obind].
    assert (Hvg : forall p v, vget d (vset E d p v) = v) by (intros; destruct d; reflexivity).
    rewrite Hvg.
    match goal with |- context [make_edge E x y z ?a ?b ?c ?s ?m] =>
      destruct (make_edge_ok E x y z a b c s m) as (e & Hme & _) end.
    { unfold is_i16, i16min, i16max; lia. }
    { unfold is_i16, i16min, i16max; lia. }
    { unfold is_i16, i16min, i16max; lia. }
    { destruct d; cbn; lia. }
    rewrite Hme. cbn [obind es_i1 es_i2 es_edges es_calls].
    eexists. split; [reflexivity|]. unfold edge_inv, stored. cbn [es_i1 es_i2 es_edges es_calls].
    rewrite ?H1, ?H2, U1, U2, Hnext. split; [reflexivity|split; [reflexivity|]].
    rewrite filter_app. cbn [filter]. rewrite Ec. split.
    + apply omap_app; [assumption|]. simpl. unfold stored_edge, solver_call. cbn [zc_start vx vy vz].
      cbv zeta. rewrite Hme. reflexivity.
    + rewrite map_app, Hca. reflexivity.
  - cbn [obind]. eexists. split; [reflexivity|]. unfold edge_inv, stored. cbn [es_i1 es_i2 es_edges es_calls].
    rewrite ?H1, ?H2, U1, U2, Hnext. split; [reflexivity|split; [reflexivity|]].
    rewrite filter_app. cbn [filter]. rewrite Ec, app_nil_r. auto.
Qed.

Lemma starts_eq : forall d a, starts n d a = zrange (- h) (loop_end d a h).
Proof. intros. unfold starts, loop_end. rewrite E2. reflexivity. Qed.

Lemma loop_end_unit : forall d a, loop_end d a h = h + 1 - vget a (unit_vec d).
Proof. intros d a. destruct d, a; cbn; lia. Qed.

Lemma edge_skip_ok : forall d x y z k ps s, edge_inv d x y z ps s -> 0 <= k <= 1025 ->
  0 <= idx x y z < (n + 1) * (n + 1) * (n + 1) ->
  es_i1 _ (edge_skip E k s) = idx x y z + k /\ es_i2 _ (edge_skip E k s) = idx x y z + k + off d /\
  stored d ps (edge_skip E k s).
Proof.
  intros d x y z k ps s (H1 & H2 & H3) Hk Hb. unfold edge_skip. cbn [es_i1 es_i2].
  pose proof size_bound. pose proof (off_bound d).
  rewrite H1, H2, !u32_small by (unfold two32; lia). split; [lia|split; [lia|exact H3]].
Qed.

Lemma edge_row_ok : forall d x y ps s,
  - h <= x <= h - vx (unit_vec d) -> - h <= y <= h - vy (unit_vec d) ->
  edge_inv d x y (- h) ps s ->
  exists s', edge_row E d g f solver values mat y s x = Ret s' /\
    edge_inv d (x + 1) y (- h) (ps ++ map (fun z => V3 x y z) (starts n d AZ)) s'.
Proof.
  intros d x y ps s Hx Hy Hinv. unfold edge_row. rewrite Hn, E1.
  pose proof (loop_end_unit d AZ) as Hle. cbn [vget] in Hle.
  assert (Hux : 0 <= vx (unit_vec d) <= 1 /\ 0 <= vy (unit_vec d) <= 1 /\ 0 <= vz (unit_vec d) <= 1)
    by (destruct d; cbn; lia).
  destruct (ofold_range _ (fun z s => edge_inv d x y z (ps ++ map (fun z => V3 x y z) (zrange (- h) z)) s)
     (edge_body E d g f solver values mat y x) (- h) (loop_end d AZ h) s) as (s' & Hs' & Ji); [lia| | |].
  - rewrite zrange_nil by lia. rewrite app_nil_r. assumption.
  - intros z s0 Hz Hi. rewrite zrange_snoc by lia. rewrite map_app, app_assoc. cbn [map].
    apply edge_body_ok; [|assumption]. apply (edge_in_iff n h); [assumption|]. cbn [vx vy vz]. lia.
  - rewrite Hs'. cbn [obind]. rewrite starts_eq. eexists. split; [reflexivity|].
    assert (Hb : 0 <= idx x y h < (n + 1) * (n + 1) * (n + 1)) by (apply idx_bound; lia).
    destruct d; cbn [unit_vec vx vy vz] in Hle.
    + rewrite Hle in *. unfold edge_inv in *.
      replace (idx (x + 1) y (- h)) with (idx x y (h + 1 - 0)) by (unfold idx; rewrite Hnh; ring). exact Ji.
    + rewrite Hle in *. unfold edge_inv in *.
      replace (idx (x + 1) y (- h)) with (idx x y (h + 1 - 0)) by (unfold idx; rewrite Hnh; ring). exact Ji.
    + rewrite Hle in *. replace (h + 1 - 1) with h in * by lia.
      destruct (edge_skip_ok _ _ _ _ 1 _ _ Ji ltac:(lia) Hb) as (G1 & G2 & G3).
      unfold edge_inv. rewrite G1, G2.
      replace (idx (x + 1) y (- h)) with (idx x y h + 1) by (unfold idx; rewrite Hnh; ring).
      auto.
Qed.

Lemma edge_plane_ok : forall d y ps s,
  - h <= y <= h - vy (unit_vec d) ->
  edge_inv d (- h) y (- h) ps s ->
  exists s', edge_plane E d g f solver values mat s y = Ret s' /\
    edge_inv d (- h) (y + 1) (- h)
      (ps ++ flat_map (fun x => map (fun z => V3 x y z) (starts n d AZ)) (starts n d AX)) s'.
Proof.
  intros d y ps s Hy Hinv. unfold edge_plane. rewrite Hn, E1.
  pose proof (loop_end_unit d AX) as Hle. cbn [vget] in Hle.
  assert (Hux : 0 <= vx (unit_vec d) <= 1 /\ 0 <= vy (unit_vec d) <= 1 /\ 0 <= vz (unit_vec d) <= 1)
    by (destruct d; cbn; lia).
  destruct (ofold_range _ (fun x s => edge_inv d x y (- h)
       (ps ++ flat_map (fun x => map (fun z => V3 x y z) (starts n d AZ)) (zrange (- h) x)) s)
     (edge_row E d g f solver values mat y) (- h) (loop_end d AX h) s) as (s' & Hs' & Ji); [lia| | |].
  - rewrite zrange_nil by lia. simpl. rewrite app_nil_r. assumption.
  - intros x s0 Hx Hi. rewrite zrange_snoc by lia. rewrite flat_map_app, app_assoc.
    cbn [flat_map]. rewrite app_nil_r. apply edge_row_ok; [lia|assumption|assumption].
  - rewrite Hs'. cbn [obind]. rewrite (starts_eq d AX). eexists. split; [reflexivity|].
    assert (Hb : 0 <= idx h y (- h) < (n + 1) * (n + 1) * (n + 1)) by (apply idx_bound; lia).
    destruct d; cbn [unit_vec vx vy vz] in Hle.
    + rewrite Hle in *. replace (h + 1 - 1) with h in * by lia.
      rewrite (u32_small (n + 1)) by (unfold two32; lia).
      destruct (edge_skip_ok _ _ _ _ (n + 1) _ _ Ji ltac:(lia) Hb) as (G1 & G2 & G3).
      unfold edge_inv. rewrite G1, G2.
      replace (idx (- h) (y + 1) (- h)) with (idx h y (- h) + (n + 1)) by (unfold idx; rewrite Hnh; ring).
      auto.
    + rewrite Hle in *. unfold edge_inv in *.
      replace (idx (- h) (y + 1) (- h)) with (idx (h + 1 - 0) y (- h)) by (unfold idx; rewrite Hnh; ring). exact Ji.
    + rewrite Hle in *. unfold edge_inv in *.
      replace (idx (- h) (y + 1) (- h)) with (idx (h + 1 - 0) y (- h)) by (unfold idx; rewrite Hnh; ring). exact Ji.
Qed.

Lemma fill_edges_ok : forall d, exists s, fill_edges E d g f solver values mat = Ret s /\
  stored d (edge_points n d) s.
Proof.
  intro d. unfold fill_edges. rewrite Hn, E1.
  pose proof (loop_end_unit d AY) as Hle. cbn [vget] in Hle.
  assert (Hux : 0 <= vx (unit_vec d) <= 1 /\ 0 <= vy (unit_vec d) <= 1 /\ 0 <= vz (unit_vec d) <= 1)
    by (destruct d; cbn; lia).
  destruct (ofold_range _ (fun y s => edge_inv d (- h) y (- h)
       (flat_map (fun y => flat_map (fun x => map (fun z => V3 x y z) (starts n d AZ)) (starts n d AX)) (zrange (- h) y)) s)
     (edge_plane E d g f solver values mat) (- h) (loop_end d AY h) (ES E 0 (idx2_start d n) [] []))
    as (s' & Hs' & Ji); [lia| | |].
  - rewrite zrange_nil by lia. unfold edge_inv, stored. cbn [es_i1 es_i2 es_edges es_calls flat_map filter omap map].
    replace (idx (- h) (- h) (- h)) with 0 by (unfold idx; ring).
    destruct (cube_bound n h Hnh Hh) as [B2 B3].
    split; [reflexivity|split; [|split; reflexivity]].
    destruct d; cbn [idx2_start off].
    + rewrite u32_small by (unfold two32; lia). lia.
    + rewrite (u32_small (n + 1)) by (unfold two32; lia).
      rewrite u32_small by (unfold two32; nia). lia.
    + reflexivity.
  - intros y s0 Hy Hi. rewrite zrange_snoc by lia. rewrite flat_map_app.
    cbn [flat_map]. rewrite app_nil_r. apply edge_plane_ok; [lia|assumption].
  - rewrite Hs'. exists s'. split; [reflexivity|]. unfold edge_points. rewrite (starts_eq d AY). apply Ji.
Qed.

End Fill.

(* What fill leaves behind, exactly. *)
Theorem fill_ok : forall E (g : ugrid E) f solver, valid_size (g_size g) ->
  exists g' calls, fill g f solver = Ret (g', calls) /\
    g_size g' = g_size g /\ g_pos g' = g_pos g /\ g_step g' = g_step g /\
    (forall p, vertex_in (g_size g) p ->
       g_mat g' (yxz_index (g_size g) p) = Some (promised_material g f p)) /\
    (forall d, omap (stored_edge g f solver d) (filter (crosses g f d) (edge_points (g_size g) d))
               = Ret (g_edges d g')) /\
    calls = flat_map (fun d => map (solver_call g f d) (filter (crosses g f d) (edge_points (g_size g) d)))
                     [AX; AY; AZ].
Proof.
  intros E g f solver Hv. destruct (valid_even _ Hv) as (h & Hn & Hb & E1 & E2).
  destruct (fill_samples_ok E g f (g_size g) h eq_refl Hv Hn Hb E1 E2) as (s & Hs & Hp).
  unfold fill. rewrite Hs. cbn [obind].
  pose proof (fill_edges_ok E g f (g_size g) h eq_refl Hv Hn Hb E1 E2 solver _ _ Hp) as He.
  destruct (He AX) as (sx & Hx & Sx & Cx). destruct (He AY) as (sy & Hy & Sy & Cy).
  destruct (He AZ) as (sz & Hz & Sz & Cz).
  rewrite Hx. cbn [obind]. rewrite Hy. cbn [obind]. rewrite Hz. cbn [obind].
  eexists _, _. split; [reflexivity|]. cbn [g_size g_pos g_step g_mat].
  split; [reflexivity|split; [reflexivity|split; [reflexivity|]]].
  split; [intros p Hin; apply Hp; assumption|]. split.
  - intro d. destruct d; cbn [g_edges g_ex g_ey g_ez]; assumption.
  - cbn [flat_map]. rewrite app_nil_r, Cx, Cy, Cz. reflexivity.
Qed.

(* ---- the list of all edges ---- *)

Lemma in_edge_points : forall n d p, valid_size n -> (In p (edge_points n d) <-> edge_in n d p).
Proof.
  intros n d [x y z] Hv. destruct (valid_even _ Hv) as (h & Hn & Hb & E1 & E2).
  rewrite (edge_in_iff n h) by assumption. cbn [vx vy vz].
  unfold edge_points. rewrite in_flat_map. split.
  - intros (y' & Hy & H). apply in_flat_map in H as (x' & Hx & H). apply in_map_iff in H as (z' & Heq & Hz).
    injection Heq as -> -> ->. unfold starts in *. rewrite E2 in *.
    apply in_zrange in Hx, Hy, Hz. destruct d; cbn [axis_eqb unit_vec vx vy vz] in *; lia.
  - intro H. exists y. unfold starts. rewrite E2.
    split; [apply in_zrange; destruct d; cbn [axis_eqb unit_vec vx vy vz] in *; lia|].
    apply in_flat_map. exists x.
    split; [apply in_zrange; destruct d; cbn [axis_eqb unit_vec vx vy vz] in *; lia|].
    apply in_map_iff. exists z. split; [reflexivity|].
    apply in_zrange; destruct d; cbn [axis_eqb unit_vec vx vy vz] in *; lia.
Qed.

Lemma sorted_app : forall A (R : A -> A -> Prop) l1 l2,
  StronglySorted R l1 -> StronglySorted R l2 -> (forall a b, In a l1 -> In b l2 -> R a b) ->
  StronglySorted R (l1 ++ l2).
Proof.
  induction l1 as [|a l1 IH]; intros l2 H1 H2 H; simpl; [assumption|].
  apply StronglySorted_inv in H1 as [H1 Ha]. constructor.
  - apply IH; try assumption. intros; apply H; [right|]; assumption.
  - rewrite Forall_app. split; [assumption|]. apply Forall_forall. intros b Hb.
    apply H; [left; reflexivity|assumption].
Qed.

Lemma sorted_flat_map : forall A B (R : A -> A -> Prop) (Q : B -> B -> Prop) (k : B -> list A) l,
  StronglySorted Q l -> (forall b, StronglySorted R (k b)) ->
  (forall b c x y, Q b c -> In x (k b) -> In y (k c) -> R x y) ->
  StronglySorted R (flat_map k l).
Proof.
  induction l as [|b l IH]; intros Hl Hk H; simpl; [constructor|].
  apply StronglySorted_inv in Hl as [Hl Hb].
  apply sorted_app; auto.
  intros x y Hx Hy. apply in_flat_map in Hy as (c & Hc & Hy).
  rewrite Forall_forall in Hb. eauto.
Qed.

Lemma edge_points_sorted : forall n d, StronglySorted yxz_lt (edge_points n d).
Proof.
  intros n d. unfold edge_points, starts.
  apply sorted_flat_map with (Q := Z.lt); [apply zrange_sorted| |].
  - intro y. apply sorted_flat_map with (Q := Z.lt); [apply zrange_sorted| |].
    + intro x. pose proof (zrange_sorted (- (n / 2)) (if axis_eqb d AZ then n / 2 else n / 2 + 1)) as Hs.
      induction Hs as [|z l Hs IH Hz]; simpl; constructor; [assumption|].
      apply Forall_forall. intros q Hq. apply in_map_iff in Hq as (z' & <- & Hz').
      rewrite Forall_forall in Hz. apply Hz in Hz'. unfold yxz_lt; cbn [vx vy vz]. lia.
    + intros x x' p q Hlt Hp Hq. apply in_map_iff in Hp as (z & <- & _). apply in_map_iff in Hq as (z' & <- & _).
      unfold yxz_lt; cbn [vx vy vz]. lia.
  - intros y y' p q Hlt Hp Hq.
    apply in_flat_map in Hp as (x & _ & Hp). apply in_flat_map in Hq as (x' & _ & Hq).
    apply in_map_iff in Hp as (z & <- & _). apply in_map_iff in Hq as (z' & <- & _).
    unfold yxz_lt; cbn [vx vy vz]. lia.
Qed.

Lemma sorted_filter : forall A (R : A -> A -> Prop) p l,
  StronglySorted R l -> StronglySorted R (filter p l).
Proof.
  induction l as [|a l IH]; intro H; simpl; [constructor|].
  apply StronglySorted_inv in H as [H Ha]. destruct (p a); [|auto].
  constructor; [auto|]. rewrite Forall_forall in *. intros b Hb. apply filter_In in Hb as [Hb _]. auto.
Qed.

Lemma sorted_nodup : forall l, StronglySorted yxz_lt l -> NoDup l.
Proof.
  induction l as [|a l IH]; intro H; constructor; apply StronglySorted_inv in H as [H Ha]; auto.
  intro G. rewrite Forall_forall in Ha. apply Ha in G. unfold yxz_lt in G; lia.
Qed.

(* ---- edges after fill ---- *)

Lemma omap_edges : forall E (g : ugrid E) f solver d l es, valid_size (g_size g) ->
  (forall p, In p l -> edge_in (g_size g) d p) ->
  omap (stored_edge g f solver d) l = Ret es ->
  Forall2 (fun p e => stored_edge g f solver d p = Ret e /\
     lesser_endpoint e = p /\ ue_axis e = axis_num d /\
     is_lesser_solid e = le0 E (sample g f p) /\
     solid_material e = promised_material g f (if le0 E (sample g f p) then p else vadd p (unit_vec d))) l es.
Proof.
  intros E g f solver d l es Hv. revert es. induction l as [|p l IH]; intros es Hin H; simpl in H.
  - injection H as <-. constructor.
  - destruct (valid_even _ Hv) as (h & Hn & Hb & E1 & E2).
    assert (Hp : edge_in (g_size g) d p) by (apply Hin; left; reflexivity).
    apply (edge_in_iff _ h) in Hp; [|assumption].
    assert (Hux : 0 <= vx (unit_vec d) <= 1 /\ 0 <= vy (unit_vec d) <= 1 /\ 0 <= vz (unit_vec d) <= 1)
      by (destruct d; cbn; lia).
    destruct (stored_edge g f solver d p) as [e| | | |] eqn:Es; try discriminate. simpl in H.
    destruct (omap (stored_edge g f solver d) l) as [es'| | | |] eqn:El; try discriminate. simpl in H.
    injection H as <-. constructor; [|apply IH; [intros; apply Hin; right; assumption|reflexivity]].
    split; [exact Es|]. unfold stored_edge in Es. cbv zeta in Es.
    match type of Es with make_edge ?E ?x ?y ?z ?a ?b ?c ?s ?m = _ =>
      destruct (make_edge_ok E x y z a b c s m) as (e' & Hme & L1 & L2 & L3 & L4) end.
    { unfold is_i16, i16min, i16max; lia. }
    { unfold is_i16, i16min, i16max; lia. }
    { unfold is_i16, i16min, i16max; lia. }
    { destruct d; cbn; lia. }
    rewrite Hme in Es. injection Es as ->. rewrite V3_eta in L1. auto.
Qed.

Lemma Forall2_map_eq : forall A B (P : A -> B -> Prop) (k : B -> A) l es,
  Forall2 P l es -> (forall a b, P a b -> k b = a) -> map k es = l.
Proof. induction 1; intro Hk; simpl; [reflexivity|]. rewrite (Hk _ _ H), IHForall2; auto. Qed.

Lemma Forall2_in_r : forall A B (P : A -> B -> Prop) l es e, Forall2 P l es -> In e es -> exists a, In a l /\ P a e.
Proof.
  induction 1; intro He; [destruct He|]. destruct He as [->|He]; [exists x; split; [left; reflexivity|assumption]|].
  destruct (IHForall2 He) as (a & Ha & HP). exists a. split; [right|]; assumption.
Qed.

Lemma Forall2_in_l : forall A B (P : A -> B -> Prop) l es a, Forall2 P l es -> In a l -> exists e, In e es /\ P a e.
Proof.
  induction 1; intro He; [destruct He|]. destruct He as [->|He]; [exists y; split; [left; reflexivity|assumption]|].
  destruct (IHForall2 He) as (e & Ha & HP). exists e. split; [right|]; assumption.
Qed.

(* The description used by the meshing algorithms. *)
Theorem fill_represents_edges : forall E (g : ugrid E) f solver, valid_size (g_size g) ->
  exists g' calls, fill g f solver = Ret (g', calls) /\ g_size g' = g_size g /\
    (forall p, vertex_in (g_size g) p -> g_mat g' (yxz_index (g_size g) p) = Some (promised_material g f p)) /\
    represents_edges g' (fun p => le0 E (sample g f p)).
Proof.
  intros E g f solver Hv.
  destruct (fill_ok E g f solver Hv) as (g' & calls & Hf & Hs & _ & _ & Hm & He & _).
  exists g', calls. split; [assumption|split; [assumption|split; [assumption|]]].
  assert (Hall : forall d, Forall2 (fun p e => stored_edge g f solver d p = Ret e /\
     lesser_endpoint e = p /\ ue_axis e = axis_num d /\
     is_lesser_solid e = le0 E (sample g f p) /\
     solid_material e = promised_material g f (if le0 E (sample g f p) then p else vadd p (unit_vec d)))
     (filter (crosses g f d) (edge_points (g_size g) d)) (g_edges d g')).
  { intro d. apply omap_edges; [assumption| |apply He].
    intros p Hp. apply filter_In in Hp as [Hp _]. apply in_edge_points; assumption. }
  constructor; rewrite ?Hs.
  - assumption.
  - intros p Hp. exists (promised_material g f p). apply Hm; assumption.
  - intro d. eapply Forall2_map_eq; [apply Hall|]. intros a b H. apply H.
  - intros d e Hin. destruct (Forall2_in_r _ _ _ _ _ _ (Hall d) Hin) as (p & _ & _ & H1 & H2 & H3 & _).
    rewrite H1. auto.
Qed.

Theorem fill_represents : forall E (g : ugrid E) f solver, valid_size (g_size g) ->
  nan_free g f -> solid_inside g f ->
  exists g' calls, fill g f solver = Ret (g', calls) /\ g_size g' = g_size g /\
    represents g' (fun p => le0 E (sample g f p)).
Proof.
  intros E g f solver Hv Hnan Hsol.
  destruct (fill_represents_edges E g f solver Hv) as (g' & calls & Hf & Hs & Hm & Hr).
  exists g', calls. split; [assumption|split; [assumption|]]. constructor; [assumption|]. rewrite Hs.
  intros p Hp. exists (promised_material g f p). split; [apply Hm; assumption|].
  unfold promised_material. rewrite (Hnan p Hp). destruct (le0 E (sample g f p)) eqn:El; simpl.
  - unfold is_solid. destruct (Z.eqb_spec (fl_material f (sample_pos g p) (sample g f p)) Empty); [|reflexivity].
    exfalso. apply (Hsol p Hp El). assumption.
  - reflexivity.
Qed.
