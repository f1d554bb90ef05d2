(* Dual marching cubes in exact arithmetic: C43, C45, C70. *)
From Coq Require Import ZArith List Bool Lia Reals Lra Psatz.
From Flocq Require Import IEEE754.BinarySingleNaN.
From Verif Require Import Base Arith RealArith FloatArith Tables MeshModel MeshSpec GridSpec FillModel MCModel UdcModel CellSpec OctreeModel OctreeSpec OctreeProofs
  DcModel DcBuild QefModel QefSpec DmcModel DmcTrav DmcContour DmcSpec DmcProofs DmcMesh DmcClosed DmcBuild PropMC PropDc PropQef PropDmc PropDmcIeee.
Import ListNotations.
Local Open Scope R_scope.

(* The point at [s] of the way from [p] to [p'] *)
Definition along (p p' : vec3 R) (s : R) : vec3 R :=
  V3 (vx p + s * (vx p' - vx p)) (vy p + s * (vy p' - vy p)) (vz p + s * (vz p' - vz p)).
Definition dot (u v : vec3 R) : R := vx u * vx v + vy u * vy v + vz u * vz v.

Lemma opposite_cases : forall (a b : dmc_leaf R) p1 w1 p2 w2, dn_dual a = Some (p1, w1) -> dn_dual b = Some (p2, w2) -> opposite envR a b ->
  (w1 <= 0 < w2) \/ (w2 <= 0 < w1).
Proof.
  intros a b p1 w1 p2 w2 Ha Hb O. unfold opposite, node_inside in O. change (fp_F envR) with R in O. rewrite Ha, Hb in O. cbn [envR fp_F fp_f arithR a_le a_ofZ] in O.
  destruct (Rleb w1 0) eqn:E1; destruct (Rleb w2 0) eqn:E2; try congruence.
  - apply Rleb_iff in E1. apply Rleb_false in E2. lra.
  - apply Rleb_false in E1. apply Rleb_iff in E2. lra.
Qed.

(* C43, position: the vertex is on the segment between the dual vertices, where the value interpolated along the segment
   is zero. *)
Theorem C43_position : forall (a b : dmc_leaf R) p1 w1 p2 w2 v, dn_dual a = Some (p1, w1) -> dn_dual b = Some (p2, w2) ->
  opposite envR a b -> dmc_vertex envR a b = Ret v ->
  exists s, 0 <= s <= 1 /\ mv_pos v = along p1 p2 s /\ w1 + s * (w2 - w1) = 0.
Proof.
  intros a b p1 w1 p2 w2 v Ha Hb O V. pose proof (opposite_cases a b p1 w1 p2 w2 Ha Hb O) as C. unfold dmc_vertex in V. change (fp_F envR) with R in V. rewrite Ha, Hb in V. cbn [oread obind fst snd] in V.
  destruct (dn_normal a) as [n1|]; [|discriminate]. destruct (dn_normal b) as [n2|]; [|discriminate]. cbn [oread obind] in V.
  destruct (dn_mat a) as [m1|]; [|discriminate]. cbn [oread obind] in V. destruct (if (m1 =? Empty)%Z then _ else _) as [mt| | | |]; try discriminate. cbn [obind] in V.
  injection V as <-. cbn [mv_pos]. unfold lerp3, lerp1. cbn [envR fp_F fp_f arithR a_abs a_div a_add a_mul].
  assert (P : 0 < Rabs w1 + Rabs w2) by (destruct C; unfold Rabs; repeat destruct (Rcase_abs _); lra).
  exists (Rabs w1 / (Rabs w1 + Rabs w2)). split; [|split].
  - pose proof (Rabs_pos w1). pose proof (Rabs_pos w2). split; [apply Rmult_le_pos; [lra|left; apply Rinv_0_lt_compat; lra]|].
    apply (Rmult_le_reg_r (Rabs w1 + Rabs w2)); [lra|]. unfold Rdiv. rewrite Rmult_assoc, Rinv_l by lra. lra.
  - unfold along. f_equal; field; lra.
  - apply (Rmult_eq_reg_r (Rabs w1 + Rabs w2)); [|lra]. field_simplify; [|lra]. destruct C; unfold Rabs; repeat destruct (Rcase_abs _); nra.
Qed.
Print Assumptions C43_position.

(* C43, normal: if the normals of the nodes are unit vectors and not opposite, so is the normal of the vertex. *)
Theorem C43_normal_partial : forall (a b : dmc_leaf R) p1 w1 p2 w2 n1 n2 v, dn_dual a = Some (p1, w1) -> dn_dual b = Some (p2, w2) ->
  dn_normal a = Some n1 -> dn_normal b = Some n2 -> dot n1 n1 = 1 -> dot n2 n2 = 1 -> n2 <> V3 (- vx n1) (- vy n1) (- vz n1) ->
  opposite envR a b -> dmc_vertex envR a b = Ret v -> dot (mv_normal v) (mv_normal v) = 1.
Proof.
  intros a b p1 w1 p2 w2 n1 n2 v Ha Hb Hn1 Hn2 U1 U2 N O V. pose proof (opposite_cases a b p1 w1 p2 w2 Ha Hb O) as C. unfold dmc_vertex in V. change (fp_F envR) with R in V. rewrite Ha, Hb, Hn1, Hn2 in V. cbn [oread obind fst snd] in V.
  destruct (dn_mat a) as [m1|]; [|discriminate]. cbn [oread obind] in V. destruct (if (m1 =? Empty)%Z then _ else _) as [mt| | | |]; try discriminate. cbn [obind] in V.
  injection V as <-. cbn [mv_normal]. unfold normalize3, vscale3, dot3. cbn [envR fp_F fp_f arithR a_abs a_div a_add a_mul a_sqrt a_ofZ].
  set (n := lerp3 _ _ _ _ _). change (fp_F envR) with R in *. unfold dot. cbn [vx vy vz].
  set (L := vx n * vx n + vy n * vy n + vz n * vz n).
  assert (P : 0 < L).
  { assert (Q : 0 < Rabs w1 + Rabs w2) by (destruct C; unfold Rabs; repeat destruct (Rcase_abs _); lra).
    set (u := V3 (vx n1 * Rabs w2 + vx n2 * Rabs w1) (vy n1 * Rabs w2 + vy n2 * Rabs w1) (vz n1 * Rabs w2 + vz n2 * Rabs w1)).
    assert (EL : L = dot u u * / ((Rabs w1 + Rabs w2) * (Rabs w1 + Rabs w2))).
    { unfold L, n, lerp3, lerp1, u, dot. cbn [vx vy vz envR fp_F fp_f arithR a_div a_add a_mul]. field. lra. }
    rewrite EL. apply Rmult_lt_0_compat; [|apply Rinv_0_lt_compat; nra].
    assert (D1 : dot u u = (Rabs w2 - Rabs w1) * (Rabs w2 - Rabs w1) + 2 * (Rabs w1 * Rabs w2) * (1 + dot n1 n2)).
    { unfold dot in *. unfold u. cbn [vx vy vz].
      replace ((Rabs w2 - Rabs w1) * (Rabs w2 - Rabs w1)) with (Rabs w2 * Rabs w2 * 1 + Rabs w1 * Rabs w1 * 1 - 2 * (Rabs w1 * Rabs w2)) by ring.
      rewrite <- U1 at 1. rewrite <- U2 at 1. ring. }
    assert (D2 : 0 < 1 + dot n1 n2).
    { set (k := V3 (vx n1 + vx n2) (vy n1 + vy n2) (vz n1 + vz n2)). assert (K : dot k k = 2 * (1 + dot n1 n2)) by (unfold k, dot in *; cbn [vx vy vz]; nra).
      assert (0 < dot k k); [|lra]. assert (KN : vx k <> 0 \/ vy k <> 0 \/ vz k <> 0).
      { destruct (Req_dec (vx k) 0) as [X|X]; auto. destruct (Req_dec (vy k) 0) as [Y|Y]; auto. destruct (Req_dec (vz k) 0) as [Z|Z]; auto.
        exfalso. apply N. destruct n2 as [x2 y2 z2]. unfold k in *. cbn [vx vy vz] in *. f_equal; lra. }
      unfold dot. destruct KN as [X|[X|X]]; nra. }
    rewrite D1. pose proof (Rabs_pos w1). pose proof (Rabs_pos w2). destruct (Req_dec (Rabs w1) 0) as [Z1|Z1]; [rewrite Z1 in *; nra|].
    destruct (Req_dec (Rabs w2) 0) as [Z2|Z2]; [rewrite Z2 in *; nra|]. assert (0 < Rabs w1 * Rabs w2) by (apply Rmult_lt_0_compat; lra).
    assert (0 <= (Rabs w2 - Rabs w1) * (Rabs w2 - Rabs w1)) by apply Rle_0_sqr. assert (0 < Rabs w1 * Rabs w2 * (1 + dot n1 n2)) by (apply Rmult_lt_0_compat; lra). lra. }
  assert (S0 : sqrt L <> 0) by (apply Rgt_not_eq, sqrt_lt_R0; exact P). pose proof (sqrt_sqrt L (Rlt_le _ _ P)) as SS.
  transitivity (L * (1 / sqrt L * (1 / sqrt L))); [unfold L; ring|]. rewrite <- SS at 1. field. exact S0.
Qed.
Print Assumptions C43_normal_partial.

(* Two nodes, one inside at the origin, one outside *)
Definition here : dmc_leaf R := DmcLeaf 1 (Some (V3 0 0 0, -1)) (Some (V3 1 0 0)) (Some 7%Z).
Definition there : dmc_leaf R := DmcLeaf 2 (Some (V3 4 0 0, 3)) (Some (V3 0 1 0)) None.
Example C43_position_ex : opposite envR here there /\ exists v, dmc_vertex envR here there = Ret v /\ vx (mv_pos v) = 1.
Proof.
  split.
  - unfold opposite, node_inside, here, there. cbn [dn_dual envR fp_F fp_f arithR a_le a_ofZ].
    replace (Rleb (-1) 0) with true by (symmetry; apply Rleb_iff; lra). replace (Rleb 3 0) with false by (symmetry; apply Rleb_false; lra). discriminate.
  - eexists. split; [reflexivity|]. cbn. rewrite (Rabs_left (-1)), (Rabs_pos_eq 3) by lra. field.
Qed.

(* ---- C45 ---- *)

Definition dist3 (p p' : vec3 R) : R := sqrt ((vx p - vx p') * (vx p - vx p') + (vy p - vy p') * (vy p - vy p') + (vz p - vz p') * (vz p - vz p')).
Definition distance_bound (f : vec3 R -> R) : Prop := forall p p', Rabs (f p - f p') <= dist3 p p'.
(* Points of a cell in local and in global coordinates *)
Definition in_cell (q : ivec3) (size : Z) (l : vec3 R) : Prop := forall d, IZR (vget d q) <= vget d l <= IZR (vget d q + size).
Definition global_of (t : dmc_octree envR) (l : vec3 R) : vec3 R :=
  V3 (dt_scale envR t * vx l + vx (dt_pos envR t)) (dt_scale envR t * vy l + vy (dt_pos envR t)) (dt_scale envR t * vz l + vz (dt_pos envR t)).

Lemma nearest_corner : forall s x, 0 <= x <= s -> exists c : Z, (c = 0%Z \/ c = 1%Z) /\ Rabs (x - IZR c * s) <= s / 2.
Proof.
  intros s x H. destruct (Rle_dec x (s / 2)).
  - exists 0%Z. split; auto. unfold Rabs. destruct (Rcase_abs _); lra.
  - exists 1%Z. split; auto. unfold Rabs. destruct (Rcase_abs _); lra.
Qed.

Lemma vanishing : forall f p g, distance_bound f -> f g = 0 -> Rabs (f p) <= dist3 p g.
Proof. intros f p g H Z. specialize (H p g). rewrite Z, Rminus_0_r in H. exact H. Qed.

(* C45: if the scale is not negative and [root_three] is at least half of the square root of three, a cell in which splitting is
   stopped has no point at which the field vanishes. *)
Theorem C45_stop : forall root_three (t : dmc_octree envR) args q size, 0 <= dt_scale envR t -> sqrt 3 / 2 <= root_three -> (0 <= size)%Z ->
  distance_bound (fl_value (ba_field envR args)) -> should_stop envR root_three t args q size = true ->
  forall l, in_cell q size l -> fl_value (ba_field envR args) (global_of t l) <> 0.
Proof.
  intros root_three [[px py pz] sc sz rt] args q size Hs Hr Hz Hf H l Hl Z0. cbn [envR fp_D] in px, py, pz, sc. cbn [dt_scale] in Hs.
  set (f := fl_value (ba_field envR args)) in *. set (s := IZR size).
  assert (S0 : 0 <= s) by (apply IZR_le; exact Hz).
  pose proof (Hl AX) as X. pose proof (Hl AY) as Y. pose proof (Hl AZ) as Z. cbn [vget] in X, Y, Z. rewrite plus_IZR in X, Y, Z. fold s in X, Y, Z.
  destruct (nearest_corner s (vx l - IZR (vx q))) as (cx & Cx & Dx); [lra|].
  destruct (nearest_corner s (vy l - IZR (vy q))) as (cy & Cy & Dy); [lra|].
  destruct (nearest_corner s (vz l - IZR (vz q))) as (cz & Cz & Dz); [lra|].
  assert (K : exists i, In i (zseq 0 8) /\ corner_offset i = V3 cx cy cz).
  { destruct Cx as [->| ->], Cy as [->| ->], Cz as [->| ->];
      [exists 0%Z|exists 1%Z|exists 4%Z|exists 5%Z|exists 2%Z|exists 3%Z|exists 6%Z|exists 7%Z]; split; try reflexivity; cbn; tauto. }
  destruct K as (i & Hi & Ki). unfold should_stop in H. rewrite forallb_forall in H. specialize (H i Hi). rewrite Ki in H.
  cbv beta zeta in H. apply negb_true_iff in H. unfold dmc_to_global, vadd3, vscale3, vofZ3 in H. cbn [envR fp_D fp_d arithR a_le a_abs a_add a_mul a_ofZ vx vy vz dt_scale dt_pos] in H.
  apply Rleb_false in H. fold f s in H. match type of H with context [f ?c] => set (p := c) in H end.
  pose proof (vanishing f p _ Hf Z0) as B.
  assert (G : dist3 p (global_of (DmcOctree envR (V3 px py pz) sc sz rt) l) <= s * sc * (sqrt 3 / 2)).
  { assert (N : 0 <= s * sc) by (apply Rmult_le_pos; assumption). pose proof (sqrt_pos 3).
    unfold dist3. rewrite <- (sqrt_Rsqr (s * sc * (sqrt 3 / 2))) by (apply Rmult_le_pos; lra). apply sqrt_le_1_alt. unfold Rsqr.
    replace (s * sc * (sqrt 3 / 2) * (s * sc * (sqrt 3 / 2))) with ((s * sc) * (s * sc) * (sqrt 3 * sqrt 3) / 4) by field. rewrite sqrt_sqrt by lra.
    assert (W : forall c x y, Rabs (x - y - IZR c * s) <= s / 2 ->
      (y * sc + 0 + s * sc * IZR c - (sc * x + 0)) * (y * sc + 0 + s * sc * IZR c - (sc * x + 0)) <= (s * sc) * (s * sc) / 4).
    { intros c x y Q. replace (y * sc + 0 + s * sc * IZR c - (sc * x + 0)) with (- (sc * (x - y - IZR c * s))) by ring. set (e := x - y - IZR c * s) in *.
      replace (- (sc * e) * - (sc * e)) with (sc * sc * (e * e)) by ring. replace (s * sc * (s * sc) / 4) with (sc * sc * (s / 2 * (s / 2))) by field.
      apply Rmult_le_compat_l; [nra|]. assert (- (s / 2) <= e <= s / 2) by (unfold Rabs in Q; destruct (Rcase_abs e); lra). nra. }
    pose proof (W cx (vx l) (IZR (vx q)) Dx) as Wx. pose proof (W cy (vy l) (IZR (vy q)) Dy) as Wy. pose proof (W cz (vz l) (IZR (vz q)) Dz) as Wz.
    unfold p, global_of. cbn [vx vy vz dt_scale dt_pos].
    replace (IZR (vx q) * sc + px + s * sc * IZR cx - (sc * vx l + px)) with (IZR (vx q) * sc + 0 + s * sc * IZR cx - (sc * vx l + 0)) by ring.
    replace (IZR (vy q) * sc + py + s * sc * IZR cy - (sc * vy l + py)) with (IZR (vy q) * sc + 0 + s * sc * IZR cy - (sc * vy l + 0)) by ring.
    replace (IZR (vz q) * sc + pz + s * sc * IZR cz - (sc * vz l + pz)) with (IZR (vz q) * sc + 0 + s * sc * IZR cz - (sc * vz l + 0)) by ring.
    eapply Rle_trans; [apply Rplus_le_compat; [apply Rplus_le_compat; [exact Wx|exact Wy]|exact Wz]|]. lra. }
  assert (s * sc * (sqrt 3 / 2) <= s * sc * root_three) by (apply Rmult_le_compat_l; [apply Rmult_le_pos; assumption|exact Hr]).
  pose proof (Rle_trans _ _ _ B G). lra.
Qed.
Print Assumptions C45_stop.

Definition shifted : field envR := @Field envR (fun p : vec3 R => vx p + 10) (fun _ => V3 1 0 0) (fun _ _ => 7%Z).
Definition identity_field : field envR := @Field envR (fun p : vec3 R => vx p) (fun _ => V3 1 0 0) (fun _ _ => 7%Z).
Lemma x_bound : forall p p' : vec3 R, Rabs (vx p - vx p') <= dist3 p p'.
Proof.
  intros p p'. unfold dist3. rewrite <- sqrt_Rsqr_abs. apply sqrt_le_1_alt. unfold Rsqr.
  pose proof (Rle_0_sqr (vy p - vy p')) as Y. pose proof (Rle_0_sqr (vz p - vz p')) as Z. unfold Rsqr in *. lra.
Qed.
Lemma root_three_range : 1 <= sqrt 3 <= 2.
Proof.
  split; [rewrite <- sqrt_1 at 1; apply sqrt_le_1_alt; lra|]. replace 2 with (sqrt (2 * 2)) by (apply sqrt_square; lra). apply sqrt_le_1_alt. lra.
Qed.
Definition plain (scale : R) : dmc_octree envR := DmcOctree envR (V3 0 0 0) scale 1 (OLeaf (dmc_fresh 0)).
Definition plain_args (fl : field envR) : dmc_args envR := DmcArgs envR fl (Tuning (/ 10) (/ 100) 15 true) 1 false None true.

(* A plane far away: stopped. *)
Example C45_ex : distance_bound (fl_value shifted) /\ should_stop envR (sqrt 3) (plain 1) (plain_args shifted) (V3 0 0 0)%Z 1 = true.
Proof.
  split.
  - intros p p'. cbn. replace (vx p + 10 - (vx p' + 10)) with (vx p - vx p') by ring. apply x_bound.
  - pose proof root_three_range. unfold should_stop. apply forallb_forall. intros i Hi. cbv beta zeta. apply negb_true_iff, Rleb_false.
    cbn [plain_args ba_field shifted fl_value]. unfold dmc_to_global, vadd3, vscale3, vofZ3. cbn [envR fp_D fp_d arithR a_abs a_add a_mul a_ofZ vx vy vz plain dt_scale dt_pos].
    assert (G : forallb (fun i => 0 <=? vx (corner_offset i))%Z (zseq 0 8) = true) by reflexivity.
    rewrite forallb_forall in G. pose proof (G i Hi) as O. apply Z.leb_le in O.
    apply IZR_le in O. rewrite Rabs_pos_eq; lra.
Qed.

(* C45, refuted for negative scales, which the constructor accepts: then every cell is stopped. *)
Theorem C45_refuted : exists (t : dmc_octree envR) args q size l, distance_bound (fl_value (ba_field envR args)) /\
  dmc_new envR (fun _ => 0%Z) size (dt_pos envR t) (dt_scale envR t) = Ret t /\
  should_stop envR (sqrt 3) t args q size = true /\ in_cell q size l /\ fl_value (ba_field envR args) (global_of t l) = 0.
Proof.
  exists (plain (-1)), (plain_args identity_field), (V3 0 0 0)%Z, 1%Z, (V3 0 0 0). split; [|split; [|split; [|split]]].
  - intros p p'. apply x_bound.
  - reflexivity.
  - pose proof root_three_range. unfold should_stop. apply forallb_forall. intros i Hi. cbv beta zeta. apply negb_true_iff, Rleb_false.
    cbn [plain_args ba_field identity_field fl_value]. match goal with |- context [Rabs ?x] => idtac | |- context [a_abs _ ?x] => pose proof (Rabs_pos x) end.
    cbn [envR fp_D fp_d arithR a_abs a_mul a_ofZ plain dt_scale] in *. lra.
  - intros []; cbn; lra.
  - cbn. lra.
Qed.
Print Assumptions C45_refuted.

(* ---- C70 ---- *)

Section Cells.
Variables hypot copysign : R -> R -> R.
Variables msin mcos matan : R -> R.
Variables (lowest highest root_three : R) (addr_of : ivec3 -> Z).
Hypothesis range : lowest <= highest.
Notation build := (dmc_build envR (fun x => x) least_normal lowest highest hypot copysign msin mcos matan root_three addr_of).

Definition vertex_in_cell (q : ivec3) (size : Z) (a : dmc_leaf R) : Prop := exists p w, dn_dual a = Some (p, w) /\ in_cell q size p.

Lemma solved_in_cell : forall args sol q size lo hi v sol', (0 <= size)%Z -> lo <= hi ->
  dmc_solve envR least_normal hypot copysign msin mcos matan args sol q size lo hi = (v, sol') -> in_cell q size (V3 (v 0%nat) (v 1%nat) (v 2%nat)).
Proof.
  intros args sol q size lo hi v sol' Hz Hl H. unfold dmc_solve in H.
  pose proof (C31_box hypot copysign msin mcos matan 4 (ba_tuning envR args) sol (vec4 envR (vofZ3 arithR q) lo) (vec4 envR (vofZ3 arithR (upper_corner q size)) hi)) as B.
  cbn [envR fp_F fp_f] in H, B. rewrite H in B. cbn [fst] in B.
  assert (Hb : forall c, vec4 envR (vofZ3 arithR q) lo c <= vec4 envR (vofZ3 arithR (upper_corner q size)) hi c).
  { unfold vec4, vofZ3, upper_corner. cbn [vx vy vz arithR a_ofZ]. intros [|[|[|c]]]; [apply IZR_le; lia ..|exact Hl]. }
  specialize (B Hb). intros []; cbn [vget vx vy vz]; [exact (B 0%nat)|exact (B 1%nat)|exact (B 2%nat)].
Qed.

Lemma generated_in_cell : forall t args node q size a ok, (0 <= size)%Z ->
  generate_dual envR (fun x => x) least_normal lowest highest hypot copysign msin mcos matan t args node q size = Ret (a, ok) -> vertex_in_cell q size a.
Proof.
  intros t args node q size a ok Hz H. unfold generate_dual in H. destruct (ofold _ _ _) as [[sol avg]| | | |]; try discriminate. cbn [obind] in H.
  destruct (dmc_solve _ _ _ _ _ _ _ _ _ _ _ _ _) as [v sol1] eqn:S1. destruct (a_lt _ _ _).
  - destruct (dmc_solve envR _ _ _ _ _ _ _ _ _ _ lowest highest) as [v2 sol2] eqn:S2. injection H as <- _. eexists _, _. split; [reflexivity|].
    eapply solved_in_cell; [exact Hz|exact range|exact S2].
  - injection H as <- _. eexists _, _. split; [reflexivity|]. eapply solved_in_cell; [exact Hz| |exact S1]. cbn. lra.
Qed.

(* C70: the dual vertex of each leaf that build makes is in the cell of the leaf. *)
Theorem C70_cells : forall fl tune eps simple samples early n t r, dt_size envR t = edge_len n -> build fl tune eps simple samples early t = Ret r ->
  tree_ok (fun (a : dmc_leaf (fp_F envR)) q' n' => vertex_in_cell q' (edge_len n') a) n (dt_root envR r) (dc_min_corner (edge_len n)).
Proof.
  intros fl tune eps simple samples early n t r Hs H. eapply tree_ok_mono; [|eapply C69_leaves; [exact Hs|exact H]].
  cbv beta zeta. intros a q' n' (ok & Hg & _). eapply generated_in_cell; [|exact Hg]. unfold edge_len. apply Z.pow_nonneg. lia.
Qed.

(* ... so the vertices of the mesh are in the root cube, between the dual vertices of neighbouring leaves. *)
Theorem C70_mesh : forall fl tune eps simple samples early n t r m, dt_size envR t = edge_len n ->
  (forall p p', in_cube (dc_min_corner (edge_len n)) n p -> in_cube (dc_min_corner (edge_len n)) n p' -> addr_of p = addr_of p' -> p = p') ->
  build fl tune eps simple samples early t = Ret r -> dmc_contour envR r = Ret m ->
  forall v, In v (m_verts m) -> in_cell (dc_min_corner (edge_len n)) (edge_len n) (mv_pos v) /\
    exists e a b p1 w1 p2 w2 s, joins envR n (dc_min_corner (edge_len n)) (dt_root envR r) e a b /\
      dn_dual a = Some (p1, w1) /\ dn_dual b = Some (p2, w2) /\ (w1 <= 0 < w2 \/ w2 <= 0 < w1) /\
      0 <= s <= 1 /\ mv_pos v = along p1 p2 s /\ w1 + s * (w2 - w1) = 0.
Proof.
  intros fl tune eps simple samples early n t r m Hs Hinj H Hm v Hv.
  destruct (C67_tiles envR (fun x => x) least_normal lowest highest hypot copysign msin mcos matan root_three addr_of fl tune eps simple samples early n t r Hs H) as (_ & _ & Hs' & Ht & Hd).
  assert (K : dmc_tree_ok envR n (dc_min_corner (edge_len n)) r).
  { constructor; [exact Hs'| |apply Hd; exact Hinj]. eapply tree_ok_mono; [|exact Ht]. auto. }
  destruct (C43_mesh envR n _ r m K Hm) as (_ & num & N & _). apply In_nth_error in Hv as (k & Hk).
  assert (Lk : (k < length (m_verts m))%nat) by (apply nth_error_Some; congruence).
  destruct (num_from _ _ _ _ _ _ N (Z.of_nat k)) as (e & a & b & v' & J & O & _ & Z & V); [unfold mesh_vertex_count, zlen; lia|].
  rewrite znth_nat in Z by lia. rewrite Nat2Z.id in Z. assert (v' = v) by congruence. subst v'.
  assert (C : forall l, In l (leaves_of (dt_root envR r)) -> vertex_in_cell (dc_min_corner (edge_len n)) (edge_len n) l).
  { intros l Hl. destruct (leaf_cubes _ _ _ _ _ _ l (C70_cells fl tune eps simple samples early n t r Hs H) Hl) as (q' & n' & (p & w & Hp & Hc) & Sub).
    exists p, w. split; [exact Hp|]. intro d. specialize (Hc d). destruct Sub as (S1 & S2 & S3).
    assert (B : (vget d (dc_min_corner (edge_len n)) <= vget d q' /\ vget d q' + edge_len n' <= vget d (dc_min_corner (edge_len n)) + edge_len n)%Z) by (destruct d; cbn [vget]; lia).
    destruct B as [B1 B2]. apply IZR_le in B1. apply IZR_le in B2. lra. }
  destruct J as (Jn & Ja & Jb). destruct (C a (leaf_at_in _ _ _ _ _ _ Ja)) as (p1 & w1 & D1 & I1). destruct (C b (leaf_at_in _ _ _ _ _ _ Jb)) as (p2 & w2 & D2 & I2).
  destruct (C43_position a b p1 w1 p2 w2 v D1 D2 O V) as (s & Hs1 & Hs2 & Hs3). split.
  - rewrite Hs2. intro d. specialize (I1 d). specialize (I2 d). destruct d; cbn [vget along vx vy vz] in *; nra.
  - exists e, a, b, p1, w1, p2, w2, s. split; [split; [exact Jn|split; assumption]|]. split; [exact D1|]. split; [exact D2|]. split; [exact (opposite_cases a b p1 w1 p2 w2 D1 D2 O)|]. auto.
Qed.

(* C45 for the octree: a leaf made with early stopping is a single cell, or has no zero of the field, or satisfies the
   criterion of its policy. *)
Theorem C45_build : forall (fl : field envR) tune eps simple samples n t r, dt_size envR t = edge_len n -> 0 <= dt_scale envR t -> sqrt 3 / 2 <= root_three ->
  distance_bound (fl_value fl) -> build fl tune eps simple samples true t = Ret r ->
  let args := node_args envR fl tune eps simple samples true t in
  tree_ok (fun (a : dmc_leaf (fp_F envR)) q' n' => n' = 0%nat \/ (forall l, in_cell q' (edge_len n') l -> fl_value fl (global_of t l) <> 0) \/
    (simple = true /\ (n' < n)%nat /\ should_split envR (fun x => x) t args q' (edge_len n') = false) \/
    (simple = false /\ (n' + 3 < n)%nat /\ exists a',
       generate_dual envR (fun x => x) least_normal lowest highest hypot copysign msin mcos matan t args (dmc_fresh (addr_of q')) q' (edge_len n') = Ret (a', true)))
    n (dt_root envR r) (dc_min_corner (edge_len n)).
Proof.
  intros fl tune eps simple samples n t r Hs Hc Hr Hf H args. eapply tree_ok_mono; [|eapply C69_leaves; [exact Hs|exact H]].
  cbv beta zeta. intros a q' n' (ok & Hg & [R1|[[_ R2]|[R3|(R4 & R5 & R6)]]]); [left; exact R1| |right; right; left; exact R3|].
  - right; left. intros l Hl. eapply (C45_stop root_three t (node_args envR fl tune eps simple samples true t) q' (edge_len n')); try assumption. unfold edge_len. apply Z.pow_nonneg. lia.
  - right; right; right. split; [exact R4|]. split; [exact R5|]. exists a. rewrite <- R6. exact Hg.
Qed.
End Cells.
Print Assumptions C70_cells.
Print Assumptions C70_mesh.
Print Assumptions C45_build.

(* ---- C70 in single precision ---- *)

Lemma ofZ_le : forall a b : Z, (Z.abs a <= 2 ^ 31)%Z -> (Z.abs b <= 2 ^ 31)%Z -> (a <= b)%Z -> a_le arith32 (a_ofZ arith32 a) (a_ofZ arith32 b) = true.
Proof.
  assert (N : forall a, (Z.abs a <= 2 ^ 31)%Z -> is_finite (fp_make 24 128 prec32_gt_0 prec32_lt_emax a 0) = true /\
    B2R (fp_make 24 128 prec32_gt_0 prec32_lt_emax a 0) = Generic_fmt.round Zaux.radix2 (SpecFloat.fexp 24 128) (round_mode mode_NE) (IZR a)).
  { intros a Ha. pose proof (binary_normalize_correct 24 128 prec32_gt_0 prec32_lt_emax mode_NE a 0 false) as B. cbv zeta in B.
    replace (Defs.F2R (Defs.Float Zaux.radix2 a 0)) with (IZR a) in B by (unfold Defs.F2R; cbn; ring). rewrite Raux.Rlt_bool_true in B; [unfold fp_make; tauto|].
    apply (Rle_lt_trans _ (Raux.bpow Zaux.radix2 31)); [|apply Raux.bpow_lt; lia].
    apply Generic_fmt.abs_round_le_generic; [exact (FLT.FLT_exp_valid (SpecFloat.emin 24 128) 24)|apply Generic_fmt.valid_rnd_N|
      apply Generic_fmt.generic_format_bpow; vm_compute; discriminate|].
    rewrite <- abs_IZR. change (Raux.bpow Zaux.radix2 31) with (IZR (2 ^ 31)). apply IZR_le. exact Ha. }
  intros a b Ha Hb Hab. destruct (N a Ha) as [Fa Ra]. destruct (N b Hb) as [Fb Rb].
  change (Bleb (fp_make 24 128 prec32_gt_0 prec32_lt_emax a 0) (fp_make 24 128 prec32_gt_0 prec32_lt_emax b 0) = true).
  rewrite Bleb_correct by assumption. rewrite Ra, Rb. apply Raux.Rle_bool_true.
  apply Generic_fmt.round_le; [exact (FLT.FLT_exp_valid (SpecFloat.emin 24 128) 24)|apply Generic_fmt.valid_rnd_N|]. apply IZR_le. exact Hab.
Qed.

(* a coordinate of a dual vertex: from the lower to the upper end of the cell, or not a number *)
Definition in_cell32 (q : ivec3) (size : Z) (p : vec3 b32) : Prop := forall d,
  vget d p = B754_nan \/
  (a_le arith32 (a_ofZ arith32 (vget d q)) (vget d p) = true /\ a_le arith32 (vget d p) (a_ofZ arith32 (vget d q + size)%Z) = true).

Section Cells32.
Variables hypot copysign : b32 -> b32 -> b32.
Variables msin mcos matan : b32 -> b32.

Lemma solved_in_cell32 : forall args sol q size lo hi v sol', (0 <= size)%Z -> (forall d, - 2 ^ 31 <= vget d q /\ vget d q + size <= 2 ^ 31)%Z -> a_le arith32 lo hi = true ->
  dmc_solve envIEEE PropQefSolve.least_normal32 hypot copysign msin mcos matan args sol q size lo hi = (v, sol') -> in_cell32 q size (V3 (v 0%nat) (v 1%nat) (v 2%nat)).
Proof.
  intros args sol q size lo hi v sol' Hz Hq Hl H. unfold dmc_solve in H.
  pose proof (C31_box_float PropQefSolve.least_normal32 hypot copysign msin mcos matan 4 (ba_tuning envIEEE args) sol (vec4 envIEEE (vofZ3 arith32 q) lo) (vec4 envIEEE (vofZ3 arith32 (upper_corner q size)) hi)) as B.
  cbn [envIEEE fp_F fp_f] in H, B. rewrite H in B. cbn [fst] in B. pose proof (Hq AX) as X. pose proof (Hq AY) as Y. pose proof (Hq AZ) as Z. cbn [vget] in X, Y, Z.
  assert (Hb : forall c, a_le arith32 (vec4 envIEEE (vofZ3 arith32 q) lo c) (vec4 envIEEE (vofZ3 arith32 (upper_corner q size)) hi c) = true).
  { unfold vec4, vofZ3, upper_corner. cbn [vx vy vz]. intros [|[|[|c]]]; [apply ofZ_le; lia ..|exact Hl]. }
  specialize (B Hb). intros []; cbn [vget vx vy vz]; [exact (B 0%nat)|exact (B 1%nat)|exact (B 2%nat)].
Qed.

Lemma generated_in_cell32 : forall t args node q size a ok, (0 <= size)%Z -> (forall d, - 2 ^ 31 <= vget d q /\ vget d q + size <= 2 ^ 31)%Z ->
  generate_dual envIEEE widen PropQefSolve.least_normal32 lowest32 max32 hypot copysign msin mcos matan t args node q size = Ret (a, ok) ->
  exists p w, dn_dual a = Some (p, w) /\ in_cell32 q size p.
Proof.
  intros t args node q size a ok Hz Hq H. unfold generate_dual in H. destruct (ofold _ _ _) as [[sol avg]| | | |]; try discriminate. cbn [obind] in H.
  destruct (dmc_solve _ _ _ _ _ _ _ _ _ _ _ _ _) as [v sol1] eqn:S1. destruct (a_lt _ _ _).
  - destruct (dmc_solve envIEEE _ _ _ _ _ _ _ _ _ _ lowest32 max32) as [v2 sol2] eqn:S2. injection H as <- _. eexists _, _. split; [reflexivity|].
    eapply solved_in_cell32; [exact Hz|exact Hq| |exact S2]. vm_compute. reflexivity.
  - injection H as <- _. eexists _, _. split; [reflexivity|]. eapply solved_in_cell32; [exact Hz|exact Hq| |exact S1]. vm_compute. reflexivity.
Qed.

(* C70 in single precision, for roots of at most 2^30 cells across, the largest size an int32 can hold *)
Theorem C70_float : forall place fl tune eps simple samples early n t r, (n <= 30)%nat -> dt_size envIEEE t = edge_len n ->
  dmc_build envIEEE widen PropQefSolve.least_normal32 lowest32 max32 hypot copysign msin mcos matan root_three64 place fl tune eps simple samples early t = Ret r ->
  tree_ok (fun (a : dmc_leaf (fp_F envIEEE)) q' n' => exists p w, dn_dual a = Some (p, w) /\ in_cell32 q' (edge_len n') p) n (dt_root envIEEE r) (dc_min_corner (edge_len n)).
Proof.
  intros place fl tune eps simple samples early n t r Hn Hs H. eapply tree_ok_mono; [|apply OctreeFlux.tree_leaf_at; eapply C69_leaves; [exact Hs|exact H]].
  cbv beta zeta. intros a q' n' ((ok & Hg & _) & (S1 & S2 & S3) & _). eapply generated_in_cell32; [| |exact Hg]; [unfold edge_len; apply Z.pow_nonneg; lia|].
  assert (B : (edge_len n <= 2 ^ 30)%Z) by (unfold edge_len; apply Z.pow_le_mono_r; lia). assert (P : (0 < edge_len n)%Z) by (unfold edge_len; apply Z.pow_pos_nonneg; lia).
  assert (Q : (- edge_len n <= Z.quot (- edge_len n) 2 <= 0)%Z).
  { rewrite Z.quot_opp_l by lia. rewrite Z.quot_div_nonneg by lia. pose proof (Z.div_pos (edge_len n) 2 ltac:(lia) ltac:(lia)). pose proof (Z.div_le_upper_bound (edge_len n) 2 (edge_len n) ltac:(lia) ltac:(lia)). lia. }
  unfold dc_min_corner in *. cbn [vx vy vz] in *. intros []; cbn [vget]; lia.
Qed.
End Cells32.
Print Assumptions C70_float.

(* build returns for these hypotheses: an octree of 8 cells across over the half space x < 0; and see C42_ex for a run in
   single precision *)
Example C70_ex : exists r, dt_size envR (DmcOctree envR (V3 0 0 0) 1 8 (OLeaf (dmc_fresh 0))) = edge_len 3 /\
  dmc_build envR (fun x => x) least_normal (-100) 100 (fun x y => sqrt (x * x + y * y)) (fun x _ => x) sin cos atan (sqrt 3) vx
    identity_field (Tuning (/ 10) (/ 100) 15 true) (/ 8) false None true (DmcOctree envR (V3 0 0 0) 1 8 (OLeaf (dmc_fresh 0))) = Ret r.
Proof.
  edestruct (C68_partial envR (fun x => x) least_normal (-100) 100 (fun x y => sqrt (x * x + y * y)) (fun x _ => x) sin cos atan (sqrt 3) vx
    identity_field (Tuning (/ 10) (/ 100) 15 true) (/ 8) false None true 3%nat (DmcOctree envR (V3 0 0 0) 1 8 (OLeaf (dmc_fresh 0)))) as [r Hr];
    [reflexivity|right; lia|]. exists r. split; [reflexivity|exact Hr].
Qed.
