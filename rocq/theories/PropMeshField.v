(* C66: the field of a mesh. *)
From Coq Require Import ZArith List Bool Reals Lra Lia.
From Verif Require Import Base Arith RealArith MeshModel MCModel TriModel TriSpec TriProofs TriNear PropTri
  PlyModel PlySpec PlyProofs PlyReal PropPly.
Import ListNotations.
Local Open Scope R_scope.

(* Before load there is no tree. *)
Theorem C66_unloaded : forall (E : fpenv) float_max widen x y z,
  @field_value E float_max widen None x y z = UB /\ @field_grad E float_max widen None x y z = UB.
Proof. intros. split; reflexivity. Qed.
Print Assumptions C66_unloaded.

(* Loading a file with valid indices succeeds, in every arithmetic; a file of up to 60 faces
   is kept completely. *)
Theorem C66_load : forall F (A : arith F) float_max float_min f reverse, file_ok f ->
  exists tr, field_load A float_max float_min f reverse = Ret tr /\ ((zlen (pf_faces f) <= 60)%Z -> length (tris_of tr) = length (pf_faces f)).
Proof.
  intros F A float_max float_min f r Hok. rewrite field_load_run by auto.
  set (ts := map (file_triangle A float_max float_min f) (map (wound r) (pf_faces f))).
  set (h := a_div A _ _). set (p := fst _).
  destruct (insert_all_ok A ts (tt_new h 0 p) (new_ok h p)) as (tr & E & _). exists tr. split; [auto|].
  intros Hl. destruct (C49_small_partial F A h p ts) as (tr' & E' & T).
  - unfold ts. rewrite !zlen_map. auto.
  - rewrite E in E'. injection E' as <-. rewrite T. unfold ts. rewrite !map_length. reflexivity.
Qed.
Print Assumptions C66_load.

(* The root cube contains all vertices, at the positions of the mesh which ply2mesh makes. *)
Theorem C66_root : forall float_max float_min f reverse m tr, file_ok f -> (zlen (pf_verts f) <= two32)%Z ->
  ply2mesh arithR float_max float_min f reverse = Ret m -> field_load arithR float_max float_min f reverse = Ret tr ->
  forall p, In p (positions m) -> in_box tr p.
Proof.
  intros float_max float_min f r m tr Hok Hn Em E p Hp.
  rewrite (loaded_positions arithR float_max float_min f r m Hok Hn Em) in Hp.
  rewrite field_load_run in E by auto. set (vs := map (place arithR float_max float_min f) (pf_verts f)) in *.
  set (ts := map _ (map _ _)) in E. cbv zeta in E. fold (extent float_max float_min vs) in E.
  set (h := a_div arithR _ _) in E. set (o := fst _) in E.
  destruct (insert_all_ok arithR ts (tt_new h 0 o) (new_ok h o)) as (tr' & E' & _ & P1 & P2 & _).
  rewrite E in E'. injection E' as <-. cbn [tt_new tt_pos tt_half] in P1, P2.
  assert (Hh : tt_half tr = extent float_max float_min vs / 2) by exact P2.
  assert (G : forall d, vget d (tt_pos tr) <= vget d p <= vget d (tt_pos tr) + 2 * tt_half tr).
  { intros d. rewrite Hh, P1. unfold o. change (vget d (fst (bounds arithR float_max float_min vs))) with (lowest float_max float_min d vs).
    destruct (extent_ok float_max float_min vs) as [X _]. specialize (X d).
    destruct (lowest_ok float_max float_min d vs) as (_ & L & _). destruct (highest_ok float_max float_min d vs) as (_ & H & _).
    pose proof (L p Hp). pose proof (H p Hp). lra. }
  pose proof (G AX). pose proof (G AY). pose proof (G AZ). unfold in_box. cbn [vget] in *. tauto.
Qed.
Print Assumptions C66_root.

(* Points of the surface: of the triangles of the mesh made from the same file. *)
Definition on_face (m : mesh (mvert R)) (t : face) (X : rvec) : Prop :=
  let '(a, b, c) := t in in_triangle (position arithR m a) (position arithR m b) (position arithR m c) X.
Definition face_volume (m : mesh (mvert R)) (t : face) (P : rvec) : R :=
  let '(a, b, c) := t in volume6 (position arithR m a) (position arithR m b) (position arithR m c) P.
Definition distance (X Y : rvec) : R := sqrt (sq_dist X Y).

Lemma position_at : forall float_max float_min f r m, file_ok f -> (zlen (pf_verts f) <= two32)%Z ->
  ply2mesh arithR float_max float_min f r = Ret m -> forall i, position arithR m i = pos_at arithR float_max float_min f i.
Proof. intros float_max float_min f r m Hok Hn E i. unfold position. rewrite (loaded_positions arithR float_max float_min f r m Hok Hn E). reflexivity. Qed.

Lemma side_volume : forall t p, proper_triangle t -> (snd (tri_distance arithR p t) = 1%Z <-> 0 < volume6 (ta t) (tb t) (tc t) p) /\
  (snd (tri_distance arithR p t) = 1%Z \/ snd (tri_distance arithR p t) = (-1)%Z).
Proof.
  intros t p Hp. destruct (proper_nearest t p Hp) as [_ S]. rewrite S. destruct (Rlt_dec 0 (volume6 (ta t) (tb t) (tc t) p)); split; auto; split; intros; auto; try lra; discriminate.
Qed.

(* The value at a point, for up to 60 faces whose corners do not lie on a line: its absolute
   value is the distance to the surface; it is positive only if the point is on the outer side of
   one of the nearest faces, and negative only if it is on that of none. *)
Theorem C66_value_partial : forall float_max float_min f reverse m tr x y z, file_ok f -> (zlen (pf_verts f) <= two32)%Z ->
  (zlen (pf_faces f) <= 60)%Z ->
  ply2mesh arithR float_max float_min f reverse = Ret m -> field_load arithR float_max float_min f reverse = Ret tr ->
  let P := V3 x y z in
  let faces := map (wound reverse) (pf_faces f) in
  (forall t, In t faces -> exists Q, face_volume m t Q <> 0) ->
  (exists t X, In t faces /\ on_face m t X /\ sq_dist P X < float_max) ->
  exists v, @field_value envR float_max (fun x => x) (Some tr) x y z = Ret v /\
    (exists t X, In t faces /\ on_face m t X /\ Rabs v = distance P X) /\
    (forall t Y, In t faces -> on_face m t Y -> Rabs v <= distance P Y) /\
    (0 < v -> exists t X, In t faces /\ on_face m t X /\ Rabs v = distance P X /\ 0 < face_volume m t P) /\
    (v < 0 -> forall t X, In t faces -> on_face m t X -> Rabs v = distance P X -> face_volume m t P <= 0).
Proof.
  intros float_max float_min f r m tr x y z Hok Hn Hl Em E P faces Hp (t0 & X0 & Ht0 & HX0 & L0).
  pose proof (C66_root float_max float_min f r m tr Hok Hn Em E) as Hroot.
  pose proof (position_at float_max float_min f r m Hok Hn Em) as Hpos.
  rewrite field_load_run in E by auto. fold faces in E.
  set (ts := map (file_triangle arithR float_max float_min f) faces) in *. cbv zeta in E.
  set (h := a_div arithR _ _) in E. set (o := fst _) in E.
  assert (Hc : forall t, In t faces -> let g := file_triangle arithR float_max float_min f t in
    g = mk_triangle arithR (ta g) (tb g) (tc g) /\ (forall X, on_face m t X <-> in_triangle (ta g) (tb g) (tc g) X) /\
    (forall Q, face_volume m t Q = volume6 (ta g) (tb g) (tc g) Q)).
  { intros [[a b] c] _ g. unfold on_face, face_volume. rewrite !Hpos. split; [reflexivity|]. split; [reflexivity | reflexivity]. }
  assert (Hprop : forall g, In g ts -> proper_triangle g).
  { intros g Hg. apply in_map_iff in Hg. destruct Hg as (t & <- & Ht). destruct (Hc t Ht) as (H1 & _ & H3). split; [exact H1|].
    destruct (Hp t Ht) as [Q HQ]. exists Q. rewrite <- H3. exact HQ. }
  destruct (insert_all_ok arithR ts (tt_new h 0 o) (new_ok h o)) as (tr' & E' & _ & P1 & P2 & _).
  rewrite E in E'. injection E' as <-. cbn [tt_new tt_pos tt_half] in P1, P2.
  destruct (near_triangle arithR float_max tr P) as [[ans d] s] eqn:En.
  assert (Hbox : forall t i, In t faces -> In i (corners t) -> in_box tr (position arithR m i)).
  { intros t i Ht Hi. apply Hroot. unfold position. apply nth_In.
    rewrite (loaded_positions arithR float_max float_min f r m Hok Hn Em), map_length.
    unfold faces in Ht. apply in_map_iff in Ht. destruct Ht as (t1 & <- & Ht). apply wound_corners in Hi.
    pose proof (Hok t1 i Ht Hi) as B. unfold zlen in B. lia. }
  assert (N : nearest_answer P ts ans d s).
  { apply (C50_small_partial float_max h o ts tr); auto.
    - unfold ts, faces. rewrite !zlen_map. auto.
    - rewrite <- P1, <- P2. eapply Rle_trans; [|left; exact L0]. apply box_distance.
      destruct t0 as [[a b] c]. apply (in_box_triangle tr (position arithR m a) (position arithR m b) (position arithR m c)); auto;
        apply (Hbox (a, b, c)); cbn; auto.
    - exists (file_triangle arithR float_max float_min f t0). split; [apply in_map; auto|].
      destruct (Hc t0 Ht0) as (_ & H2 & _).
      destruct (proper_nearest (file_triangle arithR float_max float_min f t0) P) as [[_ M] _]; [apply Hprop; apply in_map; auto|].
      eapply Rle_lt_trans; [apply M; apply H2; exact HX0 | exact L0]. }
  destruct (C50_distance_partial P ts ans d s N Hprop) as [(X & HX & ED) HM].
  destruct N as (I & Ed & Es & Mn & Tie). apply in_map_iff in I. destruct I as (t & Et & Ht).
  assert (Hd : 0 <= d) by (rewrite Ed; apply sqrt_pos).
  destruct (side_volume ans P) as [S1 S2]; [apply Hprop; rewrite <- Et; apply in_map; auto|]. rewrite <- Es in S1, S2.
  assert (Hv : Rabs (d * IZR s) = d).
  { destruct S2 as [-> | ->]; [replace (d * 1) with d by ring; apply Rabs_right; lra | replace (d * -1) with (- d) by ring; rewrite Rabs_Ropp; apply Rabs_right; lra]. }
  exists (d * IZR s). split.
  { transitivity (let '(_, d, s) := near_triangle arithR float_max tr P in Ret (d * IZR s)); [reflexivity|]. rewrite En. reflexivity. }
  rewrite Hv. destruct (Hc t Ht) as (_ & H2 & H3). rewrite Et in H2, H3.
  split; [exists t, X; split; [auto|]; split; [apply H2; auto | exact ED]|].
  split.
  { intros t1 Y Ht1 HY. destruct (Hc t1 Ht1) as (_ & H2' & _). apply (HM (file_triangle arithR float_max float_min f t1)); [apply in_map; auto | apply H2'; auto]. }
  split.
  - intros Hpos'. destruct S2 as [S2|S2]; [|rewrite S2 in Hpos'; lra].
    exists t, X. split; [auto|]. split; [apply H2; auto|]. split; [exact ED|]. rewrite H3. apply S1. auto.
  - intros Hneg t1 Y Ht1 HY EY. destruct (Rle_lt_dec (face_volume m t1 P) 0) as [|Hlt]; [auto|]. exfalso.
    set (g := file_triangle arithR float_max float_min f t1).
    assert (Hg : In g ts) by (apply in_map; auto). destruct (Hc t1 Ht1) as (_ & H2' & H3').
    assert (Q : s = 1%Z); [|rewrite Q in Hneg; lra].
    apply Tie. exists g. split; [auto|]. destruct (side_volume g P (Hprop g Hg)) as [S1' _]. split.
    + apply Rle_antisym; [|apply Mn; auto]. destruct (proper_nearest g P (Hprop g Hg)) as [[_ M'] _].
      destruct (proper_nearest ans P) as [[(XA & _ & EA) _] _]; [apply Hprop; rewrite <- Et; apply in_map; auto|].
      assert (P0 : 0 <= sq_dist P Y) by (unfold sq_dist; pose proof (Rle_0_sqr (vx P - vx Y)); pose proof (Rle_0_sqr (vy P - vy Y)); pose proof (Rle_0_sqr (vz P - vz Y)); lra).
      assert (P0' : 0 <= sq_dist P XA) by (unfold sq_dist; pose proof (Rle_0_sqr (vx P - vx XA)); pose proof (Rle_0_sqr (vy P - vy XA)); pose proof (Rle_0_sqr (vz P - vz XA)); lra).
      eapply Rle_trans; [apply (M' Y); apply H2'; auto|]. right. rewrite EA.
      apply sqrt_inj; auto. rewrite <- EA. unfold distance in EY. rewrite <- EY. exact Ed.
    + apply S1'. unfold g. rewrite <- H3'. auto.
Qed.
Print Assumptions C66_value_partial.

(* ---- the field is a distance ---- *)
Lemma distance_sym : forall X Y, distance X Y = distance Y X.
Proof. intros. unfold distance, sq_dist, Rsqr. f_equal. ring. Qed.

Lemma distance_triangle : forall X Y Z, distance X Z <= distance X Y + distance Y Z.
Proof.
  intros [x1 x2 x3] [y1 y2 y3] [z1 z2 z3]. unfold distance, sq_dist. cbn [vx vy vz].
  set (a1 := x1 - y1). set (a2 := x2 - y2). set (a3 := x3 - y3). set (b1 := y1 - z1). set (b2 := y2 - z2). set (b3 := y3 - z3).
  replace (x1 - z1) with (a1 + b1) by (unfold a1, b1; ring). replace (x2 - z2) with (a2 + b2) by (unfold a2, b2; ring).
  replace (x3 - z3) with (a3 + b3) by (unfold a3, b3; ring).
  set (A := a1² + a2² + a3²). set (B := b1² + b2² + b3²).
  assert (HA : 0 <= A) by (unfold A; pose proof (Rle_0_sqr a1); pose proof (Rle_0_sqr a2); pose proof (Rle_0_sqr a3); lra).
  assert (HB : 0 <= B) by (unfold B; pose proof (Rle_0_sqr b1); pose proof (Rle_0_sqr b2); pose proof (Rle_0_sqr b3); lra).
  pose proof (sqrt_pos A). pose proof (sqrt_pos B).
  apply Rsqr_incr_0_var; [|lra]. rewrite Rsqr_sqrt.
  2: { pose proof (Rle_0_sqr (a1 + b1)). pose proof (Rle_0_sqr (a2 + b2)). pose proof (Rle_0_sqr (a3 + b3)). lra. }
  rewrite (Rsqr_plus (sqrt A) (sqrt B)), !Rsqr_sqrt by auto.
  assert (C : a1 * b1 + a2 * b2 + a3 * b3 <= sqrt A * sqrt B).
  { rewrite <- sqrt_mult by auto. apply Rle_trans with (Rabs (a1 * b1 + a2 * b2 + a3 * b3)); [apply Rle_abs|].
    rewrite <- sqrt_Rsqr_abs. apply sqrt_le_1_alt. unfold A, B, Rsqr.
    pose proof (Rle_0_sqr (a1 * b2 - a2 * b1)). pose proof (Rle_0_sqr (a1 * b3 - a3 * b1)). pose proof (Rle_0_sqr (a2 * b3 - a3 * b2)).
    unfold Rsqr in *. lra. }
  unfold A, B, Rsqr in *. lra.
Qed.

(* The absolute value does not change faster than the position. *)
Theorem C66_lipschitz_partial : forall float_max float_min f reverse m tr x y z x' y' z' v v', file_ok f -> (zlen (pf_verts f) <= two32)%Z ->
  (zlen (pf_faces f) <= 60)%Z ->
  ply2mesh arithR float_max float_min f reverse = Ret m -> field_load arithR float_max float_min f reverse = Ret tr ->
  let faces := map (wound reverse) (pf_faces f) in
  (forall t, In t faces -> exists Q, face_volume m t Q <> 0) ->
  (exists t X, In t faces /\ on_face m t X /\ sq_dist (V3 x y z) X < float_max) ->
  (exists t X, In t faces /\ on_face m t X /\ sq_dist (V3 x' y' z') X < float_max) ->
  @field_value envR float_max (fun x => x) (Some tr) x y z = Ret v ->
  @field_value envR float_max (fun x => x) (Some tr) x' y' z' = Ret v' ->
  Rabs (Rabs v - Rabs v') <= distance (V3 x y z) (V3 x' y' z').
Proof.
  intros float_max float_min f r m tr x y z x' y' z' v v' Hok Hn Hl Em E faces Hp H1 H2 V1 V2.
  destruct (C66_value_partial float_max float_min f r m tr x y z Hok Hn Hl Em E Hp H1) as (w & W & (t & X & Ht & HX & DX) & M & _).
  destruct (C66_value_partial float_max float_min f r m tr x' y' z' Hok Hn Hl Em E Hp H2) as (w' & W' & (t' & X' & Ht' & HX' & DX') & M' & _).
  rewrite V1 in W. injection W as <-. rewrite V2 in W'. injection W' as <-.
  pose proof (M t' X' Ht' HX') as L. pose proof (M' t X Ht HX) as L'.
  pose proof (distance_triangle (V3 x y z) (V3 x' y' z') X') as T. pose proof (distance_triangle (V3 x' y' z') (V3 x y z) X) as T'.
  rewrite (distance_sym (V3 x' y' z') (V3 x y z)) in T'.
  change (fp_D envR) with R in *. apply Rabs_le. split; lra.
Qed.
Print Assumptions C66_lipschitz_partial.

(* The gradient is made of central differences, with a step of a thousandth of the size of the
   root cube. *)
Theorem C66_gradient : forall float_max tr x y z (v : R -> R -> R -> R),
  (forall x y z, @field_value envR float_max (fun x => x) (Some tr) x y z = Ret (v x y z)) ->
  let h := tt_half tr / 500 in
  @field_grad envR float_max (fun x => x) (Some tr) x y z =
    Ret (V3 ((v (x + h) y z - v (x - h) y z) / 2 / h) ((v x (y + h) z - v x (y - h) z) / 2 / h) ((v x y (z + h) - v x y (z - h)) / 2 / h)).
Proof.
  intros float_max tr x y z v Hv h. unfold field_grad. cbn [oread obind].
  rewrite !Hv. reflexivity.
Qed.
Print Assumptions C66_gradient.

(* A tetrahedron without one of its faces. *)
Definition tetra_ex : ply_file R := PlyFile [V3 1 1 1; V3 5 1 1; V3 1 5 1; V3 1 1 3] [(0, 2, 1)%Z; (0, 1, 3)%Z; (0, 3, 2)%Z].
Lemma placed_volume : forall c k a b d P, 0 < k ->
  volume6 (placed arithR c k a) (placed arithR c k b) (placed arithR c k d) (placed arithR c k P) = volume6 a b d P / (k * k * k).
Proof. intros c k a b d P Hk. unfold volume6, placed. cbn [arithR a_sub a_div vx vy vz]. field. lra. Qed.
Example C66_ex : exists m tr, file_ok tetra_ex /\ (zlen (pf_verts tetra_ex) <= two32)%Z /\ (zlen (pf_faces tetra_ex) <= 60)%Z /\
  ply2mesh arithR 1000 (/ 1000) tetra_ex false = Ret m /\ field_load arithR 1000 (/ 1000) tetra_ex false = Ret tr /\
  (forall t, In t (map (wound false) (pf_faces tetra_ex)) -> exists Q, face_volume m t Q <> 0) /\
  (exists t X, In t (map (wound false) (pf_faces tetra_ex)) /\ on_face m t X /\ sq_dist (V3 (vx X) (vy X) (vz X + 20)) X < 1000).
Proof.
  assert (Hok : file_ok tetra_ex).
  { intros t i [<-|[<-|[<-|[]]]] Hi; cbn in Hi; unfold zlen; cbn; lia. }
  assert (Hn : (zlen (pf_verts tetra_ex) <= two32)%Z) by (unfold two32, zlen; cbn; lia).
  destruct (C64_mesh R arithR 1000 (/ 1000) tetra_ex false Hok Hn) as (m & _ & _ & E & _).
  destruct (C66_load R arithR 1000 (/ 1000) tetra_ex false Hok) as (tr & Et & _).
  destruct (C51_shape 1000 (/ 1000) tetra_ex false m Hok Hn) as (c & k & Hk & P & _); [|exact E|].
  { exists (V3 1 1 1), (V3 5 1 1). split; [left; reflexivity|]. split; [right; left; reflexivity|]. intros Q. injection Q. lra. }
  exists m, tr. split; [auto|]. split; [auto|]. split; [unfold zlen; cbn; lia|]. split; [auto|]. split; [auto|].
  assert (K : forall w, w <> 0 -> w / (k * k * k) <> 0).
  { intros w Hw Q. apply Hw. replace w with (w / (k * k * k) * (k * k * k)) by (field; lra). rewrite Q. ring. }
  split.
  - assert (P0 : position arithR m 0 = placed arithR c k (V3 1 1 1)) by (unfold position; rewrite P; reflexivity).
    assert (P1 : position arithR m 1 = placed arithR c k (V3 5 1 1)) by (unfold position; rewrite P; reflexivity).
    assert (P2 : position arithR m 2 = placed arithR c k (V3 1 5 1)) by (unfold position; rewrite P; reflexivity).
    assert (P3 : position arithR m 3 = placed arithR c k (V3 1 1 3)) by (unfold position; rewrite P; reflexivity).
    intros t [<-|[<-|[<-|[]]]]; exists (placed arithR c k (V3 2 2 2)); cbn [wound face_volume]; rewrite ?P0, ?P1, ?P2, ?P3;
      rewrite placed_volume by auto; apply K; unfold volume6; cbn [vx vy vz]; lra.
  - exists (0, 2, 1)%Z, (position arithR m 0). split; [left; reflexivity|]. split.
    + exists 1, 0, 0. split; [lra|]. split; [lra|]. split; [lra|]. split; [lra|]. destruct (position arithR m 0) as [u1 u2 u3]. cbn [vx vy vz]. f_equal; ring.
    + unfold sq_dist, Rsqr. cbn [vx vy vz]. lra.
Qed.
