(* C48, C49, C50: distances to triangles, the triangle octree. *)
From Coq Require Import ZArith List Bool Reals Lra Lia.
From Verif Require Import Base Arith RealArith FloatArith TriModel TriSpec TriProofs TriDist TriNear TriCells.
Import ListNotations.
Local Open Scope R_scope.

(* ------------------------------------------------------------------ *)
(* C48                                                                 *)
(* ------------------------------------------------------------------ *)

(* The distance is that of the nearest point of the triangle, the sign tells the side of the
   plane of the triangle. *)
Theorem C48_distance : forall a b c P d s, proper a b c ->
  tri_distance arithR P (mk_triangle arithR a b c) = (d, s) ->
  (exists X, in_triangle a b c X /\ d = sq_dist P X) /\
  (forall Y, in_triangle a b c Y -> d <= sq_dist P Y) /\
  (0 < volume6 a b c P -> s = 1%Z) /\ (volume6 a b c P <= 0 -> s = (-1)%Z).
Proof.
  intros a b c P d s H E. destruct (mk_nearest a b c P H) as [[N1 N2] S]. rewrite E in *. cbn [fst snd] in *.
  split; [auto|]. split; [auto|]. rewrite S. split; intros Hv; destruct (Rlt_dec 0 (volume6 a b c P)); auto; lra.
Qed.
Print Assumptions C48_distance.

(* Distance zero means that the point belongs to the triangle. *)
Theorem C48_zero : forall a b c P, proper a b c ->
  (fst (tri_distance arithR P (mk_triangle arithR a b c)) = 0 <-> in_triangle a b c P).
Proof.
  intros a b c P H. destruct (mk_nearest a b c P H) as [[(X & HX & EX) N2] _]. split.
  - intros E. rewrite E in EX. replace P with X; auto. unfold sq_dist in EX.
    pose proof (Rle_0_sqr (vx P - vx X)). pose proof (Rle_0_sqr (vy P - vy X)). pose proof (Rle_0_sqr (vz P - vz X)).
    assert (E1 : (vx P - vx X)² = 0) by lra. assert (E2 : (vy P - vy X)² = 0) by lra. assert (E3 : (vz P - vz X)² = 0) by lra.
    apply Rsqr_0_uniq in E1, E2, E3. destruct P as [p1 p2 p3], X as [x1 x2 x3]. cbn [vx vy vz] in *. f_equal; lra.
  - intros HP. specialize (N2 P HP). assert (E0 : sq_dist P P = 0) by (unfold sq_dist, Rsqr; ring). rewrite E0 in N2.
    assert (0 <= fst (tri_distance arithR P (mk_triangle arithR a b c))); [|lra].
    rewrite EX. unfold sq_dist. pose proof (Rle_0_sqr (vx P - vx X)). pose proof (Rle_0_sqr (vy P - vy X)). pose proof (Rle_0_sqr (vz P - vz X)). lra.
Qed.
Print Assumptions C48_zero.

(* An obtuse triangle. *)
Definition tri_ex : triangle R := mk_triangle arithR (V3 0 0 0) (V3 4 0 0) (V3 (-3) 1 0).
Example tri_ex_proper : proper_triangle tri_ex.
Proof. split; [reflexivity|]. exists (V3 0 0 1). unfold volume6. cbn. lra. Qed.
(* Above the corner (0, 0, 0), outside of the triangle. *)
Example C48_ex : exists d s, tri_distance arithR (V3 0 (-1) 2) tri_ex = (d, s) /\ d = 5 /\ s = 1%Z.
Proof.
  destruct (tri_distance arithR (V3 0 (-1) 2) tri_ex) as [d s] eqn:E. exists d, s. split; [reflexivity|].
  destruct (C48_distance _ _ _ _ d s (proj2 tri_ex_proper) E) as (( X & HX & EX) & N & S1 & _).
  cbn [tri_ex mk_triangle ta tb tc] in *. split.
  - apply Rle_antisym.
    + replace 5 with (sq_dist (V3 0 (-1) 2) (V3 0 0 0)) by (unfold sq_dist, Rsqr; cbn [vx vy vz]; ring). apply N.
      exists 1, 0, 0. split; [lra|]. split; [lra|]. split; [lra|]. split; [lra|]. cbn [vx vy vz]. f_equal; ring.
    + rewrite EX. destruct HX as (u & v & w & Hu & Hv & Hw & Hs & ->). unfold sq_dist, Rsqr. cbn [vx vy vz].
      pose proof (Rle_0_sqr (0 - (u * 0 + v * 4 + w * -3))). unfold Rsqr in *. nra.
  - apply S1. unfold volume6. cbn [vx vy vz]. lra.
Qed.

(* ------------------------------------------------------------------ *)
(* C49                                                                 *)
(* ------------------------------------------------------------------ *)
Local Open Scope Z_scope.

(* Inserting a triangle never fails, keeps all triangles which the tree has and adds no other
   one, in every arithmetic. *)
Theorem C49_partial : forall F (A : arith F) half pos tr t, made A half pos tr ->
  exists tr', tt_insert A insert_fuel tr t = Ret tr' /\ made A half pos tr' /\
    (forall x, In x (tris_of tr) -> In x (tris_of tr')) /\
    (forall x, In x (tris_of tr') -> x = t \/ In x (tris_of tr)) /\
    ((forall l, In l (leaves_of tr) -> has_room l) -> In t (tris_of tr')).
Proof.
  intros F A half pos tr t [ts E].
  destruct (insert_all_ok A ts (tt_new half 0 pos) (new_ok half pos)) as (tr0 & E0 & O & _).
  rewrite E in E0. injection E0 as <-.
  destruct (insert_ok A insert_fuel 0 tr t O ltac:(cbn; lia)) as (tr' & E' & O' & _ & _ & K1 & K2 & K3).
  exists tr'. split; [auto|]. split; [|split; [auto|]; split; auto].
  exists (ts ++ [t]). unfold insert_all in *.
  assert (G : forall l (s : ttree F), ofold (tt_insert A insert_fuel) (l ++ [t]) s =
    (s' <- ofold (tt_insert A insert_fuel) l s ;; tt_insert A insert_fuel s' t)).
  { induction l as [|x l IH]; intros s; cbn [app ofold].
    - cbn [obind]. destruct (tt_insert A insert_fuel s t); reflexivity.
    - destruct (tt_insert A insert_fuel s x); cbn [obind]; auto. }
  rewrite G, E. exact E'.
Qed.
Print Assumptions C49_partial.

(* So nothing is lost as long as there are no more than 60 triangles. *)
Theorem C49_small_partial : forall F (A : arith F) half pos ts, zlen ts <= 60 ->
  exists tr, insert_all A (tt_new half 0 pos) ts = Ret tr /\ tris_of tr = ts.
Proof.
  intros F A half pos ts H. exists (TLeaf pos half 0 ts). split; [|reflexivity].
  apply (insert_small A pos half 0 ts []). cbn. lia.
Qed.
Print Assumptions C49_small_partial.

(* The 61st triangle is always lost, in every arithmetic. *)
Theorem C49_lost : forall F (A : arith F) half pos ts t tr, zlen ts = 60 -> ~ In t ts ->
  insert_all A (tt_new half 0 pos) (ts ++ [t]) = Ret tr -> ~ In t (tris_of tr) /\ forall x, In x ts -> In x (tris_of tr).
Proof.
  intros F A half pos ts t tr Hl Ht E. unfold insert_all in E.
  assert (G : forall l (s : ttree F), ofold (tt_insert A insert_fuel) (l ++ [t]) s =
    (s' <- ofold (tt_insert A insert_fuel) l s ;; tt_insert A insert_fuel s' t)).
  { induction l as [|x l IH]; intros s; cbn [app ofold].
    - cbn [obind]. destruct (tt_insert A insert_fuel s t); reflexivity.
    - destruct (tt_insert A insert_fuel s x); cbn [obind]; auto. }
  rewrite G in E. pose proof (insert_small A pos half 0 ts [] ltac:(cbn; lia)) as E1. cbn [app] in E1.
  unfold insert_all in E1. unfold tt_new in E. rewrite E1 in E. cbn [obind] in E.
  split.
  - intros H. apply Ht. eapply insert_61; eauto.
  - destruct (insert_ok A insert_fuel 0 (TLeaf pos half 0 ts) t) as (tr' & E' & _ & _ & _ & K1 & _); [|cbn; lia|].
    + apply ok_leaf; [lia | intros; lia].
    + rewrite E in E'. injection E' as <-. exact K1.
Qed.
Print Assumptions C49_lost.

(* Sixty times one triangle and then another one, all corners in the root cube. *)
Theorem C49_refuted : exists half pos ts tr t, insert_all arithR (tt_new half 0 pos) ts = Ret tr /\
  In t ts /\ ~ In t (tris_of tr) /\
  (forall x, In x ts -> proper_triangle x /\ in_box (tt_new half 0 pos) (ta x) /\ in_box (tt_new half 0 pos) (tb x) /\ in_box (tt_new half 0 pos) (tc x)).
Proof.
  set (t1 := mk_triangle arithR (V3 1%R 1%R 1%R) (V3 2%R 1%R 1%R) (V3 1%R 2%R 1%R)).
  set (t2 := mk_triangle arithR (V3 1%R 1%R 1%R) (V3 3%R 1%R 1%R) (V3 1%R 3%R 1%R)).
  set (pos := V3 0%R 0%R 0%R).
  destruct (insert_all_ok arithR (repeat t1 60 ++ [t2]) (tt_new 2%R 0 pos) (new_ok 2%R pos)) as (tr & E & _).
  assert (N : ~ In t2 (repeat t1 60)).
  { intros H. apply repeat_spec in H. assert (Q : vx (tb t2) = vx (tb t1)) by (rewrite H; reflexivity). cbn in Q. lra. }
  exists 2%R, pos, (repeat t1 60 ++ [t2]), tr, t2. split; [exact E|]. split; [apply in_or_app; right; left; reflexivity|].
  split.
  - apply (C49_lost R arithR 2%R pos (repeat t1 60) t2 tr); auto.
  - assert (P1 : proper_triangle t1) by (split; [reflexivity|]; exists (V3 1%R 1%R 2%R); unfold volume6; cbn; lra).
    assert (P2 : proper_triangle t2) by (split; [reflexivity|]; exists (V3 1%R 1%R 2%R); unfold volume6; cbn; lra).
    intros x Hx. apply in_app_or in Hx. destruct Hx as [Hx|[<-|[]]].
    + apply repeat_spec in Hx. rewrite Hx. split; [exact P1|]. unfold in_box. cbn. lra.
    + split; [exact P2|]. unfold in_box. cbn. lra.
Qed.
Print Assumptions C49_refuted.

(* The cells of the leaves lie in the cell of the root and no two of them overlap. *)
Theorem C49_cells : forall half pos tr lf X, (0 < half)%R -> made arithR half pos tr -> In lf (leaves_of tr) -> in_cell lf X ->
  in_cell (tt_new half 0 pos) X /\ forall lf', In lf' (leaves_of tr) -> in_cell lf' X -> lf' = lf.
Proof.
  intros half pos tr lf X Hh [ts E] Hlf HX.
  destruct (insert_all_ok arithR ts (tt_new half 0 pos) (new_ok half pos)) as (tr0 & E0 & O & P1 & P2 & _ & _ & G).
  rewrite E in E0. injection E0 as <-. specialize (G (geo_leaf _ _ _ _ _)).
  destruct (leaf_cells 0 tr O G) with (lf := lf) (X := X) as [H1 H2]; auto.
  - rewrite P2. exact Hh.
  - split; [|exact H2]. unfold in_cell in *. rewrite P1, P2 in H1. exact H1.
Qed.
Print Assumptions C49_cells.

(* Where the triangles are.  Insertion keeps a triangle in the leaf around each of its corners
   where it was.  The new triangle is put into the leaf around each of its corners in the root
   cell, or that leaf was full. *)
Theorem C49_corners_partial : forall half pos tr t tr', (0 < half)%R -> made arithR half pos tr ->
  tt_insert arithR insert_fuel tr t = Ret tr' ->
  (forall x X, corner_of x X -> kept_at tr X x -> kept_at tr' X x) /\
  (forall X, corner_of t X -> in_cell (tt_new half 0 pos) X ->
    kept_at tr' X t \/ exists lf, In lf (leaves_of tr) /\ in_cell lf X /\ ~ has_room lf).
Proof.
  intros half pos tr t tr' Hh [ts E] E'.
  destruct (insert_all_ok arithR ts (tt_new half 0 pos) (new_ok half pos)) as (tr0 & E0 & O & P1 & P2 & _ & _ & G).
  rewrite E in E0. injection E0 as <-. specialize (G (geo_leaf _ _ _ _ _)).
  destruct (insert_keeps insert_fuel 0 tr t tr' O ltac:(cbn; lia) G ltac:(rewrite P2; exact Hh) E') as [K1 K2].
  split; [exact K1|]. intros X Hx HX. apply K2; [exact Hx|]. unfold in_cell in *. rewrite P1, P2. exact HX.
Qed.
Print Assumptions C49_corners_partial.

(* A root split by its 61st triangle: the corner at the far end is in another leaf. *)
Example C49_corners_ex : exists tr, made arithR 4%R (V3 0%R 0%R 0%R) tr /\
  (exists p h l cs, tr = TNode p h l cs) /\
  kept_at tr (V3 1 1 1)%R (mk_triangle arithR (V3 1 1 1) (V3 5 1 1) (V3 1 5 1))%R /\
  kept_at tr (V3 5 1 1)%R (mk_triangle arithR (V3 1 1 1) (V3 5 1 1) (V3 1 5 1))%R /\
  ~ exists lf, In lf (leaves_of tr) /\ in_cell lf (V3 1 1 1)%R /\ in_cell lf (V3 5 1 1)%R.
Proof.
  set (t := mk_triangle arithR (V3 1 1 1)%R (V3 5 1 1)%R (V3 1 5 1)%R).
  assert (M : made arithR 4%R (V3 0 0 0)%R (TLeaf (V3 0 0 0)%R 4%R 0 (repeat t 60))).
  { exists (repeat t 60). apply (insert_small arithR _ _ 0 (repeat t 60) []). cbn. lia. }
  destruct (C49_partial R arithR 4%R (V3 0 0 0)%R _ t M) as (tr & E & M' & _).
  exists tr. split; [exact M'|].
  destruct (C49_corners_partial 4%R (V3 0 0 0)%R _ t tr ltac:(lra) M E) as [K _].
  assert (Nd : exists p h l cs, tr = TNode p h l cs).
  { unfold insert_fuel in E. rewrite insert_leaf in E. change ((zlen (repeat t 60) <? split_limit) || (max_depth <=? 0)) with false in E. cbn iota in E.
    destruct (ofold _ _ _) as [cs| | | |] in E; try discriminate. cbn [obind] in E. injection E as <-. eauto. }
  split; [exact Nd|].
  assert (I : forall X, corner_of t X -> in_cell (TLeaf (V3 0 0 0)%R 4%R 0 (repeat t 60)) X -> kept_at (TLeaf (V3 0 0 0)%R 4%R 0 (repeat t 60)) X t).
  { intros X _ HX. eexists. split; [left; reflexivity|]. split; [exact HX|]. left. reflexivity. }
  split; [apply K; [left; reflexivity|apply I; [left; reflexivity|unfold in_cell; cbn; lra]]|].
  split; [apply K; [right; left; reflexivity|apply I; [right; left; reflexivity|unfold in_cell; cbn; lra]]|].
  intros (lf & H1 & H2 & H3).
  destruct M' as [ts Em]. destruct (insert_all_ok arithR ts (tt_new 4%R 0 (V3 0 0 0)%R) (new_ok _ _)) as (tr0 & E0 & O & P1 & P2 & _ & _ & G).
  rewrite Em in E0. injection E0 as <-. specialize (G (geo_leaf _ _ _ _ _)). destruct Nd as (p & h & l & cs & ->). cbn [tt_pos tt_half tt_new] in P1, P2. subst p h.
  inversion G as [|? ? ? ? Gs]; subst. inversion O as [|? ? ? ? Hl Hlen Ok]; subst. cbn [leaves_of] in H1. apply in_flat_map in H1 as ([c|] & Hc & H1); [|destruct H1].
  destruct (znth_of_in _ _ _ Hc) as (i & Hi & Ez). destruct (Gs i c ltac:(lia) Ez) as [Kc Gc].
  assert (Hh : (0 < tt_half c)%R) by (destruct Kc as [_ ->]; cbn; lra).
  destruct (leaf_cells _ c (Ok c Hc) Gc Hh lf _ H1 H2) as [C1 _]. destruct (leaf_cells _ c (Ok c Hc) Gc Hh lf _ H1 H3) as [C2 _].
  destruct Kc as [Kp Kh]. unfold in_cell in C1, C2. rewrite Kp, Kh in C1, C2. cbn [arithR a_div a_ofZ vx vy vz child_at a_add] in C1, C2. lra.
Qed.

Example C49_ex : exists tr, made arithR 4%R (V3 0%R 0%R 0%R) tr /\ tris_of tr = [tri_ex; tri_ex] /\ (forall l, In l (leaves_of tr) -> has_room l).
Proof.
  exists (TLeaf (V3 0%R 0%R 0%R) 4%R 0 [tri_ex; tri_ex]). split; [exists [tri_ex; tri_ex]; apply (insert_small arithR _ _ 0 [tri_ex; tri_ex] []); cbn; lia|].
  split; [reflexivity|]. intros l [<-|[]]. left. cbn. lia.
Qed.

(* ------------------------------------------------------------------ *)
(* C50                                                                 *)
(* ------------------------------------------------------------------ *)

(* The answer is a triangle of the tree with its distance and sign, or nothing was found, in
   every arithmetic. *)
Theorem C50_partial : forall F (A : arith F) float_max half pos tr p ans d s, made A half pos tr ->
  near_triangle A float_max tr p = (ans, d, s) ->
  (In ans (tris_of tr) /\ exists d2, tri_distance A p ans = (d2, s) /\ d = a_sqrt A d2) \/
  (ans = zero_triangle A /\ d = a_sqrt A float_max /\ s = 0).
Proof.
  intros F A float_max half pos tr p ans d s [ts E] H.
  destruct (insert_all_ok A ts (tt_new half 0 pos) (new_ok half pos)) as (tr0 & E0 & O & _).
  rewrite E in E0. injection E0 as <-.
  unfold near_triangle in H. destruct (near_found A p 0 tr O (float_max, zero_triangle A, 0)) as [Q|(d2 & t & sg & Q & I & D)];
    rewrite Q in H; injection H as <- <- <-.
  - right. auto.
  - left. split; [auto|]. exists d2. auto.
Qed.
Print Assumptions C50_partial.

(* What the answer should be: a triangle at the smallest distance; if there are several, one
   with the point on its positive side if there is one. *)
Definition nearest_answer (p : rvec) (ts : list (triangle R)) (ans : triangle R) (d : R) (s : Z) : Prop :=
  In ans ts /\ d = sqrt (dist p ans) /\ s = side p ans /\ (forall t, In t ts -> dist p ans <= dist p t)%R /\
  ((exists t, In t ts /\ dist p t = dist p ans /\ side p t = 1) -> s = 1).

Lemma answer_of : forall float_max p l tr ans d s, tt_ok l tr ->
  covers p (tris_of tr) (near_impl arithR p tr (float_max, zero_triangle arithR, 0)) ->
  (exists t, In t (tris_of tr) /\ dist p t < float_max)%R -> near_triangle arithR float_max tr p = (ans, d, s) ->
  (forall t, In t (tris_of tr) -> proper_triangle t) -> nearest_answer p (tris_of tr) ans d s.
Proof.
  intros float_max p l tr ans d s O C (t0 & H0 & L0) H Hp. unfold near_triangle in H.
  destruct (near_found arithR p l tr O (float_max, zero_triangle arithR, 0)) as [Q|(d2 & t & sg & Q & I & D)].
  - exfalso. rewrite Q in C. destruct (C t0 H0) as [C1 _]. cbn in C1. lra.
  - rewrite Q in H, C. injection H as <- <- <-. unfold nearest_answer. rewrite D. cbn [fst snd].
    split; [auto|]. split; [reflexivity|]. split; [reflexivity|]. split.
    + intros x Hx. apply (C x Hx).
    + intros (x & Hx & E1 & E2). destruct (C x Hx) as [_ C2]. cbn [bound_of sign_of fst snd] in C2.
      assert (P : 0 < sg) by (apply C2; [lra | lia]).
      destruct (proper_nearest t p (Hp t I)) as [_ S]. rewrite D in S. cbn [snd] in S. destruct (Rlt_dec _ _); lia.
Qed.

(* Exact if each triangle lies in the cubes of the leaves that hold it. *)
Theorem C50_boxed_partial : forall float_max half pos tr p ans d s, made arithR half pos tr -> (0 <= half)%R ->
  (forall t, In t (tris_of tr) -> proper_triangle t) ->
  (forall l t, In l (leaves_of tr) -> In t (tris_of l) -> in_box l (ta t) /\ in_box l (tb t) /\ in_box l (tc t)) ->
  (exists t, In t (tris_of tr) /\ dist p t < float_max)%R ->
  near_triangle arithR float_max tr p = (ans, d, s) -> nearest_answer p (tris_of tr) ans d s.
Proof.
  intros float_max half pos tr p ans d s [ts E] Hh Hp Hc He H.
  destruct (insert_all_ok arithR ts (tt_new half 0 pos) (new_ok half pos)) as (tr0 & E0 & O & P1 & P2 & _ & _ & G).
  rewrite E in E0. injection E0 as <-. cbn [tt_new tt_half] in P2.
  eapply answer_of; eauto. apply (near_covers p 0 tr O).
  apply (contain_enclosed p 0 tr); auto.
  - apply G. constructor.
  - rewrite P2. auto.
Qed.
Print Assumptions C50_boxed_partial.

(* Exact for up to 60 triangles anywhere, unless the root cube is too far away. *)
Theorem C50_small_partial : forall float_max half pos ts tr p ans d s, zlen ts <= 60 ->
  insert_all arithR (tt_new half 0 pos) ts = Ret tr -> (forall t, In t ts -> proper_triangle t) ->
  (distance_to_node arithR pos half p <= float_max)%R -> (exists t, In t ts /\ dist p t < float_max)%R ->
  near_triangle arithR float_max tr p = (ans, d, s) -> nearest_answer p ts ans d s.
Proof.
  intros float_max half pos ts tr p ans d s Hl E Hp Hd He H.
  assert (Et : tr = TLeaf pos half 0 ts).
  { pose proof (insert_small arithR pos half 0 ts [] ltac:(cbn; lia)) as E1. cbn [app] in E1. unfold tt_new in E. congruence. }
  subst tr. change ts with (tris_of (TLeaf pos half 0 ts)). apply (answer_of float_max p 0); auto.
  - apply ok_leaf; [lia | auto].
  - rewrite near_leaf. change (a_lt arithR) with Rltb. destruct (Rltb _ _) eqn:C.
    + apply Rltb_iff in C. lra.
    + apply fold_mono.
Qed.
Print Assumptions C50_small_partial.

(* Then the answer is the distance to the union of the triangles. *)
Theorem C50_distance_partial : forall p ts ans d s, nearest_answer p ts ans d s -> (forall t, In t ts -> proper_triangle t) ->
  (exists X, in_triangle (ta ans) (tb ans) (tc ans) X /\ d = sqrt (sq_dist p X)) /\
  (forall t Y, In t ts -> in_triangle (ta t) (tb t) (tc t) Y -> d <= sqrt (sq_dist p Y))%R.
Proof.
  intros p ts ans d s (I & -> & _ & M & _) Hp. destruct (proper_nearest ans p (Hp ans I)) as [[(X & HX & EX) _] _]. split.
  - exists X. rewrite EX. auto.
  - intros t Y Ht HY. apply sqrt_le_1_alt. destruct (proper_nearest t p (Hp t Ht)) as [[_ N] _].
    specialize (M t Ht). specialize (N Y HY). lra.
Qed.
Print Assumptions C50_distance_partial.

(* False in general, even for the triangles which are in the tree: binary32, a big triangle
   with its corners in the octants 4 and 1 which goes through octant 5, and small ones in
   octant 5.  From a point near the big triangle the octants 1 and 4 are not searched. *)
Definition v32 (x y z : Z) : vec3 b32 := V3 (f32 x (-1)) (f32 y (-1)) (f32 z (-1)).
Definition big_tri : triangle b32 := mk_triangle arith32 (v32 30 0 62) (v32 62 0 30) (v32 30 0 60).
Definition small_tri : triangle b32 := mk_triangle arith32 (v32 48 4 48) (v32 50 4 48) (v32 48 4 50).
Definition float_max32 : b32 := f32 16777215 104.

Theorem C50_refuted : exists half pos ts tr p, insert_all arith32 (tt_new half 0 pos) ts = Ret tr /\
  (forall t, In t ts -> In t (tris_of tr)) /\
  exists t, In t ts /\ a_lt arith32 (a_sqrt arith32 (fst (tri_distance arith32 p t))) (snd (fst (near_triangle arith32 float_max32 tr p))) = true.
Proof.
  set (half := f32 16 0). set (pos := v32 0 0 0). set (p := v32 46 1 46).
  set (us := big_tri :: repeat small_tri 59).
  destruct (insert_all_ok arith32 us (tt_new half 0 pos) (new_ok half pos)) as (tr1 & E1 & O1 & _).
  destruct (insert_ok arith32 insert_fuel 0 tr1 small_tri O1 ltac:(cbn; lia)) as (tr & E & _ & _ & _ & K & _).
  assert (E1' : tr1 = TLeaf pos half 0 us).
  { pose proof (insert_small arith32 pos half 0 us [] ltac:(cbn; lia)) as Q. cbn [app] in Q. unfold tt_new in E1. congruence. }
  assert (Ea : insert_all arith32 (tt_new half 0 pos) (us ++ [small_tri]) = Ret tr).
  { unfold insert_all in *. assert (G : forall l s, ofold (tt_insert arith32 insert_fuel) (l ++ [small_tri]) s =
      (s' <- ofold (tt_insert arith32 insert_fuel) l s ;; tt_insert arith32 insert_fuel s' small_tri)).
    { induction l as [|x l IH]; intros s; cbn [app ofold].
      - cbn [obind]. destruct (tt_insert arith32 insert_fuel s small_tri); reflexivity.
      - destruct (tt_insert arith32 insert_fuel s x); cbn [obind]; auto. }
    rewrite G, E1. exact E. }
  exists half, pos, (us ++ [small_tri]), tr, p. split; [exact Ea|]. split.
  - intros t Ht. apply K. rewrite E1'. cbn [tris_of]. apply in_app_or in Ht. destruct Ht as [Ht|[<-|[]]]; auto.
    right. left. reflexivity.
  - exists big_tri. split; [left; reflexivity|].
    assert (C : match insert_all arith32 (tt_new half 0 pos) (us ++ [small_tri]) with
      | Ret tr => a_lt arith32 (a_sqrt arith32 (fst (tri_distance arith32 p big_tri))) (snd (fst (near_triangle arith32 float_max32 tr p)))
      | _ => false end = true).
    { clear. vm_compute. reflexivity. }
    rewrite Ea in C. exact C.
Qed.
Print Assumptions C50_refuted.

Example C50_ex : exists ans d s, near_triangle arithR 1000%R (TLeaf (V3 (-4)%R (-4)%R (-4)%R) 4%R 0 [tri_ex]) (V3 0%R (-1)%R 2%R) = (ans, d, s) /\
  nearest_answer (V3 0%R (-1)%R 2%R) [tri_ex] ans d s /\ d = sqrt 5.
Proof.
  destruct C48_ex as (d0 & s0 & Ed & D5 & S1).
  destruct (near_triangle arithR 1000%R (TLeaf (V3 (-4)%R (-4)%R (-4)%R) 4%R 0 [tri_ex]) (V3 0%R (-1)%R 2%R)) as [[ans d] s] eqn:E.
  exists ans, d, s. split; [reflexivity|].
  assert (N : nearest_answer (V3 0%R (-1)%R 2%R) [tri_ex] ans d s).
  { apply (C50_small_partial 1000%R 4%R (V3 (-4)%R (-4)%R (-4)%R) [tri_ex] (TLeaf (V3 (-4)%R (-4)%R (-4)%R) 4%R 0 [tri_ex])); auto.
    - cbn. lia.
    - intros t [<-|[]]. exact tri_ex_proper.
    - eapply Rle_trans.
      + apply (box_distance (TLeaf (V3 (-4)%R (-4)%R (-4)%R) 4%R 0 [tri_ex]) _ (V3 0%R (-1)%R 2%R)). unfold in_box. cbn. lra.
      + unfold sq_dist, Rsqr. cbn. lra.
    - exists tri_ex. split; [left; reflexivity|]. rewrite Ed. cbn. lra. }
  split; auto. destruct N as ([<-|[]] & -> & _). rewrite Ed. cbn [fst]. rewrite D5. reflexivity.
Qed.

Example C50_boxed_ex : exists ans d s, near_triangle arithR 1000%R (TLeaf (V3 (-4)%R (-4)%R (-4)%R) 4%R 0 [tri_ex; tri_ex]) (V3 0%R (-1)%R 2%R) = (ans, d, s) /\
  nearest_answer (V3 0%R (-1)%R 2%R) [tri_ex; tri_ex] ans d s.
Proof.
  destruct C48_ex as (d0 & s0 & Ed & D5 & S1).
  destruct (near_triangle arithR 1000%R (TLeaf (V3 (-4)%R (-4)%R (-4)%R) 4%R 0 [tri_ex; tri_ex]) (V3 0%R (-1)%R 2%R)) as [[ans d] s] eqn:E.
  exists ans, d, s. split; [reflexivity|].
  apply (C50_boxed_partial 1000%R 4%R (V3 (-4)%R (-4)%R (-4)%R) (TLeaf (V3 (-4)%R (-4)%R (-4)%R) 4%R 0 [tri_ex; tri_ex])); auto.
  - exists [tri_ex; tri_ex]. apply (insert_small arithR _ _ 0 [tri_ex; tri_ex] []). cbn. lia.
  - lra.
  - intros t [<-|[<-|[]]]; exact tri_ex_proper.
  - intros l t [<-|[]] Ht. assert (t = tri_ex) as -> by (destruct Ht as [<-|[<-|[]]]; reflexivity). unfold in_box. cbn. lra.
  - exists tri_ex. split; [left; reflexivity|]. rewrite Ed. cbn. lra.
Qed.
