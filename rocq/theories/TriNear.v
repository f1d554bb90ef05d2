(* The search for the nearest triangle. *)
From Coq Require Import ZArith List Bool Reals Lra Lia.
From Verif Require Import Base Arith RealArith TriModel TriSpec TriProofs TriDist.
Import ListNotations.
Local Open Scope Z_scope.

Lemma znth_map : forall {X Y} (f : X -> Y) l i, znth (map f l) i = match znth l i with Some x => Some (f x) | None => None end.
Proof.
  intros. unfold znth. destruct (i <? 0); auto. revert l. induction (Z.to_nat i); destruct l; cbn; auto.
Qed.

Section Generic.
Context {F : Type}.
Variable A : arith F.
Notation tree := (ttree F).
Notation state := (near_state (F := F)).

Definition visit (p : vec3 F) (cs : list (option tree)) (i : Z) (s : state) : state :=
  match znth cs i with Some (Some c) => near_impl A p c s | _ => s end.

Lemma near_node : forall p pos half l cs b t sg, near_impl A p (TNode pos half l cs) (b, t, sg) =
  if a_lt A b (distance_to_node A pos half p) then (b, t, sg) else
  fold_left (fun s i => if i =? tt_index A pos half p then s else visit p cs i s) (zseq 0 8) (visit p cs (tt_index A pos half p) (b, t, sg)).
Proof.
  intros. cbn [near_impl tt_pos tt_half]. destruct (a_lt A b _); auto.
  set (idx := tt_index A pos half p).
  assert (V : forall i s, (match znth (map (fun c s => match c with Some c' => near_impl A p c' s | None => s end) cs) i with Some f => f s | None => s end) = visit p cs i s).
  { intros i s. rewrite znth_map. unfold visit. destruct (znth cs i) as [[c|]|]; auto. }
  cbn [zseq fold_left]. rewrite !V. reflexivity.
Qed.

Lemma near_leaf : forall p pos half l ts b t sg, near_impl A p (TLeaf pos half l ts) (b, t, sg) =
  if a_lt A b (distance_to_node A pos half p) then (b, t, sg) else fold_left (near_step A p) ts (b, t, sg).
Proof. reflexivity. Qed.

(* The answer is a triangle of the tree, with its distance and sign, or nothing was changed. *)
Definition found (p : vec3 F) (ts : list (triangle F)) (s s' : state) : Prop :=
  s' = s \/ exists d t sg, s' = (d, t, sg) /\ In t ts /\ tri_distance A p t = (d, sg).

Lemma found_trans : forall p ts s s' s'', found p ts s s' -> found p ts s' s'' -> found p ts s s''.
Proof. intros p ts s s' s'' H [->|H']; auto. right. auto. Qed.
Lemma found_incl : forall p ts us s s', (forall t, In t ts -> In t us) -> found p ts s s' -> found p us s s'.
Proof. intros p ts us s s' H [->|(d & t & sg & E & I & D)]; [left; auto|]. right. exists d, t, sg. auto. Qed.

Lemma near_found : forall p l tr, tt_ok l tr -> forall s, found p (tris_of tr) s (near_impl A p tr s).
Proof.
  intros p l tr H. induction H as [pos half l ts Hl Hs|pos half l cs Hl Hlen Hcs IH]; intros [[b t0] sg0].
  - rewrite near_leaf. destruct (a_lt A b _); [left; auto|]. cbn [tris_of].
    assert (G : forall us s, (forall t, In t us -> In t ts) -> found p ts s (fold_left (near_step A p) us s)).
    { induction us as [|u us IHu]; intros s Hu; [left; reflexivity|]. cbn [fold_left].
      apply (found_trans p ts s (near_step A p s u)).
      - destruct s as [[b' t'] sg']. unfold near_step. destruct (tri_distance A p u) as [d sg] eqn:E.
        destruct (_ || _); [|left; auto]. right. exists d, u, sg. split; [auto|]. split; [apply Hu; left; auto | auto].
      - apply IHu. intros t Ht. apply Hu. right. auto. }
    apply G. auto.
  - rewrite near_node. destruct (a_lt A b _); [left; auto|].
    assert (V : forall i s, found p (kids cs) s (visit p cs i s)).
    { intros i s. unfold visit. destruct (znth cs i) as [[c|]|] eqn:Ez; try (left; reflexivity).
      apply znth_In in Ez. apply (found_incl p (tris_of c)); [|apply IH; auto]. intros t Ht. apply In_kids. eauto. }
    rewrite kids_node. eapply found_trans; [apply (V (tt_index A pos half p))|].
    generalize (visit p cs (tt_index A pos half p) (b, t0, sg0)). generalize (zseq 0 8).
    induction l0 as [|i is IHi]; intros s; [left; reflexivity|]. cbn [fold_left].
    destruct (i =? _); [apply IHi|]. eapply found_trans; [apply (V i) | apply IHi].
Qed.
End Generic.

(* ------------------------------------------------------------------ *)
(* Exact arithmetic                                                    *)
(* ------------------------------------------------------------------ *)
Local Open Scope R_scope.
Notation rtree := (ttree R).
Notation dist p t := (fst (tri_distance arithR p t)).
Notation side p t := (snd (tri_distance arithR p t)).

Definition bound_of (s : near_state (F := R)) : R := fst (fst s).
Definition sign_of (s : near_state (F := R)) : Z := snd s.

Definition mono (s s' : near_state (F := R)) : Prop :=
  bound_of s' <= bound_of s /\ (bound_of s' = bound_of s -> (0 < sign_of s)%Z -> (0 < sign_of s')%Z).
Definition covers (p : rvec) (ts : list (triangle R)) (s : near_state (F := R)) : Prop :=
  forall t, In t ts -> bound_of s <= dist p t /\ (bound_of s = dist p t -> (0 < side p t)%Z -> (0 < sign_of s)%Z).

Lemma mono_refl : forall s, mono s s.
Proof. intros. split; [lra | auto]. Qed.
Lemma mono_trans : forall s s' s'', mono s s' -> mono s' s'' -> mono s s''.
Proof. intros s s' s'' [H1 H2] [H3 H4]. split; [lra|]. intros E P. apply H4; [lra|]. apply H2; auto. lra. Qed.
Lemma covers_mono : forall p ts s s', covers p ts s -> mono s s' -> covers p ts s'.
Proof.
  intros p ts s s' H [H1 H2] t Ht. destruct (H t Ht) as [H3 H4]. split; [lra|]. intros E P. apply H2; [lra|]. apply H4; auto. lra.
Qed.

Lemma step_mono : forall p s t, mono s (near_step arithR p s t) /\ covers p [t] (near_step arithR p s t).
Proof.
  intros p [[b t0] sg0] t. unfold near_step. destruct (tri_distance arithR p t) as [d sg] eqn:E.
  cbn [arithR a_lt a_eq].
  destruct (Rltb d b) eqn:C1; cbn [orb]; [|destruct (Reqb d b && (0 <? sg)%Z)%bool eqn:C2].
  - apply Rltb_iff in C1. split.
    + split; cbn; [lra|]. intros. lra.
    + intros x [<-|[]]. rewrite E. cbn. split; [lra | auto].
  - apply andb_prop in C2. destruct C2 as [C2 C3]. apply Reqb_iff in C2. apply Z.ltb_lt in C3. split.
    + split; cbn; [lra | auto].
    + intros x [<-|[]]. rewrite E. cbn. split; [lra | auto].
  - apply Rltb_false in C1. split; [apply mono_refl|].
    intros x [<-|[]]. rewrite E. cbn. split; [lra|]. intros Eb P. apply andb_false_iff in C2. destruct C2 as [C2|C2].
    + apply Reqb_false in C2. lra.
    + apply Z.ltb_ge in C2. lia.
Qed.

Lemma fold_mono : forall p ts s, mono s (fold_left (near_step arithR p) ts s) /\ covers p ts (fold_left (near_step arithR p) ts s).
Proof.
  intros p. induction ts as [|t ts IH]; intros s; cbn [fold_left].
  - split; [apply mono_refl | intros t []].
  - destruct (step_mono p s t) as [M C]. destruct (IH (near_step arithR p s t)) as [M' C'].
    split; [eapply mono_trans; eauto|]. intros x [<-|Hx]; [|apply C'; auto].
    apply (covers_mono p [t] _ _ C M'). left. auto.
Qed.

(* No triangle of the tree is nearer than the cubes containing it. *)
Inductive enclosed (p : rvec) : rtree -> Prop :=
| enc_leaf : forall pos half l ts, (forall t, In t ts -> distance_to_node arithR pos half p <= dist p t) ->
    enclosed p (TLeaf pos half l ts)
| enc_node : forall pos half l cs, (forall t, In t (kids cs) -> distance_to_node arithR pos half p <= dist p t) ->
    (forall c, In (Some c) cs -> enclosed p c) -> enclosed p (TNode pos half l cs).

Lemma near_covers : forall p l tr, tt_ok l tr -> enclosed p tr -> forall s,
  mono s (near_impl arithR p tr s) /\ covers p (tris_of tr) (near_impl arithR p tr s).
Proof.
  intros p l tr H. induction H as [pos half l ts Hl Hs|pos half l cs Hl Hlen Hcs IH]; intros He [[b t0] sg0].
  - inversion He as [? ? ? ? Hd|]; subst. rewrite near_leaf. cbn [arithR a_lt].
    destruct (Rltb b _) eqn:C; [|apply fold_mono]. apply Rltb_iff in C. split; [apply mono_refl|].
    intros t Ht. specialize (Hd t Ht). cbn [bound_of fst]. split; [lra|]. intros. lra.
  - inversion He as [|? ? ? ? Hd Hk]; subst. rewrite near_node. rewrite kids_node.
    change (a_lt arithR b (distance_to_node arithR pos half p)) with (Rltb b (distance_to_node arithR pos half p)).
    destruct (Rltb b _) eqn:C.
    { apply Rltb_iff in C. split; [apply mono_refl|].
      intros t Ht. specialize (Hd t Ht). cbn [bound_of fst]. split; [lra|]. intros. lra. }
    clear C.
    assert (V : forall i s, mono s (visit arithR p cs i s) /\
      (forall c, znth cs i = Some (Some c) -> covers p (tris_of c) (visit arithR p cs i s))).
    { intros i s. unfold visit. destruct (znth cs i) as [[c|]|] eqn:Ez.
      - pose proof (znth_In _ _ _ Ez) as Hin. destruct (IH c Hin (Hk c Hin) s) as [M Cv]. split; auto.
        intros c' E. injection E as <-. auto.
      - split; [apply mono_refl | discriminate].
      - split; [apply mono_refl | discriminate]. }
    set (idx := tt_index arithR pos half p).
    assert (G : forall is s, mono s (fold_left (fun s i => if (i =? idx)%Z then s else visit arithR p cs i s) is s) /\
      (forall i c, In i is -> i <> idx -> znth cs i = Some (Some c) ->
        covers p (tris_of c) (fold_left (fun s i => if (i =? idx)%Z then s else visit arithR p cs i s) is s))).
    { induction is as [|i is IHi]; intros s; cbn [fold_left].
      - split; [apply mono_refl | intros ? ? []].
      - destruct (Z.eqb_spec i idx) as [E|E].
        + destruct (IHi s) as [M Cv]. split; auto. intros j c [<-|Hj] Hn Ez; [contradiction | eauto].
        + destruct (V i s) as [M1 C1]. destruct (IHi (visit arithR p cs i s)) as [M Cv]. split; [eapply mono_trans; eauto|].
          intros j c [<-|Hj] Hn Ez; [|eauto]. eapply covers_mono; [|exact M]. auto. }
    destruct (V idx (b, t0, sg0)) as [M0 C0].
    destruct (G (zseq 0 8) (visit arithR p cs idx (b, t0, sg0))) as [M1 C1].
    split; [eapply mono_trans; eauto|].
    intros t Ht. apply In_kids in Ht. destruct Ht as (c & Hc & Ht).
    apply In_nth_error in Hc. destruct Hc as [n Hn].
    assert (Hn' : (n < length cs)%nat) by (apply nth_error_Some; congruence).
    assert (Ez : znth cs (Z.of_nat n) = Some (Some c)). { unfold znth. destruct (Z.ltb_spec (Z.of_nat n) 0); [lia|]. rewrite Nat2Z.id. auto. }
    destruct (Z.eq_dec (Z.of_nat n) idx) as [E|E].
    + rewrite E in Ez. apply (covers_mono _ _ _ _ (C0 c Ez) M1). auto.
    + apply (C1 (Z.of_nat n) c); auto. unfold zlen in Hlen. cbn [zseq In]. lia.
Qed.

(* ---- cubes ---- *)

Lemma box_distance : forall tr p X, in_box tr X -> distance_to_node arithR (tt_pos tr) (tt_half tr) p <= sq_dist p X.
Proof.
  intros tr p X (Hx & Hy & Hz). unfold distance_to_node, distance2, sq_dist. cbn [arithR a_add a_sub a_mul a_ofZ vx vy vz].
  assert (G : forall q h a x, q <= x <= q + 2 * h ->
    (glm_min arithR (glm_max arithR q a) (q + 2 * h) - a) * (glm_min arithR (glm_max arithR q a) (q + 2 * h) - a) <= (a - x)²).
  { intros q h a x H. unfold glm_min, glm_max. cbn [arithR a_lt]. unfold Rltb, Rsqr.
    assert (Sq : forall y z, 0 <= y <= z -> y * y <= z * z) by (intros; nra).
    destruct (Rlt_dec q a); destruct (Rlt_dec _ _).
    - replace ((q + 2 * h - a) * (q + 2 * h - a)) with ((a - (q + 2 * h)) * (a - (q + 2 * h))) by ring. apply Sq. lra.
    - rewrite Rminus_eq_0, Rmult_0_l. apply Rle_0_sqr.
    - lra.
    - replace ((a - x) * (a - x)) with ((x - a) * (x - a)) by ring. apply Sq. lra. }
  pose proof (G _ _ (vx p) _ Hx). pose proof (G _ _ (vy p) _ Hy). pose proof (G _ _ (vz p) _ Hz). lra.
Qed.

Lemma in_box_triangle : forall tr a b c X, in_box tr a -> in_box tr b -> in_box tr c -> in_triangle a b c X -> in_box tr X.
Proof.
  intros tr a b c X (Ax & Ay & Az) (Bx & By & Bz) (Cx & Cy & Cz) (u & v & w & Hu & Hv & Hw & S & ->). unfold in_box. cbn [vx vy vz].
  assert (G : forall q h x y z, q <= x <= q + 2 * h -> q <= y <= q + 2 * h -> q <= z <= q + 2 * h ->
    q <= u * x + v * y + w * z <= q + 2 * h).
  { intros q h x y z H1 H2 H3. assert (u = 1 - v - w) as -> by lra.
    set (H := 2 * h) in *. clearbody H. split; nra. }
  split; [apply G; auto|]. split; apply G; auto.
Qed.

Lemma child_in_box : forall tr i c X, 0 <= tt_half tr -> kid_at arithR (tt_pos tr) (tt_half tr) i c -> in_box c X -> in_box tr X /\ 0 <= tt_half c.
Proof.
  intros tr i c X Hh [Hp Hc] H. unfold in_box in *. rewrite Hp, Hc in H. rewrite Hc. clear Hp Hc.
  unfold child_at in H. cbn [arithR a_add a_mul a_div a_ofZ vx vy vz] in *.
  destruct (Z.land i 1 =? 0)%Z, (Z.land i 2 =? 0)%Z, (Z.land i 4 =? 0)%Z; lra.
Qed.

Lemma child_half : forall tr i c, 0 <= tt_half tr -> kid_at arithR (tt_pos tr) (tt_half tr) i c -> 0 <= tt_half c.
Proof. intros tr i c Hh [_ Hc]. rewrite Hc. cbn [arithR a_div a_ofZ]. lra. Qed.

(* Corners of the triangles lie in the cubes of their leaves. *)
Definition leaves_contain (tr : rtree) : Prop :=
  forall l t, In l (leaves_of tr) -> In t (tris_of l) -> in_box l (ta t) /\ in_box l (tb t) /\ in_box l (tc t).

Lemma contain_boxes : forall l tr, tt_ok l tr -> tt_geo arithR tr -> 0 <= tt_half tr -> leaves_contain tr ->
  forall t, In t (tris_of tr) -> in_box tr (ta t) /\ in_box tr (tb t) /\ in_box tr (tc t).
Proof.
  intros l tr H. induction H as [pos half l ts Hl Hs|pos half l cs Hl Hlen Hcs IH]; intros Hg Hh Hc t Ht.
  - apply (Hc (TLeaf pos half l ts)); auto. left. auto.
  - rewrite kids_node in Ht. apply In_kids in Ht. destruct Ht as (c & Hk & Ht).
    inversion Hg as [|? ? ? ? Hgs]; subst.
    pose proof Hk as Hk'. apply In_nth_error in Hk'. destruct Hk' as [n Hn].
    assert (Hn' : (n < length cs)%nat) by (apply nth_error_Some; congruence).
    assert (Ez : znth cs (Z.of_nat n) = Some (Some c)). { unfold znth. destruct (Z.ltb_spec (Z.of_nat n) 0); [lia|]. rewrite Nat2Z.id. auto. }
    destruct (Hgs (Z.of_nat n) c) as [K G]; [unfold zlen in Hlen; lia | auto |].
    assert (Hh' : 0 <= tt_half c) by (apply (child_half (TNode pos half l cs) (Z.of_nat n)); auto).
    assert (Hc' : leaves_contain c).
    { intros lf t' Hl' Ht'. apply Hc; auto. cbn [leaves_of]. apply in_flat_map. exists (Some c). auto. }
    destruct (IH c Hk G Hh' Hc' t Ht) as (B1 & B2 & B3).
    split; [|split]; apply (child_in_box (TNode pos half l cs) (Z.of_nat n) c); auto.
Qed.

Lemma mk_nearest : forall a b c P, proper a b c ->
  nearest a b c P (dist P (mk_triangle arithR a b c)) /\
  side P (mk_triangle arithR a b c) = (if Rlt_dec 0 (volume6 a b c P) then 1%Z else (-1)%Z).
Proof.
  intros a b c P [Q HQ].
  set (u := V3 (vx b - vx a) (vy b - vy a) (vz b - vz a)). set (v := V3 (vx c - vx a) (vy c - vy a) (vz c - vz a)).
  set (p := V3 (vx P - vx a) (vy P - vy a) (vz P - vz a)).
  assert (Eb : b = vplus a u) by (destruct b as [b1 b2 b3]; unfold vplus, u; cbn [vx vy vz]; f_equal; ring).
  assert (Ec : c = vplus a v) by (destruct c as [c1 c2 c3]; unfold vplus, v; cbn [vx vy vz]; f_equal; ring).
  assert (Ep : P = vplus a p) by (destruct P as [p1 p2 p3]; unfold vplus, p; cbn [vx vy vz]; f_equal; ring).
  set (D := ip u u * ip v v - ip u v * ip u v).
  assert (HD : 0 < D).
  { unfold D. rewrite gram.
    set (x := vy u * vz v - vz u * vy v). set (y := vz u * vx v - vx u * vz v). set (z := vx u * vy v - vy u * vx v).
    assert (E : volume6 a b c Q = (vx Q - vx a) * x + (vy Q - vy a) * y + (vz Q - vz a) * z).
    { unfold volume6, x, y, z, u, v. cbn [vx vy vz]. ring. }
    rewrite E in HQ. pose proof (Rle_0_sqr x). pose proof (Rle_0_sqr y). pose proof (Rle_0_sqr z). unfold Rsqr in *.
    destruct (Req_dec x 0) as [X0|X0]; [destruct (Req_dec y 0) as [Y0|Y0]; [destruct (Req_dec z 0) as [Z0|Z0]|]|].
    - exfalso. apply HQ. rewrite X0, Y0, Z0. ring.
    - assert (0 < z * z) by (apply Rsqr_pos_lt in Z0; auto). lra.
    - assert (0 < y * y) by (apply Rsqr_pos_lt in Y0; auto). lra.
    - assert (0 < x * x) by (apply Rsqr_pos_lt in X0; auto). lra. }
  assert (Et : mk_triangle arithR a b c = Tri a (vplus a u) (vplus a v) (normal_of u v (1 / sqrt D))).
  { unfold mk_triangle. rewrite <- Eb, <- Ec. f_equal. unfold unit3.
    assert (Ed : dot3 arithR (cross3 arithR (vsub3 arithR a b) (vsub3 arithR a c)) (cross3 arithR (vsub3 arithR a b) (vsub3 arithR a c)) = D).
    { unfold D. rewrite gram. unfold dot3, cross3, vsub3, u, v. cbn [arithR a_add a_sub a_mul vx vy vz]. ring. }
    rewrite Ed. cbn [arithR a_div a_sqrt a_ofZ]. set (k := 1 / sqrt D).
    unfold vscale3, cross3, vsub3, normal_of, u, v. cbn [arithR a_add a_sub a_mul vx vy vz]. f_equal; ring. }
  assert (Hs : 0 < sqrt D) by (apply sqrt_lt_R0; auto).
  assert (Hk : 0 < 1 / sqrt D) by (apply Rdiv_lt_0_compat; lra).
  assert (HkD : 1 / sqrt D * (1 / sqrt D) * D = 1).
  { rewrite <- (sqrt_sqrt D) at 3 by lra. field. lra. }
  destruct (distance_nearest a u v p (1 / sqrt D) Hk HkD) as [N Sd].
  rewrite Et. rewrite Eb at 1. rewrite Ec at 1. rewrite Ep. split; [exact N|].
  rewrite Sd. replace (vol u v p) with (volume6 a b c (vplus a p)); auto.
  unfold vol, volume6, u, v, p, vplus. cbn [vx vy vz]. ring.
Qed.

Lemma proper_nearest : forall t P, proper_triangle t ->
  nearest (ta t) (tb t) (tc t) P (dist P t) /\ side P t = (if Rlt_dec 0 (volume6 (ta t) (tb t) (tc t) P) then 1%Z else (-1)%Z).
Proof.
  intros t P [E H]. pose proof (mk_nearest _ _ _ P H) as G. rewrite <- E in G. exact G.
Qed.

Lemma contain_enclosed : forall p l tr, tt_ok l tr -> tt_geo arithR tr -> 0 <= tt_half tr -> leaves_contain tr ->
  (forall t, In t (tris_of tr) -> proper_triangle t) -> enclosed p tr.
Proof.
  intros p l tr H Hg Hh Hc Hp.
  assert (D : forall tr l, tt_ok l tr -> tt_geo arithR tr -> 0 <= tt_half tr -> leaves_contain tr ->
    (forall t, In t (tris_of tr) -> proper_triangle t) -> forall t, In t (tris_of tr) ->
    distance_to_node arithR (tt_pos tr) (tt_half tr) p <= dist p t).
  { intros tr' l' H' G' Hh' C' P' t Ht. destruct (proper_nearest t p (P' t Ht)) as [[(X & HX & ->) _] _].
    apply box_distance. destruct (contain_boxes l' tr' H' G' Hh' C' t Ht) as (B1 & B2 & B3).
    exact (in_box_triangle tr' _ _ _ X B1 B2 B3 HX). }
  induction H as [pos half l ts Hl Hs|pos half l cs Hl Hlen Hcs IH].
  - constructor. intros t Ht. apply (D (TLeaf pos half l ts) l); auto. constructor; auto.
  - constructor.
    + intros t Ht. apply (D (TNode pos half l cs) l); auto. constructor; auto.
    + intros c Hk. inversion Hg as [|? ? ? ? Hgs]; subst.
      pose proof Hk as Hk'. apply In_nth_error in Hk'. destruct Hk' as [n Hn].
      assert (Hn' : (n < length cs)%nat) by (apply nth_error_Some; congruence).
      assert (Ez : znth cs (Z.of_nat n) = Some (Some c)). { unfold znth. destruct (Z.ltb_spec (Z.of_nat n) 0); [lia|]. rewrite Nat2Z.id. auto. }
      destruct (Hgs (Z.of_nat n) c) as [K G]; [unfold zlen in Hlen; lia | auto |].
      apply IH; auto.
      * apply (child_half (TNode pos half l cs) (Z.of_nat n)); auto.
      * intros lf t' Hl' Ht'. apply Hc; auto. cbn [leaves_of]. apply in_flat_map. exists (Some c). auto.
      * intros t Ht. apply Hp. rewrite kids_node. apply In_kids. eauto.
Qed.
