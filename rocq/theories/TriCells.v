(* Cells of the triangle octree and the corners of the triangles. *)
From Coq Require Import ZArith List Bool Reals Lra Lia.
From Verif Require Import Base Arith RealArith TriModel TriSpec TriProofs.
Import ListNotations.
Local Open Scope Z_scope.
Notation rtree := (ttree R).

(* What insert_as_node does to the children. *)
Lemma as_node_exact : forall F (A : arith F) ins l pos half cs t cs', zlen cs = 8 -> insert_as_node A ins pos half l cs t = Ret cs' ->
  zlen cs' = 8 /\ forall j, 0 <= j < 8 ->
    let hit := j = tt_index A pos half (ta t) \/ j = tt_index A pos half (tb t) \/ j = tt_index A pos half (tc t) in
    (hit -> exists c', ins (kid A l pos half cs j) t = Ret c' /\ znth cs' j = Some (Some c')) /\
    (~ hit -> znth cs' j = znth cs j).
Proof.
  intros F A ins l pos half cs t cs' Hlen E. unfold insert_as_node in E.
  set (i1 := tt_index A pos half (ta t)) in *. set (i2 := tt_index A pos half (tb t)) in *. set (i3 := tt_index A pos half (tc t)) in *.
  pose proof (index_range A pos half (ta t) : 0 <= i1 < 8) as R1.
  pose proof (index_range A pos half (tb t) : 0 <= i2 < 8) as R2.
  pose proof (index_range A pos half (tc t) : 0 <= i3 < 8) as R3. clearbody i1 i2 i3.
  assert (B : forall ds i ds', zlen ds = 8 -> 0 <= i < 8 -> insert_by_index A ins pos half l ds i t = Ret ds' ->
    zlen ds' = 8 /\ exists c', ins (kid A l pos half ds i) t = Ret c' /\ forall j, 0 <= j < 8 -> znth ds' j = if i =? j then Some (Some c') else znth ds j).
  { clear. intros ds i ds' Hl Hi E. pose proof (insert_by_index_len A ins l pos half ds i t ds' E) as L. split; [lia|].
    unfold insert_by_index in E. unfold kid. destruct (znth_some ds i) as [x Ex]; [lia|]. rewrite Ex in *.
    destruct x as [c|]; cbn [obind] in E; [|fold (new_child A l pos half i) in E];
      (destruct (ins _ t) as [c'| | | |] eqn:Ei; try discriminate; cbn [obind] in E; injection E as <-; exists c'; split; [reflexivity|]; intros j Hj; apply set_nth_znth; lia). }
  destruct (insert_by_index A ins pos half l cs i1 t) as [cs1| | | |] eqn:E1; try discriminate. cbn [obind] in E.
  destruct (B _ _ _ Hlen R1 E1) as (L1 & c1 & I1 & Z1).
  destruct (i2 =? i1) eqn:X2.
  - cbn [obind] in E. apply Z.eqb_eq in X2. subst i2. replace ((i3 =? i1) || (i3 =? i1)) with (i3 =? i1) in E by (destruct (i3 =? i1); reflexivity).
    destruct (i3 =? i1) eqn:X3.
    + injection E as <-. apply Z.eqb_eq in X3. subst i3. split; [exact L1|]. intros j Hj. rewrite (Z1 j Hj). destruct (Z.eqb_spec i1 j) as [->|Hne].
      * split; [intros _; exists c1; auto|tauto].
      * split; [intros [H|[H|H]]; congruence|auto].
    + apply Z.eqb_neq in X3. destruct (B _ _ _ L1 R3 E) as (L3 & c3 & I3 & Z3). split; [exact L3|]. intros j Hj. rewrite (Z3 j Hj).
      destruct (Z.eqb_spec i3 j) as [->|Hne].
      * split; [intros _; exists c3; split; [|reflexivity]|tauto]. unfold kid in *. rewrite (Z1 j Hj) in I3. destruct (Z.eqb_spec i1 j); [congruence|exact I3].
      * rewrite (Z1 j Hj). destruct (Z.eqb_spec i1 j) as [->|Hne1]; [split; [intros _; exists c1; auto|tauto]|]. split; [intros [H|[H|H]]; congruence|auto].
  - apply Z.eqb_neq in X2. destruct (insert_by_index A ins pos half l cs1 i2 t) as [cs2| | | |] eqn:E2; try discriminate. cbn [obind] in E.
    destruct (B _ _ _ L1 R2 E2) as (L2 & c2 & I2 & Z2).
    assert (K2 : ins (kid A l pos half cs i2) t = Ret c2). { unfold kid in *. rewrite (Z1 i2 R2) in I2. destruct (Z.eqb_spec i1 i2); [congruence|exact I2]. }
    assert (Y : forall j, 0 <= j < 8 -> znth cs2 j = if i2 =? j then Some (Some c2) else if i1 =? j then Some (Some c1) else znth cs j).
    { intros j Hj. rewrite (Z2 j Hj). destruct (i2 =? j); [reflexivity|]. apply Z1; exact Hj. }
    destruct ((i3 =? i2) || (i3 =? i1)) eqn:X3.
    + injection E as <-. split; [exact L2|]. intros j Hj. rewrite (Y j Hj). apply orb_prop in X3. rewrite !Z.eqb_eq in X3.
      destruct (Z.eqb_spec i2 j) as [->|N2]; [split; [intros _; exists c2; auto|tauto]|]. destruct (Z.eqb_spec i1 j) as [->|N1]; [split; [intros _; exists c1; auto|tauto]|].
      split; [intros [H|[H|H]]; destruct X3; congruence|auto].
    + apply orb_false_elim in X3 as [X3 X4]. apply Z.eqb_neq in X3, X4. destruct (B _ _ _ L2 R3 E) as (L3 & c3 & I3 & Z3). split; [exact L3|]. intros j Hj. rewrite (Z3 j Hj).
      destruct (Z.eqb_spec i3 j) as [->|N3].
      { split; [intros _; exists c3; split; [|reflexivity]|tauto]. unfold kid in *. rewrite (Y j Hj) in I3. destruct (Z.eqb_spec i2 j); [congruence|]. destruct (Z.eqb_spec i1 j); [congruence|exact I3]. }
      rewrite (Y j Hj). destruct (Z.eqb_spec i2 j) as [->|N2]; [split; [intros _; exists c2; auto|tauto]|]. destruct (Z.eqb_spec i1 j) as [->|N1]; [split; [intros _; exists c1; auto|tauto]|].
      split; [intros [H|[H|H]]; congruence|auto].
Qed.

Local Open Scope R_scope.
(* The child in whose cell a point lies. *)
Lemma bits : forall x y z : bool, let i := Z.lor (Z.lor (if x then 1 else 0) (if y then 2 else 0)) (if z then 4 else 0) in
  (Z.land i 1 =? 0)%Z = negb x /\ (Z.land i 2 =? 0)%Z = negb y /\ (Z.land i 4 =? 0)%Z = negb z.
Proof. intros [] [] []; vm_compute; auto. Qed.
Lemma bits_eq : forall i (x y z : bool), (0 <= i < 8)%Z -> (Z.land i 1 =? 0)%Z = negb x -> (Z.land i 2 =? 0)%Z = negb y -> (Z.land i 4 =? 0)%Z = negb z ->
  i = Z.lor (Z.lor (if x then 1 else 0) (if y then 2 else 0)) (if z then 4 else 0).
Proof.
  intros i x y z Hi Hx Hy Hz.
  assert (H : In i [0; 1; 2; 3; 4; 5; 6; 7]%Z) by (cbn [In]; lia). cbn [In] in H.
  destruct x, y, z; decompose [or] H; subst; try contradiction; try reflexivity; vm_compute in Hx, Hy, Hz; discriminate.
Qed.

Lemma child_cell : forall pos half l cs (c : rtree) X, 0 < half -> kid_at arithR pos half (tt_index arithR pos half X) c ->
  in_cell (TNode pos half l cs) X -> in_cell c X.
Proof.
  intros pos half l cs c X Hh [Kp Kh] (Hx & Hy & Hz). unfold in_cell. rewrite Kp, Kh. unfold child_at, tt_index. cbn [arithR a_add a_mul a_div a_ofZ a_le vx vy vz tt_pos tt_half] in *.
  destruct (bits (Rleb (vx pos + half) (vx X)) (Rleb (vy pos + half) (vy X)) (Rleb (vz pos + half) (vz X))) as (B1 & B2 & B3). cbv zeta in B1, B2, B3. rewrite B1, B2, B3.
  destruct (Rleb (vx pos + half) (vx X)) eqn:C1; [apply Rleb_iff in C1|apply Rleb_false in C1];
  (destruct (Rleb (vy pos + half) (vy X)) eqn:C2; [apply Rleb_iff in C2|apply Rleb_false in C2]);
  (destruct (Rleb (vz pos + half) (vz X)) eqn:C3; [apply Rleb_iff in C3|apply Rleb_false in C3]); cbn [negb]; lra.
Qed.

Lemma cell_child : forall pos half l cs i (c : rtree) X, 0 < half -> (0 <= i < 8)%Z -> kid_at arithR pos half i c -> in_cell c X ->
  in_cell (TNode pos half l cs) X /\ i = tt_index arithR pos half X.
Proof.
  intros pos half l cs i c X Hh Hi [Kp Kh] H. unfold in_cell in *. rewrite Kp, Kh in H. unfold child_at in H. cbn [arithR a_add a_mul a_div a_ofZ vx vy vz tt_pos tt_half] in *.
  assert (S : forall (b : bool) p x, p + IZR (if b then 0 else 1) * half <= x < p + IZR (if b then 0 else 1) * half + 2 * (half / 2) ->
    (p <= x < p + 2 * half) /\ b = negb (Rleb (p + half) x)).
  { intros b p x Hb. destruct b; (split; [lra|]).
    - assert (Y : Rleb (p + half) x = false) by (apply Rleb_false; lra). rewrite Y. reflexivity.
    - assert (Y : Rleb (p + half) x = true) by (apply Rleb_iff; lra). rewrite Y. reflexivity. }
  destruct H as (H1 & H2 & H3). apply S in H1 as [H1 E1]. apply S in H2 as [H2 E2]. apply S in H3 as [H3 E3].
  split; [auto|]. unfold tt_index. cbn [arithR a_add a_le]. apply bits_eq; assumption.
Qed.

Lemma znth_of_in : forall T (l : list T) x, In x l -> exists i, (0 <= i < zlen l)%Z /\ znth l i = Some x.
Proof.
  intros T l x H. apply In_nth_error in H as [n Hn]. exists (Z.of_nat n). assert (n < length l)%nat by (apply nth_error_Some; congruence).
  split; [unfold zlen; lia|]. unfold znth. destruct (Z.ltb_spec (Z.of_nat n) 0); [lia|]. rewrite Nat2Z.id. exact Hn.
Qed.

(* Cells of the leaves: inside the cell of the tree and disjoint. *)
Lemma leaf_cells : forall l tr, tt_ok l tr -> tt_geo arithR tr -> 0 < tt_half tr ->
  forall lf X, In lf (leaves_of tr) -> in_cell lf X -> in_cell tr X /\ forall lf', In lf' (leaves_of tr) -> in_cell lf' X -> lf' = lf.
Proof.
  intros l tr H. induction H as [pos half l ts Hl Hs|pos half l cs Hl Hlen Hcs IH]; intros Hg Hh lf X Hlf HX.
  - cbn [leaves_of] in *. destruct Hlf as [<-|[]]. split; [exact HX|]. intros lf' [<-|[]] _. reflexivity.
  - inversion Hg as [|? ? ? ? Hgs]; subst. cbn [tt_half] in Hh.
    assert (P : forall lf', In lf' (leaves_of (TNode pos half l cs)) -> in_cell lf' X -> exists i c, (0 <= i < 8)%Z /\ znth cs i = Some (Some c) /\ In lf' (leaves_of c) /\
      in_cell c X /\ i = tt_index arithR pos half X /\ in_cell (TNode pos half l cs) X /\ forall lf2, In lf2 (leaves_of c) -> in_cell lf2 X -> lf2 = lf').
    { intros lf' H1 H2. cbn [leaves_of] in H1. apply in_flat_map in H1 as ([c|] & Hc & H1); [|destruct H1].
      destruct (znth_of_in _ _ _ Hc) as (i & Hi & Ez). rewrite Hlen in Hi. destruct (Hgs i c Hi Ez) as [K Gc].
      assert (Hh' : 0 < tt_half c) by (destruct K as [_ ->]; cbn [arithR a_div a_ofZ]; lra).
      destruct (IH c Hc Gc Hh' lf' X H1 H2) as [I1 I2]. destruct (cell_child pos half l cs i c X Hh Hi K I1) as [J1 J2]. exists i, c. auto 10. }
    destruct (P lf Hlf HX) as (i & c & P1 & P2 & P3 & P4 & P5 & P6 & P7). split; [exact P6|].
    intros lf' H1 H2. destruct (P lf' H1 H2) as (j & c' & Q1 & Q2 & Q3 & Q4 & Q5 & _). assert (c' = c) by congruence. subst c'. auto.
Qed.

Definition full_at (tr : rtree) (X : rvec) : Prop := exists lf, In lf (leaves_of tr) /\ in_cell lf X /\ ~ has_room lf.
Definition keeps (tr : rtree) (t : triangle R) (tr' : rtree) : Prop :=
  (forall x X, corner_of x X -> kept_at tr X x -> kept_at tr' X x) /\
  (forall X, corner_of t X -> in_cell tr X -> kept_at tr' X t \/ full_at tr X).

Lemma kept_node : forall pos half l cs X x, kept_at (TNode pos half l cs) X x <-> exists c, In (Some c) cs /\ kept_at c X x.
Proof.
  intros pos half l cs X x. unfold kept_at. split.
  - intros (lf & H1 & H2 & H3). cbn [leaves_of] in H1. apply in_flat_map in H1 as ([c|] & Hc & H1); [|destruct H1]. exists c. split; [exact Hc|]. exists lf. auto.
  - intros (c & Hc & lf & H1 & H2 & H3). exists lf. split; [|auto]. cbn [leaves_of]. apply in_flat_map. exists (Some c). auto.
Qed.

Lemma node_keeps : forall ins l pos half cs t cs', (0 <= l < 15)%Z -> 0 < half -> zlen cs = 8%Z ->
  (forall c, In (Some c) cs -> tt_ok (l + 1) c) -> (forall i c, (0 <= i < 8)%Z -> znth cs i = Some (Some c) -> kid_at arithR pos half i c /\ tt_geo arithR c) ->
  (forall tr tr', tt_ok (l + 1) tr -> tt_geo arithR tr -> 0 < tt_half tr -> ins tr t = Ret tr' -> keeps tr t tr') ->
  insert_as_node arithR ins pos half l cs t = Ret cs' -> keeps (TNode pos half l cs) t (TNode pos half l cs').
Proof.
  intros ins l pos half cs t cs' Hl Hh Hlen Hok Hgs Hins E. destruct (as_node_exact _ _ _ _ _ _ _ _ _ Hlen E) as [L' N].
  assert (Kd : forall j, (0 <= j < 8)%Z -> tt_ok (l + 1) (kid arithR l pos half cs j) /\ tt_geo arithR (kid arithR l pos half cs j) /\ kid_at arithR pos half j (kid arithR l pos half cs j)).
  { intros j Hj. unfold kid. destruct (znth cs j) as [[c|]|] eqn:Ez.
    - split; [apply Hok; eapply znth_In; eauto|]. destruct (Hgs j c Hj Ez). auto.
    - split; [apply ok_leaf; [lia|cbn; lia]|]. split; [constructor|split; reflexivity].
    - split; [apply ok_leaf; [lia|cbn; lia]|]. split; [constructor|split; reflexivity]. }
  assert (Hk : forall j, (0 <= j < 8)%Z -> 0 < tt_half (kid arithR l pos half cs j)).
  { intros j Hj. destruct (Kd j Hj) as (_ & _ & [_ ->]). cbn [arithR a_div a_ofZ]. lra. }
  split.
  - intros x X Hx HX. apply kept_node in HX as (c & Hc & HX). apply kept_node.
    destruct (znth_of_in _ _ _ Hc) as (i & Hi & Ez). rewrite Hlen in Hi. destruct (N i Hi) as [N1 N2].
    assert (Dec : forall a b c : Z, (i = a \/ i = b \/ i = c) \/ ~ (i = a \/ i = b \/ i = c)) by (intros; lia).
    destruct (Dec (tt_index arithR pos half (ta t)) (tt_index arithR pos half (tb t)) (tt_index arithR pos half (tc t))) as [D|D].
    + destruct (N1 D) as (c' & I1 & I2). exists c'. split; [eapply znth_In; exact I2|]. destruct (Kd i Hi) as (K1 & K2 & _).
      destruct (Hins _ _ K1 K2 (Hk i Hi) I1) as [S1 _]. apply S1; [exact Hx|]. unfold kid. rewrite Ez. exact HX.
    + specialize (N2 D). exists c. split; [eapply znth_In; rewrite N2; exact Ez|exact HX].
  - intros X Hx HX. set (i := tt_index arithR pos half X). pose proof (index_range arithR pos half X : (0 <= i < 8)%Z) as Hi. destruct (N i Hi) as [N1 _].
    destruct N1 as (c' & I1 & I2). { unfold i. destruct Hx as [->|[->| ->]]; auto. }
    destruct (Kd i Hi) as (K1 & K2 & K3). destruct (Hins _ _ K1 K2 (Hk i Hi) I1) as [_ S2].
    destruct (S2 X Hx (child_cell pos half l cs _ X Hh K3 HX)) as [S|(lf & F1 & F2 & F3)].
    + left. apply kept_node. exists c'. split; [eapply znth_In; exact I2|exact S].
    + right. unfold kid in F1. destruct (znth cs i) as [[c|]|] eqn:Ez.
      * exists lf. split; [|auto]. cbn [leaves_of]. apply in_flat_map. exists (Some c). split; [eapply znth_In; exact Ez|exact F1].
      * exfalso. destruct F1 as [<-|[]]. apply F3. left. cbn. lia.
      * exfalso. destruct F1 as [<-|[]]. apply F3. left. cbn. lia.
Qed.

(* The children of a leaf which is being split. *)
Definition small_kids (pos : rvec) (half : R) (l k : Z) (cs : list (option rtree)) : Prop := zlen cs = 8%Z /\
  forall i c, (0 <= i < 8)%Z -> znth cs i = Some (Some c) -> exists ts, c = TLeaf (child_at arithR pos half i) (half / 2) (l + 1) ts /\ (zlen ts <= k)%Z.

Lemma small_ok : forall pos half l k cs, (0 <= l < 15)%Z -> (k <= 60)%Z -> small_kids pos half l k cs ->
  (forall c, In (Some c) cs -> tt_ok (l + 1) c) /\ (forall i c, (0 <= i < 8)%Z -> znth cs i = Some (Some c) -> kid_at arithR pos half i c /\ tt_geo arithR c).
Proof.
  intros pos half l k cs Hl Hk [L S]. split.
  - intros c Hc. destruct (znth_of_in _ _ _ Hc) as (i & Hi & Ez). destruct (S i c ltac:(lia) Ez) as (ts & -> & Hts). apply ok_leaf; lia.
  - intros i c Hi Ez. destruct (S i c Hi Ez) as (ts & -> & Hts). split; [split; reflexivity|constructor].
Qed.

Lemma split_keeps : forall fuel l pos half, (0 <= l < 15)%Z -> 0 < half ->
  (forall t tr tr', tt_ok (l + 1) tr -> tt_geo arithR tr -> 0 < tt_half tr -> tt_insert arithR (S fuel) tr t = Ret tr' -> keeps tr t tr') ->
  forall us k cs cs', (0 <= k)%Z -> (k + zlen us <= 60)%Z -> small_kids pos half l k cs ->
  ofold (fun cs t' => insert_as_node arithR (tt_insert arithR (S fuel)) pos half l cs t') us cs = Ret cs' ->
  (forall x X, corner_of x X -> kept_at (TNode pos half l cs) X x -> kept_at (TNode pos half l cs') X x) /\
  (forall x X, In x us -> corner_of x X -> in_cell (TNode pos half l cs) X -> kept_at (TNode pos half l cs') X x).
Proof.
  intros fuel l pos half Hl Hh Hins. induction us as [|t us IH]; intros k cs cs' Hk Hb S E; cbn [ofold] in E.
  - injection E as <-. split; [auto|]. intros x X [].
  - assert (Zc : zlen (t :: us) = (zlen us + 1)%Z) by (unfold zlen; cbn [length]; lia).
    assert (Hz : (0 <= zlen us)%Z) by (unfold zlen; lia).
    destruct (insert_as_node arithR (tt_insert arithR (Datatypes.S fuel)) pos half l cs t) as [cs1| | | |] eqn:E1; try discriminate. cbn [obind] in E.
    destruct (small_ok pos half l k cs Hl ltac:(lia) S) as [O G]. destruct S as [L S].
    destruct (node_keeps _ _ _ _ _ _ _ Hl Hh L O G (Hins t) E1) as [K1 K2].
    destruct (as_node_exact _ _ _ _ _ _ _ _ _ L E1) as [L1 N].
    assert (S1 : small_kids pos half l (k + 1) cs1).
    { split; [exact L1|]. intros i c Hi Ez. destruct (N i Hi) as [N1 N2].
      assert (Dec : forall a b c : Z, (i = a \/ i = b \/ i = c) \/ ~ (i = a \/ i = b \/ i = c)) by (intros; lia).
      destruct (Dec (tt_index arithR pos half (ta t)) (tt_index arithR pos half (tb t)) (tt_index arithR pos half (tc t))) as [D|D].
      - destruct (N1 D) as (c' & I1 & I2). rewrite I2 in Ez. injection Ez as <-.
        assert (Hkid : exists ts, kid arithR l pos half cs i = TLeaf (child_at arithR pos half i) (half / 2) (l + 1) ts /\ (zlen ts <= k)%Z).
        { unfold kid. destruct (znth cs i) as [[c|]|] eqn:Ez0; [apply S; auto| |]; (exists []; split; [reflexivity|cbn; lia]). }
        destruct Hkid as (ts & Ek & Hts). rewrite Ek in I1. cbn [tt_insert] in I1.
        destruct (Z.ltb_spec (zlen ts) split_limit) as [Q|Q]; [|unfold split_limit in Q; lia]. cbn [orb] in I1. injection I1 as <-.
        exists (ts ++ [t]). split; [reflexivity|]. rewrite zlen_app. change (zlen [t]) with 1%Z. lia.
      - rewrite (N2 D) in Ez. destruct (S i c Hi Ez) as (ts & -> & Hts). exists ts. split; [reflexivity|lia]. }
    destruct (IH (k + 1)%Z cs1 cs' ltac:(lia) ltac:(lia) S1 E) as [J1 J2]. split.
    + intros x X Hx HX. apply J1; auto.
    + intros x X [<-|Hx] Hc HX; [|apply J2; auto]. apply J1; [exact Hc|]. destruct (K2 X Hc HX) as [Q|(lf & F1 & F2 & F3)]; [exact Q|]. exfalso.
      cbn [leaves_of] in F1. apply in_flat_map in F1 as ([c|] & Hcc & F1); [|destruct F1]. destruct (znth_of_in _ _ _ Hcc) as (i & Hi & Ez).
      destruct (S i c ltac:(lia) Ez) as (ts & -> & Hts). destruct F1 as [<-|[]]. apply F3. left. cbn [tris_of]. lia.
Qed.

Lemma insert_keeps : forall fuel l tr t tr', tt_ok l tr -> (16 <= l + Z.of_nat fuel)%Z -> tt_geo arithR tr -> 0 < tt_half tr ->
  tt_insert arithR fuel tr t = Ret tr' -> keeps tr t tr'.
Proof.
  induction fuel as [|fuel IH]; intros l tr t tr' Hok Hf Hg Hh E; [discriminate|].
  destruct Hok as [pos half l ts Hl Hs|pos half l cs Hl Hlen Hcs]; cbn [tt_insert tt_half] in *.
  - destruct ((zlen ts <? split_limit) || (max_depth <=? l))%Z eqn:C.
    + injection E as <-. split.
      * intros x X _ (lf & [<-|[]] & H2 & H3). exists (TLeaf pos half l (ts ++ [t])). split; [left; reflexivity|]. split; [exact H2|]. cbn [tris_of] in *. apply in_or_app. auto.
      * intros X _ HX. left. exists (TLeaf pos half l (ts ++ [t])). split; [left; reflexivity|]. split; [exact HX|]. cbn [tris_of]. apply in_or_app. right. left. reflexivity.
    + apply orb_false_elim in C. unfold split_limit, max_depth in C. rewrite Z.ltb_ge, Z.leb_gt in C. destruct C as [C1 C2].
      destruct fuel as [|fuel']; [lia|].
      destruct (ofold _ ts (repeat None 8)) as [cs'| | | |] eqn:Eo; try discriminate. cbn [obind] in E. injection E as <-.
      destruct (split_keeps fuel' l pos half ltac:(lia) Hh) with (us := ts) (k := 0%Z) (cs := @repeat (option rtree) None 8) (cs' := cs') as [_ K2]; try lia.
      * intros t' x x' H1 H2 H3 H4. apply (IH (l + 1)%Z); auto. lia.
      * split; [reflexivity|]. intros i c _ Hz. apply znth_In, repeat_spec in Hz. discriminate.
      * exact Eo.
      * split.
        -- intros x X Hx (lf & [<-|[]] & H2 & H3). apply K2; auto.
        -- intros X _ HX. right. exists (TLeaf pos half l ts). split; [left; reflexivity|]. split; [exact HX|]. unfold has_room. cbn [tris_of tt_level]. lia.
  - destruct (insert_as_node arithR (tt_insert arithR fuel) pos half l cs t) as [cs'| | | |] eqn:E1; try discriminate. cbn [obind] in E. injection E as <-.
    inversion Hg as [|? ? ? ? Hgs]; subst.
    apply (node_keeps (tt_insert arithR fuel)); auto.
    intros x x' H1 H2 H3 H4. apply (IH (l + 1)%Z); auto. lia.
Qed.
