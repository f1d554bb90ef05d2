(* Insertion into a triangle octree, in any arithmetic. *)
From Coq Require Import ZArith List Bool Lia.
From Verif Require Import Base Arith TriModel TriSpec.
Import ListNotations.
Local Open Scope Z_scope.

Section Tri.
Context {F : Type}.
Variable A : arith F.
Notation tree := (ttree F).

Lemma index_range : forall pos half p, 0 <= tt_index A pos half p < 8.
Proof. intros. unfold tt_index. repeat destruct (a_le A _ _); cbn; lia. Qed.

Lemma znth_some : forall {X} (l : list X) i, 0 <= i < zlen l -> exists x, znth l i = Some x.
Proof.
  intros X l i H. unfold znth. destruct (Z.ltb_spec i 0); [lia|]. destruct (nth_error l (Z.to_nat i)) eqn:E; eauto.
  apply nth_error_None in E. unfold zlen in H. lia.
Qed.

Lemma znth_In : forall {X} (l : list X) i x, znth l i = Some x -> In x l.
Proof. intros X l i x H. unfold znth in H. destruct (i <? 0); [discriminate|]. eapply nth_error_In; eauto. Qed.

Lemma set_nth_len : forall {X} (l : list X) n x, length (set_nth l n x) = length l.
Proof. induction l; destruct n; cbn; intros; auto. Qed.

Lemma In_set_nth : forall {X} (l : list X) n x y, In y (set_nth l n x) -> y = x \/ In y l.
Proof.
  induction l; destruct n; cbn; intros x y H; auto.
  - destruct H; auto.
  - destruct H; auto. apply IHl in H. destruct H; auto.
Qed.

Lemma set_nth_In : forall {X} (l : list X) n x, (n < length l)%nat -> In x (set_nth l n x).
Proof. induction l; destruct n; cbn; intros x H; auto; try lia. right. apply IHl. lia. Qed.

Lemma set_nth_old : forall {X} (l : list X) n x y z, nth_error l n = Some z -> In y l -> y = z \/ In y (set_nth l n x).
Proof.
  induction l; destruct n; cbn; intros x y z H Hy; try discriminate.
  - injection H as ->. destruct Hy; auto.
  - destruct Hy as [->|Hy]; auto. destruct (IHl n x y z H Hy); auto.
Qed.

(* Triangles of the children *)
Definition kids (cs : list (option tree)) : list (triangle F) :=
  flat_map (fun c => match c with Some c' => tris_of c' | None => [] end) cs.
Lemma In_kids : forall cs t, In t (kids cs) <-> exists c, In (Some c) cs /\ In t (tris_of c).
Proof.
  intros cs t. unfold kids. rewrite in_flat_map. split.
  - intros ([c|] & H1 & H2); [eauto | contradiction].
  - intros (c & H1 & H2). exists (Some c). auto.
Qed.

(* Shape of the trees made by insertion *)
Inductive tt_ok : Z -> tree -> Prop :=
| ok_leaf : forall pos half l ts, 0 <= l <= 15 -> (l < 15 -> zlen ts <= 60) -> tt_ok l (TLeaf pos half l ts)
| ok_node : forall pos half l cs, 0 <= l < 15 -> zlen cs = 8 -> (forall c, In (Some c) cs -> tt_ok (l + 1) c) ->
    tt_ok l (TNode pos half l cs).

Definition roomy (t : tree) : Prop := forall l, In l (leaves_of t) -> has_room l.

(* What one insertion does *)
Definition ins_ok (l : Z) (tr : tree) (t : triangle F) (tr' : tree) : Prop :=
  tt_ok l tr' /\ tt_pos tr' = tt_pos tr /\ tt_half tr' = tt_half tr /\
  (forall x, In x (tris_of tr) -> In x (tris_of tr')) /\
  (forall x, In x (tris_of tr') -> x = t \/ In x (tris_of tr)) /\
  (roomy tr -> In t (tris_of tr')).

(* Geometry of the children, used below for distances *)
Definition kid_at (pos : vec3 F) (half : F) (i : Z) (c : tree) : Prop :=
  tt_pos c = child_at A pos half i /\ tt_half c = a_div A half (a_ofZ A 2).

Section Children.
Variable ins : tree -> triangle F -> outcome tree.
Variable l : Z.
Variable pos : vec3 F.
Variable half : F.

Definition new_child (i : Z) : tree := tt_new (a_div A half (a_ofZ A 2)) (l + 1) (child_at A pos half i).
Definition kid (cs : list (option tree)) (i : Z) : tree :=
  match znth cs i with Some (Some c) => c | _ => new_child i end.

Lemma insert_by_index_run : forall cs i t c', zlen cs = 8 -> 0 <= i < 8 -> ins (kid cs i) t = Ret c' ->
  insert_by_index A ins pos half l cs i t = Ret (set_nth cs (Z.to_nat i) (Some c')).
Proof.
  intros cs i t c' L Hi E. unfold insert_by_index. unfold kid in E.
  destruct (znth_some cs i) as [x Ex]; [lia|]. rewrite Ex in *. destruct x as [c|]; cbn [obind]; [|fold (new_child i)]; rewrite E; reflexivity.
Qed.

Lemma insert_by_index_len : forall cs i t cs', insert_by_index A ins pos half l cs i t = Ret cs' -> zlen cs' = zlen cs.
Proof.
  intros cs i t cs' E. unfold insert_by_index in E. destruct (znth cs i) as [[c|]|]; cbn [obind] in E; try discriminate;
    (destruct (ins _ t); try discriminate; cbn [obind] in E; injection E as <-; unfold zlen; rewrite set_nth_len; reflexivity).
Qed.

Lemma set_nth_znth : forall (cs : list (option tree)) i j c, 0 <= i -> 0 <= j < zlen cs ->
  znth (set_nth cs (Z.to_nat i) c) j = if i =? j then Some c else znth cs j.
Proof.
  intros cs i j c Hi Hj. unfold znth. destruct (Z.ltb_spec j 0); [lia|].
  assert (G : forall (cs : list (option tree)) n m, (m < length cs)%nat -> nth_error (set_nth cs n c) m = if Nat.eqb n m then Some c else nth_error cs m).
  { induction cs0; cbn; intros n m Hm; [lia|]. destruct n, m; cbn; auto. apply IHcs0. lia. }
  rewrite G by (unfold zlen in Hj; lia).
  destruct (Z.eqb_spec i j), (Nat.eqb_spec (Z.to_nat i) (Z.to_nat j)); auto; try lia; subst; congruence.
Qed.
End Children.

(* Insertion into one child *)
Lemma by_index_ok : forall ins l pos half cs i t,
  zlen cs = 8 -> 0 <= i < 8 -> 0 <= l < 15 -> (forall c, In (Some c) cs -> tt_ok (l + 1) c) ->
  (forall tr, tt_ok (l + 1) tr -> exists tr', ins tr t = Ret tr' /\ ins_ok (l + 1) tr t tr') ->
  exists c', insert_by_index A ins pos half l cs i t = Ret (set_nth cs (Z.to_nat i) (Some c')) /\
    ins ((kid l pos half cs i)) t = Ret c' /\
    tt_ok (l + 1) c' /\ ins_ok (l + 1) (kid l pos half cs i) t c' /\
    (forall c, In (Some c) (set_nth cs (Z.to_nat i) (Some c')) -> tt_ok (l + 1) c) /\
    (forall x, In x (kids cs) -> In x (kids (set_nth cs (Z.to_nat i) (Some c')))) /\
    (forall x, In x (kids (set_nth cs (Z.to_nat i) (Some c'))) -> x = t \/ In x (kids cs)) /\
    (roomy (kid l pos half cs i) -> In t (kids (set_nth cs (Z.to_nat i) (Some c')))).
Proof.
  intros ins l pos half cs i t Hlen Hi Hl Hok Hins.
  assert (Kok : tt_ok (l + 1) (kid l pos half cs i)).
  { unfold kid. destruct (znth cs i) as [[c|]|] eqn:Ez.
    - apply Hok. eapply znth_In; eauto.
    - apply ok_leaf; [lia | cbn; lia].
    - apply ok_leaf; [lia | cbn; lia]. }
  destruct (Hins _ Kok) as (c' & E & O). exists c'.
  pose proof O as (O1 & O2 & O3 & O4 & O5 & O6).
  assert (Hn : (Z.to_nat i < length cs)%nat) by (unfold zlen in Hlen; lia).
  split; [apply insert_by_index_run; auto|]. split; [auto|]. split; [auto|]. split; [auto|].
  split; [|split; [|split]].
  - intros c Hc. apply In_set_nth in Hc. destruct Hc as [Hc|Hc]; [injection Hc as ->; auto | auto].
  - intros x Hx. apply In_kids in Hx. destruct Hx as (c & Hc & Hx). apply In_kids.
    destruct (znth_some cs i) as [z Ez]; [lia|]. unfold znth in Ez. destruct (Z.ltb_spec i 0); [lia|].
    destruct (set_nth_old cs _ (Some c') (Some c) z Ez Hc) as [Q|Q].
    + exists c'. split; [apply set_nth_In; auto|]. apply O4. unfold kid, znth. destruct (Z.ltb_spec i 0); [lia|].
      rewrite Ez, <- Q. auto.
    + exists c. auto.
  - intros x Hx. apply In_kids in Hx. destruct Hx as (c & Hc & Hx). apply In_set_nth in Hc. destruct Hc as [Hc|Hc].
    + injection Hc as ->. destruct (O5 x Hx) as [|Q]; auto. right. unfold kid in Q.
      destruct (znth cs i) as [[c|]|] eqn:Ez; [|contradiction|contradiction].
      apply In_kids. exists c. split; auto. eapply znth_In; eauto.
    + right. apply In_kids. eauto.
  - intros Rm. apply In_kids. exists c'. split; [apply set_nth_In; auto | auto].
Qed.

Lemma kid_roomy : forall l pos half cs i, 0 <= l < 15 -> (forall c, In (Some c) cs -> roomy c) -> roomy (kid l pos half cs i).
Proof.
  intros l pos half cs i Hl H. unfold kid. destruct (znth cs i) as [[c|]|] eqn:Ez.
  - apply H. eapply znth_In; eauto.
  - intros x [<-|[]]. left. cbn. lia.
  - intros x [<-|[]]. left. cbn. lia.
Qed.

(* Insertion into a node; [Q] is a property of children kept by the insertions *)
Lemma as_node_ok : forall ins l pos half cs t (Q : tree -> tree -> Prop),
  zlen cs = 8 -> 0 <= l < 15 -> (forall c, In (Some c) cs -> tt_ok (l + 1) c) ->
  (forall tr, tt_ok (l + 1) tr -> exists tr', ins tr t = Ret tr' /\ ins_ok (l + 1) tr t tr') ->
  (forall tr tr', tt_ok (l + 1) tr -> ins tr t = Ret tr' -> Q tr tr') ->
  exists cs', insert_as_node A ins pos half l cs t = Ret cs' /\ zlen cs' = 8 /\
    (forall c, In (Some c) cs' -> tt_ok (l + 1) c) /\
    (forall x, In x (kids cs) -> In x (kids cs')) /\
    (forall x, In x (kids cs') -> x = t \/ In x (kids cs)) /\
    ((forall c, In (Some c) cs -> roomy c) -> In t (kids cs')) /\
    (forall i c', 0 <= i < 8 -> znth cs' i = Some (Some c') ->
       znth cs i = Some (Some c') \/ Q (kid l pos half cs i) c').
Proof.
  intros ins l pos half cs t Q Hlen Hl Hok Hins HQ. unfold insert_as_node.
  set (i1 := tt_index A pos half (ta t)). set (i2 := tt_index A pos half (tb t)). set (i3 := tt_index A pos half (tc t)).
  pose proof (index_range pos half (ta t) : 0 <= i1 < 8) as R1.
  pose proof (index_range pos half (tb t) : 0 <= i2 < 8) as R2.
  pose proof (index_range pos half (tc t) : 0 <= i3 < 8) as R3.
  assert (Kok : forall cs i, (forall c, In (Some c) cs -> tt_ok (l + 1) c) -> tt_ok (l + 1) (kid l pos half cs i)).
  { intros cs0 i H. unfold kid. destruct (znth cs0 i) as [[c|]|] eqn:Ez.
    - apply H. eapply znth_In; eauto.
    - apply ok_leaf; [lia | cbn; lia].
    - apply ok_leaf; [lia | cbn; lia]. }
  destruct (by_index_ok ins l pos half cs i1 t Hlen R1 Hl Hok Hins) as (c1 & E1 & N1 & A1 & _ & B1 & C1 & D1 & F1).
  rewrite E1. cbn [obind]. set (cs1 := set_nth cs (Z.to_nat i1) (Some c1)) in *.
  assert (L1 : zlen cs1 = 8) by (unfold cs1, zlen; rewrite set_nth_len; exact Hlen).
  assert (Z1 : forall j, 0 <= j < 8 -> znth cs1 j = if i1 =? j then Some (Some c1) else znth cs j).
  { intros j Hj. unfold cs1. apply set_nth_znth; lia. }
  assert (Q1 : Q (kid l pos half cs i1) c1) by (apply HQ; auto).
  assert (S2 : exists cs2, (if i2 =? i1 then Ret cs1 else insert_by_index A ins pos half l cs1 i2 t) = Ret cs2 /\ zlen cs2 = 8 /\
     (forall c, In (Some c) cs2 -> tt_ok (l + 1) c) /\ (forall x, In x (kids cs1) -> In x (kids cs2)) /\
     (forall x, In x (kids cs2) -> x = t \/ In x (kids cs1)) /\
     exists c2, (forall j, 0 <= j < 8 -> znth cs2 j = if (i2 =? j) && negb (i2 =? i1) then Some (Some c2) else znth cs1 j) /\
       (i2 <> i1 -> Q (kid l pos half cs i2) c2)).
  { destruct (Z.eqb_spec i2 i1) as [E|E].
    - exists cs1. split; [reflexivity|]. split; [auto|]. split; [auto|]. split; [auto|]. split; [auto|]. exists c1.
      split; [intros; rewrite andb_false_r; auto | intros; contradiction].
    - destruct (by_index_ok ins l pos half cs1 i2 t L1 R2 Hl B1 Hins) as (c2 & E2 & N2 & A2 & _ & B2 & C2 & D2 & F2).
      eexists. split; [exact E2|]. split; [unfold zlen; rewrite set_nth_len; exact L1|]. split; [auto|]. split; [auto|]. split; [auto|].
      exists c2. split.
      + intros j Hj. rewrite andb_true_r. apply set_nth_znth; lia.
      + intros _. apply HQ; [apply Kok; auto|].
        replace (kid l pos half cs i2) with (kid l pos half cs1 i2); auto.
        unfold kid. rewrite Z1 by lia. destruct (Z.eqb_spec i1 i2); [congruence | reflexivity]. }
  destruct S2 as (cs2 & E2 & L2 & B2 & C2 & D2 & c2 & Z2 & Q2). rewrite E2. cbn [obind].
  assert (S3 : exists cs3, (if (i3 =? i2) || (i3 =? i1) then Ret cs2 else insert_by_index A ins pos half l cs2 i3 t) = Ret cs3 /\ zlen cs3 = 8 /\
     (forall c, In (Some c) cs3 -> tt_ok (l + 1) c) /\ (forall x, In x (kids cs2) -> In x (kids cs3)) /\
     (forall x, In x (kids cs3) -> x = t \/ In x (kids cs2)) /\
     exists c3, (forall j, 0 <= j < 8 -> znth cs3 j = if (i3 =? j) && negb ((i3 =? i2) || (i3 =? i1)) then Some (Some c3) else znth cs2 j) /\
       ((i3 =? i2) || (i3 =? i1) = false -> Q (kid l pos half cs i3) c3)).
  { destruct ((i3 =? i2) || (i3 =? i1)) eqn:E.
    - exists cs2. split; [reflexivity|]. split; [auto|]. split; [auto|]. split; [auto|]. split; [auto|]. exists c1.
      split; [intros; rewrite andb_false_r; auto | discriminate].
    - destruct (by_index_ok ins l pos half cs2 i3 t L2 R3 Hl B2 Hins) as (c3 & E3 & N3 & A3 & _ & B3 & C3 & D3 & F3).
      eexists. split; [exact E3|]. split; [unfold zlen; rewrite set_nth_len; exact L2|]. split; [auto|]. split; [auto|]. split; [auto|].
      exists c3. split.
      + intros j Hj. rewrite andb_true_r. apply set_nth_znth; lia.
      + intros _. apply orb_false_elim in E. destruct E as [Ea Eb]. apply Z.eqb_neq in Ea, Eb.
        apply HQ; [apply Kok; auto|].
        replace (kid l pos half cs i3) with (kid l pos half cs2 i3); auto.
        unfold kid. rewrite Z2 by lia. destruct (Z.eqb_spec i2 i3); [congruence|]. cbn [andb]. rewrite Z1 by lia.
        destruct (Z.eqb_spec i1 i3); [congruence | reflexivity]. }
  destruct S3 as (cs3 & E3 & L3 & B3 & C3 & D3 & c3 & Z3 & Q3). rewrite E3.
  exists cs3. split; [reflexivity|]. split; [auto|]. split; [auto|]. split; [auto|]. split; [|split].
  - intros x Hx. destruct (D3 x Hx) as [|Hx2]; auto. destruct (D2 x Hx2) as [|Hx1]; auto.
  - intros Rm. apply C3, C2, F1. apply kid_roomy; auto.
  - intros i c' Hi Ez. rewrite Z3 in Ez by auto. destruct ((i3 =? i) && negb ((i3 =? i2) || (i3 =? i1))) eqn:G3.
    { injection Ez as <-. apply andb_prop in G3. destruct G3 as [G G']. apply Z.eqb_eq in G. subst i. right. apply Q3.
      apply negb_true_iff in G'. auto. }
    rewrite Z2 in Ez by auto. destruct ((i2 =? i) && negb (i2 =? i1)) eqn:G2.
    { injection Ez as <-. apply andb_prop in G2. destruct G2 as [G G']. apply Z.eqb_eq in G. subst i. right. apply Q2.
      apply negb_true_iff, Z.eqb_neq in G'. auto. }
    rewrite Z1 in Ez by auto. destruct (Z.eqb_spec i1 i) as [G|G]; [|auto].
    injection Ez as <-. subst i. right. auto.
Qed.

(* Distribution of the triangles of a full leaf *)
Definition small_leaf (k : Z) (c : tree) : Prop := match c with TLeaf _ _ _ ts => zlen ts <= k | TNode _ _ _ _ => False end.

Lemma zlen_app : forall {X} (l l' : list X), zlen (l ++ l') = zlen l + zlen l'.
Proof. intros. unfold zlen. rewrite app_length. lia. Qed.

Lemma small_roomy : forall k c, k < 60 -> small_leaf k c -> roomy c.
Proof. intros k [pos half l ts|pos half l cs] Hk H; [|contradiction]. intros x [<-|[]]. left. cbn in H. lia. Qed.

Lemma distribute : forall fuel l pos half, 0 <= l < 15 ->
  (forall t tr, tt_ok (l + 1) tr -> exists tr', tt_insert A (S fuel) tr t = Ret tr' /\ ins_ok (l + 1) tr t tr') ->
  forall ts k cs, 0 <= k -> k + zlen ts <= 60 ->
  zlen cs = 8 -> (forall c, In (Some c) cs -> tt_ok (l + 1) c /\ small_leaf k c) ->
  (forall i c, 0 <= i < 8 -> znth cs i = Some (Some c) -> kid_at pos half i c) ->
  exists cs', ofold (fun cs t' => insert_as_node A (tt_insert A (S fuel)) pos half l cs t') ts cs = Ret cs' /\
    zlen cs' = 8 /\ (forall c, In (Some c) cs' -> tt_ok (l + 1) c) /\
    (forall x, In x (kids cs') <-> In x (kids cs) \/ In x ts) /\
    (forall i c, 0 <= i < 8 -> znth cs' i = Some (Some c) -> kid_at pos half i c).
Proof.
  intros fuel l pos half Hl Hins. induction ts as [|t ts IH]; intros k cs Hk Hb Hlen Hc Hg.
  - exists cs. split; [reflexivity|]. split; [auto|]. split; [intros c H; apply Hc; auto|]. split; [intros x; cbn; tauto | auto].
  - assert (Zc : zlen (t :: ts) = zlen ts + 1) by (unfold zlen; cbn [length]; lia).
    assert (Hz : 0 <= zlen ts) by (unfold zlen; lia).
    destruct (as_node_ok (tt_insert A (S fuel)) l pos half cs t
      (fun tr tr' => (small_leaf k tr -> small_leaf (k + 1) tr') /\ tt_pos tr' = tt_pos tr /\ tt_half tr' = tt_half tr)) as
      (cs1 & E1 & L1 & B1 & C1 & D1 & F1 & G1); auto.
    { intros c H. apply Hc; auto. }
    { intros tr tr' Ht E. destruct (Hins t tr Ht) as (tr2 & E2 & _ & P1 & P2 & _). rewrite E in E2. injection E2 as <-.
      split; auto. destruct tr as [p h lv us|p h lv ks]; [|contradiction]. cbn [small_leaf]. intros Hs. cbn [tt_insert] in E.
      destruct (Z.ltb_spec (zlen us) split_limit) as [Q|Q]; [|unfold split_limit in Q; lia]. cbn [orb] in E. injection E as <-.
      cbn [small_leaf]. rewrite zlen_app. unfold zlen at 2. cbn. lia. }
    assert (S1 : forall c, In (Some c) cs1 -> small_leaf (k + 1) c).
    { intros c H. apply In_nth_error in H. destruct H as [n Hn].
      assert (Hn' : (n < length cs1)%nat) by (apply nth_error_Some; congruence).
      assert (Ez : znth cs1 (Z.of_nat n) = Some (Some c)). { unfold znth. destruct (Z.ltb_spec (Z.of_nat n) 0); [lia|]. rewrite Nat2Z.id. auto. }
      destruct (G1 (Z.of_nat n) c) as [Q|(Q & _ & _)]; auto; [unfold zlen in L1; lia| |].
      - destruct (Hc c) as [_ Q']; [eapply znth_In; eauto|]. destruct c; cbn in *; [lia | contradiction].
      - apply Q. unfold kid. destruct (znth cs (Z.of_nat n)) as [[c0|]|] eqn:Ez0; [apply Hc; eapply znth_In; eauto| |]; cbn; lia. }
    destruct (IH (k + 1) cs1) as (cs' & E' & L' & B' & C' & G'); auto; try lia.
    { intros i c Hi Ez. destruct (G1 i c Hi Ez) as [Q|(_ & Q1 & Q2)]; [apply Hg; auto|].
      unfold kid_at. rewrite Q1, Q2. unfold kid. destruct (znth cs i) as [[c0|]|] eqn:Ez0; [apply Hg; auto | split; reflexivity | split; reflexivity]. }
    exists cs'. split; [cbn [ofold]; rewrite E1; exact E'|]. split; [auto|]. split; [auto|]. split; [|auto].
    intros x. rewrite C'. cbn [In]. split.
    + intros [H|H]; auto. destruct (D1 x H); auto.
    + assert (Ht : In t (kids cs1)) by (apply F1; intros c H; apply (small_roomy k); [lia | apply Hc; auto]).
      intros [H|[<-|H]]; auto.
Qed.

(* Cubes of the children *)
Inductive tt_geo : tree -> Prop :=
| geo_leaf : forall pos half l ts, tt_geo (TLeaf pos half l ts)
| geo_node : forall pos half l cs, (forall i c, 0 <= i < 8 -> znth cs i = Some (Some c) -> kid_at pos half i c /\ tt_geo c) ->
    tt_geo (TNode pos half l cs).

Lemma kids_node : forall pos half l cs, tris_of (TNode pos half l cs) = kids cs.
Proof. reflexivity. Qed.

Lemma roomy_kid : forall pos half l cs c, roomy (TNode pos half l cs) -> In (Some c) cs -> roomy c.
Proof.
  intros pos half l cs c H Hc x Hx. apply H. cbn [leaves_of]. apply in_flat_map. exists (Some c). auto.
Qed.

Lemma insert_ok : forall fuel l tr t, tt_ok l tr -> 16 <= l + Z.of_nat fuel ->
  exists tr', tt_insert A fuel tr t = Ret tr' /\ ins_ok l tr t tr'.
Proof.
  induction fuel as [|fuel IH]; intros l tr t Hok Hf; [inversion Hok; lia|].
  destruct Hok as [pos half l ts Hl Hs|pos half l cs Hl Hlen Hcs]; cbn [tt_insert].
  - destruct ((zlen ts <? split_limit) || (max_depth <=? l)) eqn:C.
    + eexists. split; [reflexivity|]. apply orb_prop in C. unfold split_limit, max_depth in C.
      rewrite Z.ltb_lt, Z.leb_le in C. split; [|split; [|split; [|split; [|split]]]]; try reflexivity.
      * apply ok_leaf; auto. intros. rewrite zlen_app. change (zlen [t]) with 1. lia.
      * intros x Hx. cbn [tris_of] in *. apply in_or_app. auto.
      * intros x Hx. cbn [tris_of] in *. apply in_app_or in Hx. destruct Hx as [Hx|[Hx|[]]]; auto.
      * intros _. cbn [tris_of]. apply in_or_app. right. left. reflexivity.
    + apply orb_false_elim in C. unfold split_limit, max_depth in C. rewrite Z.ltb_ge, Z.leb_gt in C. destruct C as [C1 C2].
      destruct fuel as [|fuel']; [lia|].
      destruct (distribute fuel' l pos half ltac:(lia)) with (ts := ts) (k := 0) (cs := @repeat (option tree) None 8) as (cs' & E & L' & B' & C' & _); try lia.
      * intros t' tr' Ht'. apply IH; auto. lia.
      * reflexivity.
      * intros c Hc. apply repeat_spec in Hc. discriminate.
      * intros i c _ Hz. apply znth_In, repeat_spec in Hz. discriminate.
      * rewrite E. cbn [obind]. eexists. split; [reflexivity|].
        split; [|split; [|split; [|split; [|split]]]]; try reflexivity.
        -- apply ok_node; auto; lia.
        -- intros x Hx. cbn [tris_of] in Hx. rewrite kids_node. apply C'. auto.
        -- intros x Hx. rewrite kids_node in Hx. apply C' in Hx. destruct Hx as [Hx|Hx]; [contradiction | auto].
        -- intros Rm. exfalso. destruct (Rm (TLeaf pos half l ts)) as [Q|Q]; [left; reflexivity | lia | lia].
  - destruct (as_node_ok (tt_insert A fuel) l pos half cs t (fun _ _ => True)) as (cs' & E & L' & B' & C' & D' & F' & _); auto.
    { intros tr Ht. apply IH; auto. lia. }
    rewrite E. cbn [obind]. eexists. split; [reflexivity|].
    split; [|split; [|split; [|split; [|split]]]]; try reflexivity.
    + apply ok_node; auto.
    + intros x Hx. rewrite kids_node in *. auto.
    + intros x Hx. rewrite kids_node in *. auto.
    + intros Rm. rewrite kids_node. apply F'. intros c Hc. eapply roomy_kid; eauto.
Qed.

Lemma insert_geo : forall fuel l tr t tr', tt_ok l tr -> 16 <= l + Z.of_nat fuel -> tt_geo tr -> tt_insert A fuel tr t = Ret tr' -> tt_geo tr'.
Proof.
  induction fuel as [|fuel IH]; intros l tr t tr' Hok Hf Hg E; [discriminate|].
  assert (Kok : forall t tr, tt_ok (l + 1) tr -> exists tr', tt_insert A fuel tr t = Ret tr' /\ ins_ok (l + 1) tr t tr').
  { intros. apply insert_ok; auto. lia. }
  destruct Hok as [pos half l ts Hl Hs|pos half l cs Hl Hlen Hcs]; cbn [tt_insert] in E.
  - destruct ((zlen ts <? split_limit) || (max_depth <=? l)) eqn:C.
    + injection E as <-. constructor.
    + apply orb_false_elim in C. unfold split_limit, max_depth in C. rewrite Z.ltb_ge, Z.leb_gt in C. destruct C as [C1 C2].
      destruct fuel as [|fuel']; [lia|].
      (* every child is a leaf or was geometric before *)
      assert (G : forall ts cs cs', zlen cs = 8 -> (forall c, In (Some c) cs -> tt_ok (l + 1) c) ->
        (forall i c, 0 <= i < 8 -> znth cs i = Some (Some c) -> kid_at pos half i c /\ tt_geo c) ->
        ofold (fun cs t' => insert_as_node A (tt_insert A (S fuel')) pos half l cs t') ts cs = Ret cs' ->
        forall i c, 0 <= i < 8 -> znth cs' i = Some (Some c) -> kid_at pos half i c /\ tt_geo c).
      { clear ts Hs C1 E Hg. induction ts as [|u us IHu]; intros cs cs' Hlen Hok Hgs E; cbn [ofold] in E.
        - injection E as <-. auto.
        - destruct (as_node_ok (tt_insert A (S fuel')) l pos half cs u
            (fun tr tr' => tt_pos tr' = tt_pos tr /\ tt_half tr' = tt_half tr /\ (tt_geo tr -> tt_geo tr'))) as
            (cs1 & E1 & L1 & B1 & C1 & D1 & F1 & G1); auto; try lia.
          { intros x x' Hx Ex. destruct (Kok u x Hx) as (x2 & Ex2 & _ & P1 & P2 & _). rewrite Ex in Ex2. injection Ex2 as <-.
            split; [auto|]. split; [auto|]. intros Gx. apply (IH (l + 1) x u x'); auto. lia. }
          rewrite E1 in E. cbn [obind] in E. apply (IHu cs1 cs'); auto.
          intros i c Hi Ez. destruct (G1 i c Hi Ez) as [Q|(Q1 & Q2 & Q3)]; [apply Hgs; auto|].
          unfold kid_at. rewrite Q1, Q2. unfold kid in *. destruct (znth cs i) as [[c0|]|] eqn:Ez0.
          + destruct (Hgs i c0 Hi Ez0). auto.
          + split; [split; reflexivity|]. apply Q3. constructor.
          + split; [split; reflexivity|]. apply Q3. constructor. }
      destruct (ofold _ ts (repeat None 8)) as [cs'| | | |] eqn:Eo; try discriminate. cbn [obind] in E. injection E as <-.
      constructor. apply (G ts (repeat None 8) cs'); auto.
      * intros c Hc. apply repeat_spec in Hc. discriminate.
      * intros i c _ Hz. apply znth_In, repeat_spec in Hz. discriminate.
  - destruct (as_node_ok (tt_insert A fuel) l pos half cs t
      (fun tr tr' => tt_pos tr' = tt_pos tr /\ tt_half tr' = tt_half tr /\ (tt_geo tr -> tt_geo tr'))) as
      (cs' & E' & L' & B' & C' & D' & F' & G'); auto.
    { intros x x' Hx Ex. destruct (Kok t x Hx) as (x2 & Ex2 & _ & P1 & P2 & _). rewrite Ex in Ex2. injection Ex2 as <-.
      split; [auto|]. split; [auto|]. intros Gx. apply (IH (l + 1) x t x'); auto. lia. }
    rewrite E' in E. cbn [obind] in E. injection E as <-. constructor.
    inversion Hg as [|? ? ? ? Hgs]; subst.
    intros i c Hi Ez. destruct (G' i c Hi Ez) as [Q|(Q1 & Q2 & Q3)]; [apply Hgs; auto|].
    unfold kid_at. rewrite Q1, Q2. unfold kid in *. destruct (znth cs i) as [[c0|]|] eqn:Ez0.
    + destruct (Hgs i c0 Hi Ez0). auto.
    + split; [split; reflexivity|]. apply Q3. constructor.
    + split; [split; reflexivity|]. apply Q3. constructor.
Qed.

(* Any number of insertions *)
Lemma insert_all_ok : forall ts tr, tt_ok 0 tr -> exists tr', insert_all A tr ts = Ret tr' /\ tt_ok 0 tr' /\
  tt_pos tr' = tt_pos tr /\ tt_half tr' = tt_half tr /\
  (forall x, In x (tris_of tr) -> In x (tris_of tr')) /\
  (forall x, In x (tris_of tr') -> In x ts \/ In x (tris_of tr)) /\ (tt_geo tr -> tt_geo tr').
Proof.
  induction ts as [|t ts IH]; intros tr H.
  - exists tr. split; [reflexivity|]. split; [auto|]. split; [auto|]. split; [auto|]. split; [auto|]. split; auto.
  - destruct (insert_ok insert_fuel 0 tr t H ltac:(cbn; lia)) as (tr1 & E1 & O1 & P1 & P2 & K1 & K2 & _).
    destruct (IH tr1 O1) as (tr' & E' & O' & P1' & P2' & K1' & K2' & G').
    exists tr'. split; [unfold insert_all; cbn [ofold]; rewrite E1; exact E'|].
    split; [auto|]. split; [congruence|]. split; [congruence|]. split; [auto|]. split.
    + intros x Hx. destruct (K2' x Hx) as [Q|Q]; [left; right; auto|]. destruct (K2 x Q) as [->|Q']; [left; left; auto | auto].
    + intros Hg. apply G'. apply (insert_geo insert_fuel 0 tr t tr1); auto. cbn. lia.
Qed.

Lemma new_ok : forall half pos, tt_ok 0 (tt_new half 0 pos).
Proof. intros. apply ok_leaf; [lia | cbn; lia]. Qed.

Lemma insert_leaf : forall n pos half l us t, tt_insert A (S n) (TLeaf pos half l us) t =
  if (zlen us <? split_limit) || (max_depth <=? l) then Ret (TLeaf pos half l (us ++ [t]))
  else cs <- ofold (fun cs t' => insert_as_node A (tt_insert A n) pos half l cs t') us (repeat None 8) ;; Ret (TNode pos half l cs).
Proof. reflexivity. Qed.

(* Up to 60 triangles stay in the root. *)
Lemma insert_small : forall pos half l ts us, zlen us + zlen ts <= 60 ->
  insert_all A (TLeaf pos half l us) ts = Ret (TLeaf pos half l (us ++ ts)).
Proof.
  intros pos half l. induction ts as [|t ts IH]; intros us H.
  - rewrite app_nil_r. reflexivity.
  - assert (Zc : zlen (t :: ts) = zlen ts + 1) by (unfold zlen; cbn [length]; lia).
    assert (Hz : 0 <= zlen ts) by (unfold zlen; lia).
    unfold insert_all, insert_fuel. cbn [ofold]. rewrite insert_leaf.
    destruct (Z.ltb_spec (zlen us) split_limit) as [Q|Q]; [|unfold split_limit in Q; lia]. cbn [orb obind].
    change (insert_all A (TLeaf pos half l (us ++ [t])) ts = Ret (TLeaf pos half l (us ++ t :: ts))).
    rewrite IH.
    + rewrite <- app_assoc. reflexivity.
    + rewrite zlen_app. change (zlen [t]) with 1. lia.
Qed.

(* The 61st triangle is lost. *)
Lemma insert_61 : forall pos half us t tr, zlen us = 60 -> tt_insert A insert_fuel (TLeaf pos half 0 us) t = Ret tr ->
  forall x, In x (tris_of tr) -> In x us.
Proof.
  intros pos half us t tr Hl E x Hx. unfold insert_fuel in E. rewrite insert_leaf in E.
  destruct (Z.ltb_spec (zlen us) split_limit) as [Q|Q]; [unfold split_limit in Q; lia|]. cbn [orb] in E.
  change (max_depth <=? 0) with false in E. cbn iota in E.
  destruct (distribute 14 0 pos half ltac:(lia)) with (ts := us) (k := 0) (cs := @repeat (option tree) None 8) as (cs' & E' & L' & B' & C' & _); try lia.
  - intros t' tr' Ht'. apply insert_ok; auto. cbn; lia.
  - reflexivity.
  - intros c Hc. apply repeat_spec in Hc. discriminate.
  - intros i c _ Hz. apply znth_In, repeat_spec in Hz. discriminate.
  - replace (ofold _ us (repeat None 8)) with (Ret cs') in E by (symmetry; exact E'). cbn [obind] in E. injection E as <-.
    rewrite kids_node in Hx. apply C' in Hx. destruct Hx as [[]|Hx]; auto.
Qed.
End Tri.
