(* Traversal of octrees all leaves of which are unit cells. *)
From Coq Require Import ZArith List Bool Lia Permutation.
From Verif Require Import Base Arith Tables MeshModel MeshSpec GridModel GridSpec GridProofs EdgeModel MCModel CellSpec CellTables DualSpec DualProofs
  OctreeModel OctreeSpec OctreeSums OctreeProofs OctreeFlux DcModel DcSpec DcBuild DcContour MdcModel MdcSpec MdcTables MdcLeaf.
Import ListNotations.
Local Open Scope Z_scope.

Lemma mdc_procs_ok : procs_ok mdc_procs.
Proof.
  constructor; try (intros [| |]); try reflexivity; apply same_calls_perm; vm_compute; reflexivity.
Qed.

Definition mdc_item := (axis * list mdc_leaf)%type.
Definition item_dec : forall a b : mdc_item, {a = b} + {a <> b}.
Proof. repeat decide equality. Defined.

Definition cell_b (q : ivec3) (n : nat) (c : ivec3) : bool :=
  (vx q <=? vx c) && (vx c <? vx q + edge_len n) && ((vy q <=? vy c) && (vy c <? vy q + edge_len n)) &&
  ((vz q <=? vz c) && (vz c <? vz q + edge_len n)).
Lemma cell_b_ok : forall q n c, cell_b q n c = true <-> in_cube q n c.
Proof. intros. unfold cell_b, in_cube. rewrite !andb_true_iff, !Z.leb_le, !Z.ltb_lt. tauto. Qed.

Lemma unit_cube : forall q c, in_cube q 0 c -> c = q.
Proof. intros [x y z] [x' y' z'] H. unfold in_cube in H. rewrite edge_len_0 in H. cbn [vx vy vz] in H. f_equal; lia. Qed.

Lemma around_unit : forall d p, around 0 d p = cells_around d p.
Proof.
  intros d [x y z]. unfold around. rewrite edge_len_0. destruct d; unfold cells_around; cbn [map];
    repeat (apply f_equal2; [apply V3_eq; unfold vsub, vadd, vscale; cbn; lia|]); reflexivity.
Qed.

Lemma cells_around_inj : forall d p p', cells_around d p = cells_around d p' -> p = p'.
Proof.
  intros d [x y z] [x' y' z'] H. destruct d; unfold cells_around in H; cbn [next_axis unit_vec] in H; unfold vsub in H; cbn [vx vy vz] in H;
    injection H; intros; f_equal; lia.
Qed.

Lemma seg_unit : forall u d p, seg_sum u d p (edge_len 0) = u (d, p).
Proof.
  intros u d p. rewrite edge_len_0, seg_sum_list. change (zrange 0 1) with [0]. rewrite gsum_cons, gsum_nil, Z.add_0_r. do 2 f_equal.
  apply V3_eq; unfold vadd, vscale; cbn [vx vy vz]; lia.
Qed.

Definition ind {T} (dec : forall a b : T, {a = b} + {a <> b}) (a b : T) : Z := if dec b a then 1 else 0.

Lemma gsum_ind_count : forall T dec (a : T) l, gsum (ind dec a) l = Z.of_nat (count_occ dec l a).
Proof.
  intros T dec a l. induction l as [|b l IH]; [reflexivity|]. rewrite gsum_cons, IH. cbn [count_occ]. unfold ind at 1.
  destruct (dec b a); lia.
Qed.

Lemma nodup_app : forall T (x y : list T), NoDup (x ++ y) -> NoDup x /\ NoDup y /\ forall a, In a x -> In a y -> False.
Proof.
  induction x as [|b x IH]; intros y H; cbn [app] in H; [split; [constructor|]; split; [assumption|intros ? []]|].
  apply NoDup_cons_iff in H as [H1 H2]. apply IH in H2 as (H2 & H3 & H4). rewrite in_app_iff in H1.
  split; [constructor; tauto|]. split; [assumption|]. intros a [<-|Ha] Hb; [tauto|eauto].
Qed.

Lemma nodup_flat_part : forall T U (f : T -> list U) l a, NoDup (flat_map f l) -> In a l -> NoDup (f a).
Proof.
  induction l as [|b l IH]; intros a H Ha; [destruct Ha|]. cbn [flat_map] in H. apply nodup_app in H as (H1 & H2 & _).
  destruct Ha as [<-|Ha]; auto.
Qed.

Lemma nodup_flat_znth : forall T U (f : T -> list U) l i j a b x, NoDup (flat_map f l) -> znth l i = Some a -> znth l j = Some b ->
  In x (f a) -> In x (f b) -> i = j.
Proof.
  induction l as [|c l IH]; intros i j a b x H Hi Hj Ha Hb.
  - apply znth_range in Hi. cbn in Hi. lia.
  - cbn [flat_map] in H. apply nodup_app in H as (_ & H2 & H3).
    pose proof (znth_range _ _ _ _ Hi) as Ri. pose proof (znth_range _ _ _ _ Hj) as Rj.
    assert (S : forall k y, 0 < k -> znth (c :: l) k = Some y -> znth l (k - 1) = Some y).
    { intros k y Hk Hy. unfold znth in *. destruct (Z.ltb_spec k 0); [lia|]. destruct (Z.ltb_spec (k - 1) 0); [lia|].
      replace (Z.to_nat k) with (S (Z.to_nat (k - 1))) in Hy by lia. exact Hy. }
    destruct (Z.eq_dec i 0) as [->|Ni]; destruct (Z.eq_dec j 0) as [->|Nj]; [reflexivity| | |].
    + injection Hi as ->. exfalso. apply (H3 x Ha). apply in_flat_map. exists b. split; [|exact Hb].
      eapply znth_in. apply (S j); [lia|exact Hj].
    + injection Hj as ->. exfalso. apply (H3 x Hb). apply in_flat_map. exists a. split; [|exact Ha].
      eapply znth_in. apply (S i); [lia|exact Hi].
    + apply S in Hi; [|lia]. apply S in Hj; [|lia]. pose proof (IH _ _ _ _ x H2 Hi Hj Ha Hb). lia.
Qed.

Lemma leaf_verts_in : forall n (t : mdc_tree) q c l a, leaf_at n t q c = Some l -> In a (ml_verts l) -> In a (tree_verts t).
Proof.
  induction n as [|m IH]; intros t q c l a H Ha; destruct t as [l0|b cs]; cbn [leaf_at] in H; try discriminate;
    try (injection H as ->; exact Ha).
  destruct (znth cs (child_of q m c)) as [t'|] eqn:X; [|discriminate]. cbn [tree_verts]. apply in_or_app. right.
  apply in_flat_map. exists t'. split; [eapply znth_in; eassumption|]. eapply IH; eassumption.
Qed.

Section Full.
Variable solid : ivec3 -> bool.

(* Unit cells with the vertices the table gives them *)
Definition full_leaf (l : mdc_leaf) (q : ivec3) (m : nat) : Prop :=
  m = O /\ length (ml_verts l) = Z.to_nat (set_count (config solid q)).

Lemma full_leaf_at : forall n (t : mdc_tree) q c, tree_ok full_leaf n t q -> in_cube q n c ->
  exists l, leaf_at n t q c = Some l /\ length (ml_verts l) = Z.to_nat (set_count (config solid c)).
Proof.
  intros n t q c H Hc. destruct (leaf_at_ok _ _ _ _ _ _ _ H Hc) as (l & q' & n' & H1 & (-> & H2) & H3 & _).
  apply unit_cube in H3. subst. eauto.
Qed.

Lemma leaf_inj : forall n (t : mdc_tree) q, tree_ok full_leaf n t q -> NoDup (tree_verts t) ->
  forall c c' l l' a, in_cube q n c -> in_cube q n c' -> leaf_at n t q c = Some l -> leaf_at n t q c' = Some l' ->
    In a (ml_verts l) -> In a (ml_verts l') -> c = c'.
Proof.
  induction n as [|m IH]; intros t q Ht Hnd c c' l l' a Hc Hc' Hl Hl' Ha Ha'.
  - apply unit_cube in Hc, Hc'. congruence.
  - destruct t as [l0|b cs]; [destruct Ht; discriminate|]. cbn [tree_ok] in Ht. destruct Ht as [Hlen Hcs].
    cbn [leaf_at] in Hl, Hl'. cbn [tree_verts] in Hnd. apply nodup_app in Hnd as (_ & Hnd & _).
    destruct (znth cs (child_of q m c)) as [t1|] eqn:X1; [|discriminate].
    destruct (znth cs (child_of q m c')) as [t2|] eqn:X2; [|discriminate].
    assert (Hij : child_of q m c = child_of q m c').
    { apply (nodup_flat_znth _ _ _ _ _ _ _ _ a Hnd X1 X2); eapply leaf_verts_in; eassumption. }
    pose proof (child_of_in q m c Hc) as I1. pose proof (child_of_in q m c' Hc') as I2. rewrite <- Hij in X2, Hl', I2. rewrite X1 in X2. injection X2 as <-.
    apply (IH t1 (child_pos q m (child_of q m c)) (Hcs _ _ X1) (nodup_flat_part _ _ _ _ _ Hnd (znth_in _ _ _ _ X1)) c c' l l' a); assumption.
Qed.

Variables (N : nat) (t : mdc_tree) (q0 : ivec3).
Hypothesis Ht : tree_ok full_leaf N t q0.
Hypothesis Hnd : NoDup (tree_verts t).

Lemma crossing_vertex : forall e c l, edge_crosses solid e = true -> In c (cells_around (fst e) (snd e)) -> in_cube q0 N c ->
  leaf_at N t q0 c = Some l -> exists a, znth (ml_verts l) (sheet solid c e) = Some a.
Proof.
  intros e c l He Hc Hin Hl. destruct (full_leaf_at _ _ _ _ Ht Hin) as (l' & Hl' & Hlen). rewrite Hl in Hl'. injection Hl' as <-.
  destruct (sheet_range solid c e Hc) as [H1 H2]. apply H1 in He. apply znth_some. rewrite Hlen. lia.
Qed.

Definition L (c : ivec3) : option mdc_leaf := if cell_b q0 N c then leaf_at N t q0 c else None.
Definition placed (l : mdc_leaf) (q : ivec3) (m : nat) : Prop := m = O /\ in_cube q0 N q /\ leaf_at N t q0 q = Some l.

Lemma placed_L : forall l q m c, placed l q m -> in_cube q m c -> L c = Some l.
Proof.
  intros l q m c (-> & H1 & H2) Hc. apply unit_cube in Hc. subst. unfold L. rewrite (proj2 (cell_b_ok q0 N q) H1). exact H2.
Qed.

Lemma placed_tree : tree_ok placed N t q0.
Proof.
  apply tree_leaf_at in Ht. refine (tree_ok_impl _ _ _ _ _ _ _ _ Ht). intros a q' n' _ _ ((-> & H1) & H2 & H3).
  assert (Hc : in_cube q' 0 q') by (unfold in_cube; rewrite edge_len_0; lia).
  split; [reflexivity|]. split; [eapply in_cube_sub; eassumption|]. apply H3, Hc.
Qed.

(* The leaves of the item are those around the edge. *)
Definition matches (it : mdc_item) (e : gedge) : Prop :=
  fst it = fst e /\ Forall (in_cube q0 N) (cells_around (fst e) (snd e)) /\
  Forall2 (fun l c => leaf_at N t q0 c = Some l) (snd it) (cells_around (fst e) (snd e)).

Notation leaf_item := (leaf_item mdc_leaf mdc_inner placed).
Notation item_ok := (item_ok mdc_leaf mdc_inner placed).

Lemma item_matches : forall n d p leaves, leaf_item n d p leaves -> n = O /\ matches (d, leaves) (d, p).
Proof.
  intros n d p leaves (Hc & a & q & Hin & HX). destruct HX as (-> & _). split; [reflexivity|].
  rewrite around_unit in Hc.
  assert (H : forall ls qs, Forall2 (fun a q => covers mdc_leaf mdc_inner placed 0 (OLeaf a) q) ls qs ->
    Forall (in_cube q0 N) qs /\ Forall2 (fun l c => leaf_at N t q0 c = Some l) ls qs).
  { clear. induction 1 as [|l c ls qs H1 H2 [I1 I2]]; [split; constructor|].
    assert (H : placed l c 0).
    { destruct H1 as [H1|(a & q' & n' & _ & Hn & (-> & _) & _)]; [exact H1|lia]. }
    destruct H as (_ & H3 & H4). split; constructor; assumption. }
  apply H in Hc as [H1 H2]. split; [reflexivity|]. split; assumption.
Qed.

Lemma Forall2_fun : forall T U (f : U -> option T) ls ls' qs, Forall2 (fun l c => f c = Some l) ls qs -> Forall2 (fun l c => f c = Some l) ls' qs -> ls = ls'.
Proof.
  intros T U f ls ls' qs H. revert ls'. induction H as [|l c ls qs H1 H2 IH]; intros ls' H'; inversion H' as [|l' c' ls'' qs' G1 G2]; subst; [reflexivity|].
  f_equal; [congruence|auto].
Qed.

Lemma matches_item : forall it it' e, matches it e -> matches it' e -> it = it'.
Proof.
  intros [d ls] [d' ls'] e (H1 & _ & H2) (H3 & _ & H4). cbn [fst snd] in *. f_equal; [congruence|]. eapply Forall2_fun; eassumption.
Qed.

Lemma matches_edge : forall it e0 e, edge_crosses solid e0 = true -> matches it e0 -> matches it e -> e = e0.
Proof.
  intros [d ls] [d0 p0] [d1 p1] He (H1 & H2 & H3) (H4 & H5 & H6). cbn [fst snd] in *. subst d0 d1. f_equal.
  apply (cells_around_inj d).
  assert (Hc : forall c, In c (cells_around d p0) -> In c (cells_around d p0)) by auto. revert H2 H3 H5 H6.
  generalize (cells_around d p1). intros qs1. revert Hc. generalize (cells_around d p0) at 1 3 4 5. intros qs0. revert ls qs1.
  induction qs0 as [|c0 qs0 IH]; intros ls qs1 Hc H2 H3 H5 H6; inversion H3; subst; inversion H6; subst; [reflexivity|].
  inversion H2; subst. inversion H5; subst. f_equal; [|eapply IH; try eassumption; intros; apply Hc; right; assumption].
  destruct (crossing_vertex (d, p0) c0 x He (Hc _ (or_introl eq_refl)) ltac:(assumption) ltac:(assumption)) as (a & Ha).
  apply znth_in in Ha. eapply (leaf_inj N t q0 Ht Hnd); eassumption.
Qed.

Lemma item_at : forall e, Forall (in_cube q0 N) (cells_around (fst e) (snd e)) -> exists it, matches it e.
Proof.
  intros [d p] H. cbn [fst snd] in H.
  assert (X : exists ls, Forall2 (fun l c => leaf_at N t q0 c = Some l) ls (cells_around d p)).
  { induction H as [|c qs H1 H2 (ls & IH)]; [exists []; constructor|].
    destruct (full_leaf_at _ _ _ _ Ht H1) as (l & Hl & _). exists (l :: ls). constructor; assumption. }
  destruct X as (ls & X). exists (d, ls). split; [reflexivity|]. split; assumption.
Qed.

Lemma ind_compat : forall it0 e0, edge_crosses solid e0 = true -> matches it0 e0 ->
  compat mdc_leaf mdc_inner placed L (ind gedge_dec e0) (ind item_dec it0).
Proof.
  intros it0 e0 He H0. split.
  - intros n d p leaves Hi. apply item_matches in Hi as [-> Hm]. rewrite seg_unit. unfold ind.
    destruct (item_dec (d, leaves) it0) as [<-|N1]; destruct (gedge_dec (d, p) e0) as [<-|N2]; try reflexivity.
    + exfalso. apply N2. eapply matches_edge; eassumption.
    + exfalso. apply N1. eapply matches_item; eassumption.
  - intros d p c0 c1 c2 c3 Hcs HL. unfold ind. destruct (gedge_dec (d, p) e0) as [<-|]; [|reflexivity]. exfalso.
    destruct H0 as (_ & H1 & _). cbn [fst snd] in H1. rewrite Hcs in H1.
    rewrite Forall_forall in H1.
    assert (K : forall c c', In c [c0; c1; c2; c3] -> In c' [c0; c1; c2; c3] -> L c = L c' -> c = c').
    { intros c c' Hc Hc' Hll. pose proof (H1 c Hc) as I1. pose proof (H1 c' Hc') as I2. unfold L in Hll.
      rewrite (proj2 (cell_b_ok q0 N c) I1), (proj2 (cell_b_ok q0 N c') I2) in Hll.
      destruct (full_leaf_at _ _ _ _ Ht I1) as (l & Hl & _). rewrite Hl in Hll. symmetry in Hll. rewrite <- Hcs in Hc.
      destruct (crossing_vertex (d, p) c l He Hc I1 Hl) as (a & Ha). apply znth_in in Ha. eapply (leaf_inj N t q0 Ht Hnd); eassumption. }
    assert (c0 <> c1 /\ c0 <> c3) as [D1 D2].
    { clear - Hcs. destruct p as [x y z]; destruct d; unfold cells_around in Hcs; cbn [next_axis unit_vec] in Hcs; unfold vsub in Hcs; cbn [vx vy vz] in Hcs;
        injection Hcs as <- <- <- <-; split; intro X; injection X; lia. }
    destruct HL as [[X _]|[X _]]; [apply D1|apply D2]; apply K; cbn [In]; auto.
Qed.

Section Does.
Variable St : Type.
Variable act : axis -> list mdc_leaf -> St -> outcome St.

Lemma full_does : forall f U, does mdc_leaf mdc_inner placed L St act f U ->
  exists items es, (forall st, f st = ofold (fun st it => act (fst it) (snd it) st) items st) /\ Forall2 matches items es /\
    forall e0, edge_crosses solid e0 = true -> Forall (in_cube q0 N) (cells_around (fst e0) (snd e0)) ->
      Z.of_nat (count_occ gedge_dec es e0) = U (ind gedge_dec e0).
Proof.
  intros f U (items & H1 & H2 & H3).
  assert (Hes : exists es, Forall2 matches items es).
  { clear H1 H3. induction H2 as [|[d ls] items (n & p & Hi) _ (es & IH)]; [exists []; constructor|]. cbn [fst snd] in Hi.
    apply item_matches in Hi as [_ Hi]. exists ((d, p) :: es). constructor; assumption. }
  destruct Hes as (es & Hes). exists items, es. split; [exact H1|]. split; [exact Hes|]. intros e0 He Hin.
  destruct (item_at e0 Hin) as (it0 & Hit). rewrite <- (H3 _ _ (ind_compat it0 e0 He Hit)).
  rewrite <- gsum_ind_count. clear H1 H2 H3. induction Hes as [|it e items es Hm _ IH]; [reflexivity|].
  rewrite !gsum_cons, IH. f_equal. unfold ind.
  destruct (item_dec it it0) as [->|N1]; destruct (gedge_dec e e0) as [->|N2]; try reflexivity.
  - exfalso. apply N2. eapply matches_edge; eassumption.
  - exfalso. apply N1. eapply matches_item; eassumption.
Qed.

Lemma full_cell : forall fuel, (N < fuel)%nat ->
  exists items es, (forall st, cell_proc mdc_procs act fuel t st = ofold (fun st it => act (fst it) (snd it) st) items st) /\ Forall2 matches items es /\
    Permutation (filter (edge_crosses solid) es) (filter (edge_crosses solid) (inner_edges q0 (edge_len N))).
Proof.
  intros fuel Hf. destruct (full_does _ _ (cell_trav _ _ placed L placed_L St mdc_procs mdc_procs_ok act N fuel t q0 Hf placed_tree)) as (items & es & H1 & H2 & H3).
  exists items, es. split; [exact H1|]. split; [exact H2|].
  assert (Hin : forall e, In e es -> Forall (in_cube q0 N) (cells_around (fst e) (snd e))).
  { clear H1 H3. induction H2 as [|it e items es (_ & Hm & _) _ IH]; [intros ? []|]. intros e' [<-|He]; auto. }
  assert (Hcnt : forall e0, edge_crosses solid e0 = true -> Forall (in_cube q0 N) (cells_around (fst e0) (snd e0)) -> count_occ gedge_dec es e0 = 1%nat).
  { intros e0 He Hi. apply Nat2Z.inj. rewrite (H3 e0 He Hi), cell_sum_list, gsum_ind_count. f_equal.
    apply NoDup_count_occ'; [apply inner_edges_nodup|]. apply in_inner_edges. exact Hi. }
  apply NoDup_Permutation.
  - rewrite (NoDup_count_occ gedge_dec). intro e. destruct (in_dec gedge_dec e (filter (edge_crosses solid) es)) as [X|X].
    + apply filter_In in X as [X1 X2]. rewrite <- (Hcnt e X2 (Hin e X1)). clear. induction es as [|b es IH]; [apply le_n|].
      cbn [filter count_occ]. destruct (edge_crosses solid b); cbn [count_occ]; destruct (gedge_dec b e); lia.
    + apply (count_occ_not_In gedge_dec) in X. lia.
  - apply NoDup_filter, inner_edges_nodup.
  - intro e. rewrite !filter_In, in_inner_edges. split; intros [X1 X2]; (split; [|exact X2]); [apply Hin; exact X1|].
    apply (count_occ_In gedge_dec). rewrite (Hcnt e X2 X1). lia.
Qed.

Lemma full_calls : forall m fuel b cs, N = S m -> t = ONode b cs -> (m < fuel)%nat ->
  exists items es, (forall st, run_calls mdc_procs act fuel cs (pr_cell_calls mdc_procs) st = ofold (fun st it => act (fst it) (snd it) st) items st) /\
    Forall2 matches items es /\
    forall e0, edge_crosses solid e0 = true -> Forall (in_cube q0 N) (cells_around (fst e0) (snd e0)) ->
      (forall i, 0 <= i < 8 -> ~ Forall (in_cube (child_pos q0 m i) m) (cells_around (fst e0) (snd e0))) -> In e0 es.
Proof.
  intros m fuel b cs HN Htr Hf. pose proof placed_tree as HT. rewrite HN, Htr in HT. cbn [tree_ok] in HT. destruct HT as [Hlen Hcs].
  destruct (full_does _ _ (calls_trav _ _ placed L placed_L St mdc_procs mdc_procs_ok act m fuel cs q0 Hf Hlen Hcs)) as (items & es & H1 & H2 & H3).
  exists items, es. split; [exact H1|]. split; [exact H2|]. intros e0 He Hin Hout.
  apply (count_occ_In gedge_dec). specialize (H3 e0 He Hin).
  rewrite (gsum_perm _ _ _ _ (po_cell_calls _ mdc_procs_ok)) in H3.
  pose proof (cell_split (ind gedge_dec e0) q0 (edge_len m) (edge_len_pos m)) as Hs.
  rewrite gsum_zero in Hs.
  2: { intros i Hi. apply in_zseq in Hi. rewrite cell_sum_list. apply gsum_zero. intros e Hee. unfold ind.
       destruct (gedge_dec e e0) as [->|]; [|reflexivity]. exfalso. apply (Hout i ltac:(lia)). apply in_inner_edges. exact Hee. }
  rewrite <- edge_len_S, <- HN, cell_sum_list, gsum_ind_count in Hs.
  rewrite (proj1 (NoDup_count_occ' gedge_dec _) (inner_edges_nodup q0 (edge_len N)) e0 (proj2 (in_inner_edges q0 N e0) Hin)) in Hs.
  change (gsum (fun c => call_sum (ind gedge_dec e0) q0 (edge_len m) c) canon_cell_calls) with (gsum (call_sum (ind gedge_dec e0) q0 (edge_len m)) canon_cell_calls) in H3.
  lia.
Qed.

End Does.
End Full.
