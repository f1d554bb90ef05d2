(* Octrees before the vertices are clustered. *)
From Coq Require Import ZArith List Bool Lia.
From Verif Require Import Base Arith Tables MeshModel MeshSpec MaterialFilterModel GridModel GridSpec GridProofs EdgeModel FillModel FillSpec FillProofs MCModel CellSpec CellTables DualSpec DualProofs
  UdcModel OctreeModel OctreeSpec OctreeSums OctreeProofs OctreeFlux DcModel DcSpec DcBuild MdcModel MdcSpec MdcTables MdcLeaf MdcTrav MdcForest.
Import ListNotations.
Local Open Scope Z_scope.

Lemma filled_carry : forall E (g : ugrid E) solid, filled g solid -> edges_carry g solid.
Proof.
  intros E g solid [g0 f solver g' calls Hv Hn Hs Hf].
  destruct (fill_ok E g0 f solver Hv) as (g1 & calls1 & Hf' & Hsize & _ & _ & Hm & He & _). rewrite Hf in Hf'. injection Hf' as <- <-.
  intros d e Hin.
  assert (Hall : Forall2 (fun p e => stored_edge g0 f solver d p = Ret e /\
     lesser_endpoint e = p /\ ue_axis e = axis_num d /\
     is_lesser_solid e = le0 E (sample g0 f p) /\
     solid_material e = promised_material g0 f (if le0 E (sample g0 f p) then p else vadd p (unit_vec d)))
     (filter (crosses g0 f d) (edge_points (g_size g0) d)) (g_edges d g')).
  { apply omap_edges; [assumption| |apply He]. intros p Hp. apply filter_In in Hp as [Hp _]. apply FillProofs.in_edge_points; assumption. }
  destruct (FillProofs.Forall2_in_r _ _ _ _ _ _ Hall Hin) as (p & Hp & _ & H1 & H2 & H3 & H4). apply filter_In in Hp as [Hp Hc].
  apply FillProofs.in_edge_points in Hp; [|assumption]. assert (Hp1 : vertex_in (g_size g0) p) by (apply Hp; left; reflexivity). assert (Hp2 : vertex_in (g_size g0) (vadd p (unit_vec d))) by (apply Hp; right; left; reflexivity). rewrite H1.
  set (s := if le0 E (sample g0 f p) then p else vadd p (unit_vec d)) in *.
  assert (Hsv : vertex_in (g_size g0) s) by (unfold s; destruct (le0 E (sample g0 f p)); assumption).
  assert (Hsol : le0 E (sample g0 f s) = true).
  { unfold crosses in Hc. unfold s. destruct (le0 E (sample g0 f p)) eqn:X; [exact X|]. destruct (le0 E (sample g0 f (vadd p (unit_vec d)))); [reflexivity|discriminate]. }
  split.
  - rewrite H4. unfold grid_material. rewrite Hsize, (Hm s Hsv). reflexivity.
  - rewrite H4. unfold promised_material. rewrite (Hn s Hsv), Hsol. cbn. apply (Hs s Hsv Hsol).
Qed.

Lemma ofold_inv : forall St (step : St -> Z -> outcome St) (I : Z -> St -> Prop) n acc,
  (forall i acc, 0 <= i < Z.of_nat n -> I i acc -> exists acc', step acc i = Ret acc' /\ I (i + 1) acc') ->
  I 0 acc -> exists acc', ofold step (zseq 0 n) acc = Ret acc' /\ I (Z.of_nat n) acc'.
Proof.
  intros St step I n acc H H0. induction n as [|n IH]; [exists acc; auto|].
  destruct IH as (acc1 & H1 & H2); [intros i a Hi; apply H; lia|]. rewrite zseq_snoc, ofold_app, H1. cbn [obind ofold].
  destruct (H (Z.of_nat n) acc1 ltac:(lia) H2) as (acc2 & H3 & H4). exists acc2. rewrite H3. split; [reflexivity|].
  replace (Z.of_nat (S n)) with (Z.of_nat n + 1) by lia. exact H4.
Qed.

Lemma znth_snoc : forall T (l : list T) a i b, znth (l ++ [a]) i = Some b -> znth l i = Some b \/ (i = Z.of_nat (length l) /\ b = a).
Proof.
  intros T l a i b H. unfold znth in *. destruct (Z.ltb_spec i 0); [discriminate|].
  destruct (Nat.lt_ge_cases (Z.to_nat i) (length l)) as [X|X]; [rewrite nth_error_app1 in H by exact X; auto|].
  rewrite nth_error_app2 in H by exact X. right. destruct (Z.to_nat i - length l)%nat as [|k] eqn:Y; cbn in H.
  - injection H as <-. split; [lia|reflexivity].
  - destruct k; discriminate.
Qed.

Lemma flat_map_snoc : forall T U (f : T -> list U) l a, flat_map f (l ++ [a]) = flat_map f l ++ f a.
Proof. intros. rewrite flat_map_app. cbn [flat_map]. rewrite app_nil_r. reflexivity. Qed.

Lemma nodup_app_intro : forall T (x y : list T), NoDup x -> NoDup y -> (forall a, In a x -> ~ In a y) -> NoDup (x ++ y).
Proof.
  intros T x y Hx Hy Hd. induction Hx as [|a x Ha Hx IH]; [exact Hy|]. cbn [app]. constructor.
  - rewrite in_app_iff. intros [X|X]; [contradiction|]. exact (Hd a (or_introl eq_refl) X).
  - apply IH. intros b Hb. apply Hd. right. exact Hb.
Qed.

Lemma half_size : forall m, Z.quot (edge_len (S m)) 2 = edge_len m.
Proof. intro m. rewrite edge_len_S, Z.mul_comm. apply Z.quot_mul. lia. Qed.

Section Build.
Context {E : fpenv} {Q S : Type}.
Variable ops : qef_ops (fp_F E) Q S.
Variable g : ugrid E.
Variable solid : ivec3 -> bool.
Hypothesis Hrep : represents g solid.
Notation F := (fp_F E).
Notation A := (fp_f E).
Notation xvertex := (mdc_vertex F S).
Notation store := (vstore xvertex).
Notation suc := Datatypes.S.
Notation leaf_ok := (MdcForest.leaf_ok g solid).

Record pre (st : store) (n : nat) (t : mdc_tree) (q : ivec3) : Prop := Pre {
  pr_shape : tree_ok leaf_ok n t q;
  pr_nodup : NoDup (tree_verts t);
  pr_idle : forall a, In a (tree_verts t) -> idle st a;
  pr_next : forall a, In a (tree_verts t) -> a < vs_next st;
  pr_leaf : forall c s a, in_cube q n c -> leaf_vertex_at n t q c s a -> exists v, vs_at st a = Some v /\ leaf_solution ops g solid c s v
}.

Lemma pre_same : forall st st' n t q, pre st n t q -> (forall a, In a (tree_verts t) -> vs_at st' a = vs_at st a) ->
  vs_next st <= vs_next st' -> pre st' n t q.
Proof.
  intros st st' n t q [H1 H2 H3 H4 H5] Hs Hn. constructor; [exact H1|exact H2| | |].
  - intros a Ha. destruct (H3 a Ha) as (v & Hv). exists v. rewrite (Hs a Ha). exact Hv.
  - intros a Ha. specialize (H4 a Ha). lia.
  - intros c s a Hc Ha. destruct (H5 c s a Hc Ha) as (v & Hv). exists v. rewrite (Hs a (leaf_vertex_in _ _ _ _ _ _ Ha)). exact Hv.
Qed.

Definition depth_of (t : mdc_tree) : Z := match t with OLeaf l => ml_depth l | ONode b _ => mi_depth b end.

Lemma build_node_ok : forall m fuel l q (st : store) sol, (m < fuel)%nat -> cube_in_grid (g_size g) q m ->
  0 <= ml_depth l -> ml_depth l + Z.of_nat m <= 255 ->
  (forall a, In a (ml_verts l) -> idle st a /\ a < vs_next st) -> NoDup (ml_verts l) ->
  exists t st' sol', mdc_build_node ops fuel g (OLeaf l) q (edge_len m) st sol = Ret (t, st', sol') /\
    pre st' m t q /\ vs_next st <= vs_next st' /\ (forall a, In a (tree_verts t) -> In a (ml_verts l) \/ vs_next st <= a) /\
    (forall b, b < vs_next st -> ~ In b (ml_verts l) -> vs_at st' b = vs_at st b) /\ depth_of t = ml_depth l.
Proof.
  induction m as [|m IH]; intros fuel l q st sol Hf Hq Hd1 Hd2 Hidle Hnd; (destruct fuel as [|fuel]; [lia|]); cbn [mdc_build_node].
  - rewrite edge_len_0. cbn [Z.eqb Pos.eqb leaf_data obind].
    assert (Hi : Forall (idle st) (ml_verts l)) by (apply Forall_forall; intros a Ha; apply Hidle; exact Ha).
    destruct (mdc_build_leaf_ok ops g solid Hrep q Hq l st sol Hi) as (l' & st' & -> & H1 & H2 & H3 & H4 & H5 & H6 & H7). cbn [obind].
    pose proof (set_count_bound (config solid q) (config_length solid q)) as Hb.
    eexists _, _, _. split; [reflexivity|]. cbn [tree_verts depth_of].
    assert (Hin : forall a, In a (ml_verts l') <-> vs_next st <= a < vs_next st').
    { intro a. rewrite H4, H5. rewrite in_zseq. lia. }
    split; [constructor|].
    + cbn [tree_ok]. split; [reflexivity|]. split; [exact H2|]. split; [exact H3|]. rewrite H4, zseq_len. reflexivity.
    + cbn [tree_verts]. rewrite H4. apply zseq_nodup.
    + cbn [tree_verts]. intros a Ha. destruct (in_znth _ _ _ Ha) as (s & Hs). destruct (H7 s a Hs) as (v & V1 & _ & V2 & V3). exists v. auto.
    + cbn [tree_verts]. intros a Ha. apply Hin in Ha. lia.
    + intros c s a Hc (l1 & X & Ha). cbn [leaf_at] in X. injection X as <-. apply unit_cube in Hc. subst. destruct (H7 s a Ha) as (v & V1 & V2 & _). eauto.
    + split; [lia|]. split; [intros a Ha; apply Hin in Ha; lia|]. split; [exact H6|exact H1].
  - assert (He : (edge_len (suc m) =? 1) = false) by (apply Z.eqb_neq; rewrite edge_len_S; pose proof (edge_len_pos m); lia).
    rewrite He. cbn [mdc_subdivide]. destruct (Z.eqb_spec (ml_depth l) 255); [lia|]. cbn [negb oassert obind]. rewrite half_size.
    match goal with |- context [ofold ?step (zseq 0 8) ([], st, sol)] =>
      destruct (ofold_inv _ step (fun i acc => let '(cs, st1, sol1) := acc in Z.of_nat (length cs) = i /\
          (forall j c, znth cs j = Some c -> pre st1 m c (child_pos q m j)) /\
          NoDup (flat_map tree_verts cs) /\ (forall a, In a (flat_map tree_verts cs) -> vs_next st <= a < vs_next st1) /\
          vs_next st <= vs_next st1 /\ (forall b, b < vs_next st -> vs_at st1 b = vs_at st b)) 8%nat ([], st, sol)) as ([[cs st1] sol1] & Hf1 & HI) end.
    + intros i [[cs st1] sol1] Hi (I1 & I2 & I3 & I4 & I5 & I6). change (Z.of_nat 8) with 8 in Hi.
      cbn [child]. rewrite znth_map_zseq' by (change (Z.of_nat 8) with 8; lia). cbn [oread obind].
      destruct (IH fuel (mdc_fresh (ml_depth l + 1)) (child_pos q m i) st1 sol1) as (t & st2 & sol2 & Hb & K1 & K2 & K3 & K4 & _).
      * lia.
      * intros p Hp. apply Hq. eapply octant_closed; [|exact Hp]. lia.
      * cbn [mdc_fresh ml_depth]. lia.
      * cbn [mdc_fresh ml_depth]. lia.
      * intros a [].
      * constructor.
      * unfold child_pos in Hb at 1. rewrite Hb. cbn [obind]. eexists. split; [reflexivity|].
        assert (K3' : forall a, In a (tree_verts t) -> vs_next st1 <= a < vs_next st2).
        { intros a Ha. pose proof (pr_next _ _ _ _ K1 a Ha). destruct (K3 a Ha) as [[]|]; lia. }
        cbv beta iota. rewrite app_length. cbn [length]. split; [lia|]. rewrite flat_map_snoc. split; [|split; [|split; [|split]]].
        -- intros j c Hj. apply znth_snoc in Hj as [Hj|[-> ->]].
           ++ eapply pre_same; [exact (I2 j c Hj)| |lia]. intros a Ha. apply K4; [|intros []]. apply (pr_next _ _ _ _ (I2 j c Hj)). exact Ha.
           ++ rewrite I1. exact K1.
        -- apply nodup_app_intro; [exact I3|exact (pr_nodup _ _ _ _ K1)|]. intros a Ha Hb2. apply I4 in Ha. apply K3' in Hb2. lia.
        -- intros a Ha. apply in_app_or in Ha as [Ha|Ha]; [apply I4 in Ha; lia|apply K3' in Ha; lia].
        -- lia.
        -- intros b Hb2. rewrite K4; [|lia|intros []]. apply I6. exact Hb2.
    + split; [reflexivity|]. split; [intros j c Hj; apply znth_range in Hj; cbn in Hj; lia|]. split; [constructor|]. split; [intros a []|]. split; [lia|auto].
    + rewrite Hf1. cbn [obind]. destruct HI as (I1 & I2 & I3 & I4 & I5 & I6). change (Z.of_nat 8) with 8 in I1.
      eexists _, _, _. split; [reflexivity|]. cbn [tree_verts mi_verts depth_of mi_depth].
      split; [constructor|].
      * cbn [tree_ok]. split; [apply Nat2Z.inj; exact I1|]. intros i c Hi. exact (pr_shape _ _ _ _ (I2 i c Hi)).
      * cbn [tree_verts mi_verts]. apply nodup_app_intro; [exact Hnd|exact I3|]. intros a Ha Hb. apply Hidle in Ha. apply I4 in Hb. lia.
      * cbn [tree_verts mi_verts]. intros a Ha. apply in_app_or in Ha as [Ha|Ha].
        -- destruct (Hidle a Ha) as [(v & Hv) Hlt]. exists v. rewrite I6 by exact Hlt. exact Hv.
        -- apply in_flat_map in Ha as (c & Hc & Ha). destruct (in_znth _ _ _ Hc) as (j & Hj). exact (pr_idle _ _ _ _ (I2 j c Hj) a Ha).
      * cbn [tree_verts mi_verts]. intros a Ha. apply in_app_or in Ha as [Ha|Ha]; [apply Hidle in Ha; lia|apply I4 in Ha; lia].
      * intros c s a Hc (l1 & X & Ha). cbn [leaf_at] in X. match type of X with match ?z with _ => _ end = _ => destruct z as [t'|] eqn:Hi end; [|discriminate].
        apply (pr_leaf _ _ _ _ (I2 _ _ Hi)); [apply child_of_in; exact Hc|]. exists l1. auto.
      * split; [exact I5|]. split; [|split; [intros b Hb _; apply I6; exact Hb|reflexivity]].
        intros a Ha. apply in_app_or in Ha as [Ha|Ha]; [auto|]. apply I4 in Ha. lia.
Qed.
End Build.
