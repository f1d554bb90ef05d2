(* Contouring the octree of manifold dual contouring. *)
From Coq Require Import ZArith List Bool Lia Permutation.
From Verif Require Import Base Arith Tables MeshModel MeshSpec MeshProofs MaterialFilterModel GridModel GridSpec GridProofs EdgeModel FillModel FillProofs MCModel CellSpec CellTables DualSpec DualProofs
  UdcModel OctreeModel OctreeSpec OctreeSums OctreeProofs OctreeFlux DcModel DcSpec DcBuild DcContour UdcProofs MdcModel MdcSpec MdcTables MdcLeaf MdcTrav MdcForest MdcBuild MdcCluster.
Import ListNotations.
Local Open Scope Z_scope.

(* ---- the order of the vertices ---- *)

Definition before (l : list Z) (x y : Z) : Prop := exists l1 l2, l = l1 ++ y :: l2 /\ In x l1.

Lemma up_before : forall t a p, up t a p -> before (tree_verts t) p a.
Proof.
  intros t a p H. induction H as [b cs a p Hp Ha|b cs c a p Hc _ (l1 & l2 & H1 & H2)].
  - apply in_split in Ha as (x & y & Ha). exists (mi_verts b ++ x), y. cbn [tree_verts]. rewrite Ha, app_assoc. split; [reflexivity|]. apply in_or_app. auto.
  - apply in_split in Hc as (x & y & ->). exists (mi_verts b ++ flat_map tree_verts x ++ l1), (l2 ++ flat_map tree_verts y).
    cbn [tree_verts]. rewrite flat_map_app. cbn [flat_map]. rewrite H1. split; [rewrite <- !app_assoc; reflexivity|].
    rewrite !in_app_iff. auto.
Qed.

Lemma split_unique : forall (l l1 l2 x y : list Z) a, NoDup l -> l = l1 ++ a :: l2 -> l = x ++ a :: y -> l1 = x /\ l2 = y.
Proof.
  intros l l1. revert l. induction l1 as [|b l1 IH]; intros l l2 x y a Hnd H H'; subst l.
  - destruct x as [|c x]; cbn [app] in H'; injection H' as H'; [auto|]. subst c. exfalso. cbn [app] in Hnd. apply NoDup_cons_iff in Hnd as [Hnd _]. apply Hnd.
    subst l2. apply in_or_app. right. left. reflexivity.
  - destruct x as [|c x]; cbn [app] in H'; injection H' as H'.
    + subst b. exfalso. cbn [app] in Hnd. apply NoDup_cons_iff in Hnd as [Hnd _]. apply Hnd. apply in_or_app. right. left. reflexivity.
    + subst c. cbn [app] in Hnd. apply NoDup_cons_iff in Hnd as [_ Hnd]. destruct (IH _ l2 x y a Hnd eq_refl ltac:(assumption)) as [-> ->]. auto.
Qed.

Lemma before_irrefl : forall l x, NoDup l -> ~ before l x x.
Proof. intros l x Hnd (l1 & l2 & -> & H). apply NoDup_remove_2 in Hnd. apply Hnd. apply in_or_app. auto. Qed.

Lemma before_trans : forall l x y z, NoDup l -> before l x y -> before l y z -> before l x z.
Proof.
  intros l x y z Hnd (l1 & l2 & H1 & H2) (k1 & k2 & K1 & K2). apply in_split in K2 as (u & v & ->).
  destruct (split_unique l l1 l2 u (v ++ z :: k2) y Hnd H1) as [-> _]; [rewrite K1, <- app_assoc; reflexivity|].
  exists (u ++ y :: v), k2. split; [exact K1|]. apply in_or_app. auto.
Qed.

(* Every vertex with the flag of its node *)
Fixpoint vorder (t : mdc_tree) : list (Z * bool) :=
  match t with
  | OLeaf l => map (fun a => (a, true)) (ml_verts l)
  | ONode b cs => map (fun a => (a, false)) (mi_verts b) ++ flat_map vorder cs
  end.

Lemma flat_map_map_fst : forall (cs : list mdc_tree), Forall (fun c => map fst (vorder c) = tree_verts c) cs -> map fst (flat_map vorder cs) = flat_map tree_verts cs.
Proof. intros cs H. induction H as [|c cs Hc _ IH]; [reflexivity|]. cbn [flat_map]. rewrite map_app, Hc, IH. reflexivity. Qed.

Lemma vorder_verts : forall X n (t : mdc_tree) q, tree_ok X n t q -> map fst (vorder t) = tree_verts t.
Proof.
  intros X. induction n as [|n IH]; intros t q H; destruct t as [l|b cs]; cbn [vorder tree_verts tree_ok] in *; try contradiction;
    try (rewrite map_map; cbn [fst]; apply map_id).
  rewrite map_app, map_map. cbn [fst]. rewrite map_id. f_equal. apply flat_map_map_fst. apply Forall_forall. intros c Hc.
  destruct (in_znth _ _ _ Hc) as (i & Hi). eapply IH. apply H. exact Hi.
Qed.

Lemma vorder_leaf : forall n (t : mdc_tree) q c l a, leaf_at n t q c = Some l -> In a (ml_verts l) -> In (a, true) (vorder t).
Proof.
  induction n as [|n IH]; intros t q c l a H Ha; destruct t as [l'|b cs]; cbn [vorder leaf_at] in *; try discriminate.
  - injection H as ->. apply in_map_iff. eauto.
  - injection H as ->. apply in_map_iff. eauto.
  - destruct (znth cs (child_of q n c)) as [t'|] eqn:Hi; [|discriminate]. apply in_or_app. right. apply in_flat_map. exists t'.
    split; [eapply znth_in; eassumption|]. eapply IH; eassumption.
Qed.

Lemma vorder_cell : forall (X : mdc_leaf -> ivec3 -> nat -> Prop) n (t : mdc_tree) q a, tree_ok X n t q -> (forall l c k, X l c k -> k = O) ->
  In (a, true) (vorder t) -> exists c l, in_cube q n c /\ leaf_at n t q c = Some l /\ In a (ml_verts l).
Proof.
  intros X. induction n as [|n IH]; intros t q a H HX Ha; destruct t as [l|b cs]; cbn [vorder tree_ok leaf_at] in *; try contradiction.
  - apply in_map_iff in Ha as (x & Hx & Ha). injection Hx as ->. exists q, l. split; [unfold in_cube; rewrite edge_len_0; lia|auto].
  - apply HX in H. discriminate.
  - destruct H as [H8 H]. apply in_app_or in Ha as [Ha|Ha]; [apply in_map_iff in Ha as (x & Hx & _); discriminate|].
    apply in_flat_map in Ha as (c & Hc & Ha). destruct (in_znth _ _ _ Hc) as (i & Hi). pose proof (znth_bound _ _ _ _ Hi H8) as Hr.
    destruct (IH c _ a (H i c Hi) HX Ha) as (x & l & Hx & Hl & Hal). exists x, l.
    split; [eapply in_cube_sub; [exact (child_subcube q n i Hr)|exact Hx]|]. split; [|exact Hal]. rewrite (child_of_pos q n i x Hr Hx).
    replace (znth cs i) with (Some c) by (symmetry; exact Hi). exact Hl.
Qed.

Lemma forall2_nth : forall T U (R : T -> U -> Prop) l ws k a, Forall2 R l ws -> nth_error l k = Some a -> exists w, nth_error ws k = Some w /\ R a w.
Proof. intros T U R l ws k a H. revert k. induction H as [|x w l ws Hx _ IH]; intros [|k] Hk; try discriminate; [injection Hk as <-; exists w; split; [reflexivity|exact Hx]|exact (IH k Hk)]. Qed.

Lemma edge_start_corner : forall c s, 0 <= s < 12 -> znth (cell_corners c) (edge_start s) = Some (snd (cell_edge c s)).
Proof.
  intros c s Hs. unfold cell_edge. cbn [snd]. destruct (edge_row s Hs) as (_ & _ & <- & _ & R & _). generalize dependent (edge_start s). intros k R.
  assert (K : k = 0 \/ k = 1 \/ k = 2 \/ k = 3 \/ k = 4 \/ k = 5 \/ k = 6 \/ k = 7) by lia. decompose [or] K; subst; reflexivity.
Qed.

Section Contour.
Context {E : fpenv} {Q S : Type}.
Variable ops : qef_ops (fp_F E) Q S.
Variable g : ugrid E.
Variable solid : ivec3 -> bool.
Notation F := (fp_F E).
Notation A := (fp_f E).
Notation xvertex := (mdc_vertex F S).
Notation store := (vstore xvertex).
Notation suc := Datatypes.S.
Notation leaf_ok := (MdcForest.leaf_ok g solid).
Notation good := (MdcForest.good ops g solid).

Lemma add_vertices_flat : forall X afuel eps n fuel (t : mdc_tree) q (st : store) m, (n < fuel)%nat -> tree_ok X n t q ->
  add_vertices fuel afuel eps t st m = ofold (fun acc p => add_vertex_step afuel (snd p) eps acc (fst p)) (vorder t) (st, m).
Proof.
  intros X afuel eps.
  assert (M : forall f l acc, ofold (fun acc (p : Z * bool) => add_vertex_step (E := E) (S := S) afuel (snd p) eps acc (fst p)) (map (fun a => (a, f)) l) acc = ofold (add_vertex_step afuel f eps) l acc).
  { intros f. induction l as [|a l IH]; intro acc; [reflexivity|]. cbn [map ofold fst snd]. destruct (add_vertex_step afuel f eps acc a); cbn [obind]; auto. }
  induction n as [|n IH]; intros fuel t q st m Hf Ht; (destruct fuel as [|fuel]; [lia|]); destruct t as [l|b cs]; cbn [add_vertices tree_ok vorder is_subdivided negb node_verts] in *; try contradiction.
  - rewrite M. destruct (ofold _ _ _); reflexivity.
  - rewrite M. destruct (ofold _ _ _); reflexivity.
  - destruct Ht as [H8 Ht]. rewrite ofold_app, M. destruct (ofold (add_vertex_step afuel false eps) (mi_verts b) (st, m)) as [[st1 m1]| | | |]; cbn [obind]; try reflexivity.
    assert (G : forall k a pre, length pre = a -> forall cs', cs = pre ++ cs' -> length cs' = k -> forall acc,
      ofold (fun acc i => let '(st, m) := acc : store * mesh (mvert F) in c <- child (ONode b cs) i ;; add_vertices fuel afuel eps c st m) (zseq (Z.of_nat a) k) acc =
      ofold (fun acc p => add_vertex_step afuel (snd p) eps acc (fst p)) (flat_map vorder cs') acc).
    { induction k as [|k IHk]; intros a pre Ha cs' Hcs Hk [st2 m2]; destruct cs' as [|c cs']; try discriminate; [reflexivity|].
      cbn [zseq flat_map ofold]. rewrite ofold_app. cbn [child]. assert (Hi : znth cs (Z.of_nat a) = Some c).
      { unfold znth. destruct (Z.ltb_spec (Z.of_nat a) 0); [lia|]. rewrite Nat2Z.id, Hcs, nth_error_app2 by lia. rewrite Ha, Nat.sub_diag. reflexivity. }
      rewrite Hi. cbn [oread obind]. rewrite (IH fuel c _ st2 m2 ltac:(lia) (Ht _ c Hi)).
      destruct (ofold _ (vorder c) (st2, m2)) as [[st3 m3]| | | |]; cbn [obind]; try reflexivity.
      replace (Z.of_nat a + 1) with (Z.of_nat (suc a)) by lia. apply (IHk (suc a) (pre ++ [c])); [rewrite app_length; cbn; lia|rewrite <- app_assoc; exact Hcs|].
      injection Hk as Hk. exact Hk. }
    apply (G 8%nat O []); [reflexivity|reflexivity|exact H8].
Qed.

(* ---- deciding which vertices get into the mesh ---- *)

Section Mark.
Variables (n : nat) (t : mdc_tree) (q : ivec3) (st0 : store) (eps : F) (afuel : nat).
Hypothesis Hgood : good st0 n t q.
Hypothesis Hfuel : (n < afuel)%nat.
Hypothesis Hn : (n <= 10)%nat.
Notation V := (tree_verts t).

Lemma V_nodup : NoDup V.
Proof. exact (gd_nodup _ _ _ _ _ _ _ Hgood). Qed.
Lemma anc_before : forall a b, In a V -> ancestor st0 a b -> b = a \/ before V b a.
Proof.
  intros a b Ha H. induction H as [|a p b Hp H IH]; [auto|]. right. pose proof (up_before _ _ _ (gd_up _ _ _ _ _ _ _ Hgood a p Ha Hp)) as Hb.
  destruct IH as [->|IH]; [eapply good_closed; eassumption|exact Hb|]. eapply before_trans; [apply V_nodup|exact IH|exact Hb].
Qed.
Lemma parent_not : forall a p, In a V -> parent_of st0 a = Some p -> ancestor st0 p a -> False.
Proof.
  intros a p Ha Hp H. pose proof (up_before _ _ _ (gd_up _ _ _ _ _ _ _ Hgood a p Ha Hp)) as Hb.
  assert (HpV : In p V) by (eapply good_closed; eassumption).
  destruct (anc_before p a HpV H) as [->|H']; [exact (before_irrefl _ _ V_nodup Hb)|].
  exact (before_irrefl _ _ V_nodup (before_trans _ _ _ _ V_nodup Hb H')).
Qed.
Lemma anc_in : forall a b, In a V -> ancestor st0 a b -> In b V.
Proof. intros a b Ha H. eapply closed_anc; [exact (good_closed _ _ _ _ _ _ _ Hgood)|exact Ha|exact H]. Qed.
Lemma anc_antisym : forall a b, In a V -> ancestor st0 a b -> ancestor st0 b a -> a = b.
Proof.
  intros a b Ha H H'. destruct (anc_before a b Ha H) as [->|H1]; [reflexivity|]. destruct (anc_before b a (anc_in a b Ha H) H') as [->|H2]; [reflexivity|].
  exfalso. exact (before_irrefl _ _ V_nodup (before_trans _ _ _ _ V_nodup H1 H2)).
Qed.

(* A vertex is used if it is in a leaf or its error is small. *)
Definition coll (a : Z) : bool :=
  existsb (fun p => (fst p =? a) && snd p) (vorder t) || match vs_at st0 a with Some v => a_le A (xv_error v) eps | None => false end.
Definition covered (a : Z) : Prop := exists b, ancestor st0 a b /\ b <> a /\ coll b = true.
Definition rep (a : Z) : Prop := coll a = true /\ ~ covered a.

(* Values, relative to those before *)
Definition sim (st : store) : Prop := vs_next st = vs_next st0 /\ (forall b, ~ In b V -> vs_at st b = vs_at st0 b) /\
  forall a v, In a V -> vs_at st0 a = Some v -> exists c i, vs_at st a = Some (set_contour v c i).
Definition marked (st : store) (a : Z) : Prop := exists v, vs_at st a = Some v /\ xv_collapsible v = coll a.

Lemma sim_parent : forall st a, sim st -> parent_of st a = parent_of st0 a.
Proof.
  intros st a (_ & H1 & H2). unfold parent_of. destruct (in_dec Z.eq_dec a V) as [Ha|Ha]; [|rewrite H1 by exact Ha; reflexivity].
  destruct (good_live _ _ _ _ _ _ _ a Hgood Ha) as (v & Hv). destruct (H2 a v Ha Hv) as (c & i & ->). rewrite Hv. reflexivity.
Qed.
Lemma sim_anc : forall st a b, sim st -> (ancestor st a b <-> ancestor st0 a b).
Proof.
  intros st a b Hs. split; intro H; induction H as [|a p b Hp H IH]; try constructor; (eapply anc_up; [|exact IH]); [rewrite <- (sim_parent st a Hs)|rewrite (sim_parent st a Hs)]; exact Hp.
Qed.

Lemma has_loop_ok : forall (st : store), sim st -> forall fuel m a v, vert_at n t m a -> vs_at st a = Some v -> (n - m < fuel)%nat ->
  (forall b, ancestor st0 a b -> b <> a -> marked st b) ->
  exists r, has_collapsible_loop fuel st (xv_parent v) = Ret r /\ (r = true <-> covered a).
Proof.
  intros st Hs. induction fuel as [|fuel IH]; intros m a v Hm Hv Hf Hmk; [lia|]. cbn [has_collapsible_loop].
  assert (HaV : In a V) by (eapply vert_at_in; eassumption).
  destruct (gd_live _ _ _ _ _ _ _ Hgood m a Hm) as (v0 & V0 & _ & _ & Hup). pose proof (sim_parent st a Hs) as Hpar. unfold parent_of in Hpar. rewrite Hv, V0 in Hpar. rewrite Hpar.
  destruct (xv_parent v0) as [p|] eqn:Hp.
  - assert (Hp0 : parent_of st0 a = Some p) by (unfold parent_of; rewrite V0; exact Hp).
    destruct (Hup p eq_refl) as (m' & Hlt & Hm'). pose proof (vert_at_le _ _ _ _ Hm').
    assert (Hap : ancestor st0 a p) by (eapply anc_up; [exact Hp0|constructor]).
    assert (Hne : p <> a). { intros ->. exact (parent_not a a HaV Hp0 (anc_refl _ _)). }
    destruct (Hmk p Hap Hne) as (w & W1 & W2). unfold vs_read. rewrite W1. cbn [oread obind]. rewrite W2. destruct (coll p) eqn:Hcp.
    + exists true. split; [reflexivity|]. split; [|reflexivity]. intros _. exists p. auto.
    + destruct (IH m' p w Hm' W1 ltac:(lia)) as (r & -> & Hr).
      * intros b Hb Hbp. apply Hmk; [eapply anc_up; eassumption|]. intros ->. exact (parent_not a p HaV Hp0 Hb).
      * exists r. split; [reflexivity|]. rewrite Hr. split; intros (b & B1 & B2 & B3).
        -- exists b. split; [eapply anc_up; eassumption|]. split; [|exact B3]. intros ->. exact (parent_not a p HaV Hp0 B1).
        -- inversion B1 as [|a' p' b' Hp' Hb']; subst; [contradiction|]. rewrite Hp0 in Hp'. injection Hp' as <-.
           exists b. split; [exact Hb'|]. split; [|exact B3]. intros ->. congruence.
  - exists false. split; [reflexivity|]. split; [discriminate|]. intros (b & B1 & B2 & _). exfalso. apply B2. apply (top_stop st0); [|exact B1]. unfold parent_of. rewrite V0. exact Hp.
Qed.

Lemma coll_dec_loop : forall (st : store), sim st -> forall fuel m a v, vert_at n t m a -> vs_at st a = Some v -> (n - m < fuel)%nat ->
  (forall b, ancestor st0 a b -> marked st b) -> forall r,
  exists o, collapsible_loop fuel st r (xv_parent v) = Ret o /\
    ((o = r /\ ~ covered a) \/ exists b, o = Some b /\ b <> a /\ ancestor st0 a b /\ rep b).
Proof.
  intros st Hs. induction fuel as [|fuel IH]; intros m a v Hm Hv Hf Hmk r; [lia|]. cbn [collapsible_loop].
  assert (HaV : In a V) by (eapply vert_at_in; eassumption).
  destruct (gd_live _ _ _ _ _ _ _ Hgood m a Hm) as (v0 & V0 & _ & _ & Hup). pose proof (sim_parent st a Hs) as Hpar. unfold parent_of in Hpar. rewrite Hv, V0 in Hpar. rewrite Hpar.
  destruct (xv_parent v0) as [p|] eqn:Hp.
  - assert (Hp0 : parent_of st0 a = Some p) by (unfold parent_of; rewrite V0; exact Hp).
    destruct (Hup p eq_refl) as (m' & Hlt & Hm'). pose proof (vert_at_le _ _ _ _ Hm').
    assert (Hap : ancestor st0 a p) by (eapply anc_up; [exact Hp0|constructor]).
    assert (Hne : p <> a). { intros ->. exact (parent_not a a HaV Hp0 (anc_refl _ _)). }
    destruct (Hmk p Hap) as (w & W1 & W2). unfold vs_read. rewrite W1. cbn [oread obind]. rewrite W2.
    destruct (IH m' p w Hm' W1 ltac:(lia)) with (r := if coll p then Some p else r) as (o & -> & Ho).
    + intros b Hb. apply Hmk. eapply anc_up; eassumption.
    + exists o. split; [reflexivity|]. destruct Ho as [[-> Hn']|(b & -> & B1 & B2 & B3)].
      * destruct (coll p) eqn:Hcp.
        -- right. exists p. split; [reflexivity|]. split; [exact Hne|]. split; [exact Hap|]. split; [exact Hcp|exact Hn'].
        -- left. split; [reflexivity|]. intros (b & B1 & B2 & B3). inversion B1 as [|a' p' b' Hp' Hb']; subst; [contradiction|]. rewrite Hp0 in Hp'. injection Hp' as <-.
           apply Hn'. exists b. split; [exact Hb'|]. split; [|exact B3]. intros ->. congruence.
      * right. exists b. split; [reflexivity|]. split; [|split; [eapply anc_up; eassumption|exact B3]]. intros ->. exact (parent_not a p HaV Hp0 B2).
  - exists r. split; [reflexivity|]. left. split; [reflexivity|]. intros (b & B1 & B2 & _). apply B2. apply (top_stop st0); [|exact B1]. unfold parent_of. rewrite V0. exact Hp.
Qed.

Lemma highest_ok : forall (st : store) m a, sim st -> vert_at n t m a -> (n - m < afuel)%nat -> (forall b, In b V -> marked st b) -> coll a = true ->
  exists b, highest_collapsible_ancestor afuel st a = Ret (Some b) /\ ancestor st0 a b /\ rep b.
Proof.
  intros st m a Hs Hm Hf Hmk Hc. pose proof (vert_at_in _ _ _ _ Hm) as HaV. unfold highest_collapsible_ancestor.
  destruct (Hmk a HaV) as (v & V1 & V2). unfold vs_read. rewrite V1. cbn [oread obind]. rewrite V2, Hc.
  destruct (coll_dec_loop st Hs afuel m a v Hm V1 Hf (fun b Hb => Hmk b (anc_in a b HaV Hb)) (Some a)) as (o & -> & [[-> Hnc]|(b & -> & _ & B2 & B3)]).
  - exists a. split; [reflexivity|]. split; [constructor|]. split; assumption.
  - exists b. auto.
Qed.

(* Representatives have different leaf vertices below them, so there are at most four of them for each cell. *)
Lemma leaf_below : forall m a, vert_at n t m a -> exists w, ancestor st0 w a /\ In (w, true) (vorder t).
Proof.
  assert (G : forall k n' t' q', part n t q n' t' q' -> forall m a, (m <= k)%nat -> vert_at n' t' m a -> exists w, ancestor st0 w a /\ In (w, true) (vorder t)).
  { assert (Hsub : forall n' t' q', part n t q n' t' q' -> incl (vorder t') (vorder t)).
    { intros n' t' q' Hp. induction Hp as [|n' b cs q' i c Hp IH Hi]; [apply incl_refl|]. intros x Hx. apply IH. cbn [vorder]. apply in_or_app. right.
      apply in_flat_map. exists c. split; [eapply znth_in; eassumption|exact Hx]. }
    induction k as [k IHk] using lt_wf_ind. intros n'. induction n' as [|n' IHn]; intros t' q' Hp m a Hm Ha; destruct t' as [l|b cs]; cbn [vert_at] in Ha.
    - exists a. split; [constructor|]. apply (Hsub _ _ _ Hp). cbn [vorder]. apply in_map_iff. exists a. tauto.
    - destruct Ha as [[-> Ha]|[]]. pose proof (part_tree_ok _ _ _ _ _ _ _ _ _ Hp (gd_shape _ _ _ _ _ _ _ Hgood)) as Hsh. contradiction.
    - exists a. split; [constructor|]. apply (Hsub _ _ _ Hp). cbn [vorder]. apply in_map_iff. exists a. tauto.
    - destruct Ha as [[-> Ha]|(c & Hc & Ha)].
      + destruct (gd_merged _ _ _ _ _ _ _ Hgood n' b cs q' Hp a Ha) as (v & hs & _ & _ & Hne & Hhs & _). destruct hs as [|h hs]; [contradiction|].
        destruct (proj1 (Hhs h) (or_introl eq_refl)) as [Hh Hph]. apply in_flat_map in Hh as (c & Hc & Hh).
        pose proof (part_tree_ok _ _ _ _ _ _ _ _ _ Hp (gd_shape _ _ _ _ _ _ _ Hgood)) as Hsh. cbn [tree_ok] in Hsh. destruct (in_znth _ _ _ Hc) as (i & Hi).
        destruct (in_vert_at _ _ _ _ _ (proj2 Hsh i c Hi) Hh) as (m' & Hm').
        pose proof (vert_at_le _ _ _ _ Hm') as Hle.
        assert (Hpc : part n t q n' c (child_pos q' n' i)) by (econstructor; eassumption).
        destruct (IHk n' ltac:(lia) n' c _ Hpc m' h Hle Hm') as (w & W1 & W2). exists w. split; [|exact W2].
        eapply anc_trans; [exact W1|]. eapply anc_up; [exact Hph|constructor].
      + destruct (in_znth _ _ _ Hc) as (i & Hi). eapply IHn; [econstructor; [exact Hp|exact Hi]|exact Hm|exact Ha]. }
  intros m a Ha. exact (G m n t q (part_self _ _ _) m a (le_n _) Ha).
Qed.

Lemma flat_map_length : forall T U (f : T -> list U) k l, (forall a, In a l -> Z.of_nat (length (f a)) <= k) -> Z.of_nat (length (flat_map f l)) <= Z.of_nat (length l) * k.
Proof.
  intros T U f k. induction l as [|a l IH]; intro H; [cbn; lia|]. cbn [flat_map length]. rewrite app_length. pose proof (H a (or_introl eq_refl)).
  pose proof (IH (fun b Hb => H b (or_intror Hb))). lia.
Qed.

Definition leaf_addrs (t : mdc_tree) : list Z := map fst (filter snd (vorder t)).
Lemma leaf_addrs_in : forall t' w, In (w, true) (vorder t') <-> In w (leaf_addrs t').
Proof.
  intros t' w. unfold leaf_addrs. rewrite in_map_iff. split; [intro H; exists (w, true); split; [reflexivity|]; apply filter_In; auto|].
  intros ([x f] & <- & H). apply filter_In in H as [H Hf]. cbn in Hf. subst f. exact H.
Qed.
Lemma filter_flat_map : forall T U (p : U -> bool) (f : T -> list U) l, filter p (flat_map f l) = flat_map (fun a => filter p (f a)) l.
Proof. intros T U p f. induction l as [|a l IH]; [reflexivity|]. cbn [flat_map]. rewrite filter_app, IH. reflexivity. Qed.
Lemma leaf_addrs_length : forall n' (t' : mdc_tree) q', tree_ok leaf_ok n' t' q' -> Z.of_nat (length (leaf_addrs t')) <= 4 * pow8 n'.
Proof.
  assert (L : forall l q, leaf_ok l q 0 -> Z.of_nat (length (leaf_addrs (OLeaf l))) <= 4).
  { intros l q' (_ & _ & _ & Hl). unfold leaf_addrs. cbn [vorder]. rewrite map_length. rewrite filter_all by (apply Forall_forall; intros p Hp; apply in_map_iff in Hp as (x & <- & _); reflexivity).
    rewrite map_length, Hl. pose proof (set_count_bound (config solid q') (config_length solid q')). lia. }
  induction n' as [|n' IH]; intros t' q' H; destruct t' as [l|b cs]; cbn [tree_ok] in H; try contradiction.
  - apply (L l q') in H. change (pow8 0) with 1. lia.
  - destruct H as [H _]. discriminate.
  - unfold leaf_addrs. rewrite map_length. cbn [vorder]. rewrite filter_app, app_length, filter_flat_map.
    replace (filter snd (map (fun a : Z => (a, false)) (mi_verts b))) with (@nil (Z * bool)).
    2: { induction (mi_verts b) as [|a l IHl]; [reflexivity|exact IHl]. }
    cbn [length Nat.add]. rewrite pow8_S. destruct H as [H8 H].
    pose proof (flat_map_length _ _ (fun c => filter snd (vorder c)) (4 * pow8 n') (cs : list mdc_tree)) as X. replace (length (cs : list mdc_tree)) with 8%nat in X by (symmetry; exact H8). specialize (X ltac:(
      intros c Hc; destruct (in_znth _ _ _ Hc) as (i & Hi); pose proof (IH c _ (H i c Hi)) as Y; unfold leaf_addrs in Y; rewrite map_length in Y; exact Y)).
    lia.
Qed.

Lemma choose_list : forall (R : Z -> Z -> Prop) (L rs : list Z), NoDup rs -> (forall a, In a rs -> exists w, In w L /\ R a w) ->
  (forall a a' w, In a rs -> In a' rs -> R a w -> R a' w -> a = a') -> (length rs <= length L)%nat.
Proof.
  intros R L rs Hnd Hex Hinj. assert (X : exists ws, length ws = length rs /\ NoDup ws /\ incl ws L /\ forall w, In w ws -> exists a, In a rs /\ R a w).
  { induction rs as [|a rs IH]; [exists []; split; [reflexivity|]; split; [constructor|]; split; [intros x []|intros x []]|].
    apply NoDup_cons_iff in Hnd as [Hn1 Hn2]. destruct IH as (ws & W1 & W2 & W3 & W4); [exact Hn2|intros; apply Hex; right; assumption|intros x x' w Hx Hx'; apply Hinj; right; assumption|].
    destruct (Hex a (or_introl eq_refl)) as (w & Hw & Hr). exists (w :: ws). split; [cbn; congruence|]. split; [constructor; [|exact W2]|].
    - intro X. destruct (W4 w X) as (a' & A1 & A2). assert (a = a') by (eapply Hinj; [left; reflexivity|right; exact A1|exact Hr|exact A2]). subst. contradiction.
    - split; [intros x [<-|Hx]; auto|]. intros x [<-|Hx]; [exists a; split; [left; reflexivity|exact Hr]|]. destruct (W4 x Hx) as (a' & A1 & A2). exists a'. split; [right; exact A1|exact A2]. }
  destruct X as (ws & W1 & W2 & W3 & _). rewrite <- W1. apply NoDup_incl_length; assumption.
Qed.

Lemma reps_few : forall rs, NoDup rs -> (forall a, In a rs -> In a V /\ rep a) -> Z.of_nat (length rs) <= two32.
Proof.
  intros rs Hnd Hr.
  assert (X : (length rs <= length (leaf_addrs t))%nat).
  { apply (choose_list (fun a w => ancestor st0 w a)); [exact Hnd| |].
    - intros a Ha. destruct (Hr a Ha) as [HaV _]. destruct (in_vert_at _ _ _ _ _ (gd_shape _ _ _ _ _ _ _ Hgood) HaV) as (m & Hm).
      destruct (leaf_below m a Hm) as (w & W1 & W2). exists w. split; [apply leaf_addrs_in; exact W2|exact W1].
    - intros a a' w Ha Ha' H H'. destruct (Z.eq_dec a a') as [|Hne]; [assumption|exfalso].
      destruct (Hr a Ha) as [_ [C1 C2]]. destruct (Hr a' Ha') as [_ [C1' C2']].
      destruct (anc_linear st0 w a a' H H') as [X|X]; [apply C2; exists a'|apply C2'; exists a]; auto. }
  pose proof (leaf_addrs_length n t q (gd_shape _ _ _ _ _ _ _ Hgood)) as Y.
  assert (W : pow8 n <= pow8 10) by (unfold pow8; apply Z.pow_le_mono_r; lia). change (pow8 10) with 1073741824 in W. unfold two32. lia.
Qed.

(* ---- the loop ---- *)

Definition vdata (v : xvertex) : mvert F := MVert (xv_pos v) (xv_normal v) (xv_mat v).

Record minv (l1 : list Z) (st : store) (m : mesh (mvert F)) (rs : list Z) : Prop := Minv {
  mi_sim : sim st;
  mi_mark : forall a, In a l1 -> marked st a;
  mi_reps : forall a, In a rs <-> In a l1 /\ rep a;
  mi_nodup : NoDup rs;
  mi_mesh : Forall2 (fun a w => exists v, vs_at st a = Some v /\ w = vdata v) rs (m_verts m);
  mi_inds : m_inds m = [];
  mi_index : forall k a, nth_error rs k = Some a -> exists v, vs_at st a = Some v /\ xv_index v = Z.of_nat k;
  mi_other : forall a, In a l1 -> ~ rep a -> exists v, vs_at st a = Some v /\ xv_index v = kBadIndex;
  mi_filter : exists f, rs = filter f l1
}.

Lemma prefix_anc : forall l1 a l2 b, V = l1 ++ a :: l2 -> ancestor st0 a b -> b <> a -> In b l1.
Proof.
  intros l1 a l2 b HV H Hne. assert (Ha : In a V) by (rewrite HV; apply in_or_app; right; left; reflexivity).
  destruct (anc_before a b Ha H) as [->|(x & y & H1 & H2)]; [contradiction|]. destruct (split_unique V l1 l2 x y a V_nodup HV H1) as [-> _]. exact H2.
Qed.

Lemma step_coll : forall a f v, In (a, f) (vorder t) -> vs_at st0 a = Some v -> coll a = (if f then true else a_le A (xv_error v) eps).
Proof.
  intros a f v Hin Hv. unfold coll. rewrite Hv.
  assert (X : existsb (fun p => (fst p =? a) && snd p) (vorder t) = f).
  { pose proof V_nodup as Hnd. rewrite <- (vorder_verts _ _ _ _ (gd_shape _ _ _ _ _ _ _ Hgood)) in Hnd. revert Hin Hnd. generalize (vorder t). clear.
    induction l as [|[x h] l IH]; intros Hin Hnd; [destruct Hin|]. cbn [map fst existsb snd] in *. apply NoDup_cons_iff in Hnd as [N1 N2]. destruct Hin as [X|Hin].
    - injection X as -> ->. rewrite Z.eqb_refl. destruct f; [reflexivity|]. cbn [andb orb]. destruct (existsb _ l) eqn:Y; [|reflexivity].
      apply existsb_exists in Y as ([y h] & Hy & Y). apply andb_true_iff in Y as [Y _]. apply Z.eqb_eq in Y. cbn [fst] in Y. subst. exfalso. apply N1. apply in_map_iff. exists (a, h). auto.
    - rewrite IH by assumption. destruct (Z.eqb_spec x a) as [->|]; [|reflexivity]. exfalso. apply N1. apply in_map_iff. exists (a, f). auto. }
  rewrite X. destruct f; reflexivity.
Qed.

Lemma mark_step : forall l1 a l2 f st m rs, V = l1 ++ a :: l2 -> In (a, f) (vorder t) -> minv l1 st m rs ->
  exists st' m' rs', add_vertex_step afuel f eps (st, m) a = Ret (st', m') /\ minv (l1 ++ [a]) st' m' rs'.
Proof.
  intros l1 a l2 f st m rs HV Hf [M1 M2 M3 M4 M5 M6 M7 M8 M9]. assert (Ha : In a V) by (rewrite HV; apply in_or_app; right; left; reflexivity).
  assert (Hal : ~ In a l1). { pose proof V_nodup as Hnd. rewrite HV in Hnd. apply NoDup_remove_2 in Hnd. intro X. apply Hnd. apply in_or_app. auto. }
  assert (Hincl : forall x, In x l1 -> In x V) by (intros x Hx; rewrite HV; apply in_or_app; auto).
  destruct (in_vert_at _ _ _ _ _ (gd_shape _ _ _ _ _ _ _ Hgood) Ha) as (k & Hk).
  destruct (good_live _ _ _ _ _ _ _ a Hgood Ha) as (v0 & V0). destruct (proj2 (proj2 M1) a v0 Ha V0) as (c0 & i0 & Hst).
  pose proof (step_coll a f v0 Hf V0) as Hc. unfold add_vertex_step. unfold vs_read at 1. rewrite Hst. cbn [oread obind].
  change (xv_error (set_contour v0 c0 i0)) with (xv_error v0). rewrite <- Hc.
  assert (Hmk : forall b, ancestor st0 a b -> b <> a -> marked st b) by (intros b Hb Hne; apply M2; eapply prefix_anc; eassumption).
  destruct (has_loop_ok st M1 afuel k a _ Hk Hst ltac:(lia) Hmk) as (r & Hr & Hcov).
  (* writing *)
  assert (W : forall id, exists st', vs_write st a (set_contour (set_contour v0 c0 i0) (coll a) id) = Ret st' /\ sim st' /\
     vs_at st' a = Some (set_contour v0 (coll a) id) /\ forall b, b <> a -> vs_at st' b = vs_at st b).
  { intro id. destruct (vs_write_ok _ st a _ (set_contour (set_contour v0 c0 i0) (coll a) id) Hst) as (st' & W0 & W1 & W2 & W3). exists st'.
    split; [exact W0|]. split; [|split; [exact W2|exact W3]]. destruct M1 as (S1 & S2 & S3). split; [congruence|]. split.
    - intros b Hb. rewrite W3; [auto|]. intros ->. contradiction.
    - intros b v Hb Hv. destruct (Z.eq_dec b a) as [->|Hne]; [|rewrite W3 by exact Hne; auto]. rewrite V0 in Hv. injection Hv as <-. eauto. }
  assert (Keep : forall st' id, (forall b, b <> a -> vs_at st' b = vs_at st b) -> vs_at st' a = Some (set_contour v0 (coll a) id) ->
     (forall x, In x (l1 ++ [a]) -> marked st' x)).
  { intros st' id H1 H2 x Hx. apply in_app_or in Hx as [Hx|[<-|[]]]; [|eexists; split; [exact H2|reflexivity]].
    destruct (M2 x Hx) as (v & X1 & X2). exists v. rewrite H1; [auto|]. intros ->. contradiction. }
  assert (Mesh : forall (st' : store) rs ws, (forall b, b <> a -> vs_at st' b = vs_at st b) -> ~ In a rs ->
     Forall2 (fun a w => exists v, vs_at st a = Some v /\ w = vdata v) rs ws -> Forall2 (fun a w => exists v, vs_at st' a = Some v /\ w = vdata v) rs ws).
  { intros st' rs0 ws H1 Hn0 H2. induction H2 as [|x w rs0 ws Hx _ IH]; constructor.
    - rewrite H1; [exact Hx|]. intros ->. apply Hn0. left. reflexivity.
    - apply IH. intro X. apply Hn0. right. exact X. }
  assert (Hars : ~ In a rs) by (intro X; apply M3 in X; tauto).
  assert (Hfil : forall r : bool, exists h, rs ++ (if r then [a] else []) = filter h (l1 ++ [a])).
  { intro r0. destruct M9 as (h & ->). exists (fun x => if x =? a then r0 else h x). rewrite filter_app. cbn [filter]. rewrite Z.eqb_refl. f_equal.
    apply filter_ext_in. intros x Hx. destruct (Z.eqb_spec x a) as [->|]; [contradiction|reflexivity]. }
  destruct (coll a) eqn:Ca.
  - rewrite Hr. cbn [obind]. destruct r; cbn [andb negb].
    + destruct (W kBadIndex) as (st' & -> & W1 & W2 & W3). cbn [obind]. exists st', m, rs. split; [reflexivity|].
      assert (Hnr : ~ rep a) by (intros [_ X]; apply X, Hcov; reflexivity).
      constructor; [exact W1|eapply Keep; eassumption| |exact M4|apply Mesh; assumption|exact M6| | |destruct (Hfil false) as (h & Hh); rewrite app_nil_r in Hh; eauto].
      * intro x. rewrite M3, in_app_iff. cbn [In]. split; [tauto|]. intros [[X|[<-|[]]] Y]; tauto.
      * intros j x Hj. destruct (M7 j x Hj) as (v & X1 & X2). exists v. rewrite W3; [auto|]. intros ->. apply Hars. eapply nth_error_In; eassumption.
      * intros x Hx Hnx. apply in_app_or in Hx as [Hx|[<-|[]]]; [|eexists; split; [exact W2|reflexivity]].
        destruct (M8 x Hx Hnx) as (v & X1 & X2). exists v. rewrite W3; [auto|]. intros ->. contradiction.
    + assert (Hrep : rep a) by (split; [exact Ca|]; intro X; apply Hcov in X; discriminate).
      assert (Hnd' : NoDup (rs ++ [a])). { apply nodup_app_intro; [exact M4|constructor; [intros []|constructor]|]. intros x Hx [<-|[]]. contradiction. }
      assert (Hrs' : forall x, In x (rs ++ [a]) -> In x V /\ rep x).
      { intros x Hx. apply in_app_or in Hx as [Hx|[<-|[]]]; [|auto]. apply M3 in Hx as [X Y]. auto. }
      pose proof (reps_few _ Hnd' Hrs') as Hfew. rewrite app_length in Hfew. cbn [length] in Hfew.
      assert (Hlen : length rs = length (m_verts m)). { clear -M5. induction M5; [reflexivity|cbn; congruence]. }
      rewrite add_vertex_ok by (unfold zlen; lia). cbn [obind].
      destruct (W (zlen (m_verts m))) as (st' & -> & W1 & W2 & W3). cbn [obind]. eexists st', _, (rs ++ [a]). split; [reflexivity|].
      constructor; cbn [m_verts m_inds]; [exact W1|eapply Keep; eassumption| |exact Hnd'| |exact M6| | |exact (Hfil true)].
      * intro x. rewrite !in_app_iff, M3. cbn [In]. split; [intros [X|[<-|[]]]; tauto|]. intros [[X|[<-|[]]] Y]; tauto.
      * apply Forall2_app; [apply Mesh; assumption|]. constructor; [|constructor]. eexists. split; [exact W2|reflexivity].
      * intros j x Hj. destruct (Nat.lt_ge_cases j (length rs)) as [Hlt|Hge].
        -- rewrite nth_error_app1 in Hj by exact Hlt. destruct (M7 j x Hj) as (v & X1 & X2). exists v. rewrite W3; [auto|]. intros ->. apply Hars. eapply nth_error_In; eassumption.
        -- rewrite nth_error_app2 in Hj by exact Hge. destruct (j - length rs)%nat as [|j'] eqn:Y; [|destruct j'; discriminate]. cbn in Hj. injection Hj as <-.
           eexists. split; [exact W2|]. cbn [set_contour xv_index]. unfold zlen. lia.
      * intros x Hx Hnx. apply in_app_or in Hx as [Hx|[<-|[]]]; [|contradiction].
        destruct (M8 x Hx Hnx) as (v & X1 & X2). exists v. rewrite W3; [auto|]. intros ->. contradiction.
  - cbn [obind andb]. destruct (W kBadIndex) as (st' & -> & W1 & W2 & W3). cbn [obind]. exists st', m, rs. split; [reflexivity|].
    assert (Hnr : ~ rep a) by (intros [X _]; congruence).
    constructor; [exact W1|rewrite <- Ca in W2; eapply Keep; [exact W3|rewrite <- Ca; exact W2]| |exact M4|apply Mesh; assumption|exact M6| | |destruct (Hfil false) as (h & Hh); rewrite app_nil_r in Hh; eauto].
    * intro x. rewrite M3, in_app_iff. cbn [In]. split; [tauto|]. intros [[X|[<-|[]]] Y]; tauto.
    * intros j x Hj. destruct (M7 j x Hj) as (v & X1 & X2). exists v. rewrite W3; [auto|]. intros ->. apply Hars. eapply nth_error_In; eassumption.
    * intros x Hx Hnx. apply in_app_or in Hx as [Hx|[<-|[]]]; [|eexists; split; [exact W2|reflexivity]].
      destruct (M8 x Hx Hnx) as (v & X1 & X2). exists v. rewrite W3; [auto|]. intros ->. contradiction.
Qed.

Lemma mark_all : forall fuel, (n < fuel)%nat -> exists st m rs, add_vertices fuel afuel eps t st0 mesh_new = Ret (st, m) /\ minv V st m rs.
Proof.
  intros fuel Hf. rewrite (add_vertices_flat _ afuel eps n fuel t q st0 _ Hf (gd_shape _ _ _ _ _ _ _ Hgood)).
  pose proof (vorder_verts _ _ _ _ (gd_shape _ _ _ _ _ _ _ Hgood)) as HV.
  assert (G : forall l2 l1 st m rs, vorder t = l1 ++ l2 -> minv (map fst l1) st m rs ->
    exists st' m' rs', ofold (fun acc p => add_vertex_step afuel (snd p) eps acc (fst p)) l2 (st, m) = Ret (st', m') /\ minv V st' m' rs').
  { induction l2 as [|[a f] l2 IH]; intros l1 st m rs Ho Hi.
    - exists st, m, rs. split; [reflexivity|]. rewrite app_nil_r in Ho. rewrite <- HV, Ho. exact Hi.
    - destruct (mark_step (map fst l1) a (map fst l2) f st m rs) as (st1 & m1 & rs1 & H1 & H2).
      + rewrite <- HV, Ho, map_app. reflexivity.
      + rewrite Ho. apply in_or_app. right. left. reflexivity.
      + exact Hi.
      + cbn [ofold fst snd]. rewrite H1. cbn [obind]. apply (IH (l1 ++ [(a, f)]) st1 m1 rs1); [rewrite <- app_assoc; exact Ho|]. rewrite map_app. exact H2. }
  apply (G (vorder t) [] st0 mesh_new []); [reflexivity|]. constructor; cbn [map].
  - split; [reflexivity|]. split; [auto|]. intros a v Ha Hv. exists (xv_collapsible v), (xv_index v). rewrite Hv. destruct v; reflexivity.
  - intros a [].
  - intro a. cbn [In]. tauto.
  - constructor.
  - constructor.
  - reflexivity.
  - intros k a Hk. destruct k; discriminate.
  - intros a [].
  - exists (fun _ => false). reflexivity.
Qed.
(* ---- the quads ---- *)

Section Quads.
Variables (st : store) (m : mesh (mvert F)) (rs : list Z).
Hypothesis Hmark : minv V st m rs.
Hypothesis Hmats : forall c, in_cube q n c -> forall p, In p (cell_corners c) -> is_solid (grid_material g p) = solid p.

Definition vert_index (c : ivec3) (e : gedge) (i : Z) : Prop := exists a b v,
  leaf_vertex_at n t q c (sheet solid c e) a /\ top_collapsible st a b /\ vs_at st b = Some v /\ xv_index v = i.

Lemma top_of_rep : forall a b, In a V -> ancestor st0 a b -> rep b -> top_collapsible st a b.
Proof.
  intros a b Ha H [R1 R2]. pose proof (mi_sim _ _ _ _ Hmark) as Hs. pose proof (anc_in a b Ha H) as Hb.
  split; [apply sim_anc; assumption|]. split.
  - destruct (mi_mark _ _ _ _ Hmark b Hb) as (v & V1 & V2). exists v. split; [exact V1|congruence].
  - intros b' v' Hb' Hne Hv'. apply sim_anc in Hb'; [|exact Hs].
    destruct (mi_mark _ _ _ _ Hmark b' (anc_in b b' Hb Hb')) as (v & V1 & V2). rewrite V1 in Hv'. injection Hv' as <-. rewrite V2.
    destruct (coll b') eqn:X; [|reflexivity]. exfalso. apply R2. exists b'. auto.
Qed.

Lemma top_unique : forall a b b', top_collapsible st a b -> top_collapsible st a b' -> b = b'.
Proof.
  intros a b b' (A1 & (v & V1 & V2) & A3) (B1 & (v' & W1 & W2) & B3). destruct (Z.eq_dec b b') as [|Hne]; [assumption|exfalso].
  destruct (anc_linear st a b b' A1 B1) as [X|X].
  - rewrite (A3 b' v' X (fun h => Hne (eq_sym h)) W1) in W2. discriminate.
  - rewrite (B3 b v X Hne V1) in V2. discriminate.
Qed.

Lemma index_unique : forall c e i j, vert_index c e i -> vert_index c e j -> i = j.
Proof.
  intros c e i j (a & b & v & (l & L1 & L2) & H2 & H3 & H4) (a' & b' & v' & (l' & L1' & L2') & H2' & H3' & H4').
  rewrite L1 in L1'. injection L1' as <-. rewrite L2 in L2'. injection L2' as <-. rewrite <- (top_unique a b b' H2 H2') in H3'. congruence.
Qed.

Lemma mi_mesh_nth : forall k b, nth_error rs k = Some b -> exists v, vs_at st b = Some v /\ xv_index v = Z.of_nat k /\ nth_error (m_verts m) k = Some (vdata v).
Proof.
  intros k b Hk. destruct (mi_index _ _ _ _ Hmark k b Hk) as (v & V1 & V2). exists v. split; [exact V1|]. split; [exact V2|].
  destruct (forall2_nth _ _ _ _ _ k b (mi_mesh _ _ _ _ Hmark) Hk) as (w & W1 & v' & W2 & ->). rewrite V1 in W2. injection W2 as <-. exact W1.
Qed.

Lemma leaf_index : forall c s a, leaf_vertex_at n t q c s a ->
  exists b k v, highest_collapsible_ancestor afuel st a = Ret (Some b) /\ top_collapsible st a b /\ nth_error rs k = Some b /\
    vs_at st b = Some v /\ xv_index v = Z.of_nat k /\ nth_error (m_verts m) k = Some (vdata v).
Proof.
  intros c s a Hla. pose proof (leaf_vertex_in _ _ _ _ _ _ Hla) as Ha.
  destruct (in_vert_at _ _ _ _ _ (gd_shape _ _ _ _ _ _ _ Hgood) Ha) as (k & Hk).
  destruct Hla as (l & L1 & L2). assert (Hc : coll a = true).
  { unfold coll. apply orb_true_iff. left. apply existsb_exists. exists (a, true). split; [|cbn; rewrite Z.eqb_refl; reflexivity].
    eapply vorder_leaf; [exact L1|]. eapply znth_in; eassumption. }
  destruct (highest_ok st k a (mi_sim _ _ _ _ Hmark) Hk ltac:(lia) (mi_mark _ _ _ _ Hmark) Hc) as (b & B1 & B2 & B3).
  assert (Hb : In b rs) by (apply (mi_reps _ _ _ _ Hmark); split; [eapply anc_in; eassumption|exact B3]).
  apply In_nth_error in Hb as (j & Hj). destruct (mi_mesh_nth j b Hj) as (v & V1 & V2 & V3).
  exists b, j, v. split; [exact B1|]. split; [apply top_of_rep; assumption|]. auto.
Qed.

Lemma sheet_vertex : forall c e, in_cube q n c -> In c (cells_around (fst e) (snd e)) -> edge_crosses solid e = true ->
  exists a, leaf_vertex_at n t q c (sheet solid c e) a.
Proof.
  intros c e Hc Hin He. destruct (shape_leaf_at _ _ _ _ _ _ (gd_shape _ _ _ _ _ _ _ Hgood) Hc) as (l & L1 & (_ & _ & _ & L2)).
  destruct (sheet_range solid c e Hin) as [R1 R2]. destruct (znth_some _ (ml_verts l) (sheet solid c e)) as (a & Ha).
  - rewrite L2. apply R1 in He. lia.
  - exists a, l. auto.
Qed.

Lemma index_exists : forall c e, in_cube q n c -> In c (cells_around (fst e) (snd e)) -> edge_crosses solid e = true ->
  exists i v, vert_index c e i /\ 0 <= i < zlen (m_verts m) /\ znth (m_verts m) i = Some (vdata v).
Proof.
  intros c e Hc Hin He. destruct (sheet_vertex c e Hc Hin He) as (a & Ha). destruct (leaf_index c _ a Ha) as (b & k & v & _ & B2 & B3 & B4 & B5 & B6).
  exists (Z.of_nat k), v. split; [exists a, b, v; auto|]. assert (k < length (m_verts m))%nat by (apply nth_error_Some; congruence). unfold zlen, znth.
  split; [lia|]. destruct (Z.ltb_spec (Z.of_nat k) 0); [lia|]. rewrite Nat2Z.id. exact B6.
Qed.

Lemma deepest_range : forall leaves, length leaves = 4%nat -> exists i, mdc_deepest leaves = Ret i /\ 0 <= i < 4.
Proof.
  intros leaves H. destruct leaves as [|l0 [|l1 [|l2 [|l3 [|]]]]]; try discriminate. unfold mdc_deepest.
  change (znth [l0; l1; l2; l3] 0) with (Some l0). cbn [oread obind]. change (zseq 1 3) with [1; 2; 3]. cbn [ofold].
  change (znth [l0; l1; l2; l3] 1) with (Some l1). change (znth [l0; l1; l2; l3] 2) with (Some l2). change (znth [l0; l1; l2; l3] 3) with (Some l3).
  cbn [oread obind].
  repeat match goal with |- context [if ?b then _ else _] => destruct b; cbn [fst] end; eexists; (split; [reflexivity|lia]).
Qed.

Lemma corner_material : forall it e i, matches n t q it e -> 0 <= i < 4 ->
  exists row s l ends k cs mat, znth kEdgeProcSharedEdge (axis_index (fst e)) = Some row /\ znth row i = Some s /\ znth (snd it) i = Some l /\
    znth kCellEdgeEndpoint s = Some ends /\ znth ends 0 = Some k /\ ml_corners l = Some cs /\ znth cs k = Some mat /\ is_solid mat = solid (snd e).
Proof.
  intros [d leaves] [d' p] i (H1 & H2 & H3) Hi. cbn [fst snd] in *. subst d'.
  destruct (znth_some _ (cells_around d p) i ltac:(cbn; lia)) as (c & Hc). destruct (forall2_at _ _ _ _ _ i c H3 Hc) as (l & Hl1 & Hl2).
  pose proof (proj1 (Forall_forall _ _) H2 c (znth_in _ _ _ _ Hc)) as Hin.
  destruct (shape_leaf_at _ _ _ _ _ _ (gd_shape _ _ _ _ _ _ _ Hgood) Hin) as (l' & L1 & (_ & _ & L2 & _)). rewrite Hl2 in L1. injection L1 as <-.
  destruct (shared_edge d p i c Hc) as (row & s & R1 & R2 & R3 & R4).
  destruct (edge_row s R3) as (_ & T & _).
  exists row, s, l, [edge_start s; edge_end s], (edge_start s), (map (grid_material g) (cell_corners c)), (grid_material g p).
  split; [exact R1|]. split; [exact R2|]. split; [exact Hl1|]. split; [exact T|]. split; [reflexivity|]. split; [exact L2|].
  assert (X : znth (cell_corners c) (edge_start s) = Some p).
  { pose proof (f_equal snd R4) as R5. cbn [snd] in R5. rewrite <- R5. apply edge_start_corner. exact R3. }
  split; [rewrite znth_map, X; reflexivity|]. apply (Hmats c Hin). eapply znth_in; eassumption.
Qed.

Variable id : ivec3 -> gedge -> Z.
Hypothesis Hid : forall c e, in_cube q n c -> In c (cells_around (fst e) (snd e)) -> edge_crosses solid e = true -> vert_index c e (id c e).
Definition quad_tris (e : gedge) : list triangle := fan_around (fun c => id c e) solid e.

Lemma quad_act : forall it e inds, matches n t q it e ->
  mdc_act afuel st (fst it) (snd it) (Mesh (m_verts m) inds) =
    Ret (Mesh (m_verts m) (inds ++ if edge_crosses solid e then flatten (filter nondegenerate (quad_tris e)) else [])).
Proof.
  intros it e inds Hma. pose proof (gd_shape _ _ _ _ _ _ _ Hgood) as Hsh. unfold mdc_act.
  assert (Hcs : exists c0 c1 c2 c3, cells_around (fst e) (snd e) = [c0; c1; c2; c3]) by (unfold cells_around; eauto). destruct Hcs as (c0 & c1 & c2 & c3 & Hcs).
  destruct (edge_crosses solid e) eqn:X.
  - assert (G : forall i c vs, 0 <= i < 4 -> znth (cells_around (fst e) (snd e)) i = Some c ->
      exists b v, contour_vertex afuel (fst it) st (snd it) (Some vs) i = Ret (Some (vs ++ [b])) /\ vs_at st b = Some v /\ xv_index v = id c e /\ 0 <= id c e < zlen (m_verts m)).
    { intros i c vs Hi Hc. destruct (shared_ok _ _ _ _ _ it e i Hsh Hma Hi) as (c' & Hc' & Hin & Hx). rewrite Hc in Hc'. injection Hc' as <-. rewrite X in Hx.
      destruct Hx as (a & A1 & A2). destruct (leaf_index c _ a A1) as (b & k & v & B1 & B2 & B3 & B4 & B5 & B6). exists b, v.
      unfold contour_vertex. destruct Hma as (-> & _ & _). rewrite A2. cbn [obind]. rewrite B1. cbn [obind]. split; [reflexivity|]. split; [exact B4|].
      assert (Y : id c e = Z.of_nat k). { apply (index_unique c e); [apply Hid; [exact Hin|eapply znth_in; eassumption|exact X]|]. exists a, b, v. auto. }
      split; [congruence|]. assert (k < length (m_verts m))%nat by (apply nth_error_Some; congruence). unfold zlen. lia. }
    rewrite Hcs in G. change (zseq 0 4) with [0; 1; 2; 3]. cbn [ofold].
    destruct (G 0 c0 [] ltac:(lia) eq_refl) as (b0 & v0 & -> & V0 & I0 & R0). cbn [obind app].
    destruct (G 1 c1 [b0] ltac:(lia) eq_refl) as (b1 & v1 & -> & V1 & I1 & R1). cbn [obind app].
    destruct (G 2 c2 [b0; b1] ltac:(lia) eq_refl) as (b2 & v2 & -> & V2 & I2 & R2). cbn [obind app].
    destruct (G 3 c3 [b0; b1; b2] ltac:(lia) eq_refl) as (b3 & v3 & -> & V3 & I3 & R3). cbn [obind app].
    assert (Hlen : length (snd it) = 4%nat) by (destruct Hma as (_ & _ & Hf2); apply Forall2_len in Hf2; rewrite Hf2; reflexivity).
    destruct (deepest_range (snd it) Hlen) as (j & -> & Hj). cbn [obind].
    destruct (corner_material it e j Hma Hj) as (row & s & l & ends & k & cs & mat & M1 & M2 & M3 & M4 & M5 & M6 & M7 & M8).
    destruct Hma as (Hd & _ & _). rewrite Hd, M1. cbn [oread obind]. rewrite M2. cbn [oread obind]. rewrite M3. cbn [oread obind]. rewrite M4. cbn [oread obind].
    rewrite M5. cbn [oread obind]. rewrite M6. cbn [oread obind]. rewrite M7. cbn [oread obind].
    cbn [omap]. unfold vs_read. rewrite V0, V1, V2, V3. cbn [oread obind]. rewrite I0, I1, I2, I3.
    unfold quad_tris, fan_around. rewrite Hcs. cbn [map]. rewrite <- M8. unfold is_solid.
    destruct (mat =? Empty); cbn [negb]; (rewrite add_triangle_ok by (cbn [m_verts]; lia)); cbn [obind];
      (rewrite add_triangle_ok by (cbn [m_verts]; lia)); cbn [m_verts m_inds];
      (do 2 f_equal; rewrite <- app_assoc, <- flatten_app, <- filter_app; reflexivity).
  - change (zseq 0 4) with [0; 1; 2; 3]. cbn [ofold].
    destruct (shared_ok _ _ _ _ _ it e 0 Hsh Hma ltac:(lia)) as (c' & _ & _ & Hx). rewrite X in Hx.
    destruct Hma as (Hd & _ & _). unfold contour_vertex at 1. rewrite Hd, Hx. cbn [obind contour_vertex]. rewrite app_nil_r. reflexivity.
Qed.

Lemma quads_act : forall items es inds, Forall2 (matches n t q) items es ->
  ofold (fun m it => mdc_act afuel st (fst it) (snd it) m) items (Mesh (m_verts m) inds) =
    Ret (Mesh (m_verts m) (inds ++ flatten (filter nondegenerate (flat_map quad_tris (filter (edge_crosses solid) es))))).
Proof.
  intros items es inds H. revert inds. induction H as [|it e items es Hm _ IH]; intro inds; [cbn; rewrite app_nil_r; reflexivity|].
  cbn [ofold]. rewrite (quad_act it e inds Hm). cbn [obind]. rewrite IH. cbn [filter]. destruct (edge_crosses solid e).
  - cbn [flat_map]. rewrite filter_app, flatten_app, app_assoc. reflexivity.
  - rewrite app_nil_r. reflexivity.
Qed.

Lemma quads_ok : forall fuel, (n < fuel)%nat -> exists es ts, NoDup es /\ (forall e, In e es <-> inner_quad solid q n e) /\
  ts = filter nondegenerate (flat_map quad_tris es) /\
  cell_proc mdc_procs (mdc_act afuel st) fuel t m = Ret (Mesh (m_verts m) (flatten ts)) /\ mesh_valid_with (Mesh (m_verts m) (flatten ts)) ts.
Proof.
  intros fuel Hf. destruct (full_cell solid n t q (shape_full _ _ _ _ _ (gd_shape _ _ _ _ _ _ _ Hgood)) V_nodup _ (mdc_act afuel st) fuel Hf) as (items & es & H1 & H2 & H3).
  set (es' := filter (edge_crosses solid) es) in *.
  assert (Hes : forall e, In e es' <-> inner_quad solid q n e).
  { intro e. split; intro H.
    - apply (Permutation_in _ H3) in H. apply filter_In in H as [H ?]. apply in_inner_edges in H. split; assumption.
    - apply (Permutation_in _ (Permutation_sym H3)). destruct H as [Ha Hb]. apply filter_In. split; [apply in_inner_edges; exact Hb|exact Ha]. }
  exists es', (filter nondegenerate (flat_map quad_tris es')). split.
  { apply (Permutation_NoDup (Permutation_sym H3)). apply NoDup_filter, inner_edges_nodup. }
  split; [exact Hes|]. split; [reflexivity|]. split.
  - rewrite H1. pose proof (quads_act items es [] H2) as X. fold es' in X. cbn [app] in X. rewrite <- X. f_equal.
    pose proof (mi_inds _ _ _ _ Hmark). destruct m as [vs is]. cbn in *. congruence.
  - split; [reflexivity|]. apply Forall_forall. intros [[x y] z] Hin. apply filter_In in Hin as [Hin Hnd].
    apply in_flat_map in Hin as (e & He & Hin). apply Hes in He as [He1 He2].
    assert (R : forall c, In c (cells_around (fst e) (snd e)) -> 0 <= id c e < zlen (m_verts m)).
    { intros c Hc. pose proof (proj1 (Forall_forall _ _) He2 c Hc) as Hcq. destruct (index_exists c e Hcq Hc He1) as (i & _ & I1 & I2 & _).
      rewrite (index_unique c e (id c e) i (Hid c e Hcq Hc He1) I1). exact I2. }
    assert (Hcs : exists c0 c1 c2 c3, cells_around (fst e) (snd e) = [c0; c1; c2; c3]) by (unfold cells_around; eauto). destruct Hcs as (c0 & c1 & c2 & c3 & Hcs).
    unfold quad_tris, fan_around in Hin. rewrite Hcs in Hin, R. cbn [map] in Hin.
    pose proof (R c0 ltac:(cbn; auto)). pose proof (R c1 ltac:(cbn; auto)). pose proof (R c2 ltac:(cbn; auto)). pose proof (R c3 ltac:(cbn; auto)).
    assert (B : 0 <= x < zlen (m_verts m) /\ 0 <= y < zlen (m_verts m) /\ 0 <= z < zlen (m_verts m)).
    { destruct (solid (snd e)); destruct Hin as [X|[X|[]]]; injection X as <- <- <-; auto. }
    unfold good_triangle, mesh_vertex_count. cbn [m_verts].
    cbn in Hnd. apply negb_true_iff in Hnd. apply orb_false_iff in Hnd as [Hnd N3]. apply orb_false_iff in Hnd as [N1 N2].
    apply Z.eqb_neq in N1, N2, N3. repeat split; try lia.
Qed.
End Quads.
End Mark.

(* ---- contours before do not matter ---- *)

Lemma sim_good : forall st0 st1 n t q, good st0 n t q -> sim t st0 st1 -> good st1 n t q.
Proof.
  intros st0 st1 n t q H (_ & _ & Hs). eapply good_same; [exact H|]. intros a v Ha Hv. destruct (Hs a v Ha Hv) as (c & i & ->).
  eexists. split; [reflexivity|]. split; [apply core_contour|]. auto.
Qed.

Lemma sim_coll : forall st0 st1 n t q eps a, good st0 n t q -> sim t st0 st1 -> In a (tree_verts t) -> coll t st1 eps a = coll t st0 eps a.
Proof.
  intros st0 st1 n t q eps a H (_ & _ & Hs) Ha. destruct (good_live _ _ _ _ _ _ _ a H Ha) as (v & Hv). destruct (Hs a v Ha Hv) as (c & i & Hv').
  unfold coll. rewrite Hv, Hv'. reflexivity.
Qed.

Lemma sim_rep : forall st0 st1 n t q eps a, good st0 n t q -> sim t st0 st1 -> In a (tree_verts t) -> (rep t st1 eps a <-> rep t st0 eps a).
Proof.
  intros st0 st1 n t q eps a H Hs Ha. unfold rep. rewrite (sim_coll st0 st1 n t q eps a H Hs Ha). unfold covered.
  assert (X : (exists b, ancestor st1 a b /\ b <> a /\ coll t st1 eps b = true) <-> exists b, ancestor st0 a b /\ b <> a /\ coll t st0 eps b = true); [|tauto].
  split; intros (b & B1 & B2 & B3); exists b.
  - apply (sim_anc n t q st0 H st1 a b Hs) in B1. rewrite (sim_coll st0 st1 n t q eps b H Hs) in B3 by (eapply anc_in; eassumption). auto.
  - rewrite (sim_coll st0 st1 n t q eps b H Hs) by (eapply anc_in; eassumption). split; [apply (sim_anc n t q st0 H st1 a b Hs); exact B1|auto].
Qed.

Lemma marks_unique : forall st0 st1 n t q eps st m rs st' m' rs', good st0 n t q -> sim t st0 st1 ->
  minv t st0 eps (tree_verts t) st m rs -> minv t st1 eps (tree_verts t) st' m' rs' ->
  (forall a, vs_at st' a = vs_at st a) /\ vs_next st' = vs_next st /\ m' = m.
Proof.
  intros st0 st1 n t q eps st m rs st' m' rs' H Hs M M'.
  assert (Hrs : rs' = rs).
  { destruct (mi_filter _ _ _ _ _ _ _ M) as (f & ->). destruct (mi_filter _ _ _ _ _ _ _ M') as (f' & ->). apply filter_ext_in. intros a Ha.
    pose proof (mi_reps _ _ _ _ _ _ _ M a) as R. pose proof (mi_reps _ _ _ _ _ _ _ M' a) as R'. rewrite filter_In in R, R'.
    rewrite (sim_rep st0 st1 n t q eps a H Hs Ha) in R'. destruct (f a), (f' a); try reflexivity; exfalso; intuition discriminate. }
  subst rs'.
  assert (Hat : forall a, vs_at st' a = vs_at st a).
  { intro a. destruct (in_dec Z.eq_dec a (tree_verts t)) as [Ha|Ha].
    - destruct (good_live _ _ _ _ _ _ _ a H Ha) as (v & Hv).
      destruct (proj2 (proj2 (mi_sim _ _ _ _ _ _ _ M)) a v Ha Hv) as (c & i & V1).
      destruct (proj2 (proj2 Hs) a v Ha Hv) as (c1 & i1 & V2).
      destruct (proj2 (proj2 (mi_sim _ _ _ _ _ _ _ M')) a _ Ha V2) as (c' & i' & V3).
      change (set_contour (set_contour v c1 i1) c' i') with (set_contour v c' i') in V3.
      rewrite V1, V3. f_equal.
      destruct (mi_mark _ _ _ _ _ _ _ M a Ha) as (w & W1 & W2). rewrite V1 in W1. injection W1 as <-. cbn [set_contour xv_collapsible] in W2.
      destruct (mi_mark _ _ _ _ _ _ _ M' a Ha) as (w & W3 & W4). rewrite V3 in W3. injection W3 as <-. cbn [set_contour xv_collapsible] in W4.
      rewrite (sim_coll st0 st1 n t q eps a H Hs Ha) in W4. f_equal; [congruence|].
      destruct (in_dec Z.eq_dec a rs) as [Hin|Hout].
      + apply In_nth_error in Hin as (k & Hk). destruct (mi_index _ _ _ _ _ _ _ M k a Hk) as (w & X1 & X2). destruct (mi_index _ _ _ _ _ _ _ M' k a Hk) as (w' & X3 & X4).
        rewrite V1 in X1. injection X1 as <-. rewrite V3 in X3. injection X3 as <-. cbn [set_contour xv_index] in *. congruence.
      + destruct (mi_other _ _ _ _ _ _ _ M a Ha) as (w & X1 & X2); [intro R; apply Hout, (mi_reps _ _ _ _ _ _ _ M); auto|].
        destruct (mi_other _ _ _ _ _ _ _ M' a Ha) as (w' & X3 & X4); [intro R; apply Hout, (mi_reps _ _ _ _ _ _ _ M'); auto|].
        rewrite V1 in X1. injection X1 as <-. rewrite V3 in X3. injection X3 as <-. cbn [set_contour xv_index] in *. congruence.
    - rewrite (proj1 (proj2 (mi_sim _ _ _ _ _ _ _ M')) a Ha), (proj1 (proj2 (mi_sim _ _ _ _ _ _ _ M)) a Ha). apply Hs. exact Ha. }
  split; [exact Hat|]. split.
  - rewrite (proj1 (mi_sim _ _ _ _ _ _ _ M')), (proj1 (mi_sim _ _ _ _ _ _ _ M)). apply Hs.
  - pose proof (mi_mesh _ _ _ _ _ _ _ M) as H1. pose proof (mi_mesh _ _ _ _ _ _ _ M') as H2.
    pose proof (mi_inds _ _ _ _ _ _ _ M) as H3. pose proof (mi_inds _ _ _ _ _ _ _ M') as H4.
    assert (X : m_verts m' = m_verts m); [|destruct m, m'; cbn in *; congruence].
    revert H1 H2. generalize (m_verts m) (m_verts m'). clear -Hat. induction rs as [|a rs IH]; intros w w' H1 H2.
    + inversion H1; inversion H2; reflexivity.
    + inversion H1 as [|? x ? ws (v & V1 & ->) Hr]; subst. inversion H2 as [|? x ? ws' (v' & V1' & ->) Hr']; subst.
      rewrite Hat, V1 in V1'. injection V1' as <-. f_equal. apply IH; assumption.
Qed.
End Contour.
