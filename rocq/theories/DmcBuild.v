(* What build of the dual marching cubes octree leaves behind. *)
From Coq Require Import ZArith List Bool Lia.
From Verif Require Import Base Arith Tables MeshModel GridModel FillModel MCModel OctreeModel OctreeSpec OctreeSums OctreeProofs OctreeFlux
  DcModel DcBuild QefModel DmcModel DmcTrav DmcContour DmcSpec DmcProofs.
Import ListNotations.
Local Open Scope Z_scope.

Section Build.
Variable E : fpenv.
Notation F := (fp_F E).
Notation D := (fp_D E).
Notation leaf := (dmc_leaf F).
Variable widen : F -> D.
Variables float_min float_lowest float_max : F.
Variables hypot copysign : F -> F -> F.
Variables msin mcos matan : F -> F.
Variable root_three : D.
Variable addr_of : ivec3 -> Z.
Notation generate_dual := (generate_dual E widen float_min float_lowest float_max hypot copysign msin mcos matan).
Notation dmc_build_node := (dmc_build_node E widen float_min float_lowest float_max hypot copysign msin mcos matan root_three addr_of).
Notation should_stop := (should_stop E root_three).
Notation should_split := (should_split E widen).

Lemma plane_total : forall (s : solver F) p v, (q_used s <= 16)%nat -> exists s', add_plane (fp_f E) float_min 4 16 s p v = Ret s' /\ (q_used s' <= 16)%nat.
Proof.
  intros s p v H. unfold add_plane. destruct (Nat.eqb (q_used s) 16) eqn:Q.
  - cbn [compress q_used]. cbn. eexists. split; [reflexivity|]. cbn. lia.
  - apply Nat.eqb_neq in Q. destruct (Nat.ltb_spec (q_used s) 16); [|lia]. eexists. split; [reflexivity|]. cbn [q_used]. lia.
Qed.
Lemma samples_total : forall t args q offs s avg, (q_used s <= 16)%nat -> exists r, ofold (dmc_sample E widen float_min t args q) offs (s, avg) = Ret r.
Proof.
  intros t args q. induction offs as [|o offs IH]; intros s avg H; [eexists; reflexivity|]. cbn [ofold]. unfold dmc_sample at 1.
  match goal with |- context [add_plane _ _ _ _ ?s ?p ?v] => destruct (plane_total s p v H) as (s' & -> & H') end. cbn [obind]. apply IH. exact H'.
Qed.
Lemma generate_total : forall t args node q size, exists a ok, generate_dual t args node q size = Ret (a, ok) /\
  dn_addr a = dn_addr node /\ dn_normal a <> None /\ exists p w, dn_dual a = Some (p, w) /\
  (if dmc_inside E w then exists mt, dn_mat a = Some mt else dn_mat a = dn_mat node).
Proof.
  intros t args node q size. unfold DmcModel.generate_dual.
  destruct (samples_total t args q (match ba_samples E args with Some f => f q size | None => sample_offsets E size end) (q_new (fp_f E))
    (V3 (a_ofZ (fp_d E) 0) (a_ofZ (fp_d E) 0) (a_ofZ (fp_d E) 0)) ltac:(cbn; lia)) as [[sol avg] ->]. cbn [obind].
  match goal with |- context [dmc_solve ?a ?b ?c ?d ?e ?f ?g ?h ?i ?j ?k ?l ?m] => destruct (dmc_solve a b c d e f g h i j k l m) as [v sol1] end.
  destruct (a_lt (fp_f E) (ba_eps E args) _).
  - match goal with |- context [dmc_solve ?a ?b ?c ?d ?e ?f ?g ?h ?i ?j ?k ?l ?m] => destruct (dmc_solve a b c d e f g h i j k l m) as [v2 sol2] end. do 2 eexists. split; [reflexivity|]. split; [reflexivity|]. split; [discriminate|].
    do 2 eexists. split; [reflexivity|]. cbn [dn_mat]. destruct (dmc_inside E (v2 3%nat)); [eexists; reflexivity|reflexivity].
  - do 2 eexists. split; [reflexivity|]. split; [reflexivity|]. split; [discriminate|].
    do 2 eexists. split; [reflexivity|]. cbn [dn_mat]. destruct (dmc_inside E (v 3%nat)); [eexists; reflexivity|reflexivity].
Qed.

(* why a node is not split *)
Definition leaf_reason (t : dmc_octree E) (args : dmc_args E) (q : ivec3) (size : Z) (ok : bool) : Prop :=
  size = 1 \/ (ba_early E args = true /\ should_stop t args q size = true) \/
  (ba_simple E args = true /\ size <> dt_size E t /\ should_split t args q size = false) \/
  (ba_simple E args = false /\ size * 8 < dt_size E t /\ ok = true).
Definition leaf_made (t : dmc_octree E) (args : dmc_args E) (a : leaf) (q : ivec3) (n : nat) : Prop :=
  exists ok, generate_dual t args (dmc_fresh (addr_of q)) q (edge_len n) = Ret (a, ok) /\ leaf_reason t args q (edge_len n) ok.

Lemma edge_len_one : forall n, edge_len n = 1 <-> n = 0%nat.
Proof.
  intros [|n]; [split; reflexivity|]. rewrite edge_len_S. assert (0 < edge_len n) by (unfold edge_len; apply Z.pow_pos_nonneg; lia). split; [lia|discriminate].
Qed.
Lemma edge_len_half : forall n, Z.quot (edge_len (S n)) 2 = edge_len n.
Proof. intro n. rewrite edge_len_S. rewrite Z.mul_comm. apply Z.quot_mul. lia. Qed.

Lemma omap_znth : forall T U (f : T -> outcome U) l rs i r, omap f l = Ret rs -> znth rs i = Some r -> exists x, znth l i = Some x /\ f x = Ret r.
Proof.
  intros T U f l rs i r H Hr. apply omap_ret in H. unfold znth in *. destruct (i <? 0); [discriminate|]. revert Hr. generalize (Z.to_nat i). clear i.
  induction H as [|x y l rs Hxy H IH]; intros k Hk; [destruct k; discriminate|]. destruct k as [|k]; [cbn in *; injection Hk as <-; eauto|]. apply IH. exact Hk.
Qed.
Lemma omap_length : forall T U (f : T -> outcome U) l rs, omap f l = Ret rs -> length rs = length l.
Proof. intros T U f l rs H. apply omap_ret in H. induction H; cbn [length]; auto. Qed.
Lemma octant_index : forall i x, znth (zseq 0 8) i = Some x -> x = i.
Proof.
  intros i x H. unfold znth in H. destruct (Z.ltb_spec i 0); [discriminate|]. apply zseq_in_nth in H. lia.
Qed.

Lemma build_shape : forall fuel n t args q r, dmc_build_node fuel t args q (edge_len n) = Ret r -> tree_ok (leaf_made t args) n r q.
Proof.
  induction fuel as [|fuel IH]; intros n t args q r H; [discriminate|]. cbn [DmcModel.dmc_build_node] in H.
  destruct (generate_total t args (dmc_fresh (addr_of q)) q (edge_len n)) as (a & ok & Hg & _). rewrite Hg in H. cbn [obind] in H.
  set (split := cs <- omap _ (zseq 0 8) ;; Ret (ONode tt cs)) in H.
  assert (Hs : split = Ret r -> edge_len n <> 1 -> tree_ok (leaf_made t args) n r q).
  { intros Hr N1. destruct n as [|n]; [destruct N1; reflexivity|]. unfold split in Hr. rewrite edge_len_half in Hr. clear split H.
    destruct (omap _ (zseq 0 8)) as [cs| | | |] eqn:Hc; try discriminate. cbn [obind] in Hr. injection Hr as <-. cbn [tree_ok]. split; [rewrite (omap_length _ _ _ _ _ Hc); reflexivity|].
    intros i c Hi. destruct (omap_znth _ _ _ _ _ _ _ Hc Hi) as (x & Hx & Hb). apply octant_index in Hx. subst x. apply IH in Hb. exact Hb. }
  clearbody split.
  assert (Hl : Ret (OLeaf a) = Ret r -> leaf_reason t args q (edge_len n) ok -> tree_ok (leaf_made t args) n r q).
  { intros Hr R. injection Hr as <-. cbn [tree_ok]. destruct n; exists ok; split; assumption. }
  unfold leaf_reason in Hl.
  destruct (Z.eqb_spec (edge_len n) 1) as [N1|N1]; [apply Hl; auto|].
  destruct (ba_early E args && should_stop t args q (edge_len n)) eqn:Q1; [apply andb_true_iff in Q1; apply Hl; auto|].
  destruct (ba_simple E args) eqn:Q2.
  - destruct (Z.eqb_spec (edge_len n) (dt_size E t)) as [N2|N2]; cbn [orb] in H; [apply Hs; assumption|].
    destruct (should_split t args q (edge_len n)) eqn:Q3; [apply Hs; assumption|]. apply Hl; auto 10.
  - destruct (i32max <? edge_len n * 8); [discriminate|]. destruct (Z.ltb_spec (edge_len n * 8) (dt_size E t)) as [N3|N3]; [|apply Hs; assumption].
    destruct ok; [apply Hl; auto 10|apply Hs; assumption].
Qed.

Lemma omap_total : forall T U (f : T -> outcome U) l, (forall x, In x l -> exists r, f x = Ret r) -> exists rs, omap f l = Ret rs.
Proof.
  intros T U f l. induction l as [|x l IH]; intro H; [exists []; reflexivity|]. cbn [omap]. destruct (H x (or_introl eq_refl)) as [r ->]. cbn [obind].
  destruct IH as [rs ->]; [intros; apply H; right; assumption|]. cbn [obind]. eexists. reflexivity.
Qed.
Lemma build_total : forall fuel n t args q, (n < fuel)%nat -> ba_simple E args = true \/ edge_len n * 8 <= i32max ->
  exists r, dmc_build_node fuel t args q (edge_len n) = Ret r.
Proof.
  induction fuel as [|fuel IH]; intros n t args q Hf Hp; [lia|]. cbn [DmcModel.dmc_build_node].
  destruct (generate_total t args (dmc_fresh (addr_of q)) q (edge_len n)) as (a & ok & Hg & _). rewrite Hg. cbn [obind].
  set (split := cs <- omap _ (zseq 0 8) ;; Ret (ONode tt cs)).
  assert (Hs : edge_len n <> 1 -> exists r, split = Ret r).
  { intro N1. destruct n as [|n]; [destruct N1; reflexivity|]. unfold split. rewrite edge_len_half. clear split.
    destruct (omap_total Z _ (fun i => dmc_build_node fuel t args (vadd q (vscale (edge_len n) (corner_offset i))) (edge_len n)) (zseq 0 8)) as [cs Hc].
    - intros i _. apply IH; [lia|]. destruct Hp as [Hp|Hp]; [left; exact Hp|right]. rewrite edge_len_S in Hp. assert (0 < edge_len n) by (unfold edge_len; apply Z.pow_pos_nonneg; lia). lia.
    - rewrite Hc. eexists. reflexivity. }
  clearbody split.
  destruct (Z.eqb_spec (edge_len n) 1) as [N1|N1]; [eexists; reflexivity|].
  destruct (ba_early E args && should_stop t args q (edge_len n)); [eexists; reflexivity|].
  destruct (ba_simple E args) eqn:Q2.
  - destruct ((edge_len n =? dt_size E t) || should_split t args q (edge_len n)); [auto|eexists; reflexivity].
  - destruct Hp as [Hp|Hp]; [discriminate|]. destruct (Z.ltb_spec i32max (edge_len n * 8)); [lia|]. destruct (edge_len n * 8 <? dt_size E t); [|auto].
    destruct ok; [eexists; reflexivity|auto].
Qed.

(* ---- addresses ---- *)
Lemma made_address : forall t args a q n, leaf_made t args a q n -> dn_addr a = addr_of q.
Proof.
  intros t args a q n (ok & H & _). destruct (generate_total t args (dmc_fresh (addr_of q)) q (edge_len n)) as (a' & ok' & Hg & Ha & _). rewrite H in Hg. injection Hg as <- <-. exact Ha.
Qed.
Lemma tree_ok_mono : forall A B (X Y : A -> ivec3 -> nat -> Prop) n (t : otree A B) q, (forall a q n, X a q n -> Y a q n) -> tree_ok X n t q -> tree_ok Y n t q.
Proof.
  intros A B X Y n. induction n as [|n IH]; intros [a|b cs] q H Ht; cbn [tree_ok] in *; auto. destruct Ht as [Hl Ht]. split; [exact Hl|].
  intros i c Hi. apply IH; auto.
Qed.
Lemma leaf_cubes : forall A B (X : A -> ivec3 -> nat -> Prop) n (t : otree A B) q a, tree_ok X n t q -> In a (leaves_of t) ->
  exists q' n', X a q' n' /\ subcube q' n' q n.
Proof.
  intros A B X n. induction n as [|n IH]; intros [l|b cs] q a Ht Ha; cbn [tree_ok leaves_of] in *; try contradiction.
  - destruct Ha as [<-|[]]. exists q, 0%nat. split; [exact Ht|apply subcube_refl].
  - destruct Ha as [<-|[]]. exists q, (S n). split; [exact Ht|apply subcube_refl].
  - destruct Ht as [Hl Ht]. apply in_flat_map in Ha as (c & Hc & Ha). apply In_nth_error in Hc as (i & Hi).
    assert (Li : (i < 8)%nat) by (rewrite <- Hl; apply nth_error_Some; congruence).
    assert (Zi : znth cs (Z.of_nat i) = Some c) by (rewrite znth_nat by lia; rewrite Nat2Z.id; exact Hi).
    destruct (IH c _ a (Ht _ _ Zi) Ha) as (q' & n' & H1 & H2). exists q', n'. split; [exact H1|]. eapply subcube_trans; [exact H2|]. apply child_subcube. lia.
Qed.
Lemma nodup_parts : forall T U (f : T -> list U) l, (forall x, In x l -> NoDup (f x)) ->
  (forall i j x y u, nth_error l i = Some x -> nth_error l j = Some y -> In u (f x) -> In u (f y) -> i = j) -> NoDup (flat_map f l).
Proof.
  intros T U f l. induction l as [|x l IH]; intros H1 H2; cbn [flat_map]; [constructor|].
  assert (G : forall a b : list U, NoDup a -> NoDup b -> (forall u, In u a -> ~ In u b) -> NoDup (a ++ b)).
  { clear. induction a as [|u a IH]; intros b Ha Hb Hd; cbn [app]; [exact Hb|]. inversion Ha; subst. constructor.
    - intro X. apply in_app_iff in X as [X|X]; [contradiction|]. apply (Hd u); [left; reflexivity|exact X].
    - apply IH; auto. intros v Hv. apply Hd. right. exact Hv. }
  apply G.
  - apply H1. left. reflexivity.
  - apply IH; [intros; apply H1; right; assumption|]. intros i j a b u Hi Hj Ha Hb. specialize (H2 (S i) (S j) a b u Hi Hj Ha Hb). lia.
  - intros u Hu Hin. apply in_flat_map in Hin as (y & Hy & Hu'). apply In_nth_error in Hy as (j & Hj). specialize (H2 0%nat (S j) x y u eq_refl Hj Hu Hu'). discriminate.
Qed.

Lemma distinct_addresses : forall n (t : otree leaf unit) q, (forall p p', in_cube q n p -> in_cube q n p' -> addr_of p = addr_of p' -> p = p') ->
  tree_ok (fun a q' _ => dn_addr a = addr_of q') n t q -> distinct_nodes E t.
Proof.
  unfold distinct_nodes. induction n as [|n IH]; intros [l|b cs] q Hinj Ht; cbn [tree_ok leaves_of map] in *; try contradiction; try (constructor; [intros []|constructor]).
  destruct Ht as [Hl Ht]. rewrite flat_map_map. apply nodup_parts.
  - intros c Hc. apply In_nth_error in Hc as (i & Hi). assert (Zi : znth cs (Z.of_nat i) = Some c) by (rewrite znth_nat by lia; rewrite Nat2Z.id; exact Hi).
    assert (Li : (i < 8)%nat) by (rewrite <- Hl; apply nth_error_Some; congruence).
    eapply IH; [|apply (Ht _ _ Zi)]. intros p p' Hp Hp'. apply Hinj; (eapply in_cube_sub; [apply (child_subcube q n (Z.of_nat i)); lia|assumption]).
  - assert (G : forall i c u, nth_error cs i = Some c -> In u (map dn_addr (leaves_of c)) -> (i < 8)%nat /\ exists p, u = addr_of p /\ in_cube (child_pos q n (Z.of_nat i)) n p).
    { intros i c u Hi Hu. assert (Li : (i < 8)%nat) by (rewrite <- Hl; apply nth_error_Some; congruence). split; [exact Li|].
      assert (Zi : znth cs (Z.of_nat i) = Some c) by (rewrite znth_nat by lia; rewrite Nat2Z.id; exact Hi).
      apply in_map_iff in Hu as (a & <- & Ha). destruct (leaf_cubes _ _ _ _ _ _ a (Ht _ _ Zi) Ha) as (q' & n' & H1 & H2). exists q'. split; [exact H1|].
      eapply in_cube_sub; [exact H2|]. assert (0 < edge_len n') by (unfold edge_len; apply Z.pow_pos_nonneg; lia). unfold in_cube. lia. }
    intros i j c c' u Hi Hj Hu Hu'. destruct (G i c u Hi Hu) as (Li & p & Hp & Cp). destruct (G j c' u Hj Hu') as (Lj & p' & Hp' & Cp').
    assert (p' = p) by (apply Hinj; [eapply in_cube_sub; [apply (child_subcube q n (Z.of_nat j)); lia|assumption]|eapply in_cube_sub; [apply (child_subcube q n (Z.of_nat i)); lia|assumption]|congruence]). subst p'.
    pose proof (child_of_pos q n (Z.of_nat i) p ltac:(lia) Cp) as X1. pose proof (child_of_pos q n (Z.of_nat j) p ltac:(lia) Cp') as X2. lia.
Qed.
End Build.
