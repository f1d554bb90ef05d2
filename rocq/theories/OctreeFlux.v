(* Sums over the edges of an octree: telescoping along segments, the list of inner
   edges, and the leaf of a unit cell. *)
From Coq Require Import ZArith List Bool Lia Permutation.
From Verif Require Import Base GridSpec CellSpec MeshSpec DualSpec DualProofs OctreeModel OctreeSpec OctreeSums OctreeProofs.
Import ListNotations.
Local Open Scope Z_scope.

(* ---- leaves by position ---- *)

Lemma tree_ok_leaf : forall A B (X : A -> ivec3 -> nat -> Prop) n a q, tree_ok X n (@OLeaf A B a) q <-> X a q n.
Proof. intros. destruct n; reflexivity. Qed.

Lemma subcube_refl : forall q n, subcube q n q n.
Proof. intros. unfold subcube. lia. Qed.
Lemma subcube_trans : forall q n q' n' q'' n'', subcube q n q' n' -> subcube q' n' q'' n'' -> subcube q n q'' n''.
Proof. intros. unfold subcube in *. lia. Qed.

Lemma tree_ok_impl : forall A B (X Y : A -> ivec3 -> nat -> Prop) n (t : otree A B) q,
  (forall a q' n', subcube q' n' q n -> (n' <= n)%nat -> X a q' n' -> Y a q' n') -> tree_ok X n t q -> tree_ok Y n t q.
Proof.
  intros A B X Y n. induction n as [|n IH]; intros t q HXY H; destruct t as [a|b cs]; cbn in *; auto.
  - apply HXY; auto. apply subcube_refl.
  - apply HXY; auto. apply subcube_refl.
  - destruct H as [Hl H]. split; [assumption|]. intros i c Hi. apply IH; auto.
    intros a q' n' Hs Hn. apply HXY; [|lia]. eapply subcube_trans; [exact Hs|]. apply child_subcube.
    unfold znth in Hi. destruct (Z.ltb_spec i 0); [discriminate|].
    assert (Y0 : nth_error cs (Z.to_nat i) <> None) by congruence. apply nth_error_Some in Y0. lia.
Qed.

Lemma in_cube_sub : forall q n q' n' c, subcube q n q' n' -> in_cube q n c -> in_cube q' n' c.
Proof. intros. unfold subcube, in_cube in *. lia. Qed.

Lemma child_of_pos : forall q m i c, 0 <= i < 8 -> in_cube (child_pos q m i) m c -> child_of q m c = i.
Proof.
  intros q m i c Hi H. pose proof (edge_len_pos m) as He.
  assert (X : i = 0 \/ i = 1 \/ i = 2 \/ i = 3 \/ i = 4 \/ i = 5 \/ i = 6 \/ i = 7) by lia.
  unfold in_cube, child_pos in H.
  decompose [or] X; subst; revert H;
  change (corner_offset 0) with (V3 0 0 0); change (corner_offset 1) with (V3 0 0 1);
  change (corner_offset 2) with (V3 1 0 0); change (corner_offset 3) with (V3 1 0 1);
  change (corner_offset 4) with (V3 0 1 0); change (corner_offset 5) with (V3 0 1 1);
  change (corner_offset 6) with (V3 1 1 0); change (corner_offset 7) with (V3 1 1 1);
  unfold vadd, vscale; cbn [vx vy vz]; intro H; unfold child_of;
  destruct (Z.leb_spec (vx q + edge_len m) (vx c)), (Z.leb_spec (vy q + edge_len m) (vy c)), (Z.leb_spec (vz q + edge_len m) (vz c)); lia.
Qed.

(* The leaf found for a cell of a leaf's cube is that leaf. *)
Lemma tree_leaf_at : forall A B (X : A -> ivec3 -> nat -> Prop) n (t : otree A B) q, tree_ok X n t q ->
  tree_ok (fun a q' n' => X a q' n' /\ subcube q' n' q n /\ forall c, in_cube q' n' c -> leaf_at n t q c = Some a) n t q.
Proof.
  intros A B X n. induction n as [|m IH]; intros t q H; destruct t as [a|b cs]; cbn [tree_ok] in *.
  - split; [exact H|]. split; [apply subcube_refl|]. intros; reflexivity.
  - exact H.
  - split; [exact H|]. split; [apply subcube_refl|]. intros; reflexivity.
  - destruct H as [Hl H]. split; [assumption|]. intros i c Hi.
    assert (Hr : 0 <= i < 8).
    { unfold znth in Hi. destruct (Z.ltb_spec i 0); [discriminate|].
      assert (Y0 : nth_error cs (Z.to_nat i) <> None) by congruence. apply nth_error_Some in Y0. lia. }
    specialize (IH c _ (H i c Hi)). revert IH. apply tree_ok_impl.
    intros a q' n' Hs Hn (H1 & H2 & H3). split; [exact H1|]. split; [eapply subcube_trans; [exact H2|apply child_subcube; assumption]|].
    intros c' Hc'. cbn [leaf_at]. rewrite (child_of_pos q m i c' Hr), Hi by (eapply in_cube_sub; eassumption). auto.
Qed.

(* Conversely the leaf found for a cell contains it. *)
Lemma child_of_range : forall q m c, 0 <= child_of q m c < 8.
Proof. intros. unfold child_of. destruct (_ <=? _), (_ <=? _), (_ <=? _); lia. Qed.
Lemma child_of_in : forall q m c, in_cube q (S m) c -> in_cube (child_pos q m (child_of q m c)) m c.
Proof.
  intros q m c H. unfold in_cube in *. rewrite edge_len_S in H. unfold child_of.
  destruct (Z.leb_spec (vx q + edge_len m) (vx c)), (Z.leb_spec (vy q + edge_len m) (vy c)), (Z.leb_spec (vz q + edge_len m) (vz c));
  cbn [Z.add Pos.add Pos.succ]; unfold child_pos;
  change (corner_offset 0) with (V3 0 0 0); change (corner_offset 1) with (V3 0 0 1);
  change (corner_offset 2) with (V3 1 0 0); change (corner_offset 3) with (V3 1 0 1);
  change (corner_offset 4) with (V3 0 1 0); change (corner_offset 5) with (V3 0 1 1);
  change (corner_offset 6) with (V3 1 1 0); change (corner_offset 7) with (V3 1 1 1);
  unfold vadd, vscale; cbn [vx vy vz]; lia.
Qed.

Lemma tree_leaves : forall A B (X : A -> ivec3 -> nat -> Prop) n (t : otree A B) q, tree_ok X n t q ->
  forall a, In a (leaves_of t) -> exists q' n', X a q' n'.
Proof.
  intros A B X n. induction n as [|m IH]; intros t q H a Ha; destruct t as [l|b cs]; cbn [tree_ok leaves_of] in *.
  - destruct Ha as [<-|[]]. eauto.
  - destruct H.
  - destruct Ha as [<-|[]]. eauto.
  - destruct H as [_ H]. apply in_flat_map in Ha as (c & Hc & Ha). apply In_nth_error in Hc as (i & Hi).
    apply (IH c (child_pos q m (Z.of_nat i))); [|assumption]. apply H. unfold znth. destruct (Z.ltb_spec (Z.of_nat i) 0); [lia|].
    rewrite Nat2Z.id. assumption.
Qed.

Lemma leaf_at_ok : forall A B (X : A -> ivec3 -> nat -> Prop) n (t : otree A B) q c, tree_ok X n t q -> in_cube q n c ->
  exists a q' n', leaf_at n t q c = Some a /\ X a q' n' /\ in_cube q' n' c /\ subcube q' n' q n.
Proof.
  intros A B X n. induction n as [|m IH]; intros t q c H Hc; destruct t as [a|b cs]; cbn [tree_ok leaf_at] in *.
  - exists a, q, O. auto using subcube_refl.
  - destruct H.
  - exists a, q, (S m). auto using subcube_refl.
  - destruct H as [Hl H]. pose proof (child_of_range q m c) as Hr. pose proof (child_of_in q m c Hc) as Hi.
    destruct (znth cs (child_of q m c)) as [t'|] eqn:Hz.
    + destruct (IH t' _ c (H _ _ Hz) Hi) as (a & q' & n' & H1 & H2 & H3 & H4). exists a, q', n'.
      split; [assumption|]. split; [assumption|]. split; [assumption|]. eapply subcube_trans; [exact H4|]. apply child_subcube. assumption.
    + exfalso. unfold znth in Hz. destruct (Z.ltb_spec (child_of q m c) 0); [lia|]. apply nth_error_None in Hz. lia.
Qed.

(* ---- sums along a segment ---- *)

Lemma seg_sum_list : forall u d p s, seg_sum u d p s =
  gsum (fun k => u (d, vadd p (vscale k (unit_vec d)))) (zrange 0 s).
Proof.
  intros u d p s.
  assert (O1 : forall a f, isum (one a) f = f a).
  { intros a f. unfold isum, one. cbn [fst snd]. unfold zrange. replace (Z.to_nat (a + 1 - a)) with 1%nat by lia. cbn [zseq]. rewrite gsum_cons, gsum_nil. lia. }
  assert (SH : forall a f, isum (full a s) f = gsum (fun k => f (a + k)) (zrange 0 s)).
  { intros a f. unfold isum, full, zrange. cbn [fst snd]. replace (Z.to_nat (a + s - a)) with (Z.to_nat (s - 0)) by lia.
    generalize (Z.to_nat (s - 0)). intro k. replace a with (a + 0) at 1 by lia. generalize 0.
    induction k as [|k IH]; intro b; cbn [zseq]; [reflexivity|]. rewrite !gsum_cons. f_equal. rewrite <- IH. do 2 f_equal. lia. }
  destruct p as [x y z]. destruct d; cbn [seg_sum]; unfold bsum; cbn [vx vy vz]; rewrite ?O1, SH; apply gsum_ext; intros k _;
    rewrite ?O1; do 2 f_equal; unfold vadd, vscale; cbn [unit_vec vx vy vz]; f_equal; lia.
Qed.

Lemma weight_telescope : forall solid d p k, gsum (fun j => weight solid (d, vadd p (vscale j (unit_vec d)))) (zrange 0 (Z.of_nat k)) =
  b2z (solid p) - b2z (solid (vadd p (vscale (Z.of_nat k) (unit_vec d)))).
Proof.
  intros solid d p k. induction k as [|k IH].
  - cbn. replace (vadd p (vscale 0 (unit_vec d))) with p; [lia|]. destruct p as [x y z]; unfold vadd, vscale; cbn [vx vy vz]. f_equal; lia.
  - rewrite (zrange_split 0 (Z.of_nat k)) by lia. rewrite gsum_app, IH. unfold zrange.
    replace (Z.to_nat (Z.of_nat (S k) - Z.of_nat k)) with 1%nat by lia. cbn [zseq]. rewrite gsum_cons, gsum_nil.
    unfold weight. cbn [fst snd].
    replace (vadd (vadd p (vscale (Z.of_nat k) (unit_vec d))) (unit_vec d)) with (vadd p (vscale (Z.of_nat (S k)) (unit_vec d))); [lia|].
    destruct d; unfold vadd, vscale; cbn [unit_vec vx vy vz]; f_equal; lia.
Qed.

Lemma seg_telescope : forall solid flux d p s K, 0 <= s ->
  (forall k, 0 <= k < s -> flux (d, vadd p (vscale k (unit_vec d))) = K) ->
  seg_sum (fun e => weight solid e * flux e) d p s =
    (b2z (solid p) - b2z (solid (vadd p (vscale s (unit_vec d))))) * K.
Proof.
  intros solid flux d p s K Hs HK. rewrite seg_sum_list.
  rewrite (gsum_ext _ _ (fun k => K * weight solid (d, vadd p (vscale k (unit_vec d))))).
  2:{ intros k Hk. apply in_zrange in Hk. rewrite HK by assumption. ring. }
  rewrite gsum_mul. rewrite <- (Z2Nat.id s Hs) at 1. rewrite weight_telescope, Z2Nat.id by assumption. ring.
Qed.

(* ---- flux around an edge ---- *)

Lemma flux_cells : forall id a b d p c0 c1 c2 c3, cells_around d p = [c0; c1; c2; c3] ->
  edge_flux (face_delta id a b) (d, p) =
  signed a b (id c0, id c1) + signed a b (id c1, id c2) + signed a b (id c2, id c3) + signed a b (id c3, id c0).
Proof.
  intros id a b d p c0 c1 c2 c3 H. unfold cells_around in H.
  set (u := next_axis d) in *. set (v := next_axis u) in *. injection H as <- <- <- <-.
  unfold edge_flux, crossings, face_delta, face_low, face_high. cbn [fst snd]. fold u v. rewrite !gsum_cons, gsum_nil. cbn [fst snd].
  rewrite (signed_flip a b (id p) (id (vsub p (unit_vec u)))).
  rewrite (signed_flip a b (id (vsub (vsub p (unit_vec u)) (unit_vec v))) (id (vsub p (unit_vec u)))).
  replace (vsub (vsub p (unit_vec v)) (unit_vec u)) with (vsub (vsub p (unit_vec u)) (unit_vec v)); [ring|].
  apply vec_eq; unfold vsub; cbn [vx vy vz]; ring.
Qed.

Lemma signed_same : forall a b x, signed a b (x, x) = 0.
Proof. intros. pose proof (signed_flip a b x x). lia. Qed.

Lemma flux_pattern : forall id a b d p c0 c1 c2 c3, cells_around d p = [c0; c1; c2; c3] ->
  (id c0 = id c1 /\ id c2 = id c3) \/ (id c0 = id c3 /\ id c1 = id c2) -> edge_flux (face_delta id a b) (d, p) = 0.
Proof.
  intros id a b d p c0 c1 c2 c3 H Hp. rewrite (flux_cells id a b d p c0 c1 c2 c3 H).
  destruct Hp as [[-> ->]|[-> ->]]; rewrite !signed_same.
  - pose proof (signed_flip a b (id c1) (id c3)). lia.
  - pose proof (signed_flip a b (id c2) (id c3)). lia.
Qed.

(* ---- the inner edges of a cube ---- *)

Definition box (rx ry rz : Z * Z) : list ivec3 :=
  flat_map (fun x => flat_map (fun y => map (fun z => V3 x y z) (zrange (fst rz) (snd rz))) (zrange (fst ry) (snd ry))) (zrange (fst rx) (snd rx)).

Lemma bsum_box : forall f rx ry rz, bsum f rx ry rz = gsum f (box rx ry rz).
Proof.
  intros. unfold bsum, box, isum. rewrite gsum_flat_map. apply gsum_ext. intros x _. rewrite gsum_flat_map. apply gsum_ext. intros y _.
  rewrite gsum_map. reflexivity.
Qed.

Lemma in_box : forall rx ry rz p, In p (box rx ry rz) <->
  (fst rx <= vx p < snd rx /\ fst ry <= vy p < snd ry /\ fst rz <= vz p < snd rz).
Proof.
  intros rx ry rz [x y z]. unfold box. rewrite in_flat_map. cbn [vx vy vz]. split.
  - intros (x' & Hx & H). apply in_flat_map in H as (y' & Hy & H). apply in_map_iff in H as (z' & Heq & Hz).
    injection Heq as <- <- <-. apply in_zrange in Hx, Hy, Hz. auto.
  - intros (Hx & Hy & Hz). exists x. split; [apply in_zrange; assumption|]. apply in_flat_map. exists y. split; [apply in_zrange; assumption|].
    apply in_map. apply in_zrange. assumption.
Qed.

Lemma zseq_nodup : forall k a, NoDup (zseq a k).
Proof. induction k as [|k IH]; intro a; cbn [zseq]; constructor; auto. rewrite in_zseq. lia. Qed.

Lemma nodup_flat_map : forall A B (f : A -> list B) l, NoDup l -> (forall a, In a l -> NoDup (f a)) ->
  (forall a a' b, In a l -> In a' l -> In b (f a) -> In b (f a') -> a = a') -> NoDup (flat_map f l).
Proof.
  intros A B f l H. induction H as [|a l Ha H IH]; intros H1 H2; cbn [flat_map]; [constructor|].
  assert (G : forall x y : list B, NoDup x -> NoDup y -> (forall b, In b x -> ~ In b y) -> NoDup (x ++ y)).
  { clear. intros x y Hx Hy Hd. induction Hx as [|b x Hb Hx IH]; cbn [app]; [assumption|]. constructor.
    - rewrite in_app_iff. intros [X|X]; [contradiction|]. apply (Hd b); [left; reflexivity|assumption].
    - apply IH. intros; apply Hd; right; assumption. }
  apply G; [apply H1; left; reflexivity|apply IH; intros; eauto using in_cons|].
  intros b Hb Hb'. apply in_flat_map in Hb' as (a' & Ha' & Hb').
  assert (a = a') by (eapply H2; eauto using in_eq, in_cons). subst. contradiction.
Qed.

Lemma box_nodup : forall rx ry rz, NoDup (box rx ry rz).
Proof.
  intros. unfold box. apply nodup_flat_map; [apply zseq_nodup| |].
  - intros x _. apply nodup_flat_map; [apply zseq_nodup| |].
    + intros y _. apply FinFun.Injective_map_NoDup; [|apply zseq_nodup]. intros z z' H. congruence.
    + intros y y' b _ _ H H'. apply in_map_iff in H as (z & <- & _). apply in_map_iff in H' as (z' & H' & _). congruence.
  - intros x x' b _ _ H H'. apply in_flat_map in H as (y & _ & H). apply in_flat_map in H' as (y' & _ & H').
    apply in_map_iff in H as (z & <- & _). apply in_map_iff in H' as (z' & H' & _). congruence.
Qed.

(* The edges all of whose cells belong to the cube. *)
Definition inner_edges (q : ivec3) (s : Z) : list gedge :=
  map (pair AX) (box (full (vx q) s) (open (vy q) s) (open (vz q) s)) ++
  map (pair AY) (box (open (vx q) s) (full (vy q) s) (open (vz q) s)) ++
  map (pair AZ) (box (open (vx q) s) (open (vy q) s) (full (vz q) s)).

Lemma cell_sum_list : forall u q s, cell_sum u q s = gsum u (inner_edges q s).
Proof.
  intros. unfold cell_sum, inner_edges. rewrite !gsum_app, !gsum_map, !bsum_box. ring.
Qed.

Lemma inner_edges_nodup : forall q s, NoDup (inner_edges q s).
Proof.
  intros. unfold inner_edges.
  assert (G : forall T (x y : list T), NoDup x -> NoDup y -> (forall b, In b x -> ~ In b y) -> NoDup (x ++ y)).
  { clear. intros T x y Hx Hy Hd. induction Hx as [|b x Hb Hx IH]; cbn [app]; [assumption|]. constructor.
    - rewrite in_app_iff. intros [X|X]; [contradiction|]. apply (Hd b); [left; reflexivity|assumption].
    - apply IH. intros; apply Hd; right; assumption. }
  assert (M : forall d l, NoDup l -> NoDup (map (pair d) l : list gedge)).
  { intros d l H. apply FinFun.Injective_map_NoDup; [intros x y Hxy; congruence|assumption]. }
  apply G; [apply M, box_nodup|apply G; try (apply M, box_nodup)|].
  - intros e H1 H2. apply in_map_iff in H1 as (? & <- & _). apply in_map_iff in H2 as (? & H2 & _). discriminate.
  - intros e H1 H2. apply in_map_iff in H1 as (? & <- & _). apply in_app_iff in H2 as [H2|H2]; apply in_map_iff in H2 as (? & H2 & _); discriminate.
Qed.

Lemma in_inner_edges : forall q n e, In e (inner_edges q (edge_len n)) <-> Forall (in_cube q n) (cells_around (fst e) (snd e)).
Proof.
  intros q n [d p]. unfold inner_edges. rewrite !in_app_iff, !in_map_iff. cbn [fst snd]. pose proof (edge_len_pos n).
  assert (I : forall D P, (exists x, (D, x) = (d, p) /\ In x P) <-> D = d /\ In p P).
  { intros D P. split; [intros (x & Heq & Hx); injection Heq as <- <-; auto|intros [-> Hx]; eauto]. }
  rewrite !I, !in_box. unfold full, open. cbn [fst snd].
  assert (C : exists c0 c1 c2 c3, cells_around d p = [c0; c1; c2; c3]) by (unfold cells_around; eauto).
  rewrite Forall_forall. split.
  - intros H0 c Hc. destruct p as [x y z]. apply in_around in Hc. unfold in_cube. cbn [vx vy vz] in *.
    destruct H0 as [[<- H0]|[[<- H0]|[<- H0]]]; cbn [vget vx vy vz] in Hc; lia.
  - intro H0. destruct p as [x y z]. unfold cells_around in H0. cbn [In] in H0.
    pose proof (H0 _ (or_introl eq_refl)) as A1. pose proof (H0 (V3 x y z) ltac:(auto)) as A2.
    unfold in_cube, vsub in *. cbn [vx vy vz] in *. destruct d; cbn [next_axis unit_vec vx vy vz] in *; [left|right; left|right; right]; (split; [reflexivity|]); lia.
Qed.
