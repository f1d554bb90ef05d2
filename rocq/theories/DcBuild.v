(* Building the octree for dual contouring. *)
From Coq Require Import ZArith List Bool Lia Sorted.
From Verif Require Import Base Arith Tables MeshModel GridModel GridSpec GridProofs
  EdgeModel EdgeSpec EdgeProofs FillModel FillSpec LoopLemmas FillProofs MCModel CellSpec CellTables
  MCProofs UdcModel UdcProofs OctreeModel OctreeSpec OctreeSums OctreeProofs OctreeFlux DcModel DcSpec.
Import ListNotations.
Local Open Scope Z_scope.

Lemma edge_len_0 : edge_len 0 = 1. Proof. reflexivity. Qed.
Ltac offs := change (corner_offset 0) with (V3 0 0 0); change (corner_offset 1) with (V3 0 0 1);
  change (corner_offset 2) with (V3 1 0 0); change (corner_offset 3) with (V3 1 0 1);
  change (corner_offset 4) with (V3 0 1 0); change (corner_offset 5) with (V3 0 1 1);
  change (corner_offset 6) with (V3 1 1 0); change (corner_offset 7) with (V3 1 1 1).
Definition is_nil {T} (l : list T) : bool := match l with [] => true | _ => false end.

(* ---- kinds ---- *)

Lemma homogenous_kind : forall cs, corners_homogenous cs = one_kind (map is_solid cs).
Proof.
  intro cs. unfold corners_homogenous, one_kind.
  assert (H : forall a s, fold_left (fun '(air, sol) m => if m =? Empty then (air, false) else (false, sol)) cs (a, s) =
    (a && forallb negb (map is_solid cs), s && forallb (fun b => b) (map is_solid cs))).
  { induction cs as [|m cs IH]; intros a s; cbn [fold_left map forallb].
    - rewrite !andb_true_r. reflexivity.
    - unfold is_solid at 1 3. destruct (m =? Empty) eqn:X; rewrite IH; cbn [negb andb]; rewrite ?andb_false_r; reflexivity. }
  rewrite H. cbn [andb]. apply orb_comm.
Qed.

Lemma one_kind_true : forall bs, one_kind bs = true <-> exists b, forall c, In c bs -> c = b.
Proof.
  intro bs. unfold one_kind. rewrite orb_true_iff, !forallb_forall. split.
  - intros [H|H]; [exists true|exists false]; intros c Hc; specialize (H c Hc); destruct c; auto; discriminate.
  - intros ([|] & H); [left|right]; intros c Hc; rewrite (H c Hc); reflexivity.
Qed.

Lemma kind_crossing : forall b0 b1 b2 b3 b4 b5 b6 b7,
  one_kind [b0; b1; b2; b3; b4; b5; b6; b7] =
  forallb (fun i => negb (crossing [b0; b1; b2; b3; b4; b5; b6; b7] i)) (zseq 0 12).
Proof. intros [|] [|] [|] [|] [|] [|] [|] [|]; reflexivity. Qed.

(* ---- the 27 materials of eight octants ---- *)

Definition pos27 : list ivec3 :=
  flat_map (fun y => flat_map (fun x => map (fun z => V3 x y z) (zseq 0 3)) (zseq 0 3)) (zseq 0 3).

Lemma cube_materials_ok : forall f : ivec3 -> material,
  cube_materials (map (fun i => map (fun j => f (vadd (corner_offset i) (corner_offset j))) (zseq 0 8)) (zseq 0 8)) =
  Ret (map f pos27).
Proof. intro f. vm_compute. reflexivity. Qed.

Lemma cube_at_pos : forall (f : ivec3 -> material) y x z, 0 <= y <= 2 -> 0 <= x <= 2 -> 0 <= z <= 2 ->
  cube_at (map f pos27) y x z = f (V3 x y z).
Proof.
  intros f y x z Hy Hx Hz.
  assert (Y : y = 0 \/ y = 1 \/ y = 2) by lia. assert (X : x = 0 \/ x = 1 \/ x = 2) by lia. assert (Z : z = 0 \/ z = 1 \/ z = 2) by lia.
  decompose [or] Y; decompose [or] X; decompose [or] Z; subst; reflexivity.
Qed.

Lemma not_differs : forall m a b s, differs_both m a b = false -> is_solid a = s -> is_solid b = s -> is_solid m = s.
Proof.
  intros m a b s H Ha Hb. unfold differs_both in H. apply andb_false_iff in H as [H|H]; apply negb_false_iff, Z.eqb_eq in H; congruence.
Qed.

(* ---- the table isManifold ---- *)

(* the mask of the corners' kinds, as checkTopoSafety numbers its bits *)
Definition kind_mask (kind : Z -> bool) : Z :=
  fold_left (fun mask j => if kind j then Z.lor mask (Z.shiftl 1 (dc_to_mc j)) else mask) (zseq 0 8) 0.

Definition mem (j : Z) (s : list Z) : bool := existsb (Z.eqb j) s.
Definition grow (kind : Z -> bool) (s : list Z) : list Z :=
  filter (fun j => mem j s || existsb (fun b => eqb (kind (Z.lxor j b)) (kind j) && mem (Z.lxor j b) s) [1; 2; 4]) (zseq 0 8).
Definition piece (kind : Z -> bool) (i : Z) : list Z := Nat.iter 4 (grow kind) [i].
Definition covers_kind (kind : Z -> bool) (i : Z) (p : list Z) : bool :=
  forallb (fun j => negb (eqb (kind i) (kind j)) || mem j p) (zseq 0 8).
Definition closed_piece (kind : Z -> bool) (i : Z) (p : list Z) : bool :=
  mem i p && forallb (fun j => forallb (fun b => negb (eqb (kind (Z.lxor j b)) (kind j)) || mem (Z.lxor j b) p) [1; 2; 4]) p.
Notation two_pieces_b kind := (forallb (fun i => covers_kind kind i (piece kind i)) (zseq 0 8)).
Notation pieces_closed kind := (forallb (fun i => closed_piece kind i (piece kind i)) (zseq 0 8)).

Lemma mem_in : forall j s, mem j s = true <-> In j s.
Proof.
  intros j s. unfold mem. rewrite existsb_exists. split; [intros (x & H & E); apply Z.eqb_eq in E; subst; assumption|].
  intro H. exists j. split; [assumption|apply Z.eqb_refl].
Qed.

Lemma fold_left_ext_in : forall A B (f h : A -> B -> A) l a, (forall a b, In b l -> f a b = h a b) -> fold_left f l a = fold_left h l a.
Proof.
  intros A B f h. induction l as [|b l IH]; intros a H; [reflexivity|]. cbn [fold_left]. rewrite H by (left; reflexivity).
  apply IH. intros; apply H; right; assumption.
Qed.

Lemma lxor_back : forall j b, Z.lxor (Z.lxor j b) b = j.
Proof. intros. rewrite Z.lxor_assoc, Z.lxor_nilpotent, Z.lxor_0_r. reflexivity. Qed.

Lemma piece_linked : forall kind i j, 0 <= i < 8 -> In j (piece kind i) -> linked kind i j.
Proof.
  intros kind i j Hi. unfold piece. generalize 4%nat. intro n. revert j. induction n as [|n IH]; intros j H.
  - destruct H as [<-|[]]. constructor. assumption.
  - change (In j (grow kind (Nat.iter n (grow kind) [i]))) in H. apply filter_In in H as [_ H].
    apply orb_true_iff in H as [H|H]; [apply mem_in in H; auto|].
    apply existsb_exists in H as (b & Hb & H). apply andb_true_iff in H as [H1 H2]. apply eqb_prop in H1. apply mem_in in H2.
    rewrite <- (lxor_back j b). apply linked_step; [auto|assumption|]. rewrite lxor_back. auto.
Qed.

Lemma closed_linked : forall kind i p, closed_piece kind i p = true -> forall j, linked kind i j -> In j p.
Proof.
  intros kind i p Hc j H. unfold closed_piece in Hc.
  apply andb_true_iff in Hc as [Hi Hc]. apply mem_in in Hi. rewrite forallb_forall in Hc.
  induction H as [i Hr|i j b H IH Hb Hk]; [assumption|]. specialize (IH Hi).
  specialize (Hc j IH). rewrite forallb_forall in Hc. specialize (Hc b Hb).
  rewrite Hk, eqb_reflx in Hc. cbn [negb orb] in Hc. apply mem_in. exact Hc.
Qed.

Lemma linked_piece : forall kind i j, pieces_closed kind = true -> linked kind i j -> In j (piece kind i).
Proof.
  intros kind i j Hc H.
  assert (Hi8 : 0 <= i < 8) by (clear - H; induction H; assumption).
  refine (closed_linked kind i _ _ j H).
  exact (proj1 (forallb_forall _ _) Hc i (proj2 (in_zseq 8 0 i) Hi8)).
Qed.

Definition kind_of (bs : list bool) (i : Z) : bool := nth (Z.to_nat i) bs false.
Definition all_kinds : list (list bool) :=
  Nat.iter 8 (fun l => flat_map (fun bs => [true :: bs; false :: bs]) l) [[]].

Lemma all_kinds_all : forall bs, length bs = 8%nat -> In bs all_kinds.
Proof.
  intros bs. unfold all_kinds. generalize 8%nat. intro n. revert bs. induction n as [|n IH]; intros bs H.
  - destruct bs; [left; reflexivity|discriminate].
  - destruct bs as [|b bs]; [discriminate|]. injection H as H.
    change (In (b :: bs) (flat_map (fun bs => [true :: bs; false :: bs]) (Nat.iter n (fun l => flat_map (fun bs => [true :: bs; false :: bs]) l) [[]]))).
    apply in_flat_map. exists bs. split; [apply IH; assumption|]. destruct b; cbn; auto.
Qed.

Lemma manifold_table : forallb (fun bs =>
  eqb (is_manifold (kind_mask (kind_of bs))) (two_pieces_b (kind_of bs)) && pieces_closed (kind_of bs)) all_kinds = true.
Proof. vm_compute. reflexivity. Qed.

Lemma linked_range : forall kind i j, linked kind i j -> 0 <= j < 8.
Proof.
  intros kind i j H. induction H as [i Hi|i j b H IH Hb Hk]; [assumption|].
  assert (j = 0 \/ j = 1 \/ j = 2 \/ j = 3 \/ j = 4 \/ j = 5 \/ j = 6 \/ j = 7) as J by lia.
  cbn [In] in Hb. decompose [or] Hb; subst; try contradiction; decompose [or] J; subst; cbn; lia.
Qed.

Lemma linked_ext : forall k k', (forall i, 0 <= i < 8 -> k i = k' i) -> forall i j, linked k i j -> linked k' i j.
Proof.
  intros k k' He i j H. induction H as [i Hi|i j b H IH Hb Hk]; [constructor; assumption|].
  assert (R : 0 <= Z.lxor j b < 8) by (apply (linked_range k i); constructor; assumption).
  apply linked_step; [assumption|assumption|]. rewrite <- !He by (assumption || eapply linked_range; eassumption). assumption.
Qed.

Lemma table_at : forall bs, length bs = 8%nat ->
  eqb (is_manifold (kind_mask (kind_of bs))) (two_pieces_b (kind_of bs)) && pieces_closed (kind_of bs) = true.
Proof. exact (fun bs H => proj1 (forallb_forall _ _) manifold_table bs (all_kinds_all bs H)). Qed.

Lemma covers_in : forall kind i p, covers_kind kind i p = true <-> forall j, 0 <= j < 8 -> kind i = kind j -> In j p.
Proof.
  intros kind i p. unfold covers_kind. rewrite forallb_forall. split; intros H j.
  - intros Hj Hk. specialize (H j (proj2 (in_zseq 8 0 j) Hj)). rewrite Hk, eqb_reflx in H. cbn [negb orb] in H. apply mem_in. exact H.
  - intro Hj. apply in_zseq in Hj. destruct (eqb (kind i) (kind j)) eqn:X; [|reflexivity]. cbn [negb orb].
    apply mem_in, H; [lia|]. apply eqb_prop. assumption.
Qed.

Lemma pieces_two : forall kind, two_pieces_b kind = true -> two_pieces kind.
Proof.
  intros kind H i j Hi Hj Hk. apply piece_linked; [assumption|].
  refine (proj1 (covers_in kind i (piece kind i)) _ j Hj Hk).
  exact (proj1 (forallb_forall _ _) H i (proj2 (in_zseq 8 0 i) Hi)).
Qed.

Lemma two_pieces_all : forall kind, pieces_closed kind = true -> two_pieces kind -> two_pieces_b kind = true.
Proof.
  intros kind Hc H. apply forallb_forall. intros i Hi. apply in_zseq in Hi. apply covers_in. intros j Hj Hk.
  apply linked_piece; [assumption|]. apply H; [lia|lia|assumption].
Qed.

Lemma manifold_at : forall kind, eqb (is_manifold (kind_mask kind)) (two_pieces_b kind) && pieces_closed kind = true ->
  (is_manifold (kind_mask kind) = true <-> two_pieces kind).
Proof.
  intros kind T. apply andb_true_iff in T as [T1 T2]. apply eqb_prop in T1. rewrite T1. split; [apply pieces_two|apply two_pieces_all; exact T2].
Qed.

(* The table says for each configuration whether both kinds of corners are connected. *)
Lemma manifold_kinds : forall kind, is_manifold (kind_mask kind) = true <-> two_pieces kind.
Proof.
  intro kind.
  assert (exists bs, length bs = 8%nat /\ forall i, 0 <= i < 8 -> kind i = kind_of bs i) as (bs & Hl & He).
  { exists (map kind (zseq 0 8)). split; [reflexivity|]. intros i Hi.
    assert (i = 0 \/ i = 1 \/ i = 2 \/ i = 3 \/ i = 4 \/ i = 5 \/ i = 6 \/ i = 7) as J by lia.
    decompose [or] J; subst i; reflexivity. }
  assert (Hm : kind_mask kind = kind_mask (kind_of bs)).
  { unfold kind_mask. apply fold_left_ext_in. intros m j Hj. apply in_zseq in Hj. rewrite He by lia. reflexivity. }
  rewrite Hm, (manifold_at _ (table_at bs Hl)). unfold two_pieces. split; intros H i j Hi Hj Hk.
  - apply (linked_ext (kind_of bs)); [intros; symmetry; auto|]. apply H; [assumption|assumption|]. rewrite <- !He by assumption. exact Hk.
  - apply (linked_ext kind); [assumption|]. apply H; [assumption|assumption|]. rewrite !He by assumption. exact Hk.
Qed.

Lemma safe_mids : forall mats, check_topo_safety mats = true -> forall c1 c2, 0 <= c1 <= 2 -> 0 <= c2 <= 2 -> edge_mid_bad mats c1 c2 = false.
Proof.
  intros mats H c1 c2 H1 H2. unfold check_topo_safety in H.
  destruct (negb (is_manifold _)); [discriminate|]. destruct (negb (forallb _ _)); [discriminate|].
  destruct (existsb (fun c1 => existsb (edge_mid_bad mats c1) (zseq 0 3)) (zseq 0 3)) eqn:X; [discriminate|].
  destruct (edge_mid_bad mats c1 c2) eqn:Y; [|reflexivity]. exfalso. clear H. rewrite <- not_true_iff_false in X. apply X.
  apply existsb_exists. exists c1. split; [apply in_zseq; lia|]. apply existsb_exists. exists c2. split; [apply in_zseq; lia|exact Y].
Qed.

Lemma safe_parts : forall mats, check_topo_safety mats = true ->
  is_manifold (topo_mask mats (V3 0 0 0) 2) = true /\
  (forall i, 0 <= i < 8 -> is_manifold (topo_mask mats (corner_offset i) 1) = true) /\
  (forall c1 c2, 0 <= c1 <= 2 -> 0 <= c2 <= 2 -> edge_mid_bad mats c1 c2 = false) /\
  (forall c, 0 <= c <= 2 -> face_mid_bad mats c = false) /\
  (exists i, 0 <= i < 8 /\ cube_at mats 1 1 1 =
     cube_at mats (vy (vscale 2 (corner_offset i))) (vx (vscale 2 (corner_offset i))) (vz (vscale 2 (corner_offset i)))).
Proof.
  intros mats H. pose proof (safe_mids mats H) as HM. unfold check_topo_safety in H.
  destruct (is_manifold (topo_mask mats (V3 0 0 0) 2)) eqn:M; [|discriminate].
  destruct (forallb (fun i => is_manifold (topo_mask mats (corner_offset i) 1)) (zseq 0 8)) eqn:O; [|discriminate].
  cbn [negb] in H. destruct (existsb (fun c1 => existsb (edge_mid_bad mats c1) (zseq 0 3)) (zseq 0 3)); [discriminate|].
  destruct (existsb (face_mid_bad mats) (zseq 0 3)) eqn:X; [discriminate|].
  split; [reflexivity|]. split; [|split; [exact HM|split]].
  - intros i Hi. rewrite forallb_forall in O. apply O, in_zseq. lia.
  - intros c Hc. destruct (face_mid_bad mats c) eqn:Y; [|reflexivity]. rewrite <- not_true_iff_false in X. exfalso. apply X.
    apply existsb_exists. exists c. split; [apply in_zseq; lia|exact Y].
  - apply existsb_exists in H as (i & Hi & E). apply in_zseq in Hi. exists i. split; [lia|]. apply Z.eqb_eq. exact E.
Qed.

Lemma differs_both_false : forall m a b, differs_both m a b = false -> m = a \/ m = b.
Proof.
  intros m a b H. unfold differs_both in H. apply andb_false_iff in H as [H|H]; apply negb_false_iff, Z.eqb_eq in H; auto.
Qed.
Lemma differs_all_false : forall m a b c d, differs_all m a b c d = false -> m = a \/ m = b \/ m = c \/ m = d.
Proof.
  intros m a b c d H. unfold differs_all in H.
  apply andb_false_iff in H as [H|H]; [apply andb_false_iff in H as [H|H]; [apply andb_false_iff in H as [H|H]|]|];
    apply negb_false_iff, Z.eqb_eq in H; auto.
Qed.

(* If merging is safe and the outer corners are of one kind, so are all 27 vertices. *)
Lemma safe_kind : forall mats b, check_topo_safety mats = true ->
  (forall y x z, (y = 0 \/ y = 2) -> (x = 0 \/ x = 2) -> (z = 0 \/ z = 2) -> is_solid (cube_at mats y x z) = b) ->
  forall y x z, 0 <= y <= 2 -> 0 <= x <= 2 -> 0 <= z <= 2 -> is_solid (cube_at mats y x z) = b.
Proof.
  intros mats b H Hb.
  assert (M : forall c1 c2, 0 <= c1 <= 2 -> 0 <= c2 <= 2 ->
    differs_both (cube_at mats 1 c1 c2) (cube_at mats 0 c1 c2) (cube_at mats 2 c1 c2) = false /\
    differs_both (cube_at mats c1 1 c2) (cube_at mats c1 0 c2) (cube_at mats c1 2 c2) = false /\
    differs_both (cube_at mats c1 c2 1) (cube_at mats c1 c2 0) (cube_at mats c1 c2 2) = false).
  { intros c1 c2 H1 H2. pose proof (safe_mids mats H c1 c2 H1 H2) as X. unfold edge_mid_bad in X.
    apply orb_false_iff in X as [X X3]. apply orb_false_iff in X as [X1 X2]. auto. }
  assert (S1 : forall y x z, (y = 0 \/ y = 2) -> (x = 0 \/ x = 2) -> 0 <= z <= 2 -> is_solid (cube_at mats y x z) = b).
  { intros y x z Hy Hx Hz. assert (z = 1 \/ (z = 0 \/ z = 2)) as [->|Hz'] by lia; [|auto].
    destruct (M y x) as (_ & _ & M3); [lia|lia|]. eapply not_differs; [exact M3| |]; apply Hb; auto. }
  assert (S2 : forall y x z, (y = 0 \/ y = 2) -> 0 <= x <= 2 -> 0 <= z <= 2 -> is_solid (cube_at mats y x z) = b).
  { intros y x z Hy Hx Hz. assert (x = 1 \/ (x = 0 \/ x = 2)) as [->|Hx'] by lia; [|auto].
    destruct (M y z) as (_ & M2 & _); [lia|lia|]. eapply not_differs; [exact M2| |]; apply S1; auto. }
  intros y x z Hy Hx Hz. assert (y = 1 \/ (y = 0 \/ y = 2)) as [->|Hy'] by lia; [|auto].
  destruct (M x z) as (M1 & _ & _); [lia|lia|]. eapply not_differs; [exact M1| |]; apply S2; auto.
Qed.

Lemma list_of_8 : forall T (l : list T), length l = 8%nat -> exists a0 a1 a2 a3 a4 a5 a6 a7, l = [a0; a1; a2; a3; a4; a5; a6; a7].
Proof.
  intros T l H. do 8 (destruct l as [|? l]; [discriminate|]). destruct l; [|discriminate]. repeat eexists.
Qed.

Lemma omap_indexed : forall T U (f : T -> outcome U) (h : Z -> U) ls, length ls = 8%nat ->
  (forall i l, znth ls i = Some l -> f l = Ret (h i)) -> omap f ls = Ret (map h (zseq 0 8)).
Proof.
  intros T U f h ls Hl H. destruct (list_of_8 _ _ Hl) as (a0 & a1 & a2 & a3 & a4 & a5 & a6 & a7 & ->). cbn [omap].
  rewrite (H 0 a0 eq_refl), (H 1 a1 eq_refl), (H 2 a2 eq_refl), (H 3 a3 eq_refl), (H 4 a4 eq_refl), (H 5 a5 eq_refl),
    (H 6 a6 eq_refl), (H 7 a7 eq_refl). reflexivity.
Qed.

Lemma znth_8 : forall T (ls : list T) i, length ls = 8%nat -> 0 <= i < 8 -> exists l, znth ls i = Some l.
Proof.
  intros T ls i Hl Hi. unfold znth. destruct (Z.ltb_spec i 0); [lia|].
  destruct (nth_error ls (Z.to_nat i)) eqn:X; [eauto|]. apply nth_error_None in X. lia.
Qed.

Lemma znth_8_bound : forall T (ls : list T) i l, length ls = 8%nat -> znth ls i = Some l -> 0 <= i < 8.
Proof.
  intros T ls i l Hl H. unfold znth in H. destruct (Z.ltb_spec i 0); [discriminate|].
  assert (X : nth_error ls (Z.to_nat i) <> None) by congruence. apply nth_error_Some in X. lia.
Qed.

Lemma all_leaves_list : forall A B (cs : list (otree A B)), existsb is_subdivided cs = false -> exists ls, cs = map OLeaf ls.
Proof.
  induction cs as [|c cs IH]; intro H; [exists []; reflexivity|]. cbn [existsb] in H. apply orb_false_iff in H as [H1 H2].
  destruct (IH H2) as (ls & ->). destruct c as [a|]; [|discriminate]. exists (a :: ls). reflexivity.
Qed.

Lemma leaf_data_list : forall A B (ls : list A), omap (@leaf_data A B) (map OLeaf ls) = Ret ls.
Proof. induction ls as [|a ls IH]; [reflexivity|]. cbn [map omap leaf_data obind]. rewrite IH. reflexivity. Qed.

Lemma ofold_collect : forall T St (step : list T * St -> Z -> outcome (list T * St)) (P : Z -> T -> Prop) k a,
  (forall i ts st, a <= i < a + Z.of_nat k -> exists t st', step (ts, st) i = Ret (ts ++ [t], st') /\ P i t) ->
  forall ts st, exists us st', ofold step (zseq a k) (ts, st) = Ret (ts ++ us, st') /\ Forall2 P (zseq a k) us.
Proof.
  intros T St step P k. induction k as [|k IH]; intros a H ts st.
  - exists [], st. rewrite app_nil_r. split; [reflexivity|constructor].
  - cbn [zseq ofold]. destruct (H a ts st ltac:(lia)) as (t & st1 & -> & HP). cbn [obind].
    destruct (IH (a + 1)) with (ts := ts ++ [t]) (st := st1) as (us & st2 & -> & HF).
    { intros i ts' st' Hi. apply H. lia. }
    exists (t :: us), st2. rewrite <- app_assoc. split; [reflexivity|]. constructor; assumption.
Qed.

Lemma Forall2_znth : forall T (P : Z -> T -> Prop) k a us i t, Forall2 P (zseq a k) us -> znth us i = Some t -> P (a + i) t.
Proof.
  intros T P k. induction k as [|k IH]; intros a us i t H Hi; inversion H; subst; unfold znth in Hi;
    destruct (Z.ltb_spec i 0); try discriminate; destruct (Z.to_nat i) as [|j] eqn:X; cbn in Hi; try discriminate.
  - injection Hi as <-. replace (a + i) with a by lia. assumption.
  - replace (a + i) with (a + 1 + (i - 1)) by lia. apply (IH _ l'); [assumption|]. unfold znth.
    destruct (Z.ltb_spec (i - 1) 0); [lia|]. replace (Z.to_nat (i - 1)) with j by lia. assumption.
Qed.

(* ---- octants ---- *)

Lemma octant_corner : forall q m i j, cube_corner (child_pos q m i) m j =
  vadd q (vscale (edge_len m) (vadd (corner_offset i) (corner_offset j))).
Proof. intros. unfold cube_corner, child_pos, vadd, vscale. cbn [vx vy vz]. f_equal; ring. Qed.

Lemma octant_outer : forall q m i, cube_corner (child_pos q m i) m i = cube_corner q (S m) i.
Proof. intros. unfold cube_corner, child_pos, vadd, vscale. rewrite edge_len_S. cbn [vx vy vz]. f_equal; ring. Qed.

Lemma octant_closed : forall q m i p, 0 <= i < 8 -> in_closed_cube (child_pos q m i) m p -> in_closed_cube q (S m) p.
Proof.
  intros q m i p Hi H. pose proof (child_subcube q m i Hi) as Hs. unfold in_closed_cube, subcube in *. lia.
Qed.

(* every vertex of the closed cube belongs to a closed octant, and all octants share the centre *)
Lemma octant_of : forall q m p, in_closed_cube q (S m) p -> exists i, 0 <= i < 8 /\ in_closed_cube (child_pos q m i) m p.
Proof.
  intros q m p H. unfold in_closed_cube in H. rewrite edge_len_S in H. pose proof (edge_len_pos m) as He.
  destruct (Z_le_gt_dec (vx p) (vx q + edge_len m)); destruct (Z_le_gt_dec (vy p) (vy q + edge_len m));
    destruct (Z_le_gt_dec (vz p) (vz q + edge_len m));
    [exists 0|exists 1|exists 4|exists 5|exists 2|exists 3|exists 6|exists 7]; (split; [lia|]);
    unfold in_closed_cube, child_pos; offs; unfold vadd, vscale; cbn [vx vy vz]; lia.
Qed.

Lemma octant_centre : forall q m i, 0 <= i < 8 -> in_closed_cube (child_pos q m i) m (vadd q (V3 (edge_len m) (edge_len m) (edge_len m))).
Proof.
  intros q m i Hi. assert (H : i = 0 \/ i = 1 \/ i = 2 \/ i = 3 \/ i = 4 \/ i = 5 \/ i = 6 \/ i = 7) by lia. pose proof (edge_len_pos m) as He.
  decompose [or] H; subst; unfold in_closed_cube, child_pos; offs; unfold vadd, vscale; cbn [vx vy vz]; lia.
Qed.

Lemma uniform_octants : forall solid q m, (forall i, 0 <= i < 8 -> uniform solid (child_pos q m i) m) -> uniform solid q (S m).
Proof.
  intros solid q m H. destruct (H 0 ltac:(lia)) as (b & Hb). exists b. intros p Hp.
  apply octant_of in Hp as (i & Hi & Hp). destruct (H i Hi) as (b' & Hb').
  rewrite (Hb' p Hp). rewrite <- (Hb _ (octant_centre q m 0 ltac:(lia))). symmetry. apply Hb'. apply octant_centre. assumption.
Qed.

(* ---- the grid ---- *)

Section Build.
Context {E : fpenv} {Q S : Type}.
Variable ops : qef_ops (fp_F E) Q S.
Variable g : ugrid E.
Variable solid : ivec3 -> bool.
Hypothesis Hrep : represents g solid.
Notation F := (fp_F E).
Notation A := (fp_f E).
Notation n := (g_size g).
Notation mat := (grid_material g).

Let Hv : valid_size n := rep_size _ _ (rep_base _ _ Hrep).

Lemma mat_some : forall p, vertex_in n p -> g_mat g (yxz_index n p) = Some (mat p).
Proof. intros p Hp. destruct (rep_mat _ _ Hrep p Hp) as (m & Hm & _). unfold grid_material. rewrite Hm. reflexivity. Qed.

Lemma mat_solid : forall p, vertex_in n p -> is_solid (mat p) = solid p.
Proof. intros p Hp. destruct (rep_mat _ _ Hrep p Hp) as (m & Hm & Hs). unfold grid_material. rewrite Hm. assumption. Qed.

Lemma sorted_edges : forall d, edges_sorted (g_edges d g).
Proof.
  intro d. pose proof (rep_edges _ _ Hrep d) as He.
  assert (Hst : StronglySorted yxz_lt (map lesser_endpoint (g_edges d g))).
  { rewrite He. apply sorted_filter, edge_points_sorted. }
  clear - Hst. unfold edges_sorted. induction (g_edges d g) as [|e l IH]; cbn [map] in *; constructor.
  - apply StronglySorted_inv in Hst as [H _]. auto.
  - apply StronglySorted_inv in Hst as [_ H]. rewrite Forall_forall in *. intros b Hb.
    specialize (H (lesser_endpoint b) (in_map _ _ _ Hb)). unfold yxz_lt in *. lia.
Qed.

Lemma small_edges : forall d e, In e (g_edges d g) -> is_i16 (ue_x e) /\ is_i16 (ue_y e) /\ is_i16 (ue_z e).
Proof.
  intros d e He. assert (Hin : In (lesser_endpoint e) (map lesser_endpoint (g_edges d g))) by (apply in_map; assumption).
  rewrite (rep_edges _ _ Hrep d) in Hin. apply filter_In in Hin as [Hin _]. apply in_edge_points in Hin; [|exact Hv].
  destruct (valid_even _ Hv) as (h & Hn & Hb & _). apply (edge_in_iff n h) in Hin; [|assumption].
  unfold lesser_endpoint in Hin. cbn [vx vy vz] in Hin. unfold is_i16, i16min, i16max. destruct d; cbn [unit_vec vx vy vz] in Hin; lia.
Qed.

(* the stored edge at a sign change *)
Lemma find_crossing : forall d p, edge_in n d p -> edge_crosses solid (d, p) = true ->
  exists it e, find_edge (g_edges d g) (vx p) (vy p) (vz p) = Ret it /\ (it =? zlen (g_edges d g)) = false /\
    znth (g_edges d g) it = Some e /\ edge_key e = (d, p) /\ In e (g_edges d g).
Proof.
  intros d p Hp Hc.
  assert (Hin : In p (map lesser_endpoint (g_edges d g))).
  { rewrite (rep_edges _ _ Hrep d). apply filter_In. split; [apply in_edge_points; assumption|exact Hc]. }
  destruct (find_edge_ok F (g_edges d g) (vx p) (vy p) (vz p) (sorted_edges d) (small_edges d)) as (it & Hf & [(Hit & Hno)|(e & He & Hl)]).
  - exfalso. apply in_map_iff in Hin as (e & Hl & He). apply (Hno e He). rewrite Hl. destruct p; reflexivity.
  - exists it, e. split; [exact Hf|].
    assert (Hin' : In e (g_edges d g)).
    { unfold znth in He. destruct (it <? 0); [discriminate|]. eapply nth_error_In; eassumption. }
    split; [|split; [exact He|split; [|exact Hin']]].
    + apply Z.eqb_neq. intro X. unfold znth in He. destruct (Z.ltb_spec it 0); [discriminate|].
      assert (nth_error (g_edges d g) (Z.to_nat it) <> None) by congruence. apply nth_error_Some in H0. unfold zlen in X. lia.
    + destruct (rep_edge _ _ Hrep d e Hin') as [Ha _]. unfold edge_key. rewrite Ha, Hl. destruct p, d; reflexivity.
Qed.

(* ---- buildLeaf ---- *)

(* the edge of the cell named by an entry of edge_table *)
Definition entry_edge (q : ivec3) (de : axis * (Z * Z)) : gedge := (fst de, vadd q (corner_offset (fst (snd de)))).
Definition entry_ok (de : axis * (Z * Z)) : Prop :=
  0 <= fst (snd de) < 8 /\ 0 <= snd (snd de) < 8 /\
  corner_offset (snd (snd de)) = vadd (corner_offset (fst (snd de))) (unit_vec (fst de)).

Lemma entries_ok : Forall entry_ok dc_leaf_edges.
Proof. unfold dc_leaf_edges. cbn [map app]. repeat apply Forall_cons; try apply Forall_nil; (split; [cbn; lia|split; [cbn; lia|reflexivity]]). Qed.

Lemma entries_edges : forall q, map (entry_edge q) dc_leaf_edges = map (cell_edge q) (zseq 0 12).
Proof. intro q. reflexivity. Qed.

Lemma znth_map_zseq : forall T (f : Z -> T) i, 0 <= i < 8 -> znth (map f (zseq 0 8)) i = Some (f i).
Proof.
  intros T f i Hi. assert (H : i = 0 \/ i = 1 \/ i = 2 \/ i = 3 \/ i = 4 \/ i = 5 \/ i = 6 \/ i = 7) by lia.
  decompose [or] H; subst; reflexivity.
Qed.

Definition add_edge (sol : Q) (e : uedge F) : Q := qo_add ops sol (surface_point E e) (surface_normal E e).

Lemma corner_bits : forall i, 0 <= i < 8 -> 0 <= vx (corner_offset i) <= 1 /\ 0 <= vy (corner_offset i) <= 1 /\ 0 <= vz (corner_offset i) <= 1.
Proof.
  intros i Hi. assert (H : i = 0 \/ i = 1 \/ i = 2 \/ i = 3 \/ i = 4 \/ i = 5 \/ i = 6 \/ i = 7) by lia.
  decompose [or] H; subst; vm_compute; repeat split; discriminate.
Qed.

Lemma edge_len_ge : forall m, 1 <= edge_len m.
Proof. intro m. pose proof (edge_len_pos m). lia. Qed.

Lemma corner_closed : forall q m i, 0 <= i < 8 -> in_closed_cube q m (cube_corner q m i).
Proof.
  intros q m i Hi. pose proof (corner_bits i Hi) as (H1 & H2 & H3). pose proof (edge_len_ge m).
  unfold in_closed_cube, cube_corner, vadd, vscale. cbn [vx vy vz]. nia.
Qed.

Lemma leaf_edges_ok : forall q, cube_in_grid n q 0 -> forall l, Forall entry_ok l -> forall has avg sol,
  exists es, map edge_key es = filter (edge_crosses solid) (map (entry_edge q) l) /\
    (forall e, In e es -> In e (g_edges (fst (edge_key e)) g)) /\
    ofold (leaf_edge_step ops g q (map mat (cube_corners q 0))) l (has, avg, sol) =
      Ret (has || negb (is_nil es), fold_left (vadd3 A) (map (surface_normal E) es) avg, fold_left add_edge es sol).
Proof.
  intros q Hq l Hl. induction Hl as [|[d [c1 c2]] l (H1 & H2 & H3) _ IH]; intros has avg sol.
  - exists []. split; [reflexivity|]. split; [intros e []|]. cbn. rewrite orb_false_r. reflexivity.
  - cbn [fst snd] in H1, H2, H3. cbn [map filter ofold]. unfold leaf_edge_step at 1.
    unfold cube_corners. rewrite !map_map. rewrite !znth_map_zseq by assumption. cbn [oread obind].
    pose proof (mat_solid _ (Hq _ (corner_closed q 0 c1 H1))) as S1.
    pose proof (mat_solid _ (Hq _ (corner_closed q 0 c2 H2))) as S2.
    assert (P1 : cube_corner q 0 c1 = vadd q (corner_offset c1)).
    { unfold cube_corner. rewrite edge_len_0. unfold vadd, vscale. cbn [vx vy vz]. f_equal; lia. }
    assert (P2 : cube_corner q 0 c2 = vadd (vadd q (corner_offset c1)) (unit_vec d)).
    { unfold cube_corner. rewrite edge_len_0, H3. unfold vadd, vscale. cbn [vx vy vz]. f_equal; lia. }
    assert (Hx : edge_crosses solid (entry_edge q (d, (c1, c2))) = xorb (is_solid (mat (cube_corner q 0 c1))) (is_solid (mat (cube_corner q 0 c2)))).
    { unfold edge_crosses, entry_edge. cbn [fst snd]. rewrite S1, S2, P1, P2. reflexivity. }
    set (m1 := mat (cube_corner q 0 c1)) in *. set (m2 := mat (cube_corner q 0 c2)) in *.
    destruct (xorb (is_solid m1) (is_solid m2)) eqn:X.
    + assert (G1 : (m1 =? m2) = false) by (apply Z.eqb_neq; intro Y; rewrite Y in X; destruct (is_solid m2); discriminate).
      assert (G2 : is_solid m1 && is_solid m2 = false) by (destruct (is_solid m1), (is_solid m2); auto; discriminate).
      rewrite G1, G2, Hx.
      assert (Hin : edge_in n d (vadd q (corner_offset c1))).
      { destruct (valid_even _ Hv) as (h & Hn & Hb & _). apply (edge_in_iff n h); [assumption|].
        pose proof (Hq _ (corner_closed q 0 c1 H1)) as V1. pose proof (Hq _ (corner_closed q 0 c2 H2)) as V2.
        rewrite P1 in V1. rewrite P2 in V2. apply (vertex_in_iff n h) in V1; [|assumption]. apply (vertex_in_iff n h) in V2; [|assumption].
        clear - V1 V2. unfold vadd in *. cbn [vx vy vz] in *. destruct d; cbn [unit_vec vx vy vz] in *; lia. }
      destruct (find_crossing d (vadd q (corner_offset c1)) Hin) as (it & e & Hf & Hz & He & Hk & Hi).
      { rewrite <- Hx. reflexivity. }
      destruct (IH true (vadd3 A avg (surface_normal E e)) (add_edge sol e)) as (es & E1 & E2 & E3).
      exists (e :: es). split; [cbn [map]; rewrite Hk, E1; reflexivity|]. split.
      { intros e' [<-|He']; [rewrite Hk; exact Hi|auto]. }
      rewrite Hf. cbn [obind]. rewrite Hz. cbn [negb oassert obind]. rewrite He. cbn [oread obind].
      unfold cube_corners in E3. rewrite map_map in E3. unfold add_edge in *. rewrite E3. cbn [map fold_left is_nil negb]. rewrite orb_true_r. reflexivity.
    + assert (G : (m1 =? m2) || (is_solid m1 && is_solid m2) = true).
      { destruct (Z.eqb_spec m1 m2); [reflexivity|]. unfold is_solid in *.
        destruct (Z.eqb_spec m1 Empty), (Z.eqb_spec m2 Empty); cbn in *; try reflexivity; try discriminate. congruence. }
      rewrite Hx. destruct (IH has avg sol) as (es & E1 & E2 & E3). exists es. split; [exact E1|]. split; [exact E2|].
      unfold cube_corners in E3. rewrite map_map in E3.
      destruct (m1 =? m2); [exact E3|]. cbn [orb] in G. rewrite G. exact E3.
Qed.

Lemma cell_cube_corners : forall q, cell_corners q = cube_corners q 0.
Proof.
  intros [x y z]. unfold cell_corners, cube_corners, cube_corner. rewrite edge_len_0. cbn [zseq map].
  repeat (apply f_equal2; [apply V3_eq; unfold vadd, vscale; cbn; lia|]). reflexivity.
Qed.

Lemma cube_cell : forall q, cube_in_grid n q 0 -> cell_in n q.
Proof.
  intros q H p Hp. apply H. rewrite cell_cube_corners in Hp. unfold cube_corners in Hp. apply in_map_iff in Hp as (i & <- & Hi).
  apply corner_closed. apply in_zseq in Hi. lia.
Qed.

Lemma closed_unit : forall q p, in_closed_cube q 0 p -> In p (cube_corners q 0).
Proof.
  intros q p H. rewrite <- cell_cube_corners. apply in_cell_corners. unfold in_closed_cube in H. rewrite edge_len_0 in H. lia.
Qed.

Lemma kinds_cube : forall q m, cube_in_grid n q m -> map is_solid (map mat (cube_corners q m)) = map solid (cube_corners q m).
Proof.
  intros q m H. rewrite map_map. apply map_ext_in. intros p Hp. apply mat_solid, H.
  unfold cube_corners in Hp. apply in_map_iff in Hp as (i & <- & Hi). apply corner_closed. apply in_zseq in Hi. lia.
Qed.

Lemma mixed_edges : forall q, mixed solid q 0 = negb (is_nil (filter (edge_crosses solid) (map (cell_edge q) (zseq 0 12)))).
Proof.
  intro q. unfold mixed. f_equal. rewrite <- cell_cube_corners.
  assert (H : one_kind (map solid (cell_corners q)) = forallb (fun i => negb (crossing (map solid (cell_corners q)) i)) (zseq 0 12)).
  { unfold cell_corners. cbn [map]. apply kind_crossing. }
  rewrite H. clear H.
  assert (H : forall l, Forall (fun i => 0 <= i < 12) l ->
    forallb (fun i => negb (crossing (map solid (cell_corners q)) i)) l = is_nil (filter (edge_crosses solid) (map (cell_edge q) l))).
  { induction 1 as [|i l Hi _ IH]; [reflexivity|]. cbn [forallb map filter]. rewrite IH.
    replace (edge_crosses solid (cell_edge q i)) with (crossing (map solid (cell_corners q)) i).
    - destruct (crossing _ i); reflexivity.
    - apply (crossing_edge solid q i Hi). }
  apply H. apply Forall_forall. intros i Hi. apply in_zseq in Hi. lia.
Qed.

Variable D : nat.
Variable args : dc_args E.
Hypothesis Hg : da_grid args = g.
Notation leafok := (leaf_ok ops g solid (da_eps args) D (da_simplify args)).

Lemma build_leaf_ok : forall l q sol, cube_in_grid n q 0 -> lf_depth l = Z.of_nat D ->
  exists l' sol', build_leaf ops args l q 1 sol = Ret (l', sol') /\ leafok l' q 0.
Proof.
  intros l q sol Hq Hd. unfold build_leaf. rewrite Hg.
  pose proof (cube_cell q Hq) as Hc. pose proof (cell_vertex_in n q Hc) as Hqv.
  destruct (point_to_index_ok n q Hv Hqv) as [-> _]. cbn [obind].
  rewrite (materials_of_cell_ok n (g_mat g) mat q Hv Hc mat_some). cbn [obind]. rewrite cell_cube_corners.
  destruct (leaf_edges_ok q Hq dc_leaf_edges entries_ok false (zero3 E) (qo_reset ops sol)) as (es & E1 & E2 & E3).
  rewrite entries_edges in E1.
  unfold zero3 in *. rewrite E3. cbn [obind orb]. 
  assert (Hm : mixed solid q 0 = negb (is_nil es)) by (rewrite mixed_edges, <- E1; destruct es; reflexivity).
  assert (Hu : mixed solid q 0 = false -> uniform solid q 0).
  { intro X. unfold mixed in X. apply negb_false_iff, one_kind_true in X as (b & Hb). exists b. intros p Hp.
    apply Hb. apply in_map. apply closed_unit; assumption. }
  destruct (negb (is_nil es)) eqn:X; rewrite <- ?X.
  - destruct (qo_solve ops _ _ _) as [sol1 v] eqn:Hs. destruct (qo_state ops sol1) as [sol2 s] eqn:Ht.
    eexists _, _. split; [reflexivity|]. constructor; cbn; auto using one_sheet_cell; try congruence; try lia.
    intros _. eexists _, _, s. split; [reflexivity|]. split; [reflexivity|]. split; [reflexivity|].
    eapply measured_cell; [exact E1|exact E2|exact Hs|exact Ht].
  - eexists _, _. split; [reflexivity|]. constructor; cbn; auto using one_sheet_cell; try congruence; lia.
Qed.
Lemma leaf_kind : forall l q m, cube_in_grid n q m -> leafok l q m -> leaf_homogenous l = Ret (negb (mixed solid q m)).
Proof.
  intros l q m Hq H. unfold leaf_homogenous. rewrite (lk_corners _ _ _ _ _ _ _ _ _ H). cbn [oread obind].
  rewrite homogenous_kind, kinds_cube by assumption. unfold mixed. rewrite negb_involutive. reflexivity.
Qed.

Lemma uniform_not_mixed : forall q m, uniform solid q m -> mixed solid q m = false.
Proof.
  intros q m (b & Hb). unfold mixed. apply negb_false_iff, one_kind_true. exists b. intros c Hc.
  apply in_map_iff in Hc as (p & <- & Hp). apply Hb. unfold cube_corners in Hp. apply in_map_iff in Hp as (i & <- & Hi).
  apply corner_closed. apply in_zseq in Hi. lia.
Qed.

Lemma merge_ok : forall q m (is : list Z) ls, (forall i, In i is -> cube_in_grid n (child_pos q m i) m) ->
  Forall2 (fun i l => leafok l (child_pos q m i) m) is ls -> forall avg sol,
  exists parts : list (Z * (vec3 F * vec3 F * S)),
    map fst parts = filter (fun i => mixed solid (child_pos q m i) m) is /\
    (forall i v nrm s, In (i, (v, nrm, s)) parts -> measured ops g solid (da_eps args) (child_pos q m i) m v nrm s) /\
    ofold (merge_step ops) ls (avg, sol) =
      Ret (fold_left (vadd3 A) (map (fun p => snd (fst (snd p))) parts) avg,
           fold_left (fun sol p => qo_merge ops sol (snd (snd p))) parts sol).
Proof.
  intros q m is ls Hg' H. induction H as [|i l is ls Hl _ IH]; intros avg sol.
  - exists []. split; [reflexivity|]. split; [intros ? ? ? ? []|reflexivity].
  - cbn [ofold filter]. unfold merge_step at 1. rewrite (leaf_kind l (child_pos q m i) m (Hg' i (or_introl eq_refl)) Hl). cbn [obind].
    assert (Hg'' : forall i, In i is -> cube_in_grid n (child_pos q m i) m) by (intros; apply Hg'; right; assumption).
    destruct (mixed solid (child_pos q m i) m) eqn:X; cbn [negb].
    + destruct (lk_mixed _ _ _ _ _ _ _ _ _ Hl X) as (v & nrm & s & _ & E2 & E3 & Hms). rewrite E2, E3. cbn [oread obind].
      destruct (IH Hg'' (vadd3 A avg nrm) (qo_merge ops sol s)) as (parts & P1 & P2 & P3).
      exists ((i, (v, nrm, s)) :: parts). split; [cbn [map fst]; rewrite P1; reflexivity|]. split; [|exact P3].
      intros i' v' nrm' s' [Heq|Hin]; [injection Heq as <- <- <- <-; exact Hms|eauto].
    + destruct (IH Hg'' avg sol) as (parts & P1 & P2 & P3). exists parts. auto.
Qed.

Lemma safe_sheet : forall q m, cube_in_grid n q (Datatypes.S m) ->
  check_topo_safety (map (fun o => mat (lattice q m o)) pos27) = true ->
  (forall i, 0 <= i < 8 -> one_sheet mat solid (child_pos q m i) m) ->
  two_pieces (fun i => solid (cube_corner q (Datatypes.S m) i)) /\ one_sheet mat solid q (Datatypes.S m).
Proof.
  intros q m Hq Hsafe Hch. set (f := fun o => mat (lattice q m o)) in *.
  destruct (safe_parts _ Hsafe) as (H1 & H2 & H3 & H4 & H5).
  assert (Hpos : forall y x z, 0 <= y <= 2 -> 0 <= x <= 2 -> 0 <= z <= 2 -> cube_at (map f pos27) y x z = f (V3 x y z))
    by (intros; apply cube_at_pos; lia).
  assert (Hout : forall i, lattice q m (vscale 2 (corner_offset i)) = cube_corner q (Datatypes.S m) i).
  { intro i. unfold lattice, cube_corner, vadd, vscale. rewrite edge_len_S. cbn [vx vy vz]. f_equal; ring. }
  assert (P1 : two_pieces (fun i => solid (cube_corner q (Datatypes.S m) i))).
  { apply manifold_kinds. rewrite <- H1. f_equal. unfold kind_mask, topo_mask. apply fold_left_ext_in. intros mask j Hj. apply in_zseq in Hj.
    pose proof (corner_bits j ltac:(lia)) as (B1 & B2 & B3). unfold vadd, vscale. cbn [vx vy vz]. rewrite Hpos by lia.
    replace (V3 (0 + 2 * vx (corner_offset j)) (0 + 2 * vy (corner_offset j)) (0 + 2 * vz (corner_offset j)))
      with (vscale 2 (corner_offset j)) by (unfold vscale; f_equal; ring).
    unfold f. rewrite Hout. rewrite mat_solid by (apply Hq, corner_closed; lia). reflexivity. }
  split; [exact P1|]. apply one_sheet_merge; [exact P1| | | | |exact Hch].
  - intros i Hi. apply manifold_kinds. rewrite <- (H2 i Hi). f_equal. unfold kind_mask, topo_mask. apply fold_left_ext_in.
    intros mask j Hj. apply in_zseq in Hj.
    pose proof (corner_bits i ltac:(lia)) as (A1 & A2 & A3). pose proof (corner_bits j ltac:(lia)) as (B1 & B2 & B3).
    unfold vadd, vscale. cbn [vx vy vz]. rewrite Hpos by lia.
    replace (V3 (vx (corner_offset i) + 1 * vx (corner_offset j)) (vy (corner_offset i) + 1 * vy (corner_offset j))
       (vz (corner_offset i) + 1 * vz (corner_offset j))) with (vadd (corner_offset i) (corner_offset j)) by (unfold vadd; f_equal; ring).
    unfold f, lattice. rewrite <- octant_corner.
    rewrite mat_solid by (apply Hq; eapply octant_closed; [exact Hi|]; apply corner_closed; lia). reflexivity.
  - intros d [x y z] (Hx & Hy & Hz) Hd. cbn [vx vy vz vget] in *.
    destruct d; cbn [vget vx vy vz] in Hd; subst; unfold vsub, vadd; cbn [unit_vec vx vy vz Z.sub Z.add Z.opp Z.pos_sub Pos.add Pos.succ];
      [pose proof (H3 y z Hy Hz) as X|pose proof (H3 x z Hx Hz) as X|pose proof (H3 y x Hy Hx) as X];
      unfold edge_mid_bad in X; apply orb_false_iff in X as [X X3]; apply orb_false_iff in X as [X1 X2];
      apply differs_both_false in X1, X2, X3; rewrite !Hpos in X1, X2, X3 by lia; unfold f in X1, X2, X3.
    + replace (y - 0) with y by ring. replace (z - 0) with z by ring. rewrite !Z.add_0_r. exact X2.
    + replace (x - 0) with x by ring. replace (z - 0) with z by ring. rewrite !Z.add_0_r. exact X1.
    + replace (x - 0) with x by ring. replace (y - 0) with y by ring. rewrite !Z.add_0_r. exact X3.
  - assert (W : forall d d' o, d <> d' -> lattice_point o -> vget d o = 1 -> vget d' o = 1 ->
      (d = AX /\ d' = AY \/ d = AX /\ d' = AZ \/ d = AY /\ d' = AZ) ->
      exists s t, (s = 1 \/ s = -1) /\ (t = 1 \/ t = -1) /\
         mat (lattice q m o) = mat (lattice q m (vadd o (vadd (vscale s (unit_vec d)) (vscale t (unit_vec d')))))).
    { intros d d' [x y z] _ (Hx & Hy & Hz) Hd Hd' Hc. cbn [vx vy vz] in *.
      destruct Hc as [[-> ->]|[[-> ->]|[-> ->]]]; cbn [vget vx vy vz] in Hd, Hd'; subst;
        [pose proof (H4 z Hz) as X|pose proof (H4 y Hy) as X|pose proof (H4 x Hx) as X];
        unfold face_mid_bad in X; apply orb_false_iff in X as [X X3]; apply orb_false_iff in X as [X1 X2];
        apply differs_all_false in X1, X2, X3; rewrite !Hpos in X1, X2, X3 by lia; unfold f in X1, X2, X3.
      - clear X2 X3; destruct X1 as [X|[X|[X|X]]]; rewrite X; [exists (-1), (-1)|exists 1, (-1)|exists (-1), 1|exists 1, 1];
          (split; [auto|]); (split; [auto|]); do 2 f_equal; unfold vadd, vscale, unit_vec; cbn [vx vy vz]; f_equal; lia.
      - clear X1 X2; destruct X3 as [X|[X|[X|X]]]; rewrite X; [exists (-1), (-1)|exists (-1), 1|exists 1, (-1)|exists 1, 1];
          (split; [auto|]); (split; [auto|]); do 2 f_equal; unfold vadd, vscale, unit_vec; cbn [vx vy vz]; f_equal; lia.
      - clear X1 X3; destruct X2 as [X|[X|[X|X]]]; rewrite X; [exists (-1), (-1)|exists (-1), 1|exists 1, (-1)|exists 1, 1];
          (split; [auto|]); (split; [auto|]); do 2 f_equal; unfold vadd, vscale, unit_vec; cbn [vx vy vz]; f_equal; lia. }
    intros d d' o Hne Ho Hd Hd'.
    assert (Hsym : (exists s t, (s = 1 \/ s = -1) /\ (t = 1 \/ t = -1) /\
         mat (lattice q m o) = mat (lattice q m (vadd o (vadd (vscale s (unit_vec d')) (vscale t (unit_vec d)))))) ->
      exists s t, (s = 1 \/ s = -1) /\ (t = 1 \/ t = -1) /\
         mat (lattice q m o) = mat (lattice q m (vadd o (vadd (vscale s (unit_vec d)) (vscale t (unit_vec d')))))).
    { intros (s & t & Hs & Ht & Y). exists t, s. split; [exact Ht|]. split; [exact Hs|]. rewrite Y. do 3 f_equal.
      unfold vadd. f_equal; ring. }
    destruct d, d'; try congruence; [apply W|apply W|apply Hsym, W|apply W|apply Hsym, W|apply Hsym, W]; auto; congruence.
  - destruct H5 as (i & Hi & Y). exists i. split; [exact Hi|]. pose proof (corner_bits i ltac:(lia)) as (B1 & B2 & B3).
    unfold vscale in Y. cbn [vx vy vz] in Y. rewrite !Hpos in Y by lia. unfold f in Y. rewrite Y. do 1 f_equal.
    rewrite <- Hout. reflexivity.
Qed.

Lemma try_simplify_ok : forall m q depth (cs : list (dc_tree E S)) sol,
  cube_in_grid n q (Datatypes.S m) -> depth = Z.of_nat D - Z.of_nat (Datatypes.S m) -> length cs = 8%nat ->
  (forall i c, znth cs i = Some c -> tree_ok leafok m c (child_pos q m i)) ->
  exists t sol', try_simplify ops args (ONode depth cs) q (edge_len (Datatypes.S m)) sol = Ret (t, sol') /\
    tree_ok leafok (Datatypes.S m) t q /\ node_depth t = depth.
Proof.
  intros m q depth cs sol Hq Hd Hl Hc. unfold try_simplify.
  assert (Hnode : tree_ok leafok (Datatypes.S m) (ONode depth cs) q) by (cbn; auto).
  destruct (existsb is_subdivided cs) eqn:Hsub.
  { eexists _, _. split; [reflexivity|]. split; [exact Hnode|reflexivity]. }
  destruct (all_leaves_list _ _ cs Hsub) as (ls & ->). rewrite map_length in Hl. rewrite leaf_data_list. cbn [obind].
  assert (Hls : forall i l, znth ls i = Some l -> leafok l (child_pos q m i) m).
  { intros i l Hi. apply (tree_ok_leaf _ Z), Hc. unfold znth in *. destruct (i <? 0); [discriminate|]. apply map_nth_error. exact Hi. }
  assert (Hoct : forall i, 0 <= i < 8 -> cube_in_grid n (child_pos q m i) m).
  { intros i Hi p Hp. apply Hq. eapply octant_closed; eassumption. }
  rewrite (omap_indexed _ _ leaf_homogenous (fun i => negb (mixed solid (child_pos q m i) m)) ls Hl).
  2:{ intros i l Hi. apply leaf_kind; [apply Hoct; eapply znth_8_bound; eassumption|auto]. }
  cbn [obind].
  rewrite (omap_indexed _ _ (fun l => oread (lf_corners l)) (fun i => map mat (cube_corners (child_pos q m i) m)) ls Hl).
  2:{ intros i l Hi. rewrite (lk_corners _ _ _ _ _ _ _ _ _ (Hls i l Hi)). reflexivity. }
  cbn [obind].
  rewrite (omap_ok _ _ _ (fun i => mat (cube_corner q (Datatypes.S m) i)) (zseq 0 8)).
  2:{ intros i Hi. apply in_zseq in Hi. rewrite znth_map_zseq by lia. cbn [oread obind]. unfold cube_corners. rewrite map_map, znth_map_zseq by lia.
      rewrite octant_outer. reflexivity. }
  cbn [obind]. rewrite <- (map_map (cube_corner q (Datatypes.S m)) mat). change (map (cube_corner q (Datatypes.S m)) (zseq 0 8)) with (cube_corners q (Datatypes.S m)).
  destruct (forallb (fun h => h) (map (fun i => negb (mixed solid (child_pos q m i) m)) (zseq 0 8))) eqn:Hall.
  - cbn [dc_collapse obind]. eexists _, _. split; [reflexivity|].
    assert (Hun : uniform solid q (Datatypes.S m)).
    { apply uniform_octants. intros i Hi. rewrite forallb_forall in Hall.
      specialize (Hall _ (in_map _ _ i (proj2 (in_zseq 8 0 i) ltac:(lia)))). apply negb_true_iff in Hall.
      destruct (znth_8 _ ls i Hl Hi) as (l & Hz). exact (lk_uniform _ _ _ _ _ _ _ _ _ (Hls i l Hz) Hall). }
    split; [|cbn; lia]. cbn [tree_ok]. constructor; cbn; auto; try lia.
    3: apply one_sheet_uniform; exact Hun.
    all: rewrite (uniform_not_mixed _ _ Hun); discriminate.
  - destruct (da_simplify args) eqn:Hsimp; cbn [negb].
    2:{ eexists _, _. split; [reflexivity|]. auto. }
    set (f := fun o => mat (vadd q (vscale (edge_len m) o))).
    assert (Hcm : map (fun i => map mat (cube_corners (child_pos q m i) m)) (zseq 0 8) =
      map (fun i => map (fun j => f (vadd (corner_offset i) (corner_offset j))) (zseq 0 8)) (zseq 0 8)).
    { apply map_ext. intro i. unfold cube_corners. rewrite map_map. apply map_ext. intro j. rewrite octant_corner. reflexivity. }
    rewrite Hcm, cube_materials_ok. cbn [obind].
    destruct (check_topo_safety (map f pos27)) eqn:Hsafe; cbn [negb].
    2:{ eexists _, _. split; [reflexivity|]. auto. }
    destruct (merge_ok q m (zseq 0 8) ls) with (avg := zero3 E) (sol := qo_reset ops sol) as (parts & P1 & P2 & P3).
    { intros i Hi. apply in_zseq in Hi. apply Hoct. lia. }
    { destruct (list_of_8 _ _ Hl) as (a0 & a1 & a2 & a3 & a4 & a5 & a6 & a7 & ->).
      rewrite Hsimp. cbn [zseq]. repeat (apply Forall2_cons; [apply Hls; reflexivity|]). apply Forall2_nil. }
    rewrite P3. cbn [obind].
    destruct (qo_solve ops _ _ _) as [sol1 v] eqn:Hs.
    destruct (a_lt A (da_eps args) (qo_eval ops sol1 v)) eqn:He.
    { eexists _, _. split; [reflexivity|]. auto. }
    cbn [dc_collapse obind]. destruct (qo_state ops sol1) as [sol2 s] eqn:Ht.
    eexists _, _. split; [reflexivity|]. split; [|cbn; lia]. cbn [tree_ok].
    assert (Hmx : mixed solid q (Datatypes.S m) = true).
    { destruct (mixed solid q (Datatypes.S m)) eqn:X; [reflexivity|]. exfalso.
      unfold mixed in X. apply negb_false_iff, one_kind_true in X as (b & Hb).
      assert (Hall' : forall y x z, 0 <= y <= 2 -> 0 <= x <= 2 -> 0 <= z <= 2 -> is_solid (cube_at (map f pos27) y x z) = b).
      { apply safe_kind; [assumption|]. intros y x z Hy Hx Hz. rewrite cube_at_pos by lia.
        assert (exists i, 0 <= i < 8 /\ V3 x y z = vscale 2 (corner_offset i)) as (i & Hi & Hi').
        { destruct Hy as [-> | ->], Hx as [-> | ->], Hz as [-> | ->];
            [exists 0|exists 1|exists 2|exists 3|exists 4|exists 5|exists 6|exists 7]; (split; [lia|reflexivity]). }
        rewrite Hi'. unfold f.
        replace (vadd q (vscale (edge_len m) (vscale 2 (corner_offset i)))) with (cube_corner q (Datatypes.S m) i).
        2:{ unfold cube_corner, vadd, vscale. rewrite edge_len_S. cbn [vx vy vz]. f_equal; ring. }
        rewrite mat_solid by (apply Hq, corner_closed; assumption).
        apply Hb. apply in_map. unfold cube_corners. apply in_map. apply in_zseq. lia. }
      rewrite <- not_true_iff_false in Hall. apply Hall. apply forallb_forall. intros h Hh.
      apply in_map_iff in Hh as (i & <- & Hi). apply in_zseq in Hi. apply negb_true_iff.
      unfold mixed. apply negb_false_iff, one_kind_true. exists b. intros c Hc'.
      unfold cube_corners in Hc'. rewrite map_map in Hc'. apply in_map_iff in Hc' as (j & <- & Hj). apply in_zseq in Hj.
      rewrite <- mat_solid by (apply (Hoct i ltac:(lia)), corner_closed; lia).
      rewrite octant_corner. change (mat (vadd q (vscale (edge_len m) (vadd (corner_offset i) (corner_offset j))))) with (f (vadd (corner_offset i) (corner_offset j))).
      pose proof (corner_bits i ltac:(lia)) as (B1 & B2 & B3). pose proof (corner_bits j ltac:(lia)) as (C1 & C2 & C3).
      specialize (Hall' (vy (vadd (corner_offset i) (corner_offset j))) (vx (vadd (corner_offset i) (corner_offset j))) (vz (vadd (corner_offset i) (corner_offset j)))).
      rewrite cube_at_pos in Hall'; unfold vadd in *; cbn [vx vy vz] in *; try lia. apply Hall'; lia. }
    assert (Hsheet : two_pieces (fun i => solid (cube_corner q (Datatypes.S m) i)) /\ one_sheet mat solid q (Datatypes.S m)).
    { apply safe_sheet; [assumption|exact Hsafe|]. intros i Hi. destruct (znth_8 _ ls i Hl Hi) as (l & Hz).
      exact (lk_sheet _ _ _ _ _ _ _ _ _ (Hls i l Hz)). }
    constructor; cbn [lf_depth lf_corners lf_vertex lf_normal lf_qef]; auto; try lia; try congruence.
    2:{ intros _ _. apply Hsheet. }
    2:{ apply Hsheet. }
    intros _. eexists _, _, s. split; [reflexivity|]. split; [reflexivity|]. split; [reflexivity|].
    eapply measured_merge; [exact P1|exact P2|exact Hs|exact He|exact Ht].
Qed.

Hypothesis HD : (D <= 10)%nat.

Lemma build_node_ok : forall m fuel l q sol, (m < fuel)%nat -> (m <= D)%nat -> cube_in_grid n q m ->
  lf_depth l = Z.of_nat D - Z.of_nat m ->
  exists t sol', build_node ops fuel args (OLeaf l) q (edge_len m) sol = Ret (t, sol') /\
    tree_ok leafok m t q /\ node_depth t = Z.of_nat D - Z.of_nat m.
Proof.
  induction m as [|m IH]; intros fuel l q sol Hf Hm Hq Hl; (destruct fuel as [|fuel]; [lia|]); cbn [build_node].
  - rewrite edge_len_0. cbn [Z.eqb Pos.eqb leaf_data obind].
    destruct (build_leaf_ok l q sol Hq ltac:(lia)) as (l' & sol' & -> & Hok). cbn [obind].
    eexists _, _. split; [reflexivity|]. split; [exact Hok|]. apply (lk_depth _ _ _ _ _ _ _ _ _ Hok).
  - assert (He : (edge_len (Datatypes.S m) =? 1) = false) by (apply Z.eqb_neq; rewrite edge_len_S; pose proof (edge_len_pos m); lia).
    rewrite He. cbn [dc_subdivide obind].
    assert (Hh : Z.quot (edge_len (Datatypes.S m)) 2 = edge_len m).
    { rewrite edge_len_S. rewrite Z.mul_comm. apply Z.quot_mul. lia. }
    rewrite Hh.
    match goal with |- context [ofold ?step (zseq 0 8) ([], sol)] =>
      destruct (ofold_collect (dc_tree E S) Q step (fun i t => tree_ok leafok m t (child_pos q m i)) 8 0) with (ts := @nil (dc_tree E S)) (st := sol)
        as (cs & sol1 & Hcs & HF) end.
    { intros i ts st Hi. cbn [child]. rewrite znth_map_zseq by (change (Z.of_nat 8) with 8 in Hi; lia). cbn [oread obind].
      destruct (IH fuel (dc_fresh E S (i16 (lf_depth l + 1))) (child_pos q m i) st) as (t & sol' & Hb & Hok & _).
      - lia.
      - lia.
      - intros p Hp. apply Hq. eapply octant_closed; [|exact Hp]. lia.
      - cbn [dc_fresh lf_depth]. rewrite Hl. unfold i16. rewrite Z.mod_small by lia. lia.
      - exists t, sol'. unfold child_pos in Hb at 1. rewrite Hb. cbn [obind]. auto. }
    rewrite Hcs. cbn [obind app].
    rewrite <- Hl. apply try_simplify_ok; [assumption|assumption| |].
    + apply Forall2_len in HF. rewrite <- HF. reflexivity.
    + intros i c Hi. exact (Forall2_znth _ _ 8 0 cs i c HF Hi).
Qed.
End Build.

(* ---- build ---- *)

Lemma root_size : forall m, dc_fuel (edge_len m) = Datatypes.S m /\ root_level (edge_len m) = m.
Proof.
  intro m. unfold dc_fuel, root_level, edge_len. rewrite Z.log2_pow2 by lia. rewrite Nat2Z.id. auto.
Qed.

Lemma root_in_grid : forall n m, valid_size n -> edge_len m <= n -> cube_in_grid n (dc_min_corner (edge_len m)) m.
Proof.
  intros n m Hv Hm p Hp. destruct (valid_even n Hv) as (h & Hn & Hb & _). apply (vertex_in_iff n h); [assumption|].
  unfold in_closed_cube, dc_min_corner in Hp. cbn [vx vy vz] in Hp.
  assert (X : - h <= Z.quot (- edge_len m) 2 /\ Z.quot (- edge_len m) 2 + edge_len m <= h); [|lia].
  destruct m as [|m].
  - rewrite edge_len_0. change (Z.quot (Z.opp 1) 2) with 0. lia.
  - rewrite edge_len_S in *. replace (- (2 * edge_len m)) with (- edge_len m * 2) by ring. rewrite Z.quot_mul by lia. lia.
Qed.

Lemma level_small : forall n m, valid_size n -> edge_len m <= n -> (m <= 10)%nat.
Proof.
  intros n m Hv Hm. destruct (valid_even n Hv) as (h & Hn & Hb & _).
  destruct (le_lt_dec m 10) as [H|H]; [assumption|]. exfalso.
  assert (edge_len 11 <= edge_len m) by (unfold edge_len; apply Z.pow_le_mono_r; lia).
  change (edge_len 11) with 2048 in H0. lia.
Qed.

Lemma dc_build_ok : forall E Q S (ops : qef_ops (fp_F E) Q S) (g : ugrid E) solid eps simplify (t : dc_octree E S) sol m,
  represents g solid -> ot_size t = edge_len m -> edge_len m <= g_size g -> node_depth (ot_root t) = 0 ->
  exists t' sol', dc_build ops g eps simplify t sol = Ret (t', sol') /\
    ot_size t' = ot_size t /\ ot_scale t' = ot_scale t /\ node_depth (ot_root t') = 0 /\
    tree_ok (leaf_ok ops g solid (a_div (fp_f E) eps (fp_narrow E (a_mul (fp_d E) (ot_scale t) (ot_scale t)))) m simplify)
      m (ot_root t') (dc_min_corner (ot_size t)).
Proof.
  intros E Q S ops g solid eps simplify t sol m Hrep Hs Hm Hd. pose proof (rep_size _ _ (rep_base _ _ Hrep)) as Hv.
  unfold dc_build. set (eps' := a_div _ _ _).
  assert (exists l, (if is_subdivided (ot_root t) then l <- dc_collapse (ot_root t) ;; Ret (OLeaf l) else Ret (ot_root t)) = Ret (OLeaf l) /\ lf_depth l = 0) as (l & -> & Hl).
  { destruct (ot_root t) as [l|d cs]; cbn in *; eauto. }
  cbn [obind]. rewrite Hs. destruct (root_size m) as [-> _].
  destruct (build_node_ok ops g solid Hrep m (DcArgs g eps' simplify) eq_refl (level_small _ _ Hv Hm) m (Datatypes.S m) l
    (dc_min_corner (edge_len m)) sol ltac:(lia) ltac:(lia) (root_in_grid _ _ Hv Hm) ltac:(lia)) as (r & sol' & -> & Hok & Hr).
  cbn [obind]. eexists _, _. split; [reflexivity|]. cbn. rewrite Hr. repeat split; try lia; auto.
Qed.
