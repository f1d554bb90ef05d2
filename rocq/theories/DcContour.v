(* Contouring the octree. *)
From Coq Require Import ZArith List Bool Lia Sorted Permutation.
From Verif Require Import Base Arith Tables MeshModel MeshSpec MeshProofs MaterialFilterModel GridModel GridSpec GridProofs
  EdgeModel EdgeSpec FillModel FillSpec LoopLemmas MCModel CellSpec
  UdcModel DualSpec DualProofs OctreeModel OctreeSpec OctreeSums OctreeProofs OctreeFlux DcModel DcSpec DcBuild.
Import ListNotations.
Local Open Scope Z_scope.

(* ---- comparing lists of calls ---- *)

Definition pcall_dec : forall a b : pcall, {a = b} + {a <> b}.
Proof. repeat decide equality. Defined.
Fixpoint remove_first (a : pcall) (l : list pcall) : option (list pcall) :=
  match l with
  | [] => None
  | b :: r => if pcall_dec a b then Some r else match remove_first a r with Some r' => Some (b :: r') | None => None end
  end.
Fixpoint same_calls (l l' : list pcall) : bool :=
  match l with
  | [] => match l' with [] => true | _ => false end
  | a :: r => match remove_first a l' with Some r' => same_calls r r' | None => false end
  end.

Lemma remove_first_perm : forall a l r, remove_first a l = Some r -> Permutation l (a :: r).
Proof.
  intros a. induction l as [|b l IH]; intros r H; [discriminate|]. cbn [remove_first] in H.
  destruct (pcall_dec a b) as [->|]; [injection H as <-; apply Permutation_refl|].
  destruct (remove_first a l) as [r'|]; [|discriminate]. injection H as <-. rewrite (IH r' eq_refl). apply perm_swap.
Qed.

Lemma same_calls_perm : forall l l', same_calls l l' = true -> Permutation l l'.
Proof.
  induction l as [|a l IH]; intros l' H; cbn [same_calls] in H; [destruct l'; [constructor|discriminate]|].
  destruct (remove_first a l') as [r|] eqn:E; [|discriminate]. rewrite (remove_first_perm a l' r E). constructor. apply IH, H.
Qed.

Lemma dc_procs_ok : procs_ok dc_procs.
Proof.
  constructor; try (intros [| |]); try reflexivity; apply same_calls_perm; vm_compute; reflexivity.
Qed.

Section Contour.
Context {E : fpenv} {Q S : Type}.
Variable ops : qef_ops (fp_F E) Q S.
Variable g : ugrid E.
Variable solid : ivec3 -> bool.
Hypothesis Hrep : represents g solid.
Variable eps : fp_F E.
Variable simplify : bool.
Variable D : nat.
Notation F := (fp_F E).
Notation mat := (grid_material g).
Notation leafok := (leaf_ok ops g solid eps D simplify).
Notation tree := (dc_tree E S).

(* vertex of a leaf with corners of both kinds *)
Definition leaf_vertex (l : dc_leaf F S) : list (mvert F) :=
  match lf_corners l, lf_vertex l, lf_normal l with
  | Some cs, Some v, Some nrm => if corners_homogenous cs then [] else [MVert v nrm (fast_select (fast_add_all fast_new cs))]
  | _, _, _ => []
  end.

(* its number *)
Definition leaf_number (l : dc_leaf F S) : list Z :=
  match leaf_vertex l, lf_id l with _ :: _, Some i => [i] | _, _ => [] end.

Record numbered (V : list (mvert F)) (l : dc_leaf F S) (q : ivec3) (n : nat) : Prop := {
  nb_leaf : leafok l q n;
  nb_grid : cube_in_grid (g_size g) q n;
  nb_mixed : mixed solid q n = true -> exists id v nrm, lf_id l = Some id /\ lf_vertex l = Some v /\ lf_normal l = Some nrm /\
    znth V id = Some (MVert v nrm (fast_select (fast_add_all fast_new (map mat (cube_corners q n)))));
  nb_other : mixed solid q n = false -> lf_id l = Some u32max
}.

Lemma znth_app : forall T (l l' : list T) i a, znth l i = Some a -> znth (l ++ l') i = Some a.
Proof.
  intros T l l' i a H. unfold znth in *. destruct (i <? 0); [discriminate|]. rewrite nth_error_app1; [assumption|].
  apply nth_error_Some. congruence.
Qed.
Lemma znth_last : forall T (l : list T) a, znth (l ++ [a]) (zlen l) = Some a.
Proof.
  intros. unfold znth, zlen. destruct (Z.ltb_spec (Z.of_nat (length l)) 0); [lia|]. rewrite Nat2Z.id, nth_error_app2 by lia.
  rewrite Nat.sub_diag. reflexivity.
Qed.

Lemma numbered_app : forall V W l q n, numbered V l q n -> numbered (V ++ W) l q n.
Proof.
  intros V W l q n [H0 H1 H2 H3]. constructor; auto. intro X. destruct (H2 X) as (id & v & nrm & A1 & A2 & A3 & A4).
  exists id, v, nrm. repeat split; auto. apply znth_app. assumption.
Qed.

Lemma leafok_id : forall l q n i, leafok l q n ->
  leafok (DcLeaf (lf_depth l) (lf_vertex l) (lf_normal l) (lf_corners l) (lf_qef l) i) q n.
Proof. intros l q n i [H1 H2 H3 H4 H5]. constructor; auto. Qed.

Lemma make_vertex_ok : forall l q n (m : mesh (mvert F)), leafok l q n -> cube_in_grid (g_size g) q n ->
  zlen (m_verts m) + 1 <= two32 ->
  exists l' vs, make_vertex l m = Ret (l', Mesh (m_verts m ++ vs) (m_inds m)) /\
    numbered (m_verts m ++ vs) l' q n /\ zlen vs <= 1 /\ vs = leaf_vertex l' /\ without_id l' = without_id l /\
    leaf_number l' = zseq (zlen (m_verts m)) (length vs).
Proof.
  intros l q n m Hl Hq Hm. unfold make_vertex. rewrite (leaf_kind ops g solid Hrep D (DcArgs g eps simplify) l q n Hq Hl). cbn [obind].
  pose proof (lk_corners _ _ _ _ _ _ _ _ _ Hl) as Hc.
  assert (Hh : corners_homogenous (map mat (cube_corners q n)) = negb (mixed solid q n)).
  { rewrite homogenous_kind, (kinds_cube g solid Hrep) by assumption. unfold mixed. rewrite negb_involutive. reflexivity. }
  destruct (mixed solid q n) eqn:X; cbn [negb] in *.
  - destruct (lk_mixed _ _ _ _ _ _ _ _ _ Hl X) as (v & nrm & s & E1 & E2 & E3 & _). rewrite E1, E2, Hc. cbn [oread obind].
    rewrite add_vertex_ok by assumption. cbn [obind].
    set (w := MVert v nrm (fast_select (fast_add_all fast_new (map mat (cube_corners q n))))).
    eexists _, [w]. rewrite <- E1, <- E2, <- Hc. split; [reflexivity|]. split; [|split; [|split; [|split]]].
    + constructor; [apply leafok_id; assumption|assumption| |congruence].
      intros _. exists (zlen (m_verts m)), v, nrm. cbn. rewrite E1, E2. repeat split. apply znth_last.
    + unfold zlen. cbn. lia.
    + unfold leaf_vertex. cbn. rewrite Hc, E1, E2, Hh. reflexivity.
    + reflexivity.
    + unfold leaf_number, leaf_vertex. cbn. rewrite Hc, E1, E2, Hh. reflexivity.
  - eexists _, []. rewrite app_nil_r. destruct m as [V I]. split; [reflexivity|]. split; [|split; [|split; [|split]]].
    + constructor; [apply leafok_id; assumption|assumption|congruence|reflexivity].
    + unfold zlen. cbn. lia.
    + unfold leaf_vertex. cbn. rewrite Hc. destruct (lf_vertex l), (lf_normal l); try reflexivity. rewrite Hh. reflexivity.
    + reflexivity.
    + unfold leaf_number, leaf_vertex. cbn. rewrite Hc. destruct (lf_vertex l), (lf_normal l); try reflexivity. rewrite Hh. reflexivity.
Qed.

Definition pow8 (n : nat) : Z := 8 ^ Z.of_nat n.
Lemma pow8_S : forall n, pow8 (Datatypes.S n) = 8 * pow8 n.
Proof. intro n. unfold pow8. rewrite Nat2Z.inj_succ, Z.pow_succ_r by lia. reflexivity. Qed.
Lemma pow8_pos : forall n, 1 <= pow8 n.
Proof. intro n. unfold pow8. assert (0 < 8 ^ Z.of_nat n) by (apply Z.pow_pos_nonneg; lia). lia. Qed.

Lemma make_vertices_ok : forall n fuel (t : tree) q m, (n < fuel)%nat -> tree_ok leafok n t q -> cube_in_grid (g_size g) q n ->
  zlen (m_verts m) + pow8 n <= two32 ->
  exists t' vs, make_vertices fuel t m = Ret (t', Mesh (m_verts m ++ vs) (m_inds m)) /\
    tree_ok (numbered (m_verts m ++ vs)) n t' q /\ zlen vs <= pow8 n /\ vs = flat_map leaf_vertex (leaves_of t') /\
    tree_map without_id t' = tree_map without_id t /\ node_depth t' = node_depth t /\
    flat_map leaf_number (leaves_of t') = zseq (zlen (m_verts m)) (length vs).
Proof.
  assert (Hleaf : forall n fuel l q m, (0 < fuel)%nat -> leafok l q n -> cube_in_grid (g_size g) q n -> zlen (m_verts m) + pow8 n <= two32 ->
    exists t' vs, make_vertices fuel (OLeaf l) m = Ret (t', Mesh (m_verts m ++ vs) (m_inds m)) /\
      tree_ok (numbered (m_verts m ++ vs)) n t' q /\ zlen vs <= pow8 n /\ vs = flat_map leaf_vertex (leaves_of t') /\
      tree_map without_id t' = tree_map without_id (OLeaf l) /\ node_depth t' = lf_depth l /\
      flat_map leaf_number (leaves_of t') = zseq (zlen (m_verts m)) (length vs)).
  { intros n fuel l q m Hf Hl Hq Hm. destruct fuel as [|fuel]; [lia|]. cbn [make_vertices]. pose proof (pow8_pos n).
    destruct (make_vertex_ok l q n m Hl Hq ltac:(lia)) as (l' & vs & -> & Hnb & Hlen & Hvs & Hid & Hnum). cbn [obind].
    exists (OLeaf l'), vs. split; [reflexivity|]. split; [apply tree_ok_leaf; exact Hnb|]. split; [lia|].
    split; [cbn [leaves_of flat_map]; rewrite app_nil_r; exact Hvs|]. split; [cbn [tree_map]; rewrite Hid; reflexivity|].
    split; [cbn; unfold without_id in Hid; congruence|]. cbn [leaves_of flat_map]. rewrite app_nil_r. exact Hnum. }
  induction n as [|n IH]; intros fuel t q m Hf Ht Hq Hm; (destruct t as [l|b cs];
    [apply Hleaf; [lia|exact Ht|assumption|assumption]|]); (destruct fuel as [|fuel]; [lia|]); cbn [make_vertices].
  - destruct Ht.
  - cbn [tree_ok] in Ht. destruct Ht as [Hlen Hc].
    assert (Hloop : forall k a (acc : list tree) m0, (a + k = 8)%nat -> length acc = a -> zlen (m_verts m0) + Z.of_nat k * pow8 n <= two32 ->
      exists us vs, ofold (fun st i => let '(cs0, m) := st : list tree * mesh (mvert F) in
              c <- child (ONode b cs) i ;; '(c, m) <- make_vertices fuel c m ;; Ret (cs0 ++ [c], m)) (zseq (Z.of_nat a) k) (acc, m0) =
        Ret (acc ++ us, Mesh (m_verts m0 ++ vs) (m_inds m0)) /\
        Forall2 (fun i t => tree_ok (numbered (m_verts m0 ++ vs)) n t (child_pos q n i)) (zseq (Z.of_nat a) k) us /\
        zlen vs <= Z.of_nat k * pow8 n /\ vs = flat_map leaf_vertex (flat_map leaves_of us) /\
        map (tree_map without_id) us = map (tree_map without_id) (skipn a cs) /\
        flat_map leaf_number (flat_map leaves_of us) = zseq (zlen (m_verts m0)) (length vs)).
    { induction k as [|k IHk]; intros a acc m0 Ha Hacc Hm0.
      - exists [], []. rewrite !app_nil_r. destruct m0. cbn [zseq ofold]. split; [reflexivity|]. split; [constructor|]. split; [unfold zlen; cbn; lia|].
        split; [reflexivity|]. rewrite skipn_all2 by lia. split; reflexivity.
      - cbn [zseq ofold]. cbn [child].
        destruct (znth_8 _ cs (Z.of_nat a) Hlen ltac:(lia)) as (c & Hcz). rewrite Hcz. cbn [oread obind].
        pose proof (pow8_pos n) as P8.
        destruct (IH fuel c (child_pos q n (Z.of_nat a)) m0 ltac:(lia) (Hc _ _ Hcz)) as (t' & v1 & -> & Ht1 & Hl1 & Hv1 & Hm1 & _ & Hn1).
        { intros p Hp. apply Hq. eapply octant_closed; [|exact Hp]. lia. }
        { nia. }
        cbn [obind]. replace (Z.of_nat a + 1) with (Z.of_nat (Datatypes.S a)) by lia.
        destruct (IHk (Datatypes.S a) (acc ++ [t']) (Mesh (m_verts m0 ++ v1) (m_inds m0)) ltac:(lia)) as (us & v2 & He & HF & Hl2 & Hv2 & Hm2 & Hn2).
        { rewrite app_length. cbn. lia. }
        { cbn [m_verts]. rewrite zlen_app. lia. }
        cbn [m_verts m_inds child] in He, HF. rewrite He. exists (t' :: us), (v1 ++ v2). rewrite <- !app_assoc. cbn [app].
        split; [reflexivity|]. split; [|split; [|split; [|split]]].
        + constructor.
          * rewrite app_assoc. revert Ht1. apply tree_ok_impl. intros. apply numbered_app. assumption.
          * rewrite <- app_assoc in HF. exact HF.
        + rewrite zlen_app. lia.
        + cbn [flat_map]. rewrite flat_map_app, <- Hv1, <- Hv2. reflexivity.
        + unfold znth in Hcz. destruct (Z.ltb_spec (Z.of_nat a) 0); [lia|]. rewrite Nat2Z.id in Hcz.
          cbn [map]. rewrite Hm1, Hm2. clear - Hcz. revert a Hcz. induction cs as [|x cs IH]; intros [|a] H; cbn in *; try discriminate; auto.
          injection H as ->. reflexivity.
        + cbn [flat_map m_verts] in *. rewrite flat_map_app, Hn1, Hn2, app_length, zseq_app, zlen_app. reflexivity. }
    destruct (Hloop 8%nat 0%nat [] m eq_refl eq_refl) as (us & vs & He & HF & Hl & Hv & Hmp & Hnm).
    { rewrite pow8_S in Hm. lia. }
    change (Z.of_nat 0) with 0 in He, HF. rewrite He. cbn [obind app].
    exists (ONode b us), vs. split; [reflexivity|]. split; [|split; [|split; [|split; [|split]]]].
    + cbn [tree_ok]. split; [apply Forall2_len in HF; rewrite <- HF; reflexivity|].
      intros i c Hi. exact (Forall2_znth _ _ 8 0 us i c HF Hi).
    + rewrite pow8_S. lia.
    + exact Hv.
    + cbn [tree_map]. rewrite Hmp. reflexivity.
    + reflexivity.
    + exact Hnm.
Qed.

Lemma numbered_number : forall V l q n, numbered V l q n -> zlen V < u32max ->
  leaf_number l = match lf_id l with Some id => if id =? u32max then [] else [id] | None => [] end.
Proof.
  intros V l q n H HV. pose proof (nb_leaf _ _ _ _ H) as Hl. pose proof (lk_corners _ _ _ _ _ _ _ _ _ Hl) as Hc.
  assert (Hh : corners_homogenous (map mat (cube_corners q n)) = negb (mixed solid q n)).
  { rewrite homogenous_kind, (kinds_cube g solid Hrep) by apply (nb_grid _ _ _ _ H). unfold mixed. rewrite negb_involutive. reflexivity. }
  unfold leaf_number, leaf_vertex. rewrite Hc, Hh. destruct (mixed solid q n) eqn:X; cbn [negb].
  - destruct (nb_mixed _ _ _ _ H X) as (id & v & nrm & -> & -> & -> & Hz). cbn [negb].
    assert (R : id < zlen V).
    { unfold znth in Hz. destruct (Z.ltb_spec id 0); [discriminate|].
      assert (Y : nth_error V (Z.to_nat id) <> None) by congruence. apply nth_error_Some in Y. unfold zlen. lia. }
    destruct (Z.eqb_spec id u32max) as [Y|]; [|reflexivity]. rewrite Y in R. exfalso. apply (Z.lt_irrefl u32max).
    exact (Z.lt_trans _ _ _ R HV).
  - rewrite (nb_other _ _ _ _ H X). cbn [negb]. rewrite Z.eqb_refl. destruct (lf_vertex l), (lf_normal l); reflexivity.
Qed.

(* ---- edges between leaves ---- *)

Section Items.
Variable V : list (mvert F).
Variable q0 : ivec3.
Variable L : ivec3 -> option (dc_leaf F S).
Definition placed (l : dc_leaf F S) (q : ivec3) (n : nat) : Prop :=
  numbered V l q n /\ subcube q n q0 D /\ forall c, in_cube q n c -> L c = Some l.
Notation item_at := (leaf_item (dc_leaf F S) Z placed).

Definition leaf_id (l : dc_leaf F S) : Z := match lf_id l with Some i => i | None => -1 end.
Definition cell_id (c : ivec3) : Z := match L c with Some l => leaf_id l | None => -1 end.

Definition seg_end (n : nat) (d : axis) (p : ivec3) : ivec3 := vadd p (vscale (edge_len n) (unit_vec d)).

(* cube of level [n] inside the cube of the leaf *)
Definition holds (n : nat) (q : ivec3) (l : dc_leaf F S) : Prop :=
  exists q' n', (n <= n')%nat /\ placed l q' n' /\ subcube q n q' n'.

Lemma covers_holds : forall n l q, covers _ _ placed n (@OLeaf _ Z l) q -> holds n q l.
Proof.
  intros n l q [H|(a & q' & n' & Heq & Hn & HX & Hs)].
  - apply tree_ok_leaf in H. exists q, n. split; [lia|]. split; [assumption|apply subcube_refl].
  - injection Heq as <-. exists q', n'. split; [lia|]. auto.
Qed.

Lemma item_leaves : forall n d p leaves, item_at n d p leaves ->
  exists l0 l1 l2 l3 q1 q2 q3 q4, leaves = [l0; l1; l2; l3] /\ around n d p = [q1; q2; q3; q4] /\
    holds n q1 l0 /\ holds n q2 l1 /\ holds n q3 l2 /\ holds n q4 l3 /\
    exists l, In l leaves /\ lf_depth l = Z.of_nat D - Z.of_nat n.
Proof.
  intros n d p leaves [HF (l & q & Hin & Hx)].
  assert (Ha : exists q1 q2 q3 q4, around n d p = [q1; q2; q3; q4]) by (unfold around, cells_around; cbn [map]; eauto 10).
  destruct Ha as (q1 & q2 & q3 & q4 & Ha). rewrite Ha in *.
  inversion HF as [|l0 z1 t1 w1 C0 HF1]; subst. inversion HF1 as [|l1 z2 t2 w2 C1 HF2]; subst.
  inversion HF2 as [|l2 z3 t3 w3 C2 HF3]; subst. inversion HF3 as [|l3 z4 t4 w4 C3 HF4]; subst. inversion HF4; subst.
  exists l0, l1, l2, l3, q1, q2, q3, q4. do 2 (split; [reflexivity|]). do 4 (split; [apply covers_holds; assumption|]).
  exists l. split; [eapply in_combine_l; exact Hin|]. destruct Hx as (Hn & _). apply (lk_depth _ _ _ _ _ _ _ _ _ (nb_leaf _ _ _ _ Hn)).
Qed.

Lemma subcube_same : forall q q' n, subcube q n q' n -> q = q'.
Proof. intros [x y z] [x' y' z'] n H. unfold subcube in H. cbn [vx vy vz] in H. f_equal; lia. Qed.

Definition deep_inv (n : nat) (d : axis) (p : ivec3) (st : Z * material * material) : Prop :=
  let '(md, m1, m2) := st in md <= Z.of_nat D - Z.of_nat n /\
  (md = Z.of_nat D - Z.of_nat n -> m1 = mat p /\ m2 = mat (seg_end n d p)).

(* entry [i] of the corner table names the ends of the segment *)
Lemma corner_ends : forall n d p i q, 0 <= i < 4 -> znth (around n d p) i = Some q ->
  exists c1 c2, znth (dc_corners_table d) i = Some (c1, c2) /\ 0 <= c1 < 8 /\ 0 <= c2 < 8 /\
    cube_corner q n c1 = p /\ cube_corner q n c2 = seg_end n d p.
Proof.
  intros n d [x y z] i q Hi Hq. unfold around, cells_around in Hq. cbn [map] in Hq.
  assert (I : i = 0 \/ i = 1 \/ i = 2 \/ i = 3) by lia. pose proof (edge_len_pos n).
  decompose [or] I; subst i; cbn in Hq; try change (Pos.to_nat 2) with 2%nat in Hq; try change (Pos.to_nat 3) with 3%nat in Hq;
    cbn [nth_error] in Hq; injection Hq as <-; destruct d;
    (eexists _, _; split; [reflexivity|]; split; [lia|]; split; [lia|]; unfold cube_corner, seg_end; offs;
     unfold vadd, vsub, vscale; cbn [next_axis unit_vec vx vy vz]; split; f_equal; lia).
Qed.

Lemma deepest_step_ok : forall n d p leaves i l q st, 0 <= i < 4 -> znth leaves i = Some l -> znth (around n d p) i = Some q ->
  holds n q l -> deep_inv n d p st ->
  exists md m1 m2, deepest_step d leaves st i = Ret (md, m1, m2) /\ deep_inv n d p (md, m1, m2) /\ fst (fst st) <= md /\ lf_depth l <= md.
Proof.
  intros n d p leaves i l q [[md m1] m2] Hi Hl Hq (q' & n' & Hn & (Hnb & _) & Hs) [Hmd Hinv]. unfold deepest_step. rewrite Hl. cbn [oread obind].
  pose proof (nb_leaf _ _ _ _ Hnb) as Hok. pose proof (lk_depth _ _ _ _ _ _ _ _ _ Hok) as Hd.
  destruct (Z.gtb_spec (lf_depth l) md) as [Hgt|Hle].
  - destruct (corner_ends n d p i q Hi Hq) as (c1 & c2 & Ht & H1 & H2 & E1 & E2). rewrite Ht. cbn [oread obind].
    rewrite (lk_corners _ _ _ _ _ _ _ _ _ Hok). cbn [oread obind fst snd]. unfold cube_corners. rewrite map_map, !znth_map_zseq by assumption.
    cbn [oread obind]. eexists _, _, _. split; [reflexivity|]. cbn [fst]. split; [|lia]. split; [lia|].
    intro X. assert (n' = n) by lia. subst n'. apply subcube_same in Hs. subst q'. rewrite E1, E2. auto.
  - exists md, m1, m2. split; [reflexivity|]. cbn [fst]. split; [split; assumption|lia].
Qed.

Lemma deepest_ok : forall n d p leaves, (n <= D)%nat -> item_at n d p leaves ->
  exists md, ofold (deepest_step d leaves) (zseq 0 4) (-1, Empty, Empty) = Ret (md, mat p, mat (seg_end n d p)).
Proof.
  intros n d p leaves Hn H. destruct (item_leaves n d p leaves H) as (l0 & l1 & l2 & l3 & q1 & q2 & q3 & q4 & -> & Ha & H0 & H1 & H2 & H3 & l & Hl & Hd).
  assert (HQ : forall k qk, 0 <= k < 4 -> znth [q1; q2; q3; q4] k = Some qk -> znth (around n d p) k = Some qk) by (intros; rewrite Ha; assumption).
  assert (I0 : deep_inv n d p (-1, Empty, Empty)) by (split; lia).
  cbn [zseq ofold].
  destruct (deepest_step_ok n d p [l0; l1; l2; l3] 0 l0 q1 _ ltac:(lia) eq_refl (HQ 0 q1 ltac:(lia) eq_refl) H0 I0) as (a1 & b1 & e1 & -> & I1 & X1 & Y1). cbn [obind].
  destruct (deepest_step_ok n d p [l0; l1; l2; l3] 1 l1 q2 _ ltac:(lia) eq_refl (HQ 1 q2 ltac:(lia) eq_refl) H1 I1) as (a2 & b2 & e2 & E2 & I2 & X2 & Y2).
  change (0 + 1) with 1. rewrite E2. cbn [obind]. 
  destruct (deepest_step_ok n d p [l0; l1; l2; l3] 2 l2 q3 _ ltac:(lia) eq_refl (HQ 2 q3 ltac:(lia) eq_refl) H2 I2) as (a3 & b3 & e3 & E3 & I3 & X3 & Y3).
  change (1 + 1) with 2. rewrite E3. cbn [obind].
  destruct (deepest_step_ok n d p [l0; l1; l2; l3] 3 l3 q4 _ ltac:(lia) eq_refl (HQ 3 q4 ltac:(lia) eq_refl) H3 I3) as (a4 & b4 & e4 & E4 & I4 & X4 & Y4).
  change (2 + 1) with 3. rewrite E4. cbn [obind].
  exists a4. cbn [fst] in X1, X2, X3, X4. destruct I4 as [I4 J4].
  assert (Hl4 : lf_depth l <= a4) by (cbn [In] in Hl; destruct Hl as [<-|[<-|[<-|[<-|[]]]]]; lia).
  destruct J4 as [-> ->]; [lia|reflexivity].
Qed.

Lemma ends_in_cube : forall n d p q, In q (around n d p) -> in_closed_cube q n p /\ in_closed_cube q n (seg_end n d p).
Proof.
  intros n d [x y z] q H. pose proof (edge_len_pos n). unfold around, cells_around in H. cbn [map In] in H.
  unfold in_closed_cube, seg_end. destruct d; cbn [next_axis unit_vec] in H; unfold vadd, vsub, vscale in *; cbn [unit_vec vx vy vz] in *;
    destruct H as [<-|[<-|[<-|[<-|[]]]]]; cbn [vx vy vz]; lia.
Qed.

Lemma holds_grid : forall n q l p, holds n q l -> in_closed_cube q n p -> vertex_in (g_size g) p.
Proof.
  intros n q l p (q' & n' & Hn & (Hnb & _) & Hs) Hp. apply (nb_grid _ _ _ _ Hnb). unfold in_closed_cube, subcube in *. lia.
Qed.

(* a leaf next to a sign change has a vertex *)
Lemma holds_id : forall n d p q l, In q (around n d p) -> holds n q l -> solid p <> solid (seg_end n d p) ->
  exists id, lf_id l = Some id /\ 0 <= id < zlen V.
Proof.
  intros n d p q l Hq (q' & n' & Hn & (Hnb & _) & Hs) Hc. destruct (ends_in_cube n d p q Hq) as [P1 P2].
  destruct (mixed solid q' n') eqn:X.
  - destruct (nb_mixed _ _ _ _ Hnb X) as (id & v & nrm & H1 & _ & _ & H2). exists id. split; [assumption|].
    unfold znth in H2. destruct (Z.ltb_spec id 0); [discriminate|].
    assert (Y : nth_error V (Z.to_nat id) <> None) by congruence. apply nth_error_Some in Y. unfold zlen. lia.
  - exfalso. destruct (lk_uniform _ _ _ _ _ _ _ _ _ (nb_leaf _ _ _ _ Hnb) X) as (b & Hb). apply Hc.
    rewrite !Hb; [reflexivity| |]; unfold in_closed_cube, subcube in *; lia.
Qed.

(* The triangles made for four leaves. *)
Definition fan (flip : bool) (i0 i1 i2 i3 : Z) : list triangle :=
  if flip then [(i0, i2, i1); (i0, i3, i2)] else [(i0, i1, i2); (i0, i2, i3)].
Definition item_tris (it : axis * list (dc_leaf F S)) : list triangle :=
  match ofold (deepest_step (fst it) (snd it)) (zseq 0 4) (-1, Empty, Empty), map leaf_id (snd it) with
  | Ret (_, m1, m2), [i0; i1; i2; i3] => if eqb (is_solid m1) (is_solid m2) then [] else fan (negb (is_solid m1)) i0 i1 i2 i3
  | _, _ => []
  end.

Lemma item_level : forall n d p leaves, item_at n d p leaves -> (n <= D)%nat.
Proof.
  intros n d p leaves [_ (l & q & _ & (_ & Hs & _))]. unfold subcube, edge_len in Hs.
  assert (X : 2 ^ Z.of_nat n <= 2 ^ Z.of_nat D) by lia. destruct (le_lt_dec n D); [assumption|].
  assert (2 ^ Z.of_nat D < 2 ^ Z.of_nat n) by (apply Z.pow_lt_mono_r; lia). lia.
Qed.

Lemma solid_kinds : forall m1 m2, (m1 =? m2) || (is_solid m1 && is_solid m2) = eqb (is_solid m1) (is_solid m2).
Proof.
  intros m1 m2. unfold is_solid. destruct (Z.eqb_spec m1 m2) as [->|Hne]; [destruct (negb _); reflexivity|].
  destruct (Z.eqb_spec m1 Empty), (Z.eqb_spec m2 Empty); try reflexivity. congruence.
Qed.

Lemma item_act : forall n d p leaves (inds : list Z), item_at n d p leaves ->
  dc_act d leaves (Mesh V inds) = Ret (Mesh V (inds ++ flatten (filter nondegenerate (item_tris (d, leaves))))) /\
  Forall (fun t => let '(a, b, c) := t in 0 <= a < zlen V /\ 0 <= b < zlen V /\ 0 <= c < zlen V) (item_tris (d, leaves)).
Proof.
  intros n d p leaves inds H. pose proof (item_level n d p leaves H) as Hn.
  destruct (deepest_ok n d p leaves Hn H) as (md & Hd).
  destruct (item_leaves n d p leaves H) as (l0 & l1 & l2 & l3 & q1 & q2 & q3 & q4 & El & Ha & H0 & H1 & H2 & H3 & _). subst leaves.
  unfold dc_act, item_tris. cbn [fst snd]. rewrite Hd. cbn [obind map].
  pose proof (ends_in_cube n d p q1) as Hends. rewrite Ha in Hends. destruct (Hends (or_introl eq_refl)) as [P1 P2].
  assert (S1 : is_solid (mat p) = solid p) by (apply (mat_solid g solid Hrep), (holds_grid n q1 l0 _ H0 P1)).
  assert (S2 : is_solid (mat (seg_end n d p)) = solid (seg_end n d p)) by (apply (mat_solid g solid Hrep), (holds_grid n q1 l0 _ H0 P2)).
  pose proof (solid_kinds (mat p) (mat (seg_end n d p))) as HK.
  destruct (eqb (is_solid (mat p)) (is_solid (mat (seg_end n d p)))) eqn:X.
  - split; [|constructor]. cbn [filter flatten]. rewrite app_nil_r.
    destruct (mat p =? mat (seg_end n d p)); [reflexivity|]. cbn [orb] in HK. rewrite HK. reflexivity.
  - apply orb_false_iff in HK as [-> ->].
    assert (Hc : solid p <> solid (seg_end n d p)) by (rewrite <- S1, <- S2; intro Y; rewrite Y, eqb_reflx in X; discriminate).
    assert (Hi : forall q, In q [q1; q2; q3; q4] -> In q (around n d p)) by (intros; rewrite Ha; assumption).
    destruct (holds_id n d p q1 l0 (Hi q1 ltac:(cbn; auto)) H0 Hc) as (i0 & E0 & R0).
    destruct (holds_id n d p q2 l1 (Hi q2 ltac:(cbn; auto)) H1 Hc) as (i1 & E1 & R1).
    destruct (holds_id n d p q3 l2 (Hi q3 ltac:(cbn; auto)) H2 Hc) as (i2 & E2 & R2).
    destruct (holds_id n d p q4 l3 (Hi q4 ltac:(cbn; auto)) H3 Hc) as (i3 & E3 & R3).
    assert (Hids : omap (fun i => l <- oread (znth [l0; l1; l2; l3] i) ;; oread (lf_id l)) (zseq 0 4) = Ret [i0; i1; i2; i3]).
    { change (zseq 0 4) with [0; 1; 2; 3]. cbn [omap]. change (znth [l0; l1; l2; l3] 0) with (Some l0). change (znth [l0; l1; l2; l3] 1) with (Some l1).
      change (znth [l0; l1; l2; l3] 2) with (Some l2). change (znth [l0; l1; l2; l3] 3) with (Some l3). cbn [oread obind]. rewrite E0, E1, E2, E3. reflexivity. }
    rewrite Hids. cbn [obind]. unfold leaf_id. rewrite E0, E1, E2, E3.
    replace (mat p =? Empty) with (negb (is_solid (mat p))) by (unfold is_solid; apply negb_involutive). rewrite negb_involutive.
    destruct (is_solid (mat p)); cbn [negb fan]; (rewrite add_triangle_ok by (cbn [m_verts]; lia)); cbn [obind];
      (rewrite add_triangle_ok by (cbn [m_verts]; lia)); cbn [m_verts m_inds];
      (split; [do 2 f_equal; rewrite <- app_assoc, <- flatten_app, <- filter_app; reflexivity|repeat constructor; lia]).
Qed.

Lemma around_cell : forall n d p k i q c, 0 <= k < edge_len n -> znth (around n d p) i = Some q ->
  znth (cells_around d (vadd p (vscale k (unit_vec d)))) i = Some c -> in_cube q n c.
Proof.
  intros n d [x y z] k i q c Hk Hq Hc. pose proof (edge_len_pos n). unfold around, cells_around in *. cbn [map] in Hq.
  unfold znth in *. destruct (i <? 0); [discriminate|].
  destruct (Z.to_nat i) as [|[|[|[|j]]]]; cbn [nth_error] in *; try (destruct j; discriminate);
    injection Hq as <-; injection Hc as <-; unfold in_cube; destruct d; unfold vadd, vsub, vscale; cbn [next_axis unit_vec vx vy vz]; lia.
Qed.

Lemma holds_cell : forall n q l c, holds n q l -> in_cube q n c -> cell_id c = leaf_id l.
Proof.
  intros n q l c (q' & n' & Hn & (_ & _ & HL) & Hs) Hc. unfold cell_id. rewrite (HL c); [reflexivity|]. eapply in_cube_sub; eassumption.
Qed.

(* Functions of triangles that change sign with the orientation. *)
Definition alternating (w : triangle -> Z) : Prop :=
  (forall a b c, w (a, c, b) = - w (a, b, c)) /\ (forall a b, w (a, a, b) = 0).
Definition quad_val (w : triangle -> Z) (i0 i1 i2 i3 : Z) : Z := w (i0, i1, i2) + w (i0, i2, i3).
Definition cell_val (w : triangle -> Z) (e : gedge) : Z :=
  match cells_around (fst e) (snd e) with
  | [c0; c1; c2; c3] => quad_val w (cell_id c0) (cell_id c1) (cell_id c2) (cell_id c3)
  | _ => 0
  end.

Lemma val_fan : forall w flip i0 i1 i2 i3, alternating w ->
  gsum w (fan flip i0 i1 i2 i3) = (if flip then -1 else 1) * quad_val w i0 i1 i2 i3.
Proof.
  intros w flip i0 i1 i2 i3 [Hw _]. unfold quad_val. destruct flip; cbn [fan]; rewrite !gsum_cons, gsum_nil; [|lia].
  rewrite (Hw i0 i1 i2), (Hw i0 i2 i3). lia.
Qed.

Lemma item_compat : forall w, alternating w ->
  compat (dc_leaf F S) Z placed L (fun e => weight solid e * cell_val w e) (fun it => gsum w (item_tris it)).
Proof.
  intros w Hw. split.
  - intros n d p leaves H. pose proof (item_level n d p leaves H) as Hn.
    destruct (deepest_ok n d p leaves Hn H) as (md & Hd).
    destruct (item_leaves n d p leaves H) as (l0 & l1 & l2 & l3 & q1 & q2 & q3 & q4 & El & Ha & H0 & H1 & H2 & H3 & _). subst leaves.
    pose proof (ends_in_cube n d p q1) as Hends. rewrite Ha in Hends. destruct (Hends (or_introl eq_refl)) as [P1 P2].
    assert (S1 : is_solid (mat p) = solid p) by (apply (mat_solid g solid Hrep), (holds_grid n q1 l0 _ H0 P1)).
    assert (S2 : is_solid (mat (seg_end n d p)) = solid (seg_end n d p)) by (apply (mat_solid g solid Hrep), (holds_grid n q1 l0 _ H0 P2)).
    set (K := quad_val w (leaf_id l0) (leaf_id l1) (leaf_id l2) (leaf_id l3)).
    rewrite (seg_telescope solid _ d p (edge_len n) K).
    + unfold item_tris. cbn [fst snd]. rewrite Hd. cbn [map]. rewrite S1, S2. fold (seg_end n d p).
      destruct (solid p), (solid (seg_end n d p)); cbn [eqb negb b2z]; try (rewrite gsum_nil; lia); rewrite val_fan by assumption; fold K; lia.
    + pose proof (edge_len_pos n). lia.
    + intros k Hk. set (p' := vadd p (vscale k (unit_vec d))). unfold cell_val. cbn [fst snd].
      assert (Hc : exists c0 c1 c2 c3, cells_around d p' = [c0; c1; c2; c3]) by (unfold cells_around; eauto).
      destruct Hc as (c0 & c1 & c2 & c3 & Hc). rewrite Hc.
      assert (G : forall i q c, znth [q1; q2; q3; q4] i = Some q -> znth [c0; c1; c2; c3] i = Some c -> in_cube q n c).
      { intros i q c X Y. rewrite <- Ha in X. rewrite <- Hc in Y. eapply around_cell; eassumption. }
      rewrite (holds_cell n q1 l0 c0 H0 (G 0 _ _ eq_refl eq_refl)), (holds_cell n q2 l1 c1 H1 (G 1 _ _ eq_refl eq_refl)),
        (holds_cell n q3 l2 c2 H2 (G 2 _ _ eq_refl eq_refl)), (holds_cell n q4 l3 c3 H3 (G 3 _ _ eq_refl eq_refl)). reflexivity.
  - intros d p c0 c1 c2 c3 Hc Hp. unfold cell_val. cbn [fst snd]. rewrite Hc. destruct Hw as [Hw Hz].
    assert (Hz2 : forall a b, w (a, b, b) = 0) by (intros a b; pose proof (Hw a b b); lia).
    assert (Hz3 : forall a b, w (a, b, a) = 0) by (intros a b; rewrite Hw, Hz; lia).
    unfold cell_id, quad_val. destruct Hp as [[-> ->]|[-> ->]]; rewrite ?Hz, ?Hz2, ?Hz3; lia.
Qed.

End Items.

(* ---- the contour ---- *)

Lemma gsum_nondegenerate : forall w ts, alternating w -> gsum w (filter nondegenerate ts) = gsum w ts.
Proof.
  intros w ts [Hw Hz]. induction ts as [|[[a b] c] ts IH]; [reflexivity|]. cbn [filter]. rewrite gsum_cons.
  destruct (nondegenerate (a, b, c)) eqn:X; [rewrite gsum_cons, IH; reflexivity|]. rewrite IH.
  assert (w (a, b, c) = 0); [|lia]. cbn in X. apply negb_false_iff in X. rewrite !orb_true_iff, !Z.eqb_eq in X.
  destruct X as [[->| ->]| ->]; [apply Hz|pose proof (Hw a c c); lia|rewrite Hw, Hz; lia].
Qed.

Lemma run_items_ok : forall V q0 L items inds, Forall (item_ok _ Z (placed V q0 L)) items ->
  run_items (dc_leaf F S) _ dc_act items (Mesh V inds) =
    Ret (Mesh V (inds ++ flatten (filter nondegenerate (flat_map item_tris items)))) /\
  Forall (fun t => let '(a, b, c) := t in 0 <= a < zlen V /\ 0 <= b < zlen V /\ 0 <= c < zlen V) (flat_map item_tris items).
Proof.
  intros V q0 L items. induction items as [|[d leaves] items IH]; intros inds H.
  - unfold run_items. cbn. rewrite app_nil_r. split; [reflexivity|constructor].
  - inversion H as [|? ? (n & p & Hi) Hr]; subst. cbn [fst snd] in Hi.
    destruct (item_act V q0 L n d p leaves inds Hi) as [Ha Hb].
    unfold run_items in *. cbn [ofold fst snd]. rewrite Ha. cbn [obind].
    destruct (IH (inds ++ flatten (filter nondegenerate (item_tris (d, leaves)))) Hr) as [IHa IHb]. rewrite IHa.
    cbn [flat_map]. rewrite filter_app, flatten_app, app_assoc. split; [reflexivity|]. apply Forall_app. split; assumption.
Qed.

Lemma dc_contour_ok : forall (t : dc_octree E S), ot_size t = edge_len D -> edge_len D <= g_size g ->
  tree_ok leafok D (ot_root t) (dc_min_corner (ot_size t)) ->
  exists t' m ts, dc_contour t = Ret (t', m) /\ mesh_valid_with m ts /\
    ot_size t' = ot_size t /\ ot_scale t' = ot_scale t /\ node_depth (ot_root t') = node_depth (ot_root t) /\
    tree_map without_id (ot_root t') = tree_map without_id (ot_root t) /\
    tree_ok (numbered (m_verts m)) D (ot_root t') (dc_min_corner (ot_size t)) /\
    m_verts m = flat_map leaf_vertex (leaves_of (ot_root t')) /\
    flat_map leaf_number (leaves_of (ot_root t')) = zseq 0 (length (m_verts m)) /\ zlen (m_verts m) < u32max /\
    forall w, alternating w ->
      gsum w ts = gsum (fun e => weight solid e * cell_val (leaf_at D (ot_root t') (dc_min_corner (ot_size t))) w e)
        (inner_edges (dc_min_corner (ot_size t)) (edge_len D)).
Proof.
  intros t Hs Hg Ht. pose proof (rep_size _ _ (rep_base _ _ Hrep)) as Hv. unfold dc_contour. rewrite Hs in *. destruct (root_size D) as [-> _].
  set (q0 := dc_min_corner (edge_len D)) in *.
  pose proof (level_small _ _ Hv Hg) as HD.
  assert (P8 : pow8 D <= two32).
  { unfold pow8. apply Z.le_trans with (8 ^ 10); [apply Z.pow_le_mono_r; lia|]. unfold two32. lia. }
  destruct (make_vertices_ok D (Datatypes.S D) (ot_root t) q0 mesh_new ltac:(lia) Ht (root_in_grid _ _ Hv Hg)) as (r & vs & -> & Hr & Hcount & Hvs & Hmap & Hdep & Hnum).
  { exact P8. }
  assert (Hsmall : zlen vs < u32max).
  { apply Z.le_lt_trans with (8 ^ 10); [|reflexivity]. unfold pow8 in Hcount. etransitivity; [exact Hcount|]. apply Z.pow_le_mono_r; lia. }
  cbn [obind mesh_new m_verts m_inds app] in *.
  pose proof (tree_leaf_at _ _ _ _ _ _ Hr) as Hr'. fold q0 in Hr'.
  set (L := leaf_at D r q0) in *.
  change (tree_ok (placed vs q0 L) D r q0) in Hr'.
  assert (XL : forall a q n c, placed vs q0 L a q n -> in_cube q n c -> L c = Some a) by (intros a q n c (_ & _ & H); auto).
  destruct (cell_trav _ _ (placed vs q0 L) L XL _ dc_procs dc_procs_ok dc_act D (Datatypes.S D) r q0 ltac:(lia) Hr') as (items & Hrun & Hok & Hsum).
  rewrite Hrun. destruct (run_items_ok vs q0 L items [] Hok) as [-> Hb]. cbn [obind app].
  eexists _, _, (filter nondegenerate (flat_map item_tris items)). split; [reflexivity|]. cbn [ot_size ot_scale ot_root m_verts].
  split; [|do 8 (split; [first [reflexivity|assumption|symmetry; assumption]|])].
  - split; [reflexivity|]. apply Forall_forall. intros [[a b] c] Hin. apply filter_In in Hin as [Hin Hnd].
    rewrite Forall_forall in Hb. specialize (Hb _ Hin). cbn in Hb. unfold good_triangle, mesh_vertex_count. cbn [m_verts].
    cbn in Hnd. apply negb_true_iff in Hnd. apply orb_false_iff in Hnd as [Hnd N3]. apply orb_false_iff in Hnd as [N1 N2].
    apply Z.eqb_neq in N1, N2, N3. repeat split; try lia.
  - intros w Hw. rewrite gsum_nondegenerate, gsum_flat_map by assumption. fold q0. fold L. rewrite <- cell_sum_list.
    apply (Hsum _ _ (item_compat vs q0 L w Hw)).
Qed.

End Contour.
