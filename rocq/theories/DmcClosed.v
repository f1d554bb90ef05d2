(* Closedness of the mesh of dual marching cubes, and when contour returns. *)
From Coq Require Import ZArith List Bool Lia.
From Verif Require Import Base Arith Tables MeshModel MeshSpec MeshProofs GridSpec MCModel CellSpec CellTables MCProofs MCClosed
  DualProofs OctreeModel OctreeSpec OctreeSums OctreeProofs OctreeFlux DcModel DcBuild DmcModel DmcTrav DmcFlux DmcContour DmcSpec DmcProofs DmcMesh.
Import ListNotations.
Local Open Scope Z_scope.

Lemma zseq_shift : forall k a, zseq (a + 1) k = map (fun x => x + 1) (zseq a k).
Proof. induction k as [|k IH]; intro a; cbn [zseq map]; [reflexivity|]. rewrite IH. reflexivity. Qed.
Lemma isum_shift : forall a b g, isum (a + 1, b) (fun x => g (x - 1)) = isum (a, b - 1) g.
Proof.
  intros a b g. unfold isum, zrange. cbn [fst snd]. replace (b - 1 - a) with (b - (a + 1)) by lia. rewrite zseq_shift, gsum_map.
  apply gsum_ext. intros x _. f_equal. lia.
Qed.
Lemma open_shift : forall h q s, open_sum (fun p => h (below p)) q s =
  bsum h (vx q, vx q + s - 1) (vy q, vy q + s - 1) (vz q, vz q + s - 1).
Proof.
  intros h [x y z] s. unfold open_sum, bsum, open. cbn [vx vy vz].
  rewrite <- (isum_shift x (x + s)). apply isum_ext. intros x' _. rewrite <- (isum_shift y (y + s)). apply isum_ext. intros y' _.
  rewrite <- (isum_shift z (z + s)). apply isum_ext. intros z' _. reflexivity.
Qed.

Section Closed.
Variable E : fpenv.
Notation F := (fp_F E).
Notation leaf := (dmc_leaf F).
Variables (n : nat) (q : ivec3) (t : dmc_octree E).
Notation root := (dt_root E t).
Hypothesis Hsize : dt_size E t = edge_len n.
Hypothesis Hok : tree_ok (fun _ _ _ => True) n root q.
Notation L := (leaf_at n root q).
Notation solid := (solid E L).
Notation near := (neighbours n q).
Notation inv := (inv E L near).
Notation joins := (joins E n q root).

Lemma joins_cells : forall e, near e -> exists a b, joins e a b.
Proof.
  intros e (H1 & H2). destruct (cube_facts E n root q _ Hok H1) as (_ & _ & a & _ & Ha & _). destruct (cube_facts E n root q _ Hok H2) as (_ & _ & b & _ & Hb & _).
  exists a, b. split; [split; assumption|]. split; assumption.
Qed.

Lemma directions_face : forall o d s, In o directions -> face_of o = Some (d, s) -> (s = 1 \/ s = 0) /\ (forall a, vget a o = if axis_eqb a d then 2 * s - 1 else 0).
Proof.
  intros o d s Ho Hf. unfold directions in Ho. cbn [In] in Ho.
  repeat (destruct Ho as [<-|Ho]; [vm_compute in Hf; injection Hf as <- <-; split; [lia|intros []; reflexivity]|]). destruct Ho.
Qed.

Definition tris (ps : list ivec3) (vm : vertex_map) : list triangle := filter nondegenerate (flat_map (fun p => cell_tris E L (below p) vm) ps).

Lemma sides_closed : forall ps vm m, distinct_nodes E root -> Forall (inner q n) ps ->
  (forall u, (forall p, flat_at leaf L p -> u p = 0) -> gsum u ps = open_sum u q (edge_len n)) ->
  (forall p i, In p ps -> 0 <= i < 12 -> crossing (config solid (below p)) i = true -> has_key E L vm (cell_edge (below p) i)) -> inv vm m ->
  forall k l, ~ border_side E n q root (num_of vm) k l -> side_count (tris ps vm) k l = side_count (tris ps vm) l k.
Proof.
  intros ps vm m Hd Hps Hsum Hall I k l Hb.
  assert (G : side_count (tris ps vm) k l - side_count (tris ps vm) l k = 0); [|lia].
  unfold tris. rewrite sides_total. rewrite Hsum by (intros p Hp; apply flat_flux_zero; exact Hp).
  rewrite (open_shift (cell_flux solid (flux_fun E n q t vm k l))). apply box_flux.
  intros o x y z Ho Hx Hy Hz Hout. apply face_flux_zero; [assumption|].
  intros i j d s Hf Hi Hj Pi Pj Ci Cj.
  destruct (Z.eq_dec (at_cell (flux_fun E n q t vm k l) (V3 x y z) i j) 0) as [H0|H0]; [exact H0|]. exfalso. apply Hb. clear Hb.
  unfold at_cell, flux_fun in H0.
  assert (K1 : vid E L vm (cell_edge (V3 x y z) i) = k) by (destruct (Z.eqb_spec (vid E L vm (cell_edge (V3 x y z) i)) k); [assumption|cbn [b2z] in H0; lia]).
  assert (K2 : vid E L vm (cell_edge (V3 x y z) j) = l) by (destruct (Z.eqb_spec (vid E L vm (cell_edge (V3 x y z) j)) l); [assumption|cbn [b2z] in H0; lia]).
  clear H0. unfold in_range in *. cbn [fst snd] in *.
  destruct (directions_face o d s Ho Hf) as [Hs Hod].
  assert (Hc : forall a, vget a q <= vget a (V3 x y z) < vget a q + edge_len n - 1) by (intros []; cbn [vget vx vy vz]; lia).
  assert (Hplane : vget d (V3 x y z) + s = vget d q \/ vget d (V3 x y z) + s = vget d q + edge_len n - 1).
  { pose proof (Hod AX) as OX. pose proof (Hod AY) as OY. pose proof (Hod AZ) as OZ. cbn [vget vx vy vz] in *.
    destruct Hs as [-> | ->]; destruct d; cbn [axis_eqb vget vx vy vz] in *; lia. }
  assert (N : forall s0, 0 <= s0 < 12 -> crossing (config solid (V3 x y z)) s0 = true -> edge_in_plane d s (local_edge s0) ->
    exists a b, joins (cell_edge (V3 x y z) s0) a b /\ opposite E a b /\ edge_in_plane d (vget d (V3 x y z) + s) (cell_edge (V3 x y z) s0) /\
      num_of vm (dn_addr a) (dn_addr b) = Some (vid E L vm (cell_edge (V3 x y z) s0))).
  { intros s0 Hs0 Cs0 Ps0. pose proof (local_corner s0 Hs0) as LC.
    assert (Nr : near (cell_edge (V3 x y z) s0)).
    { unfold neighbours, other_end, cell_edge. cbn [fst snd].
      split; apply in_cube_iff; intro a; specialize (LC a); specialize (Hc a).
      - rewrite vget_add. lia.
      - rewrite !vget_add in *. lia. }
    destruct (joins_cells _ Nr) as (a & b & J). exists a, b. split; [exact J|].
    assert (O : opposite E a b) by (apply (crosses_opposite E n q t _ a b J); rewrite <- crossing_edge by assumption; exact Cs0).
    split; [exact O|]. split.
    - destruct Ps0 as [P1 P2]. split; [exact P1|]. unfold cell_edge. cbn [snd]. rewrite vget_add, P2. reflexivity.
    - pose proof (all_numbered E n q t Hok ps vm m Hd Hsum Hall I _ a b J O) as Hn.
      unfold vid. rewrite (key_joins E n q t _ a b J). unfold num_of in *. destruct (vm_find vm _) as [r|]; [reflexivity|congruence]. }
  destruct (N i Hi Ci Pi) as (a1 & b1 & J1 & O1 & E1 & V1). destruct (N j Hj Cj Pj) as (a2 & b2 & J2 & O2 & E2 & V2).
  rewrite K1 in V1. rewrite K2 in V2.
  exists d, (vget d (V3 x y z) + s), (cell_edge (V3 x y z) i), a1, b1, (cell_edge (V3 x y z) j), a2, b2. auto 10.
Qed.

Theorem contour_mesh : forall m, dmc_contour E t = Ret m -> distinct_nodes E root ->
  exists num ts, numbering E n q root num m /\
    (forall e a b, joins e a b -> opposite E a b -> num (dn_addr a) (dn_addr b) <> None) /\
    mesh_valid_with m ts /\
    (forall k l, ~ border_side E n q root num k l -> side_count ts k l = side_count ts l k).
Proof.
  intros m H Hd. destruct (contour_run E n q t Hsize Hok) as (ps & Hps & Hsum & Hrun). rewrite Hrun in H.
  unfold run in H. destruct (ofold _ ps _) as [[vm m1]| | | |] eqn:Hf; try discriminate. cbn [obind] in H. injection H as <-.
  assert (Hreg : Forall (reg near) ps) by (eapply Forall_impl; [|exact Hps]; intros p Hp; apply reg_inner; exact Hp).
  destruct (points_step E L near ps [] mesh_new vm m1 (inv_start E L near) Hreg Hf) as (I & _ & Hinds & Hall).
  exists (num_of vm), (tris ps vm). split; [apply numbering_ok; exact I|]. split; [eapply all_numbered; eassumption|]. split.
  - split; [exact Hinds|]. apply Forall_forall. intros tr Htr. unfold tris in Htr. apply filter_In in Htr as [Htr Hnd]. apply in_flat_map in Htr as (p & Hp & Htr).
    eapply (tri_good E n q t vm m1 p I); [intros; apply Hall; assumption|]. apply filter_In. split; assumption.
  - eapply sides_closed; eassumption.
Qed.

(* ---- totality ---- *)
Definition all_edges : list gedge :=
  flat_map (fun d => map (fun c => (d, c)) (box (full (vx q) (edge_len n)) (full (vy q) (edge_len n)) (full (vz q) (edge_len n)))) [AX; AY; AZ].
Lemma zrange_length : forall a b, length (zrange a b) = Z.to_nat (b - a).
Proof. intros. unfold zrange. generalize (Z.to_nat (b - a)). intro k. revert a. clear. induction k; intros; cbn [zseq length]; auto. Qed.
Lemma flat_map_length : forall T U (f : T -> list U) k l, (forall x, length (f x) = k) -> length (flat_map f l) = (length l * k)%nat.
Proof. intros T U f k l H. induction l as [|x l IH]; cbn [flat_map]; [reflexivity|]. rewrite app_length, IH, H. cbn [length]. lia. Qed.
Lemma box_length : forall rx ry rz, length (box rx ry rz) = (Z.to_nat (snd rx - fst rx) * (Z.to_nat (snd ry - fst ry) * Z.to_nat (snd rz - fst rz)))%nat.
Proof.
  intros. unfold box. rewrite (flat_map_length _ _ _ (Z.to_nat (snd ry - fst ry) * Z.to_nat (snd rz - fst rz))%nat); [rewrite zrange_length; reflexivity|].
  intro x. rewrite (flat_map_length _ _ _ (Z.to_nat (snd rz - fst rz))%nat); [rewrite zrange_length; reflexivity|].
  intro y. rewrite map_length. apply zrange_length.
Qed.
Lemma all_edges_length : zlen all_edges = 3 * (edge_len n * edge_len n * edge_len n).
Proof.
  assert (P : 0 <= edge_len n) by (unfold edge_len; apply Z.pow_nonneg; lia).
  unfold zlen, all_edges. rewrite (flat_map_length _ _ _ (Z.to_nat (edge_len n) * (Z.to_nat (edge_len n) * Z.to_nat (edge_len n)))%nat).
  - cbn [length]. rewrite !Nat2Z.inj_mul, !Z2Nat.id by assumption. lia.
  - intro d. rewrite map_length, box_length. unfold full. cbn [fst snd]. do 2 (f_equal; [f_equal; lia|]). f_equal; lia.
Qed.
Lemma few_keys : 3 * (edge_len n * edge_len n * edge_len n) < two32 -> forall vm m, inv vm m -> zlen vm < two32.
Proof.
  intros Hs vm m I.
  assert (Hincl : incl (map fst vm) (map (key_of E L) all_edges)).
  { intros x Hx. apply In_nth_error in Hx as (k & Hk). destruct (inv_from _ _ _ _ _ I k x Hk) as ([d c] & a & b & v & (H1 & _) & _ & H3 & _). subst x.
    apply in_map. unfold all_edges. apply in_flat_map. exists d. split; [destruct d; cbn; tauto|]. apply in_map. apply in_box. unfold full, in_cube in *. cbn [fst snd] in *. lia. }
  pose proof (NoDup_incl_length (inv_nodup _ _ _ _ _ I) Hincl) as Hle. rewrite !map_length in Hle. pose proof all_edges_length as Hlen. unfold zlen in *. lia.
Qed.

(* ---- a pair of neighbours always meets in the same order ---- *)
Lemma joins_order : forall e a b e' a' b', joins e a b -> a <> b -> distinct_nodes E root -> joins e' a' b' ->
  (dn_addr a' = dn_addr a /\ dn_addr b' = dn_addr b) \/ (dn_addr a' = dn_addr b /\ dn_addr b' = dn_addr a) -> a' = a /\ b' = b.
Proof.
  intros [d c] a b [d' c'] a' b' ((N1 & N2) & J1 & J2) Hne Hd ((N1' & N2') & J1' & J2') H. unfold other_end in *. cbn [fst snd] in *.
  destruct H as [(H1 & H2)|(H1 & H2)].
  - split; [apply (same_address E n root q c c' a a' Hok Hd N1 N1' J1 J1'); congruence|apply (same_address E n root q _ _ b b' Hok Hd N2 N2' J2 J2'); congruence].
  - exfalso.
    pose proof (proj1 (same_address E n root q _ c' b a' Hok Hd N2 N1' J2 J1' ltac:(congruence))) as ->.
    pose proof (proj1 (same_address E n root q c _ a b' Hok Hd N1 N2' J1 J2' ltac:(congruence))) as ->.
    destruct (cube_facts E n root q c Hok N1) as (qa & na & a0 & A1 & A2 & A3 & _ & _ & _ & A7).
    destruct (cube_facts E n root q _ Hok N2) as (qb & nb & b0 & B1 & B2 & B3 & _ & _ & _ & B7).
    assert (a0 = a) by congruence. assert (b0 = b) by congruence. subst a0 b0.
    assert (C1 : in_cube qb nb c').
    { destruct (cube_facts E n root q c' Hok N1') as (q0 & n0 & a0 & D1 & D2 & D3 & _).
      pose proof (proj2 (same_address E n root q _ c' b b Hok Hd N2 N1' J2 J1' eq_refl)) as X. rewrite D1, B1 in X. injection X as -> ->. exact D3. }
    assert (C2 : in_cube qa na (vadd c' (unit_vec d'))).
    { destruct (cube_facts E n root q _ Hok N2') as (q0 & n0 & a0 & D1 & D2 & D3 & _).
      pose proof (proj2 (same_address E n root q c _ a a Hok Hd N1 N2' J1 J2' eq_refl)) as X. rewrite D1, A1 in X. injection X as -> ->. exact D3. }
    assert (Dis : forall x, in_cube qa na x -> in_cube qb nb x -> False) by (intros x X1 X2; apply A7 in X1 as [_ X1]; apply B7 in X2 as [_ X2]; congruence).
    rewrite in_cube_iff in A3, B3, C1, C2.
    (* a coordinate in which the two cubes are apart *)
    assert (Ov : (forall x, exists v, vget x qa <= v < vget x qa + edge_len na /\ vget x qb <= v < vget x qb + edge_len nb) -> False).
    { intro Hv. destruct (Hv AX) as (v1 & V1). destruct (Hv AY) as (v2 & V2). destruct (Hv AZ) as (v3 & V3').
      apply (Dis (V3 v1 v2 v3)); apply in_cube_iff; intros []; cbn [vget vx vy vz]; cbn [vget] in *; lia. }
    destruct (axis_eqb_spec d d') as [[_ ->]|[_ Hdd]].
    + assert (Apart : ~ exists v, vget d' qa <= v < vget d' qa + edge_len na /\ vget d' qb <= v < vget d' qb + edge_len nb).
      { intro X. apply Ov. intro x. destruct (axis_eqb_spec x d') as [[_ ->]|[Q _]]; [exact X|]. exists (vget x c). specialize (A3 x). specialize (B3 x).
        rewrite vget_add, vget_unit, Q in B3. lia. }
      apply Apart. specialize (A3 d'). specialize (B3 d'). specialize (C1 d'). specialize (C2 d'). rewrite !vget_add, !vget_unit in *.
      destruct (axis_eqb_spec d' d') as [[Q _]|[_ Q]]; [|congruence]. rewrite Q in *.
      destruct (Z_le_gt_dec (vget d' qa) (vget d' qb)); [exists (vget d' qb)|exists (vget d' qa)]; lia.
    + apply Ov. intro x. destruct (axis_eqb_spec x d) as [[_ ->]|[Q _]].
      * exists (vget d c'). specialize (C1 d). specialize (C2 d). rewrite vget_add, vget_unit in C2. destruct (axis_eqb_spec d d') as [[_ Q]|[Q _]]; [congruence|]. rewrite Q in C2. lia.
      * exists (vget x c). specialize (A3 x). specialize (B3 x). rewrite vget_add, vget_unit, Q in B3. lia.
Qed.

Theorem contour_returns : 3 * (edge_len n * edge_len n * edge_len n) < two32 -> Forall (has_dual E) (leaves_of root) ->
  (forall e a b, joins e a b -> opposite E a b -> exists v, dmc_vertex E a b = Ret v) ->
  exists m, dmc_contour E t = Ret m.
Proof.
  intros Hs Hdual Hready. destruct (contour_run E n q t Hsize Hok) as (ps & Hps & Hsum & Hrun). rewrite Hrun.
  assert (Hreg : Forall (reg near) ps) by (eapply Forall_impl; [|exact Hps]; intros p Hp; apply reg_inner; exact Hp).
  assert (Hr0 : forall e a b, near e -> edge_crosses solid e = true -> L (snd e) = Some a -> L (far_end e) = Some b -> exists v, dmc_vertex E a b = Ret v).
  { intros e a b H1 H2 H3 H4. assert (J : joins e a b) by (split; [exact H1|split; assumption]). apply (Hready e a b J). apply (crosses_opposite E n q t e a b J). exact H2. }
  destruct (points_total E L near (few_keys Hs) Hr0 ps [] mesh_new (inv_start E L near) Hreg) as [[vm m] Hf].
  - intros p c Hp Hc. rewrite Forall_forall in Hps. specialize (Hps p Hp).
    assert (Hin : in_cube q n c). { rewrite (inner_iff n q p) in Hps. rewrite (cells8_iff p c) in Hc. apply in_cube_iff. intro a. specialize (Hps a). specialize (Hc a). lia. }
    destruct (cube_facts E n root q c Hok Hin) as (_ & _ & a & _ & Ha & _). exists a. split; [exact Ha|].
    rewrite Forall_forall in Hdual. apply Hdual. eapply leaf_at_in. exact Ha.
  - assert (Hr : run E n q t ps ([], mesh_new) = Ret (vm, m)) by exact Hf. rewrite Hr. cbn [obind]. eauto.
Qed.

Theorem contour_needs : forall m, dmc_contour E t = Ret m -> distinct_nodes E root ->
  forall e a b, joins e a b -> opposite E a b -> exists v, dmc_vertex E a b = Ret v.
Proof.
  intros m H Hd e a b J O. destruct (contour_mesh m H Hd) as (num & ts & N & All & _). specialize (All e a b J O).
  destruct (num (dn_addr a) (dn_addr b)) as [k|] eqn:Hk; [|congruence].
  destruct (num_from _ _ _ _ _ _ N k (num_range _ _ _ _ _ _ N _ _ _ Hk)) as (e' & a' & b' & v & J' & O' & Hk' & _ & Hv).
  destruct (joins_order e a b e' a' b' J) as [-> ->]; try assumption.
  - intros ->. apply O. reflexivity.
  - eapply (num_inj _ _ _ _ _ _ N); eassumption.
  - eauto.
Qed.
End Closed.
