(* The calls of the library's QEF solver made for the vertices of manifold dual contouring. *)
From Coq Require Import ZArith List Bool Lia.
From Verif Require Import Base Arith Tables MeshModel MeshSpec MaterialFilterModel GridModel GridSpec GridProofs EdgeModel FillModel FillProofs MCModel CellSpec CellTables DualSpec DualProofs
  UdcModel OctreeModel OctreeSpec OctreeSums OctreeProofs OctreeFlux DcModel DcSpec DcBuild QefModel QefSpec QefProofs SolverModel DcQef MdcModel MdcSpec MdcTables MdcLeaf MdcTrav MdcForest PropMdc.
Import ListNotations.
Local Open Scope Z_scope.
Local Notation suc := Datatypes.S.

Lemma nodup_map_in : forall S T (f : S -> T) l, (forall x y, In x l -> In y l -> f x = f y -> x = y) -> NoDup l -> NoDup (map f l).
Proof.
  intros S T f l Hf Hn. induction Hn as [|x l Hx Hn IH]; [constructor|]. cbn [map]. constructor.
  - intro H. apply in_map_iff in H as (y & Hy & Hin). apply Hx. rewrite <- (Hf y x); [exact Hin|right; exact Hin|left; reflexivity|exact Hy].
  - apply IH. intros y z Hy Hz. apply Hf; right; assumption.
Qed.

Lemma cell_edges_distinct : forall c, NoDup (map (cell_edge c) (zseq 0 12)).
Proof.
  intro c. apply nodup_map_in; [|apply distinct_zseq]. intros i j Hi Hj H. apply in_zseq in Hi, Hj. unfold cell_edge in H. apply pair_equal_spec in H as [H1 H2].
        assert (T : forallb (fun i => forallb (fun j => (i =? j) || negb (gedge_eqb (local_edge i) (local_edge j))) (zseq 0 12)) (zseq 0 12) = true) by (vm_compute; reflexivity).
        rewrite forallb_forall in T. specialize (T i ltac:(apply in_zseq; lia)). rewrite forallb_forall in T. specialize (T j ltac:(apply in_zseq; lia)).
        apply orb_true_iff in T as [T|T]; [lia|]. apply negb_true_iff in T. exfalso.
        assert (Y : local_edge i = local_edge j).
        { destruct (local_edge i) as [d1 p1], (local_edge j) as [d2 p2]. cbn [fst snd] in *. subst d2. f_equal. destruct p1 as [x1 y1 z1], p2 as [x2 y2 z2], c as [xc yc zc]. unfold vadd in H2. cbn [vx vy vz] in H2. injection H2 as K1 K2 K3. f_equal; lia. }
        rewrite Y in T. assert (Z : gedge_eqb (local_edge j) (local_edge j) = true) by (apply gedge_eqb_eq; reflexivity). congruence.
Qed.

(* ---- levels ---- *)
Lemma vert_at_unique : forall n (t : mdc_tree) m m' a, NoDup (tree_verts t) -> vert_at n t m a -> vert_at n t m' a -> m = m'.
Proof.
  induction n as [|n IH]; intros t m m' a Hn H H'; destruct t as [l|b cs]; cbn [vert_at tree_verts] in *; try (destruct H, H'; congruence).
  - destruct H as [[H _]|[]], H' as [[H' _]|[]]. congruence.
  - apply nodup_app in Hn as (_ & Hn & Hd).
    assert (X : forall k, (exists c, In c cs /\ vert_at n c k a) -> In a (flat_map tree_verts cs)).
    { intros k (c & Hc & Hk). apply in_flat_map. exists c. split; [exact Hc|eapply vert_at_in; exact Hk]. }
    destruct H as [[H Ha]|H], H' as [[H' Ha']|H']; try congruence; try (exfalso; eapply Hd; [eassumption|eapply X; eassumption]).
    destruct H as (c & Hc & H), H' as (c' & Hc' & H'). destruct (in_znth _ _ _ Hc) as (i & Hi). destruct (in_znth _ _ _ Hc') as (j & Hj).
    assert (i = j) by (eapply (nodup_flat_znth _ _ tree_verts); [exact Hn|exact Hi|exact Hj|eapply vert_at_in; exact H|eapply vert_at_in; exact H']). subst j.
    rewrite Hi in Hj. injection Hj as <-. eapply IH; [eapply nodup_flat_part; eassumption|exact H|exact H'].
Qed.

Lemma part_vert_at : forall n (t : mdc_tree) q k u q' a, part n t q k u q' -> In a (node_verts u) -> vert_at n t k a.
Proof.
  intros n t q k u q' a H Ha.
  assert (G : forall k0, vert_at k u k0 a -> vert_at n t k0 a).
  { clear Ha. induction H as [|m b cs q' i c H IH Hi]; [auto|]. intros k0 Hk. apply IH. cbn [vert_at]. right. exists c. split; [eapply znth_in; exact Hi|exact Hk]. }
  apply G. destruct u as [l|b cs], k; cbn [vert_at node_verts] in *; auto.
Qed.

Section Calls.
Context {E : fpenv}.
Notation F := (fp_F E).
Notation A := (fp_f E).
Variable float_min : F.
Variable hypot copysign : F -> F -> F.
Variable msin mcos matan : F -> F.
Variable tune : tuning F.
Variable g : ugrid E.
Variable solid : ivec3 -> bool.
Variable free : solver F -> Prop.
Notation ops := (solver3_ops A float_min hypot copysign msin mcos matan tune).
Notation hist := (history A float_min hypot copysign msin mcos matan 3 8 s3_limit free).
Notation store := (vstore (mdc_vertex F (qstate F))).

(* ---- ancestors ---- *)
Section Tree.
Variables (st : store) (n : nat) (t : mdc_tree) (q : ivec3).
Hypothesis G : good ops g solid st n t q.

Lemma anc_last : forall a b, ancestor st a b -> a = b \/ exists h, ancestor st a h /\ parent_of st h = Some b.
Proof.
  intros a b H. induction H as [a|a p b Hp H IH]; [left; reflexivity|right].
  destruct IH as [->|(h & H1 & H2)]; [exists a; split; [constructor|exact Hp]|]. exists h. split; [eapply anc_up; eassumption|exact H2].
Qed.

Lemma parent_level : forall m a p, vert_at n t m a -> parent_of st a = Some p -> exists m', (m < m')%nat /\ vert_at n t m' p.
Proof.
  intros m a p Hm Hp. destruct (gd_live _ _ _ _ _ _ _ G m a Hm) as (v & Hv & _ & _ & K). unfold parent_of in Hp. rewrite Hv in Hp. auto.
Qed.
Lemma anc_level : forall a b, ancestor st a b -> forall m, vert_at n t m a -> exists m', (m <= m')%nat /\ vert_at n t m' b.
Proof.
  intros a b H. induction H as [a|a p b Hp H IH]; intros m Hm; [exists m; split; [lia|exact Hm]|].
  destruct (parent_level m a p Hm Hp) as (m1 & L1 & M1). destruct (IH m1 M1) as (m2 & L2 & M2). exists m2. split; [lia|exact M2].
Qed.
(* no cycles *)
Lemma anc_parent : forall a h, In a (tree_verts t) -> ancestor st a h -> parent_of st h = Some a -> False.
Proof.
  intros a h Ha H Hp. destruct (in_vert_at _ _ _ _ _ (gd_shape _ _ _ _ _ _ _ G) Ha) as (m & Hm).
  destruct (anc_level a h H m Hm) as (m1 & L1 & M1). destruct (parent_level m1 h a M1 Hp) as (m2 & L2 & M2).
  pose proof (vert_at_unique _ _ _ _ _ (gd_nodup _ _ _ _ _ _ _ G) Hm M2). lia.
Qed.
Lemma anc_siblings : forall x h h' a, In a (tree_verts t) -> ancestor st x h -> ancestor st x h' -> parent_of st h = Some a -> parent_of st h' = Some a -> h = h'.
Proof.
  intros x h h' a Ha H H' Hp Hp'. destruct (Z.eq_dec h h') as [X|X]; [exact X|exfalso].
  assert (K : forall h h', h <> h' -> parent_of st h = Some a -> parent_of st h' = Some a -> ancestor st h h' -> False).
  { clear - G Ha. intros h h' X Hp Hp' H. inversion H as [|? p ? P1 P2]; subst; [congruence|]. rewrite Hp in P1. injection P1 as <-. eapply anc_parent; eassumption. }
  destruct (anc_linear _ _ _ _ H H') as [L|L]; [exact (K h h' X Hp Hp' L)|]. apply (K h' h); auto.
Qed.

Lemma znth_inj : forall T (l : list T) i j a, NoDup l -> znth l i = Some a -> znth l j = Some a -> i = j.
Proof.
  intros T l i j a Hn Hi Hj. unfold znth in *. destruct (Z.ltb_spec i 0); [discriminate|]. destruct (Z.ltb_spec j 0); [discriminate|].
  assert (Z.to_nat i = Z.to_nat j); [|lia]. eapply NoDup_nth_error; [exact Hn| |congruence]. apply nth_error_Some. congruence.
Qed.

Lemma leaf_vertex_inj : forall c s c' s' a, in_cube q n c -> in_cube q n c' -> leaf_vertex_at n t q c s a -> leaf_vertex_at n t q c' s' a -> c = c' /\ s = s'.
Proof.
  intros c s c' s' a Hc Hc' (l & L1 & L2) (l' & L1' & L2').
  assert (c = c') by (eapply (leaf_inj solid); [eapply shape_full; exact (gd_shape _ _ _ _ _ _ _ G)|exact (gd_nodup _ _ _ _ _ _ _ G)|exact Hc|exact Hc'|exact L1|exact L1'|eapply znth_in; exact L2|eapply znth_in; exact L2']).
  subst c'. split; [reflexivity|]. rewrite L1 in L1'. injection L1' as <-.
  destruct (leaf_part _ _ _ _ _ _ _ _ (gd_shape _ _ _ _ _ _ _ G) Hc L1) as (k & q' & P & _).
  assert (N : NoDup (ml_verts l)).
  { pose proof (gd_nodup _ _ _ _ _ _ _ G) as N. assert (Y : forall k u q', part n t q k u q' -> NoDup (tree_verts u)).
    { intros k0 u q0 H. induction H as [|m b cs q0 i c0 H IH Hi]; [exact N|]. cbn [tree_verts] in IH. apply nodup_app in IH as (_ & IH & _).
      eapply nodup_flat_part; [exact IH|eapply znth_in; exact Hi]. }
    apply (Y _ _ _ P). }
  eapply znth_inj; eassumption.
Qed.

(* ---- the planes of a vertex ---- *)
Definition sheet_edges (cs : ivec3 * Z) : list gedge := filter (fun e => edge_crosses solid e && (sheet solid (fst cs) e =? snd cs)) (map (cell_edge (fst cs)) (zseq 0 12)).

(* cells and sheets below a vertex *)
Definition below (a : Z) (ls : list (ivec3 * Z)) : Prop :=
  NoDup ls /\ forall c s, In (c, s) ls <-> in_cube q n c /\ exists a', leaf_vertex_at n t q c s a' /\ ancestor st a' a.

Definition solver_known (k : nat) (s : qstate F) (es : list (uedge F)) (sol1 : solver F) : Prop :=
  exists cnt sol2, hist sol1 (map plane_at es) cnt /\ (cnt <= (3 * k + 2) * length es)%nat /\
    s3_state A float_min sol1 = Ret (s, sol2) /\ 0 <= q_count sol1 <= zlen es.

(* anything that holds of the planes and the vertex if the vertex is computed from the planes *)
Variable extra : ivec3 -> nat -> list (uedge F) -> mdc_vertex F (qstate F) -> Prop.
Hypothesis extra_leaf : forall q' es sol0 mats v, es <> [] -> (length es <= 12)%nat ->
  (forall e, In e es -> In e (g_edges (fst (edge_key e)) g) /\ In (edge_key e) (map (cell_edge q') (zseq 0 12))) ->
  solution ops q' 0 (fold_left (fun sol e => qo_add ops sol (surface_point E e) (surface_normal E e)) es (qo_reset ops sol0)) (map (surface_normal E) es) mats v ->
  extra q' 0 es v.
Hypothesis extra_merge : forall q' m (parts : list (mdc_vertex F (qstate F) * qstate F)) ess sol0 mats v, parts <> [] -> (suc m <= 8)%nat ->
  Forall2 (fun p es => es <> [] /\ xv_qef (fst p) = Some (snd p) /\ exists q2 k2, subcube q2 k2 q' (suc m) /\ extra q2 k2 es (fst p)) parts ess ->
  zlen (concat ess) <= 12 * 8 ^ Z.of_nat (suc m) ->
  solution ops q' (suc m) (fold_left (fun sol p => qo_merge ops sol (snd p)) parts (qo_reset ops sol0)) (map (fun p => xv_normal (fst p)) parts) mats v ->
  extra q' (suc m) (concat ess) v.

Definition vertex_known (a : Z) (k : nat) (q' : ivec3) : Prop :=
  exists v s sol1 es ls, extra q' k es v /\ vs_at st a = Some v /\ xv_qef v = Some s /\ solver_known k s es sol1 /\ es <> [] /\
    map edge_key es = flat_map sheet_edges ls /\ (forall e, In e es -> In e (g_edges (fst (edge_key e)) g)) /\
    below a ls /\ (forall c s, In (c, s) ls -> in_cube q' k c) /\
    xv_error v = eval A 3 sol1 (fvec_of (xv_pos v)) /\
    (exists sol0, s3_solve A float_min hypot copysign msin mcos matan tune sol0 (cube_low q') (cube_high q' k) = (sol1, xv_pos v)) /\
    vert_at n t k a.

Lemma sheet_edges_length : forall q' k ls, NoDup ls -> (forall c s, In (c, s) ls -> in_cube q' k c) ->
  zlen (flat_map sheet_edges ls) <= 12 * 8 ^ Z.of_nat k.
Proof.
  intros q' k ls Hn Hc.
  set (tag := fun cs : ivec3 * Z => map (fun e => (fst cs, e)) (sheet_edges cs)).
  assert (L1 : length (flat_map sheet_edges ls) = length (flat_map tag ls)).
  { clear. induction ls as [|x ls IH]; [reflexivity|]. cbn [flat_map]. rewrite !app_length, IH. unfold tag at 2. rewrite map_length. reflexivity. }
  set (all := flat_map (fun c => map (fun e => (c, e)) (map (cell_edge c) (zseq 0 12))) (cells k q')).
  assert (L2 : Z.of_nat (length all) = 12 * 8 ^ Z.of_nat k).
  { assert (C : forall m p, Z.of_nat (length (cells m p)) = 8 ^ Z.of_nat m).
    { clear. induction m as [|m IH]; intro p; [reflexivity|]. cbn [cells zseq flat_map]. rewrite !app_length, !Nat2Z.inj_add, !IH. cbn [length].
      rewrite Nat2Z.inj_succ, Z.pow_succ_r by lia. lia. }
    rewrite <- (C k q'). unfold all. clear. induction (cells k q') as [|c l IH]; [reflexivity|]. cbn [flat_map]. rewrite app_length, !map_length. change (length (zseq 0 12)) with 12%nat. change (length (c :: l)) with (suc (length l)). lia. }
  assert (In1 : incl (flat_map tag ls) all).
  { intros [c e] H. apply in_flat_map in H as ([c0 s] & Hx & H). unfold tag in H. apply in_map_iff in H as (e0 & Heq & He). cbn [fst] in Heq. injection Heq as -> ->.
    apply in_flat_map. exists c. split; [apply cells_in; eapply Hc; exact Hx|]. apply in_map. unfold sheet_edges in He. apply filter_In in He as [He _]. exact He. }
  assert (N1 : NoDup (flat_map tag ls)).
  { clear - Hn. induction Hn as [|[c s] ls Hx Hn IH]; [constructor|]. cbn [flat_map]. apply NoDup_app_intro; [|exact IH|].
    - unfold tag, sheet_edges. cbn [fst snd]. pose proof (cell_edges_distinct c) as N0.
      apply nodup_map_in; [intros x y _ _ H; injection H; auto|]. apply NoDup_filter. exact N0.
    - intros [c' e] H1 H2. apply in_flat_map in H2 as ([c2 s2] & Hy & H2). unfold tag in H1, H2. apply in_map_iff in H1 as (e1 & E1 & H1). apply in_map_iff in H2 as (e2 & E2 & H2).
      cbn [fst snd] in *. injection E1 as -> ->. injection E2 as -> ->. unfold sheet_edges in H1, H2. cbn [fst snd] in *. apply filter_In in H1 as [_ H1]. apply filter_In in H2 as [_ H2].
      apply andb_true_iff in H1 as [_ H1]. apply andb_true_iff in H2 as [_ H2]. apply Z.eqb_eq in H1, H2. apply Hx. congruence. }
  pose proof (NoDup_incl_length N1 In1) as L3. unfold zlen. lia.
Qed.

(* ---- merging ---- *)
Lemma merges_known : forall k (parts : list (mdc_vertex F (qstate F) * qstate F)) ess,
  Forall2 (fun p es => es <> [] /\ exists sol1, solver_known k (snd p) es sol1) parts ess ->
  forall s es0 k0, hist s (map plane_at es0) k0 -> 0 <= q_count s -> q_count s + zlen (concat ess) < two32 ->
  let s' := fold_left (fun sol p => qo_merge ops sol (snd p)) parts s in
  exists k', hist s' (map plane_at (es0 ++ concat ess)) k' /\ (k' <= k0 + (3 * k + 4) * length (concat ess))%nat /\
    0 <= q_count s' <= q_count s + zlen (concat ess).
Proof.
  intros k parts ess H. induction H as [|p es parts ess (Hne & sol1 & cnt & sol2 & K1 & K2 & K3 & K4) H IH]; intros s es0 k0 Hs H0 H1; cbn [fold_left concat].
  - exists k0. rewrite app_nil_r. split; [exact Hs|]. unfold zlen. cbn [length]. lia.
  - unfold s3_state in K3. pose proof (state_used _ _ _ _ _ _ _ K3) as (_ & Ks & _).
    assert (Kc : s_count (snd p) = q_count sol1) by (rewrite Ks; reflexivity).
    destruct (merge_runs A float_min 3 8 ltac:(lia) s (snd p)) as (s1 & R & _).
    { eapply history_rows; [|exact Hs]. lia. }
    cbn [concat] in H1. unfold zlen in *. rewrite app_length, Nat2Z.inj_add in H1.
    assert (B : 0 <= q_count s1 <= q_count s + s_count (snd p)) by (apply (merge_count _ _ _ _ R); lia).
    unfold qo_merge at 2 4 6. cbn [solver3_ops]. unfold s3_merge. rewrite R.
    destruct (IH s1 (es0 ++ es) (k0 + 1 + (cnt + 1))%nat) as (k' & I1 & I2 & I3).
    + rewrite map_app. eapply h_merge; [exact Hs|exact K1|exact K3|right; reflexivity|exact R|right; reflexivity].
    + lia.
    + lia.
    + exists k'. rewrite app_assoc. split; [exact I1|]. rewrite app_length, Nat2Z.inj_add. split; [|lia].
      assert (1 <= length es)%nat by (destruct es; [congruence|cbn; lia]). nia.
Qed.

Lemma solved_known : forall q' k s0 es cnt v normals mats, hist s0 (map plane_at es) cnt -> solution ops q' k s0 normals mats v ->
  (cnt + 1 <= (3 * k + 2) * length es)%nat -> 0 <= q_count s0 <= zlen es -> zlen es <= 12 * 8 ^ Z.of_nat k -> (k <= 8)%nat ->
  exists s sol1, xv_qef v = Some s /\ solver_known k s es sol1 /\ xv_error v = eval A 3 sol1 (fvec_of (xv_pos v)) /\
    (exists sol0, s3_solve A float_min hypot copysign msin mcos matan tune sol0 (cube_low q') (cube_high q' k) = (sol1, xv_pos v)).
Proof.
  intros q' k s0 es cnt v normals mats Hh (sol1 & sol2 & s & S1 & S2 & S3 & S4 & _) Hc Hq Hl Hk.
  exists s, sol1. split; [exact S4|]. pose proof S1 as S1'. unfold qo_solve in S1. cbn [solver3_ops] in S1. unfold s3_solve in S1.
  destruct (solve A float_min hypot copysign msin mcos matan 3 tune s0 (fvec_of (cube_low q')) (fvec_of (cube_high q' k))) as [z s1'] eqn:X.
  injection S1 as S1a S1b. subst s1'.
  pose proof (solve_solver _ _ _ _ _ _ _ _ _ _ _ _ _ _ X) as (_ & _ & _ & C).
  assert (L8 : 8 ^ Z.of_nat k <= 8 ^ 8) by (apply Z.pow_le_mono_r; lia). change (8 ^ 8) with 16777216 in L8.
  destruct (state_runs float_min sol1) as (d & s' & R & _); [unfold s3_limit; change (2 ^ 30) with 1073741824; lia|].
  unfold qo_state in S3. cbn [solver3_ops] in S3. unfold s3_state in S3. rewrite R in S3. injection S3 as <- <-.
  split; [|split; [exact S2|exists s0; exact S1']]. exists (cnt + 1)%nat, s'. split; [eapply h_solve; [exact Hh|exact X|right; reflexivity]|].
  split; [exact Hc|]. split; [exact R|]. rewrite C. exact Hq.
Qed.

Lemma known_all : forall k u q', part n t q k u q' -> (k <= 8)%nat -> forall a, In a (tree_verts u) ->
  exists k2 q2, (k2 <= k)%nat /\ subcube q2 k2 q' k /\ vertex_known a k2 q2.
Proof.
  induction k as [|m IH]; intros u q' Hp Hk a Ha; pose proof (part_tree_ok _ _ _ _ _ _ _ _ _ Hp (gd_shape _ _ _ _ _ _ _ G)) as Hok;
    destruct u as [l|b cs]; cbn [tree_ok] in Hok; try contradiction.
  - exists O, q'. split; [lia|]. split; [apply subcube_refl|].
    destruct (part_sub _ _ _ _ _ _ _ _ _ Hp (gd_shape _ _ _ _ _ _ _ G)) as [P1 P2]. cbn [tree_verts] in Ha. destruct (in_znth _ _ _ Ha) as (s & Hs).
    assert (Hq : in_cube q' 0 q') by (apply unit_cube_self). pose proof (in_cube_sub _ _ _ _ _ P1 Hq) as Hq'.
    assert (Hl : leaf_vertex_at n t q q' s a) by (exists l; split; [rewrite (P2 q' Hq); reflexivity|exact Hs]).
    destruct (gd_leaf _ _ _ _ _ _ _ G q' s a Hq' Hl) as (v & V1 & es & mats & sol0 & E1 & E2 & E3 & E4 & E5).
    assert (Hne : es <> []).
    { intro X. subst es. destruct mats as [|x mats]; [congruence|]. destruct (E4 x (or_introl eq_refl)) as (e & [] & _). }
    assert (Le : (length es <= 12)%nat) by (rewrite <- (map_length (@edge_key F)), E1; rewrite filter_count; rewrite map_length; reflexivity).
    assert (L1 : (1 <= length es)%nat) by (destruct es; [congruence|cbn; lia]).
    destruct (adds_history float_min hypot copysign msin mcos matan tune free es (qo_reset ops sol0) [] 0%nat) as [A1 A2].
    { apply h_new. }
    { cbn. lia. }
    { cbn. unfold zlen, two32. lia. }
    cbn [app] in A1. cbv zeta in A1, A2. change (q_count (qo_reset ops sol0)) with 0 in A2.
    destruct (solved_known q' 0 _ es _ v _ _ A1 E5) as (s' & sol1 & K1 & K2 & K3 & K4).
    { lia. }
    { unfold zlen in *. lia. }
    { unfold zlen. change (8 ^ Z.of_nat 0) with 1. lia. }
    { lia. }
    assert (X0 : extra q' 0 es v).
    { eapply (extra_leaf q' es sol0 mats v Hne Le); [|exact E5]. intros e He. split; [apply E2; exact He|].
      assert (K : In (edge_key e) (map edge_key es)) by (apply in_map; exact He). rewrite E1 in K. apply filter_In in K as [K _]. exact K. }
    exists v, s', sol1, es, [(q', s)]. split; [exact X0|]. split; [exact V1|]. split; [exact K1|]. split; [exact K2|]. split; [exact Hne|].
    split; [cbn [flat_map]; rewrite app_nil_r; exact E1|]. split; [exact E2|]. split; [|split; [|split; [exact K3|split; [exact K4|exact (part_vert_at _ _ _ _ (OLeaf l) _ a Hp Ha)]]]].
    + split; [repeat constructor; intros []|]. intros c s2. split.
      * intros [H|[]]. injection H as <- <-. split; [exact Hq'|]. exists a. split; [exact Hl|constructor].
      * intros (Hc & a' & L2 & An). left.
        assert (a' = a).
        { destruct (anc_last _ _ An) as [X|(h & H1 & H2)]; [exact X|exfalso].
          assert (Hh : In h (tree_verts t)) by (eapply closed_anc; [exact (good_closed _ _ _ _ _ _ _ G)|eapply leaf_vertex_in; exact L2|exact H1]).
          destruct (in_vert_at _ _ _ _ _ (gd_shape _ _ _ _ _ _ _ G) Hh) as (mh & Hmh). destruct (parent_level mh h a Hmh H2) as (m' & L3 & M3).
          pose proof (vert_at_unique _ _ _ _ _ (gd_nodup _ _ _ _ _ _ _ G) (part_vert_at _ _ _ _ _ _ a Hp Ha) M3). lia. }
        subst a'. destruct (leaf_vertex_inj _ _ _ _ _ Hq' Hc Hl L2) as [-> ->]. reflexivity.
    + intros c s2 [H|[]]. injection H as <- _. exact Hq.
  - apply leaf_ok_level in Hok. discriminate.
  - destruct Hok as [H8 Hok]. cbn [tree_verts] in Ha.
    assert (Hch : forall h, In h (flat_map tree_verts cs) -> exists i k2 q2, 0 <= i < 8 /\ (k2 <= m)%nat /\ subcube q2 k2 (child_pos q' m i) m /\ vertex_known h k2 q2).
    { intros h Hh. apply in_flat_map in Hh as (c & Hc & Hh). destruct (in_znth _ _ _ Hc) as (i & Hi).
      destruct (IH c (child_pos q' m i) (part_child _ _ _ _ _ _ _ _ _ Hp Hi) ltac:(lia) h Hh) as (k2 & q2 & X1 & X2 & X3). exists i, k2, q2.
      split; [eapply znth_bound; eassumption|]. split; [exact X1|]. split; [exact X2|exact X3]. }
    apply in_app_or in Ha as [Ha|Ha].
    2:{ destruct (Hch a Ha) as (i & k2 & q2 & Hi & X1 & X2 & X3). exists k2, q2. split; [lia|]. split; [|exact X3].
        eapply subcube_trans; [exact X2|apply child_subcube; exact Hi]. }
    exists (suc m), q'. split; [lia|]. split; [apply subcube_refl|].
    destruct (gd_merged _ _ _ _ _ _ _ G m b cs q' Hp a Ha) as (v & hs & V1 & Hnd & Hne & Hhs & (parts & sol0 & F2 & Hsol)).
    assert (HaV : In a (tree_verts t)) by (eapply part_verts; [exact Hp|]; cbn [tree_verts]; apply in_or_app; left; exact Ha).
    assert (I : exists infos : list (list (uedge F) * list (ivec3 * Z)),
      Forall2 (fun p es => es <> [] /\ exists sol1, solver_known m (snd p) es sol1) parts (map fst infos) /\
      Forall2 (fun p es => es <> [] /\ xv_qef (fst p) = Some (snd p) /\ exists q2 k2, subcube q2 k2 q' (suc m) /\ extra q2 k2 es (fst p)) parts (map fst infos) /\
      map edge_key (concat (map fst infos)) = flat_map sheet_edges (concat (map snd infos)) /\
      (forall e, In e (concat (map fst infos)) -> In e (g_edges (fst (edge_key e)) g)) /\
      NoDup (concat (map snd infos)) /\
      (forall c s, In (c, s) (concat (map snd infos)) -> in_cube q' (suc m) c) /\
      (forall c s, In (c, s) (concat (map snd infos)) <-> exists h, In h hs /\ in_cube q n c /\ exists a', leaf_vertex_at n t q c s a' /\ ancestor st a' h)).
    { assert (Hsub : forall h, In h hs -> In h (flat_map tree_verts cs) /\ parent_of st h = Some a) by (intros h Hh; apply Hhs; exact Hh).
      clear Hhs Hne Hsol. revert Hnd Hsub. induction F2 as [|h p hs parts [Y1 Y2] F2 IHf]; intros Hnd Hsub.
      - exists []. cbn. split; [constructor|]. split; [constructor|]. split; [reflexivity|]. split; [intros e []|]. split; [constructor|]. split; [intros c s []|]. intros c s. split; [intros []|intros (h & [] & _)].
      - apply NoDup_cons_iff in Hnd as [Hn1 Hn2]. destruct (IHf Hn2 ltac:(intros; apply Hsub; right; assumption)) as (infos & I1 & I0 & I2 & I3 & I4 & I5 & I6).
        destruct (Hsub h (or_introl eq_refl)) as [Hh Hpar].
        destruct (Hch h Hh) as (i & k2 & q2 & Hi & Hk2 & Hq2 & v' & s' & sol1 & es & ls & Z0 & Z1 & Z2 & (cnt & sol2 & Z3 & Z4 & Z5) & Z6 & Z7 & Z8 & (Z9 & Z10) & Z11 & _).
        rewrite Y1 in Z1. injection Z1 as <-. rewrite Y2 in Z2. injection Z2 as <-.
        exists ((es, ls) :: infos). cbn [map fst snd concat]. split.
        { constructor; [|exact I1]. split; [exact Z6|]. exists sol1, cnt, sol2. split; [exact Z3|]. split; [nia|exact Z5]. }
        split.
        { constructor; [|exact I0]. split; [exact Z6|]. split; [exact Y2|]. exists q2, k2. split; [|exact Z0]. eapply subcube_trans; [exact Hq2|apply child_subcube; exact Hi]. }
        split; [rewrite map_app, flat_map_app, Z7, I2; reflexivity|].
        split; [intros e He; apply in_app_iff in He as [He|He]; auto|].
        split.
        { apply NoDup_app_intro; [exact Z9|exact I4|]. intros [c s2] X1 X2. apply Z10 in X1 as (Hc & a1 & L1 & An1). apply I6 in X2 as (h2 & Hh2 & _ & a2 & L2 & An2).
          assert (a1 = a2) by (destruct L1 as (l1 & W1 & W2), L2 as (l2 & W3 & W4); congruence). subst a2.
          apply Hn1. rewrite (anc_siblings a1 h h2 a HaV An1 An2 Hpar (proj2 (Hsub h2 (or_intror Hh2)))). exact Hh2. }
        split.
        { intros c s2 X. apply in_app_iff in X as [X|X]; [|eapply I5; exact X]. apply Z11 in X. eapply in_cube_sub; [apply child_subcube; exact Hi|]. eapply in_cube_sub; [exact Hq2|exact X]. }
        intros c s2. rewrite in_app_iff, Z10, I6. split.
        + intros [X|(h2 & X1 & X2)]; [exists h; split; [left; reflexivity|exact X]|exists h2; split; [right; exact X1|exact X2]].
        + intros (h2 & [<-|X1] & X2); [left; exact X2|right; exists h2; split; assumption]. }
    destruct I as (infos & I1 & I0 & I2 & I3 & I4 & I5 & I6). set (es := concat (map fst infos)) in *. set (ls := concat (map snd infos)) in *.
    assert (Ll : zlen es <= 12 * 8 ^ Z.of_nat (suc m)).
    { replace (zlen es) with (zlen (flat_map sheet_edges ls)) by (rewrite <- I2; unfold zlen; rewrite map_length; reflexivity). apply (sheet_edges_length q'); assumption. }
    assert (L8 : 8 ^ Z.of_nat (suc m) <= 8 ^ 8) by (apply Z.pow_le_mono_r; lia). change (8 ^ 8) with 16777216 in L8.
    assert (Hes : es <> []).
    { destruct hs as [|h hs]; [congruence|]. destruct parts as [|p parts]; [inversion F2|]. clear - I1. unfold es. destruct infos as [|[e1 l1] infos]; cbn [map fst concat] in *; [inversion I1|].
      assert (e1 <> []) by (inversion I1 as [|? ? ? ? [Y1 _] Y2]; assumption). destruct e1; [congruence|discriminate]. }
    assert (L1 : (1 <= length es)%nat) by (destruct es; [congruence|cbn; lia]).
    destruct (merges_known m parts (map fst infos) I1 (qo_reset ops sol0) [] 0%nat) as (k' & M1 & M2 & M3).
    { apply h_new. }
    { cbn. lia. }
    { change (q_count (qo_reset ops sol0)) with 0. fold es. unfold two32. lia. }
    fold es in M1, M2, M3. cbn [app] in M1. change (q_count (qo_reset ops sol0)) with 0 in M3.
    destruct (solved_known q' (suc m) _ es _ v _ _ M1 Hsol) as (s' & sol1 & K1 & K2 & K3 & K4).
    { nia. }
    { lia. }
    { exact Ll. }
    { lia. }
    assert (X0 : extra q' (suc m) es v).
    { eapply (extra_merge q' m parts (map fst infos) sol0 _ v); [|exact Hk|exact I0|exact Ll|exact Hsol].
      intro X. subst parts. destruct hs; [congruence|inversion F2]. }
    exists v, s', sol1, es, ls. split; [exact X0|]. split; [exact V1|]. split; [exact K1|]. split; [exact K2|]. split; [exact Hes|]. split; [exact I2|]. split; [exact I3|].
    split; [|split; [exact I5|split; [exact K3|split; [exact K4|exact (part_vert_at _ _ _ _ (ONode b cs) _ a Hp Ha)]]]]. split; [exact I4|]. intros c s. rewrite I6. split.
    + intros (h & Hh & Hc & a' & L2 & An). split; [exact Hc|]. exists a'. split; [exact L2|]. apply Hhs in Hh as [_ Hh]. eapply anc_trans; [exact An|eapply anc_up; [exact Hh|constructor]].
    + intros (Hc & a' & L2 & An). destruct (anc_last _ _ An) as [X|(h & H1 & H2)].
      * exfalso. subst a'. destruct L2 as (l & L2 & L3). apply znth_in in L3.
        pose proof (leaf_vert_at _ _ _ _ _ _ _ (gd_shape _ _ _ _ _ _ _ G) (fun l c k H => leaf_ok_level _ _ _ _ _ H) L2 L3) as V0.
        pose proof (vert_at_unique _ _ _ _ _ (gd_nodup _ _ _ _ _ _ _ G) V0 (part_vert_at _ _ _ _ (ONode b cs) _ a Hp Ha)). lia.
      * exists h. split; [|split; [exact Hc|exists a'; split; assumption]]. apply Hhs. split; [|exact H2].
        assert (Hh : In h (tree_verts t)) by (eapply closed_anc; [exact (good_closed _ _ _ _ _ _ _ G)|eapply leaf_vertex_in; exact L2|exact H1]).
        exact (up_inside _ _ _ (gd_up _ _ _ _ _ _ _ G h a Hh H2) _ _ _ _ _ _ Hp (gd_nodup _ _ _ _ _ _ _ G) Ha).
Qed.

(* ---- cells below a vertex ---- *)
Lemma part_trans : forall k (u : mdc_tree) q' k2 u2 q2, part n t q k u q' -> part k u q' k2 u2 q2 -> part n t q k2 u2 q2.
Proof. intros k u q' k2 u2 q2 H H2. induction H2 as [|m b cs q2 i c H2 IH Hi]; [exact H|]. econstructor; [exact IH|exact Hi]. Qed.

Lemma below_inside : forall a b, ancestor st a b -> In a (tree_verts t) -> forall k u q', part n t q k u q' -> In b (tree_verts u) -> In a (tree_verts u).
Proof.
  intros a b H. induction H as [a|a p b Hp H IH]; intros Ha k u q' P Hb; [exact Hb|].
  assert (HpV : In p (tree_verts t)) by (eapply closed_anc; [exact (good_closed _ _ _ _ _ _ _ G)|exact Ha|eapply anc_up; [exact Hp|constructor]]).
  pose proof (IH HpV k u q' P Hb) as Hpu. pose proof (part_tree_ok _ _ _ _ _ _ _ _ _ P (gd_shape _ _ _ _ _ _ _ G)) as Hok.
  destruct (verts_part _ _ _ _ _ Hok Hpu) as (k3 & u3 & q3 & P3 & H3). pose proof (part_trans _ _ _ _ _ _ P P3) as P3'.
  pose proof (part_tree_ok _ _ _ _ _ _ _ _ _ P3' (gd_shape _ _ _ _ _ _ _ G)) as Hok3. destruct u3 as [l|b3 cs].
  - exfalso. assert (k3 = O) by (destruct k3; [reflexivity|apply leaf_ok_level in Hok3; discriminate]). subst k3.
    destruct (in_vert_at _ _ _ _ _ (gd_shape _ _ _ _ _ _ _ G) Ha) as (m & Hm). destruct (parent_level m a p Hm Hp) as (m' & L & M).
    pose proof (vert_at_unique _ _ _ _ _ (gd_nodup _ _ _ _ _ _ _ G) (part_vert_at _ _ _ _ _ _ p P3' H3) M). lia.
  - destruct k3 as [|m]; [contradiction|]. eapply part_verts; [exact P3|]. cbn [tree_verts]. apply in_or_app. right.
    exact (up_inside _ _ _ (gd_up _ _ _ _ _ _ _ G a p Ha Hp) _ _ _ _ _ _ P3' (gd_nodup _ _ _ _ _ _ _ G) H3).
Qed.

Lemma leaf_in_cube : forall c s a k u q', in_cube q n c -> leaf_vertex_at n t q c s a -> part n t q k u q' -> In a (tree_verts u) -> in_cube q' k c.
Proof.
  intros c s a k u q' Hc (l & L1 & L2) P Ha. pose proof (part_tree_ok _ _ _ _ _ _ _ _ _ P (gd_shape _ _ _ _ _ _ _ G)) as Hok. apply znth_in in L2.
  destruct (verts_part _ _ _ _ _ Hok Ha) as (k3 & u3 & q3 & P3 & H3). pose proof (part_trans _ _ _ _ _ _ P P3) as P3'.
  pose proof (leaf_vert_at _ _ _ _ _ _ _ (gd_shape _ _ _ _ _ _ _ G) (fun l c k H => leaf_ok_level _ _ _ _ _ H) L1 L2) as V0.
  pose proof (vert_at_unique _ _ _ _ _ (gd_nodup _ _ _ _ _ _ _ G) (part_vert_at _ _ _ _ _ _ a P3' H3) V0). subst k3.
  pose proof (part_tree_ok _ _ _ _ _ _ _ _ _ P3' (gd_shape _ _ _ _ _ _ _ G)) as Hok3. destruct u3 as [l3|b3 cs]; [|contradiction].
  destruct (part_sub _ _ _ _ _ _ _ _ _ P3' (gd_shape _ _ _ _ _ _ _ G)) as [S1 S2]. destruct (part_sub _ _ _ _ _ _ _ _ _ P3 Hok) as [S3 _].
  pose proof (unit_cube_self q3) as Hq. assert (c = q3); [|subst c; eapply in_cube_sub; eassumption].
  eapply (leaf_inj solid); [eapply shape_full; exact (gd_shape _ _ _ _ _ _ _ G)|exact (gd_nodup _ _ _ _ _ _ _ G)|exact Hc|eapply in_cube_sub; eassumption|exact L1|rewrite (S2 q3 Hq); reflexivity|exact L2|exact H3].
Qed.

(* ---- positions ---- *)
Lemma node_solved : forall k u q' a, part n t q k u q' -> In a (node_verts u) -> exists v sol0 sol1, vs_at st a = Some v /\
  qo_solve ops sol0 (cube_low q') (cube_high q' k) = (sol1, xv_pos v).
Proof.
  intros k u q' a P Ha. pose proof (part_tree_ok _ _ _ _ _ _ _ _ _ P (gd_shape _ _ _ _ _ _ _ G)) as Hok. destruct u as [l|b cs]; cbn [node_verts] in Ha.
  - assert (k = O) by (destruct k; [reflexivity|apply leaf_ok_level in Hok; discriminate]). subst k.
    destruct (part_sub _ _ _ _ _ _ _ _ _ P (gd_shape _ _ _ _ _ _ _ G)) as [P1 P2]. destruct (in_znth _ _ _ Ha) as (s & Hs). pose proof (unit_cube_self q') as Hq.
    assert (Hl : leaf_vertex_at n t q q' s a) by (exists l; split; [rewrite (P2 q' Hq); reflexivity|exact Hs]).
    destruct (gd_leaf _ _ _ _ _ _ _ G q' s a (in_cube_sub _ _ _ _ _ P1 Hq) Hl) as (v & V1 & es & mats & sol0 & _ & _ & _ & _ & (s1 & s2 & s3 & S1 & _)).
    exists v. eexists. exists s1. split; [exact V1|exact S1].
  - destruct k as [|m]; [contradiction|]. destruct (gd_merged _ _ _ _ _ _ _ G m b cs q' P a Ha) as (v & hs & V1 & _ & _ & _ & (parts & sol0 & _ & (s1 & s2 & s3 & S1 & _))).
    exists v. eexists. exists s1. split; [exact V1|exact S1].
Qed.

End Tree.
End Calls.
