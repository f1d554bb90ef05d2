(* C76: failing allocations in MDC_Octree::build. *)
From Coq Require Import ZArith List Bool Lia Permutation.
From Verif Require Import Base Arith Tables MeshModel MeshProofs LoopLemmas GridModel GridSpec EdgeModel FillModel FillSpec MCModel CellSpec
  OctreeModel OctreeSpec DcModel DcSpec MdcModel MdcSpec MdcForest PropMdc MdcHeap MdcHeapProofs.
Import ListNotations.
Local Open Scope Z_scope.

(* Memory after any number of builds, failed or not, of an octree whose root has
   the given number of levels below it. *)
Inductive mdc_heap_reached (levels : nat) : bheap -> Prop :=
| mdc_heap_new : mdc_heap_reached levels bheap_new
| mdc_heap_build : forall h works verts leaf_works early late h', mdc_heap_reached levels h ->
    mdc_rebuild works verts leaf_works early late levels h = BDone h' \/ mdc_rebuild works verts leaf_works early late levels h = BFailed h' ->
    mdc_heap_reached levels h'.

(* The block is alive: all its nodes exist. *)
Definition alive (h : bheap) (p : Z) : Prop := forall i, 0 <= i < 8 -> bh_nodes h (8 * p + i) <> None.
(* Nothing of the block exists. *)
Definition dead (h : bheap) (p : Z) : Prop := forall i, 0 <= i < 8 -> bh_nodes h (8 * p + i) = None.

(* Every block ever allocated is either alive or has been deleted, exactly once;
   nothing else has been deleted. *)
Definition block_accounts (h : bheap) : Prop :=
  NoDup (bh_freed h) /\ (forall p, In p (bh_freed h) -> 1 <= p < bh_next h) /\
  (forall p, 1 <= p < bh_next h -> In p (bh_freed h) /\ dead h p \/ ~ In p (bh_freed h) /\ alive h p) /\
  (forall b, bh_nodes h b <> None -> b = 0 \/ 1 <= b / 8 < bh_next h).

(* Only the root exists, it is a leaf and every block has been deleted exactly once. *)
Definition only_root (h : bheap) : Prop :=
  (exists n, bh_nodes h 0 = Some n /\ bn_leaf n = true) /\ (forall b, b <> 0 -> bh_nodes h b = None) /\
  NoDup (bh_freed h) /\ (forall p, In p (bh_freed h) <-> 1 <= p < bh_next h).

Record heap_ok (levels : nat) (h : bheap) (t : btree) : Prop := {
  ho_addr : baddr t = 0;
  ho_owns : bowns (bh_nodes h) t;
  ho_height : (bheight t <= S levels)%nat;
  ho_nodup : NoDup (bh_freed h ++ blocks t);
  ho_in : forall p, In p (bh_freed h ++ blocks t) <-> 1 <= p < bh_next h;
  ho_next : 1 <= bh_next h;
  ho_live : forall b, bh_nodes h b <> None -> b = 0 \/ In (b / 8) (blocks t)
}.

Lemma ok_new : forall levels, heap_ok levels bheap_new (TL 0).
Proof.
  intros levels. constructor; cbn.
  - reflexivity.
  - exists bfresh. auto.
  - lia.
  - constructor.
  - intros p. lia.
  - lia.
  - intros b H. destruct (Z.eqb_spec b 0); auto.
Qed.

Lemma ok_separate : forall levels h t, heap_ok levels h t -> separate t.
Proof.
  intros levels h t H. destruct (NoDup_app_parts _ _ (ho_nodup _ _ _ H)) as (_ & Hd & _). split; [exact Hd|].
  rewrite (ho_addr _ _ _ H). intros Q. assert (X : In (0 / 8) (bh_freed h ++ blocks t)) by (apply in_or_app; auto). apply (ho_in _ _ _ H) in X. change (0 / 8) with 0 in X. lia.
Qed.

Lemma ok_collapse : forall levels h t, heap_ok levels h t ->
  exists h', bcollapse (S levels) 0 h = BDone h' /\ heap_ok levels h' (TL 0) /\ verts_at h' 0 = verts_at h 0 /\ bh_next h' = bh_next h.
Proof.
  intros levels h t H. destruct (collapse_gone (S levels) t h (ho_owns _ _ _ H) (ok_separate _ _ _ H) (ho_height _ _ _ H)) as (h' & E & (G1 & G2 & (n & n' & G3 & G4 & G5 & G6) & G7 & G8) & _).
  rewrite (ho_addr _ _ _ H) in *. exists h'. split; [exact E|]. split; [|split; [unfold verts_at; rewrite G3, G4; cbn; congruence|exact G7]]. constructor.
  - reflexivity.
  - exists n'. auto.
  - cbn. lia.
  - cbn [blocks]. rewrite app_nil_r. eapply Permutation_NoDup; [apply Permutation_sym; exact G8|apply (ho_nodup _ _ _ H)].
  - intros p. cbn [blocks]. rewrite app_nil_r, G7. rewrite <- (ho_in _ _ _ H). split; apply Permutation_in; [exact G8|apply Permutation_sym; exact G8].
  - rewrite G7. apply (ho_next _ _ _ H).
  - intros b Hb. destruct (Z.eq_dec b 0) as [->|Hb0]; [auto|]. exfalso. destruct (in_dec Z.eq_dec (b / 8) (blocks t)) as [Q|Q]; [apply Hb, G2; exact Q|].
    rewrite G1 in Hb by assumption. apply (ho_live _ _ _ H) in Hb as [Hb|Hb]; contradiction.
Qed.

Section Build.
Variables (works : Z -> bool) (verts : list Z -> Z) (leaf_works early late : list Z -> bool).

Lemma ok_built : forall levels h h' t, heap_ok levels h (TL 0) -> built 0 levels h h' t -> heap_ok levels h' t.
Proof.
  intros levels h h' t H (B1 & B2 & B3 & B4 & B5 & B6 & B7 & B8 & B9). pose proof (ho_nodup _ _ _ H) as Hn. pose proof (ho_in _ _ _ H) as Hi.
  pose proof (ho_next _ _ _ H) as Hx. cbn [blocks] in Hn, Hi. rewrite app_nil_r in Hn.
  assert (Hi' : forall p, In p (bh_freed h) <-> 1 <= p < bh_next h) by (intros p; rewrite <- Hi, app_nil_r; reflexivity).
  constructor; auto.
  - rewrite B7. apply NoDup_app_join; auto. intros x X Y. apply Hi' in X. apply B5 in Y. lia.
  - intros p. rewrite B7, in_app_iff, Hi', B5. lia.
  - lia.
  - intros b Hb. destruct (Z.eq_dec b 0) as [|Hb0]; [auto|]. right. destruct (Z_lt_le_dec (b / 8) (bh_next h)) as [L|L].
    + rewrite B8 in Hb by assumption. apply (ho_live _ _ _ H) in Hb as [Hb|[]]. contradiction.
    + apply B5. destruct (Z_lt_le_dec (b / 8) (bh_next h')) as [L'|L']; [lia|]. exfalso. apply Hb, B9. exact L'.
Qed.

Lemma ok_clustered : forall levels h h' t, heap_ok levels h t -> cluster_result 0 t h h' -> heap_ok levels h' t.
Proof.
  intros levels h h' t H (C1 & C2 & C3 & C4). constructor.
  - apply (ho_addr _ _ _ H).
  - apply (bowns_shape t (bh_nodes h)); [exact C1|apply (ho_owns _ _ _ H)].
  - apply (ho_height _ _ _ H).
  - rewrite C3. apply (ho_nodup _ _ _ H).
  - rewrite C2, C3. apply (ho_in _ _ _ H).
  - rewrite C2. apply (ho_next _ _ _ H).
  - intros b Hb. apply (ho_live _ _ _ H). intros Q. specialize (C1 b). rewrite Q in C1. destruct (bh_nodes h' b); [discriminate|congruence].
Qed.

(* What a build does to the memory and to the vertices of the root *)
Lemma rebuild_ok : forall levels h t, heap_ok levels h t ->
  bpost (mdc_rebuild works verts leaf_works early late levels h)
    (fun h' => (exists t', heap_ok levels h' t') /\ verts_at h' 0 = Some (verts []))
    (fun h' => heap_ok levels h' (TL 0) /\
       (verts_at h' 0 = verts_at h 0 \/ levels <> O /\ early [] = true /\ late [] = false /\ verts_at h' 0 = Some (verts []))).
Proof.
  intros levels h t H. unfold mdc_rebuild. destruct (ok_collapse _ _ _ H) as (h1 & -> & O1 & V1 & _). cbn [bbind].
  pose proof (ho_owns _ _ _ O1) as (n & N1 & N2).
  assert (Free : forall b, bh_next h1 <= b / 8 -> bh_nodes h1 b = None).
  { intros b Hb. destruct (bh_nodes h1 b) eqn:E; [|reflexivity]. exfalso. assert (X : bh_nodes h1 b <> None) by congruence.
    apply (ho_live _ _ _ O1) in X as [->|[]]. pose proof (ho_next _ _ _ O1). change (0 / 8) with 0 in Hb. lia. }
  assert (Hn : verts_at h1 0 = Some (bn_verts n)) by (unfold verts_at; rewrite N1; reflexivity).
  pose proof (build_ok works verts leaf_works levels 0 [] h1 n N1 N2 ltac:(pose proof (ho_next _ _ _ O1); change (0 / 8) with 0; lia) Free) as B.
  destruct (bbuild_node works verts leaf_works levels 0 [] h1) as [h2|h2| |] eqn:Eb; cbn [bpost] in B; try contradiction; cbn [bbind].
  - destruct B as (t2 & B & V2 & Sh). pose proof (ok_built _ _ _ _ O1 B) as O2. destruct B as (B1 & B2 & B3 & _).
    pose proof (cluster_ok verts early late (S levels) t2 [] h2 B2 (ok_separate _ _ _ O2) B3) as C. rewrite B1 in C.
    destruct (bcluster verts early late (S levels) 0 [] h2) as [h3|h3| |] eqn:Ec; cbn [bpost] in C; try contradiction.
    + destruct C as (R & V3). cbn [bpost]. split; [exists t2; eapply ok_clustered; eassumption|]. rewrite V3. destruct levels; [subst t2; rewrite V2; reflexivity|].
      destruct Sh as (p & cs & ->). reflexivity.
    + destruct C as (R & V3). pose proof (ok_clustered _ _ _ _ O2 R) as O3. destruct (ok_collapse _ _ _ O3) as (h4 & -> & O4 & V4 & _). cbn [bbind bpost].
      split; [exact O4|]. rewrite V4. destruct levels.
      * subst t2. exfalso. clear - Ec B2. destruct B2 as (n2 & E1 & E2). cbn in Ec. unfold bread in Ec. rewrite E1, E2 in Ec. discriminate.
      * destruct V3 as [V3|(X & Y & V3)]; [left; congruence|right; split; [discriminate|auto]].
  - destruct B as (t2 & B & V2). pose proof (ok_built _ _ _ _ O1 B) as O2. destruct (ok_collapse _ _ _ O2) as (h4 & -> & O4 & V4 & _). cbn [bbind bpost].
    split; [exact O4|]. left. congruence.
Qed.
End Build.

Lemma reached_ok : forall levels h, mdc_heap_reached levels h -> exists t, heap_ok levels h t.
Proof.
  intros levels h H. induction H as [|h works verts lw early late h' H [t IH] [E|E]].
  - exists (TL 0). apply ok_new.
  - pose proof (rebuild_ok works verts lw early late levels h t IH) as R. rewrite E in R. cbn in R. tauto.
  - pose proof (rebuild_ok works verts lw early late levels h t IH) as R. rewrite E in R. cbn in R. exists (TL 0). tauto.
Qed.

Lemma ok_accounts : forall levels h t, heap_ok levels h t -> block_accounts h.
Proof.
  intros levels h t H. destruct (NoDup_app_parts _ _ (ho_nodup _ _ _ H)) as (N1 & N2 & N3). pose proof (ho_in _ _ _ H) as Hi.
  assert (Q8 : forall p i, 0 <= i < 8 -> (8 * p + i) / 8 = p) by (intros p i Hi8; rewrite Z.mul_comm, Z.div_add_l by lia; rewrite Z.div_small by lia; lia).
  split; [exact N1|]. split; [|split].
  - intros p Hp. apply Hi, in_or_app. auto.
  - intros p Hp. apply Hi in Hp as Hp'. apply in_app_or in Hp' as [Q|Q].
    + left. split; [exact Q|]. intros i I. destruct (bh_nodes h (8 * p + i)) eqn:E; [|reflexivity]. exfalso. assert (X : bh_nodes h (8 * p + i) <> None) by congruence.
      apply (ho_live _ _ _ H) in X as [X|X]; [lia|]. rewrite Q8 in X by exact I. apply (N3 p Q X).
    + right. split; [intros X; apply (N3 p X Q)|]. intros i I. apply (bowns_live t); [apply (ho_owns _ _ _ H)|]. right. rewrite Q8 by exact I. exact Q.
  - intros b Hb. apply (ho_live _ _ _ H) in Hb as [Hb|Hb]; [auto|]. right. apply Hi, in_or_app. auto.
Qed.

Lemma ok_only_root : forall levels h, heap_ok levels h (TL 0) -> only_root h.
Proof.
  intros levels h H. split; [apply (ho_owns _ _ _ H)|]. split; [|split].
  - intros b Hb. destruct (bh_nodes h b) eqn:E; [|reflexivity]. exfalso. assert (X : bh_nodes h b <> None) by congruence. apply (ho_live _ _ _ H) in X as [X|[]]. contradiction.
  - pose proof (ho_nodup _ _ _ H) as N. cbn [blocks] in N. rewrite app_nil_r in N. exact N.
  - intros p. rewrite <- (ho_in _ _ _ H). cbn [blocks]. rewrite app_nil_r. reflexivity.
Qed.

(* Whatever allocation fails, build neither touches deleted memory nor reads the wrong
   member of a union; it returns or passes the exception on, nothing is leaked or deleted
   twice, and after a failure only the root is left. *)
Theorem C76_build : forall levels h works verts leaf_works early late, mdc_heap_reached levels h ->
  exists h', (mdc_rebuild works verts leaf_works early late levels h = BDone h' \/
              mdc_rebuild works verts leaf_works early late levels h = BFailed h' /\ only_root h') /\ block_accounts h'.
Proof.
  intros levels h works verts lw early late H. destruct (reached_ok _ _ H) as (t & O). pose proof (rebuild_ok works verts lw early late levels h t O) as R.
  destruct (mdc_rebuild works verts lw early late levels h) as [h'|h'| |]; cbn in R; try contradiction; exists h'.
  - destruct R as ((t' & O') & _). split; [auto|]. eapply ok_accounts; exact O'.
  - destruct R as (O' & _). split; [right; split; [reflexivity|eapply ok_only_root; exact O']|]. eapply ok_accounts; exact O'.
Qed.
Print Assumptions C76_build.

(* Destruction of the octree frees what is left. *)
Theorem C76_destroy : forall levels h, mdc_heap_reached levels h -> exists h', mdc_destroy levels h = BDone h' /\ only_root h'.
Proof.
  intros levels h H. destruct (reached_ok _ _ H) as (t & O). destruct (ok_collapse _ _ _ O) as (h' & E & O' & _). exists h'. split; [exact E|].
  eapply ok_only_root; exact O'.
Qed.
Print Assumptions C76_destroy.

(* Number of vertices of the root *)
Definition root_verts (h : bheap) (k : Z) : Prop := exists n, bh_nodes h 0 = Some n /\ bn_verts n = k.

(* The vertices of the root: a failed build leaves those which were there before, unless it
   fails in clusterCell for the root after the call of resize. *)
Theorem C76_vertices_partial : forall levels h works verts leaf_works early late h' k, mdc_heap_reached levels h -> root_verts h k ->
  (mdc_rebuild works verts leaf_works early late levels h = BDone h' -> root_verts h' (verts [])) /\
  (mdc_rebuild works verts leaf_works early late levels h = BFailed h' ->
   root_verts h' k \/ levels <> O /\ early [] = true /\ late [] = false /\ root_verts h' (verts [])).
Proof.
  intros levels h works verts lw early late h' k H (n & N & K). destruct (reached_ok _ _ H) as (t & O). pose proof (rebuild_ok works verts lw early late levels h t O) as R.
  assert (V : forall x, verts_at h' 0 = Some x -> root_verts h' x).
  { intros x X. unfold verts_at in X. destruct (bh_nodes h' 0) as [m|] eqn:E; cbn in X; [|discriminate]. injection X as X. exists m. auto. }
  split; intros E; rewrite E in R; cbn in R.
  - apply V. tauto.
  - destruct R as (_ & [R|(A & B & C & R)]).
    + left. apply V. rewrite R. unfold verts_at. rewrite N. cbn. congruence.
    + right. auto.
Qed.
Print Assumptions C76_vertices_partial.

Definition heap_of (r : bresult) : bheap := match r with BDone h | BFailed h => h | _ => bheap_new end.
Definition is_done (r : bresult) : bool := match r with BDone _ => true | _ => false end.
Definition is_failed (r : bresult) : bool := match r with BFailed _ => true | _ => false end.
Lemma done_heap : forall r, is_done r = true -> r = BDone (heap_of r).
Proof. intros [h|h| |] H; cbn in *; congruence. Qed.
Lemma failed_heap : forall r, is_failed r = true -> r = BFailed (heap_of r).
Proof. intros [h|h| |] H; cbn in *; congruence. Qed.

(* An octree of two cells along a side: a build which succeeds and one in which the first
   allocation fails *)
Definition yes (_ : list Z) : bool := true.
Notation first_build := (mdc_rebuild (fun _ => true) (fun _ => 1) yes yes yes 1 bheap_new).
Notation second_build := (mdc_rebuild (fun _ => false) (fun _ => 1) yes yes yes 1 (heap_of first_build)).

Lemma first_reached : mdc_heap_reached 1 (heap_of first_build).
Proof.
  assert (H : is_done first_build = true) by (vm_compute; reflexivity). apply done_heap in H.
  exact (mdc_heap_build 1 bheap_new _ _ _ _ _ (heap_of first_build) (mdc_heap_new 1) (or_introl H)).
Qed.

(* A failed build need not leave an empty octree: m_vertices of the root keeps the vertices
   of the last successful build. *)
Theorem C76_stale_refuted : exists levels h works verts leaf_works early late h',
  mdc_heap_reached levels h /\ mdc_rebuild works verts leaf_works early late levels h = BFailed h' /\ ~ root_verts h' 0.
Proof.
  exists 1%nat, (heap_of first_build), (fun _ => false), (fun _ => 1), yes, yes, yes, (heap_of second_build).
  split; [exact first_reached|]. split; [assert (H : is_failed second_build = true) by (vm_compute; reflexivity); apply failed_heap in H; exact H|].
  intros (n & E & Z0). apply (f_equal (option_map bn_verts)) in E. cbn [option_map] in E. rewrite Z0 in E. vm_compute in E. discriminate.
Qed.
Print Assumptions C76_stale_refuted.

(* What contour makes of a root which is a leaf: its vertices and no triangles. *)
Lemma contour_leaf : forall E S (eps : fp_F E) (t : mdc_octree E S) l, mo_root t = OLeaf l ->
  NoDup (ml_verts l) -> zlen (ml_verts l) <= two32 ->
  (forall a, In a (ml_verts l) -> exists v, vs_at (mo_store t) a = Some v /\ xv_parent v = None) ->
  exists t' m, mdc_contour eps t = Ret (t', m) /\ zlen (m_verts m) = zlen (ml_verts l) /\ m_inds m = [].
Proof.
  intros E S eps [scale size root st] l Hr Hd Hl Hv. cbn [mo_root mo_store] in *. subst root. unfold mdc_contour. cbn [mo_root mo_store mo_size mo_scale].
  set (sc := a_div _ _ _). clearbody sc.
  assert (Hf : exists f, dc_fuel size = Datatypes.S f) by (eexists; reflexivity). destruct Hf as (f & ->).
  cbn [add_vertices node_verts is_subdivided negb].
  assert (G : forall as_ (st : vstore (mdc_vertex (fp_F E) S)) (m : mesh (mvert (fp_F E))), NoDup as_ -> zlen (m_verts m) + zlen as_ <= two32 ->
    (forall a, In a as_ -> exists v, vs_at st a = Some v /\ xv_parent v = None) ->
    exists st' m', ofold (add_vertex_step (Datatypes.S f) true sc) as_ (st, m) = Ret (st', m') /\ zlen (m_verts m') = zlen (m_verts m) + zlen as_ /\ m_inds m' = m_inds m).
  { clear. induction as_ as [|a as_ IH]; intros st m Hd Hl Hv.
    - exists st, m. split; [reflexivity|]. unfold zlen. cbn. split; [lia|reflexivity].
    - inversion Hd as [|? ? D1 D2]; subst. destruct (Hv a (or_introl eq_refl)) as (v & E1 & E2).
      assert (Zc : zlen (a :: as_) = 1 + zlen as_) by (unfold zlen; cbn [length]; lia). rewrite Zc in *. assert (0 <= zlen as_) by (unfold zlen; lia).
      cbn [ofold]. unfold add_vertex_step at 1. unfold vs_read at 1. rewrite E1. cbn [oread obind]. rewrite E2. cbn [has_collapsible_loop obind negb andb].
      rewrite add_vertex_ok by lia. cbn [obind]. unfold vs_write, vs_read. rewrite E1. cbn [oread obind].
      match goal with |- context [ofold _ as_ (?s, ?mm)] => destruct (IH s mm) as (st' & m' & F1 & F2 & F3) end; auto.
      + cbn [m_verts]. unfold zlen in *. rewrite app_length. cbn [length]. lia.
      + intros b Hb. cbn [vs_at]. destruct (Z.eqb_spec b a) as [->|_]; [contradiction|]. apply Hv. right. exact Hb.
      + exists st', m'. split; [exact F1|]. rewrite F2, F3. cbn [m_verts m_inds]. split; [|reflexivity]. unfold zlen. rewrite app_length. cbn [length]. lia. }
  destruct (G (ml_verts l) st mesh_new Hd) as (st' & m & F1 & F2 & F3).
  { unfold zlen at 1. cbn. lia. }
  { exact Hv. }
  rewrite F1. cbn [obind]. cbn [cell_proc is_subdivided negb]. eexists _, _. split; [reflexivity|]. split; [rewrite F2; reflexivity|rewrite F3; reflexivity].
Qed.

(* The octree of MdcModel after a build that failed before it got to the vertices of the
   root: mdc_octree.cpp:300-310 *)
Definition failed_octree {E S} (t : mdc_octree E S) : mdc_octree E S :=
  let '(l, st) := mdc_collapse (mo_root t) (mo_store t) in MdcOctree (mo_scale t) (mo_size t) (OLeaf l) st.

(* Contouring after such a failure yields a mesh of the old vertices of the root, without
   triangles; not the empty mesh of a new octree, C39_before_build. *)
Theorem C76_leftover : forall E Q S (ops : qef_ops (fp_F E) Q S) size g solid (t : mdc_octree E S) eps,
  mdc_reached ops size (Some (g, solid)) t -> zlen (node_verts (mo_root t)) <= two32 ->
  exists t' m, mdc_contour eps (failed_octree t) = Ret (t', m) /\ zlen (m_verts m) = zlen (node_verts (mo_root t)) /\ m_inds m = [].
Proof.
  intros E Q S ops size g solid t eps Hr Hl. destruct (built_of ops size g solid t Hr) as [Hz B]. pose proof (bt_good _ _ _ _ _ B) as G.
  pose proof (gd_nodup _ _ _ _ _ _ _ G) as Hd.
  assert (Hp : forall a, In a (node_verts (mo_root t)) -> exists v, vs_at (mo_store t) a = Some v /\ xv_parent v = None).
  { intros a Ha. assert (Hv : vert_at (root_level size) (mo_root t) (root_level size) a) by (destruct (mo_root t), (root_level size); cbn in *; auto).
    destruct (gd_live _ _ _ _ _ _ _ G _ a Hv) as (v & V1 & _ & _ & V2). exists v. split; [exact V1|]. destruct (xv_parent v) as [p|]; [|reflexivity].
    exfalso. destruct (V2 p eq_refl) as (m' & M1 & M2). apply vert_at_le in M2. lia. }
  unfold failed_octree. destruct (mo_root t) as [l|b cs] eqn:Er; cbn [mdc_collapse node_verts tree_verts] in *.
  - destruct (contour_leaf E S eps (MdcOctree (mo_scale t) (mo_size t) (OLeaf l) (mo_store t)) l eq_refl Hd Hl Hp) as (t' & m & C). exists t', m. exact C.
  - destruct (NoDup_app_parts _ _ Hd) as (D1 & _ & D3).
    destruct (contour_leaf E S eps (MdcOctree (mo_scale t) (mo_size t) (OLeaf (MdcLeaf (mi_depth b) (mi_mask b) None (mi_verts b))) (vs_delete (mo_store t) (flat_map tree_verts cs)))
      (MdcLeaf (mi_depth b) (mi_mask b) None (mi_verts b)) eq_refl D1 Hl) as (t' & m & C); [|exists t', m; exact C].
    cbn [ml_verts mo_store vs_delete vs_at]. intros a Ha. destruct (existsb (Z.eqb a) (flat_map tree_verts cs)) eqn:Ex; [|apply Hp; exact Ha].
    exfalso. apply existsb_exists in Ex as (x & X1 & X2). apply Z.eqb_eq in X2. subst x. apply (D3 a Ha X1).
Qed.
Print Assumptions C76_leftover.

(* An octree of four cells along a side: after a successful build the allocation of the
   fourth of nine blocks fails; then the allocations in the cluster step for the root. *)
Notation big_build := (mdc_rebuild (fun _ => true) (fun p => zlen p) yes yes yes 2 bheap_new).
Notation cut_build := (mdc_rebuild (fun p => p <? 13) (fun p => zlen p) yes yes yes 2 (heap_of big_build)).
Notation late_build := (mdc_rebuild (fun _ => true) (fun p => 7) yes yes (fun p => negb (zlen p =? 0)) 2 (heap_of cut_build)).
Example C76_ex : is_done big_build = true /\ is_failed cut_build = true /\ bh_freed (heap_of cut_build) = [9; 8; 7; 6; 5; 4; 3; 2; 1; 12; 11; 10] /\
  is_failed late_build = true /\ option_map bn_verts (bh_nodes (heap_of late_build) 0) = Some 7.
Proof. vm_compute. repeat split; reflexivity. Qed.
