(* Uniform dual contouring on grids that represent a solid. *)
From Coq Require Import ZArith List Bool Lia Sorted Permutation.
From Verif Require Import Base Arith MeshModel MeshSpec MeshProofs GridModel GridSpec GridProofs
  EdgeModel EdgeSpec EdgeProofs FillModel FillSpec LoopLemmas FillProofs MCModel CellSpec CellTables MergeProofs
  MCProofs UdcModel DualSpec DualProofs.
Import ListNotations.
Local Open Scope Z_scope.

(* ---- grouping ---- *)

Lemma span_spec : forall A (f : A -> bool) l p r, span f l = (p, r) ->
  l = p ++ r /\ Forall (fun a => f a = true) p /\ match r with [] => True | a :: _ => f a = false end.
Proof.
  induction l as [|a l IH]; intros p r H; cbn [span] in H.
  - injection H as <- <-. auto.
  - destruct (f a) eqn:E.
    + destruct (span f l) as [p' r'] eqn:S. injection H as <- <-. destruct (IH _ _ eq_refl) as (-> & H1 & H2). auto.
    + injection H as <- <-. auto.
Qed.

Lemma filter_all : forall A (f : A -> bool) l, Forall (fun a => f a = true) l -> filter f l = l.
Proof. induction l; intro H; cbn [filter]; [reflexivity|]. inversion H; subst. rewrite H2, IHl by assumption. reflexivity. Qed.
Lemma filter_none : forall A (f : A -> bool) l, (forall a, In a l -> f a = false) -> filter f l = [].
Proof.
  induction l as [|a l IH]; intro H; cbn [filter]; [reflexivity|]. rewrite H by (left; reflexivity).
  apply IH. intros; apply H; right; assumption.
Qed.

Section Groups.
Context {E : fpenv}.

Lemma groups_ok : forall proc fuel (l : list (dc_entry E)),
  StronglySorted (fun a b => dc_less b a = false) l -> (length l <= fuel)%nat ->
  exists ks, StronglySorted Z.lt ks /\ (forall k, In k ks <-> In k (map fst l)) /\
    forall st, dc_groups proc fuel l st =
      ofold (fun st k => proc k (map snd (filter (fun x => fst x =? k) l)) st) ks st.
Proof.
  intros proc. induction fuel as [|fuel IH]; intros l Hs Hf.
  - destruct l; [|cbn in Hf; lia]. exists []. split; [constructor|]. split; [intro k; split; intros []|]. reflexivity.
  - destruct l as [|[c e] l0]; [exists []; split; [constructor|]; split; [intro k; split; intros []|]; reflexivity|].
    set (l := @cons (dc_entry E) (c, e) l0) in *.
    destruct (span (fun x => fst x =? c) l) as [grp rest] eqn:S.
    pose proof (span_spec _ _ _ _ _ S) as (Hl & Hg & Hr).
    assert (Hgn : grp <> []).
    { intros ->. unfold l in S. cbn [span fst] in S. rewrite Z.eqb_refl in S.
      match type of S with context [span ?f l0] => destruct (span f l0) end. discriminate S. }
    assert (Hmin : forall x, In x l -> c <= fst x).
    { intros x Hx. unfold l in Hs, Hx. apply StronglySorted_inv in Hs as [_ Hs]. destruct Hx as [<-|Hx]; [cbn [fst]; lia|].
      rewrite Forall_forall in Hs. specialize (Hs x Hx). unfold dc_less in Hs. cbn [fst] in Hs. apply Z.ltb_ge in Hs. exact Hs. }
    assert (Hsr : StronglySorted (fun a b => dc_less b a = false) rest).
    { rewrite Hl in Hs. clear -Hs. induction grp; [exact Hs|]. apply StronglySorted_inv in Hs as [Hs _]. auto. }
    assert (Hgt : forall x, In x rest -> c < fst x).
    { intros x Hx. destruct rest as [|r rest']; [destruct Hx|].
      assert (Hr0 : c < fst r).
      { assert (c <= fst r) by (apply Hmin; rewrite Hl; apply in_or_app; right; left; reflexivity).
        apply Z.eqb_neq in Hr. lia. }
      destruct Hx as [<-|Hx]; [assumption|].
      apply StronglySorted_inv in Hsr as [_ Hsr]. rewrite Forall_forall in Hsr. specialize (Hsr x Hx).
      unfold dc_less in Hsr. apply Z.ltb_ge in Hsr. lia. }
    destruct (IH rest Hsr) as (ks & K1 & K2 & K3).
    { rewrite Hl, app_length in Hf. destruct grp; [contradiction|]. cbn [length] in Hf. apply le_S_n. etransitivity; [|exact Hf]. apply le_n_S, PeanoNat.Nat.le_add_l. }
    exists (c :: ks). split; [|split].
    + constructor; [assumption|]. apply Forall_forall. intros k Hk. apply K2, in_map_iff in Hk as (x & <- & Hx). auto.
    + intro k. rewrite Hl, map_app, in_app_iff. cbn [In]. rewrite K2.
      assert (Gc : In k (map fst grp) <-> k = c).
      { rewrite Forall_forall in Hg. split.
        - intro H. apply in_map_iff in H as (x & <- & Hx). apply Z.eqb_eq. apply Hg. assumption.
        - intros ->. destruct grp as [|x grp']; [contradiction|]. left. apply Z.eqb_eq, Hg. left. reflexivity. }
      rewrite Gc. intuition auto.
    + intro st. cbn [dc_groups]. unfold l at 1. fold l. rewrite S. cbn [ofold].
      assert (F1 : filter (fun x => fst x =? c) l = grp).
      { rewrite Hl, filter_app, filter_all by assumption. rewrite filter_none, app_nil_r; [reflexivity|].
        intros a Ha. apply Z.eqb_neq. specialize (Hgt a Ha). lia. }
      rewrite F1. destruct (proc c (map snd grp) st) as [st'| | | |]; cbn [obind]; try reflexivity.
      rewrite K3. apply ofold_ext. intros s k Hk.
      assert (F2 : filter (fun x => fst x =? k) l = filter (fun x => fst x =? k) rest).
      { rewrite Hl, filter_app, filter_none; [reflexivity|]. intros a Ha. rewrite Forall_forall in Hg. apply Hg in Ha.
        apply Z.eqb_eq in Ha. apply Z.eqb_neq. apply K2, in_map_iff in Hk as (x & <- & Hx). specialize (Hgt x Hx). lia. }
      rewrite F2. reflexivity.
Qed.
End Groups.

Lemma strict_length : forall l a b, StronglySorted Z.lt l -> Forall (fun x => a <= x < b) l -> a <= b -> zlen l <= b - a.
Proof.
  induction l as [|x l IH]; intros a b Hs Hb Hab; [unfold zlen; cbn; lia|].
  rewrite zlen_cons. apply StronglySorted_inv in Hs as [Hs Hx]. inversion Hb; subst.
  assert (zlen l <= b - (x + 1)); [|lia].
  apply IH; [assumption| |lia]. rewrite Forall_forall in *. intros y Hy. specialize (Hx y Hy). specialize (H2 y Hy). lia.
Qed.

Lemma lift_keys : forall n ks, Forall (fun k => exists q, cell_in n q /\ k = yxz_index n q) ks ->
  exists qs, map (yxz_index n) qs = ks /\ Forall (cell_in n) qs.
Proof.
  intros n ks H. induction H as [|k ks (q & Hq & ->) _ (qs & <- & Hqs)].
  - exists []. auto.
  - exists (q :: qs). split; [reflexivity|constructor; assumption].
Qed.

Lemma quad_nondegenerate : forall fw a b c d, NoDup [a; b; c; d] -> filter nondegenerate (quad_tris fw a b c d) = quad_tris fw a b c d.
Proof.
  intros fw a b c d H. apply filter_all.
  assert (N : a <> b /\ a <> c /\ a <> d /\ b <> c /\ b <> d /\ c <> d).
  { inversion H as [|? ? H1 H2]; subst. inversion H2 as [|? ? H3 H4]; subst. inversion H4 as [|? ? H5 H6]; subst.
    cbn [In] in *. intuition auto. }
  destruct fw; cbn [quad_tris]; repeat constructor; unfold nondegenerate; apply negb_true_iff;
    rewrite !orb_false_iff, !Z.eqb_neq; intuition auto.
Qed.

Lemma cells_around_nodup : forall d p, NoDup (cells_around d p).
Proof.
  intros d [x y z]. unfold cells_around.
  assert (S : forall p q : ivec3, vx p <> vx q \/ vy p <> vy q \/ vz p <> vz q -> p <> q)
      by (intros p q H ->; destruct H as [H|[H|H]]; apply H; reflexivity).
  destruct d; cbn [next_axis unit_vec]; unfold vsub; cbn [vx vy vz];
  repeat (constructor; [cbn [In]; intro H;
      repeat (destruct H as [H|H]; [revert H; apply S; cbn [vx vy vz]; lia|]); exact H|]); constructor.
Qed.

Lemma NoDup_map_inj : forall A B (f : A -> B) l, (forall a b, In a l -> In b l -> f a = f b -> a = b) -> NoDup l -> NoDup (map f l).
Proof.
  induction l as [|a l IH]; intros Hi H; cbn [map]; constructor; inversion H; subst.
  - intro X. apply in_map_iff in X as (b & Hb & Hin). assert (b = a) by (apply Hi; [right|left|]; auto). subst. contradiction.
  - apply IH; [|assumption]. intros; apply Hi; [right|right|]; assumption.
Qed.

Section Represented.
Context {E : fpenv}.
Variables (g : ugrid E) (solid : ivec3 -> bool).
Hypothesis Hrep : represents_edges g solid.
Notation n := (g_size g).

Definition ekey (e : uedge (fp_F E)) : gedge := edge_key e.

Lemma key_axis : forall d e, In e (g_edges d g) -> edge_key e = (d, lesser_endpoint e).
Proof. intros d e He. destruct (rep_edge g solid Hrep d e He) as [Ha _]. unfold edge_key. rewrite Ha. destruct d; reflexivity. Qed.

(* entries of one edge *)
Definition ent (e : uedge (fp_F E)) : list (dc_entry E) :=
  flat_map (fun q => if is_cell_in_grid n q then [(yxz_index n q, e)] else [])
    (cells_around (fst (edge_key e)) (snd (edge_key e))).

Lemma index_not_bad : forall q, cell_in n q -> (yxz_index n q =? kBadIndex) = false.
Proof.
  intros q Hq. apply cell_vertex_in in Hq. destruct (point_to_index_ok n _ (size_valid g solid Hrep) Hq) as [_ Hi].
  destruct (valid_even n (size_valid g solid Hrep)) as (h & Hn & Hb & _). destruct (cube_bound n h Hn Hb) as [_ B3].
  apply Z.eqb_neq. unfold kBadIndex, u32max. lia.
Qed.

Lemma collect_fold : forall (e : uedge (fp_F E)) cs (a : list (dc_entry E)),
  fold_left (fun acc c => if c =? kBadIndex then acc else acc ++ [(c, e)]) (map (cell_index_or_bad n) cs) a =
  a ++ flat_map (fun q => if is_cell_in_grid n q then [(yxz_index n q, e)] else []) cs.
Proof.
  intros e. induction cs as [|q cs IH]; intro a; cbn [map fold_left flat_map]; [rewrite app_nil_r; reflexivity|].
  destruct (is_cell_in_grid n q) eqn:Q.
  - replace (cell_index_or_bad n q) with (yxz_index n q) by (unfold cell_index_or_bad; rewrite Q; reflexivity).
    apply is_cell_in_grid_ok in Q; [|apply (size_valid g solid Hrep)]. rewrite index_not_bad by assumption.
    rewrite IH, <- app_assoc. reflexivity.
  - replace (cell_index_or_bad n q) with kBadIndex by (unfold cell_index_or_bad; rewrite Q; reflexivity).
    rewrite Z.eqb_refl, IH. reflexivity.
Qed.

Lemma collect_ok' : forall d acc, dc_collect d g acc = Ret (acc ++ flat_map ent (g_edges d g)).
Proof.
  intros d acc. unfold dc_collect.
  destruct (ofold_inv _ _ (fun done l => l = acc ++ flat_map ent done) (dc_collect_step d n) (g_edges d g) acc) as (l & Hl & HP).
  - cbn [flat_map]. rewrite app_nil_r. reflexivity.
  - intros done e rest l Hes ->. unfold dc_collect_step.
    assert (He : In e (g_edges d g)) by (rewrite Hes; apply in_or_app; right; left; reflexivity).
    rewrite adjacent_cells_ok; [|apply (size_valid g solid Hrep)|apply (edges_in g solid Hrep); assumption].
    cbn [obind]. eexists. split; [reflexivity|].
    rewrite flat_map_app, app_assoc. cbn [flat_map]. rewrite app_nil_r.
    unfold ent. rewrite (key_axis d e He). cbn [fst snd].
    apply collect_fold.
  - rewrite Hl, HP. reflexivity.
Qed.


Definition has_edge (q : ivec3) (e : uedge (fp_F E)) : bool := edge_of_cell q (edge_key e).

(* the edges of a cell, in the order of the entries *)
Lemma ent_filter : forall q es, cell_in n q ->
  map snd (filter (fun x => fst x =? yxz_index n q) (flat_map ent es)) = filter (has_edge q) es.
Proof.
  intros q es Hq. induction es as [|e es IH]; [reflexivity|].
  cbn [flat_map filter]. unfold dc_entry in *. rewrite filter_app, map_app, IH.
  assert (G : map snd (filter (fun x => fst x =? yxz_index n q) (ent e)) = if has_edge q e then [e] else []).
  { unfold ent, has_edge, edge_of_cell. pose proof (cells_around_nodup (fst (edge_key e)) (snd (edge_key e))) as Hnd.
    revert Hnd. generalize (cells_around (fst (edge_key e)) (snd (edge_key e))). intros cs Hnd.
    induction cs as [|c cs IHc]; [reflexivity|]. inversion Hnd as [|? ? Hn Hnd']; subst. cbn [flat_map existsb].
    rewrite filter_app, map_app, IHc by assumption.
    destruct (veqb q c) eqn:Q.
    - apply veqb_eq in Q. subst c. rewrite (proj2 (is_cell_in_grid_ok n q (size_valid g solid Hrep)) Hq).
      cbn [filter fst]. rewrite Z.eqb_refl. cbn [map snd orb].
      assert (X : existsb (veqb q) cs = false).
      { destruct (existsb (veqb q) cs) eqn:X; [|reflexivity]. apply existsb_exists in X as (y & Hy & Ey).
        apply veqb_eq in Ey. subst y. contradiction. }
      rewrite X. reflexivity.
    - cbn [orb]. destruct (is_cell_in_grid n c) eqn:C; [|reflexivity].
      cbn [filter fst]. destruct (Z.eqb_spec (yxz_index n c) (yxz_index n q)) as [X|X]; [|reflexivity].
      exfalso. apply is_cell_in_grid_ok in C; [|apply (size_valid g solid Hrep)].
      apply yxz_index_inj in X; [|apply (size_valid g solid Hrep)|apply cell_vertex_in; assumption|apply cell_vertex_in; assumption].
      subst c. rewrite (proj2 (veqb_eq q q) eq_refl) in Q. discriminate. }
  rewrite G. destruct (has_edge q e); reflexivity.
Qed.

(* Cells around an edge are the cells having it as one of their edges. *)
Lemma cells_around_cell_edge : forall q d p, In q (cells_around d p) <-> exists i, 0 <= i < 12 /\ cell_edge q i = (d, p).
Proof.
  intros q d p. split.
  - intro H. destruct q as [a b c], p as [x y z]. unfold cells_around in H.
    destruct d; cbn [next_axis unit_vec] in H; unfold vsub in H; cbn [vx vy vz In] in H.
    + destruct H as [H|[H|[H|[H|[]]]]]; injection H as <- <- <-; [exists 3|exists 1|exists 0|exists 2]; (split; [lia|]); unfold cell_edge;
      match goal with |- context [local_edge ?k] => let v := eval vm_compute in (local_edge k) in change (local_edge k) with v end;
      unfold vadd; cbn [fst snd vx vy vz]; f_equal; f_equal; lia.
    + destruct H as [H|[H|[H|[H|[]]]]]; injection H as <- <- <-; [exists 7|exists 6|exists 4|exists 5]; (split; [lia|]); unfold cell_edge;
      match goal with |- context [local_edge ?k] => let v := eval vm_compute in (local_edge k) in change (local_edge k) with v end;
      unfold vadd; cbn [fst snd vx vy vz]; f_equal; f_equal; lia.
    + destruct H as [H|[H|[H|[H|[]]]]]; injection H as <- <- <-; [exists 11|exists 10|exists 8|exists 9]; (split; [lia|]); unfold cell_edge;
      match goal with |- context [local_edge ?k] => let v := eval vm_compute in (local_edge k) in change (local_edge k) with v end;
      unfold vadd; cbn [fst snd vx vy vz]; f_equal; f_equal; lia.
  - intros (i & Hi & H).
    assert (G : forallb (fun i => existsb (veqb (V3 0 0 0)) (cells_around (fst (local_edge i)) (snd (local_edge i)))) slots = true)
      by (vm_compute; reflexivity).
    rewrite forallb_forall in G. specialize (G i (proj2 (in_slots i) Hi)). apply existsb_exists in G as (c & Hc & Ec).
    apply veqb_eq in Ec. subst c. unfold cell_edge in H. injection H as <- <-.
    rewrite cells_around_offsets in *. apply in_map_iff in Hc as (o & Ho & Hin). apply in_map_iff. exists o. split; [|assumption].
    destruct (snd (local_edge i)) as [x y z], q as [a b c], o as [u v w]. unfold vsub, vadd in *. cbn [vx vy vz] in *.
    injection Ho as H1 H2 H3. f_equal; lia.
Qed.

Definition mat_at (p : ivec3) : material := match g_mat g (yxz_index n p) with Some m => m | None => Empty end.

Lemma materials_ok : forall q, cell_in n q -> materials_of_cell n (g_mat g) (yxz_index n q) = Ret (map mat_at (cell_corners q)).
Proof.
  intros q Hq. apply materials_of_cell_ok; [apply (size_valid g solid Hrep)|assumption|].
  intros p Hp. destruct (rep_init g solid Hrep p Hp) as (m & Hm). unfold mat_at. rewrite Hm. reflexivity.
Qed.

Lemma lower_ok : forall q, cell_in n q -> index_to_point n (yxz_index n q) = Ret q.
Proof.
  intros q Hq. apply cell_vertex_in in Hq. destruct (index_point_inverse n q (size_valid g solid Hrep) Hq) as (i & H1 & H2).
  destruct (point_to_index_ok n q (size_valid g solid Hrep) Hq) as [H3 _]. rewrite H3 in H1. injection H1 as <-. assumption.
Qed.

Lemma in_ent : forall k e es, In (k, e) (flat_map ent es) ->
  In e es /\ exists q, cell_in n q /\ k = yxz_index n q /\ In q (cells_around (fst (edge_key e)) (snd (edge_key e))).
Proof.
  intros k e es H. apply in_flat_map in H as (e' & He' & H). unfold ent in H. apply in_flat_map in H as (q & Hq & H).
  destruct (is_cell_in_grid n q) eqn:C; [|destruct H]. destruct H as [H|[]]. injection H as <- <-.
  split; [assumption|]. exists q. apply is_cell_in_grid_ok in C; [|apply (size_valid g solid Hrep)]. auto.
Qed.

Lemma all_edges_in : forall e, In e (all_edges g) -> exists d, In e (g_edges d g).
Proof. intros e H. unfold all_edges in H. rewrite !in_app_iff in H. destruct H as [H|[H|H]]; eauto. Qed.

Lemma all_edges_crossing : forall e, In e (all_edges g) ->
  edge_in n (fst (edge_key e)) (snd (edge_key e)) /\ edge_crosses solid (edge_key e) = true.
Proof.
  intros e H. apply all_edges_in in H as (d & H). rewrite (key_axis d e H). cbn [fst snd].
  apply (in_pts g solid Hrep). unfold pts. apply in_map. assumption.
Qed.

Lemma crossing_stored : forall d p, edge_in n d p -> edge_crosses solid (d, p) = true ->
  exists e, In e (all_edges g) /\ edge_key e = (d, p).
Proof.
  intros d p H1 H2. assert (Hp : In p (pts g d)) by (apply (in_pts g solid Hrep); auto).
  unfold pts in Hp. apply in_map_iff in Hp as (e & <- & He). exists e. split.
  - unfold all_edges. rewrite !in_app_iff. destruct d; cbn [g_edges] in He; auto.
  - apply key_axis. assumption.
Qed.

Lemma ent_keys : forall k, In k (map fst (flat_map ent (all_edges g))) <-> exists q, surface_cell n solid q /\ k = yxz_index n q.
Proof.
  intro k. split.
  - intro H. apply in_map_iff in H as ((k' & e) & <- & H). apply in_ent in H as (He & q & Hq & Hk & Ha).
    exists q. split; [|assumption]. split; [assumption|].
    apply cells_around_cell_edge in Ha as (i & Hi & Hce). exists i. split; [assumption|]. rewrite Hce.
    apply all_edges_crossing in He as [_ He]. destruct (edge_key e); exact He.
  - intros (q & [Hq (i & Hi & Hc)] & ->).
    destruct (crossing_stored (fst (cell_edge q i)) (snd (cell_edge q i))) as (e & He & Hk).
    { apply (cell_edge_in g); assumption. }
    { destruct (cell_edge q i); assumption. }
    apply in_map_iff. exists (yxz_index n q, e). split; [reflexivity|].
    apply in_flat_map. exists e. split; [assumption|]. unfold ent. apply in_flat_map. exists q. split.
    + rewrite Hk. cbn [fst snd]. apply cells_around_cell_edge. exists i. split; [assumption|]. destruct (cell_edge q i); reflexivity.
    + rewrite (proj2 (is_cell_in_grid_ok n q (size_valid g solid Hrep)) Hq). left. reflexivity.
Qed.

Variable qef : qef_solver E.

(* number of a cell's vertex *)
Definition cid (qs : list ivec3) (q : ivec3) : Z := match pos_of 0 qs q with Some k => k | None => kBadIndex end.

Definition inner_b (e : gedge) : bool := forallb (is_cell_in_grid n) (cells_around (fst e) (snd e)).

Lemma inner_b_ok : forall e, inner_b e = true <-> inner_edge n e.
Proof.
  intro e. unfold inner_b, inner_edge. rewrite forallb_forall, Forall_forall.
  split; intros H x Hx; apply is_cell_in_grid_ok; auto; apply (size_valid g solid Hrep).
Qed.

Lemma inner_in_grid : forall e, inner_edge n e -> edge_in n (fst e) (snd e).
Proof.
  intros [d p] H. unfold inner_edge in H. rewrite Forall_forall in H. cbn [fst snd] in *.
  specialize (H p ltac:(unfold cells_around; cbn; auto)). pose proof (size_valid g solid Hrep) as Hv.
  destruct (valid_even n Hv) as (h & Hn & _). apply (cell_in_iff n h) in H; [|assumption]. apply (edge_in_iff n h); [assumption|].
  destruct d; cbn [unit_vec vx vy vz]; lia.
Qed.

(* the triangles of one stored edge *)
Definition etris (qs : list ivec3) (e : uedge (fp_F E)) : list triangle :=
  if inner_b (edge_key e) then around_quad (cid qs) solid (edge_key e) else [].

Lemma cid_in : forall qs q, In q qs -> pos_of 0 qs q = Some (cid qs q) /\ 0 <= cid qs q < zlen qs /\ znth qs (cid qs q) = Some q.
Proof.
  intros qs q H. unfold cid. destruct (pos_of 0 qs q) as [k|] eqn:X.
  - pose proof (pos_of_some _ _ _ _ X) as [P1 P2]. rewrite Z.sub_0_r in P2. repeat split; try assumption; lia.
  - apply pos_of_none in X. contradiction.
Qed.

Lemma cid_inj : forall qs q q', In q qs -> In q' qs -> cid qs q = cid qs q' -> q = q'.
Proof. intros qs q q' H H' Heq. apply cid_in in H as (_ & _ & H). apply cid_in in H' as (_ & _ & H'). congruence. Qed.

Lemma around_surface : forall e q, In e (all_edges g) -> cell_in n q -> In q (cells_around (fst (edge_key e)) (snd (edge_key e))) ->
  surface_cell n solid q.
Proof.
  intros e q He Hq Ha. split; [assumption|]. apply cells_around_cell_edge in Ha as (i & Hi & Hce).
  exists i. split; [assumption|]. rewrite Hce. apply all_edges_crossing in He as [_ He]. destruct (edge_key e); exact He.
Qed.

Lemma quads_ok : forall d qs ids vs inds, NoDup qs -> (forall q, In q qs <-> surface_cell n solid q) ->
  zlen vs = zlen qs -> zlen qs < kBadIndex ->
  (forall q, In q qs -> ids (yxz_index n q) = Some (cid qs q)) ->
  generate_quads d g ids (Mesh vs inds) = Ret (Mesh vs (inds ++ flatten (flat_map (etris qs) (g_edges d g)))).
Proof.
  intros d qs ids vs inds Hnd Hqs Hlen Hbad Hids. unfold generate_quads.
  destruct (ofold_inv _ _ (fun done m => m = Mesh vs (inds ++ flatten (flat_map (etris qs) done)))
    (quad_step d n ids) (g_edges d g) (Mesh vs inds)) as (m & Hm & HP).
  - cbn [flat_map flatten]. rewrite app_nil_r. reflexivity.
  - intros done e rest m Hes ->.
    assert (He : In e (g_edges d g)) by (rewrite Hes; apply in_or_app; right; left; reflexivity).
    assert (Hae : In e (all_edges g)) by (unfold all_edges; rewrite !in_app_iff; destruct d; cbn [g_edges] in He; auto).
    unfold quad_step. rewrite adjacent_cells_ok; [|apply (size_valid g solid Hrep)|apply (edges_in g solid Hrep); assumption].
    cbn [obind]. rewrite flat_map_app. cbn [flat_map]. rewrite app_nil_r, flatten_app, app_assoc.
    set (acc := inds ++ flatten (flat_map (etris qs) done)).
    unfold etris, around_quad, inner_b.
    rewrite (key_axis d e He). cbn [fst snd].
    pose proof (cells_around_nodup d (lesser_endpoint e)) as Hcn.
    assert (Hsurf : forall q, In q (cells_around d (lesser_endpoint e)) -> is_cell_in_grid n q = true -> In q qs).
    { intros q Hq Hc. apply Hqs. apply (around_surface e); [assumption| |rewrite (key_axis d e He); assumption].
      apply is_cell_in_grid_ok; [apply (size_valid g solid Hrep)|assumption]. }
    assert (Hlist : exists c0 c1 c2 c3, cells_around d (lesser_endpoint e) = [c0; c1; c2; c3])
      by (unfold cells_around; eauto).
    destruct Hlist as (c0 & c1 & c2 & c3 & Hc). rewrite Hc in *. cbn [map forallb].
    assert (Hb : forall c, In c [c0; c1; c2; c3] -> (cell_index_or_bad n c =? kBadIndex) = negb (is_cell_in_grid n c)).
    { intros c _. unfold cell_index_or_bad. destruct (is_cell_in_grid n c) eqn:X; [|apply Z.eqb_refl].
      apply index_not_bad. apply is_cell_in_grid_ok; [apply (size_valid g solid Hrep)|assumption]. }
    rewrite !Hb by (cbn [In]; auto).
    destruct (is_cell_in_grid n c0) eqn:I0; cbn [negb orb andb];
      [|eexists; split; [reflexivity|]; cbn [flatten]; rewrite app_nil_r; reflexivity].
    destruct (is_cell_in_grid n c1) eqn:I1; cbn [negb orb andb];
      [|eexists; split; [reflexivity|]; cbn [flatten]; rewrite app_nil_r; reflexivity].
    destruct (is_cell_in_grid n c2) eqn:I2; cbn [negb orb andb];
      [|eexists; split; [reflexivity|]; cbn [flatten]; rewrite app_nil_r; reflexivity].
    destruct (is_cell_in_grid n c3) eqn:I3; cbn [negb orb andb];
      [|eexists; split; [reflexivity|]; cbn [flatten]; rewrite app_nil_r; reflexivity].
    assert (Q0 : In c0 qs) by (apply Hsurf; cbn [In]; auto).
    assert (Q1 : In c1 qs) by (apply Hsurf; cbn [In]; auto).
    assert (Q2 : In c2 qs) by (apply Hsurf; cbn [In]; auto).
    assert (Q3 : In c3 qs) by (apply Hsurf; cbn [In]; auto).
    unfold cell_index_or_bad. rewrite I0, I1, I2, I3.
    rewrite !Hids by assumption. cbn [oread obind].
    destruct (cid_in qs c0 Q0) as (_ & R0 & _). destruct (cid_in qs c1 Q1) as (_ & R1 & _).
    destruct (cid_in qs c2 Q2) as (_ & R2 & _). destruct (cid_in qs c3 Q3) as (_ & R3 & _).
    assert (Nb : forall k, 0 <= k < zlen qs -> negb (k =? kBadIndex) = true)
      by (intros k Hk; apply negb_true_iff, Z.eqb_neq; lia).
    rewrite !Nb by assumption. cbn [andb oassert obind]. rewrite negb_involutive.
    destruct (rep_edge g solid Hrep d e He) as [_ Hls]. rewrite Hls.
    assert (Hnd4 : NoDup [cid qs c0; cid qs c1; cid qs c2; cid qs c3]).
    { change (NoDup (map (cid qs) [c0; c1; c2; c3])). apply NoDup_map_inj; [|assumption].
      intros a b Ha Hb'. apply cid_inj; cbn [In] in *; intuition (subst; assumption). }
    destruct (solid (lesser_endpoint e)) eqn:Sol.
    + rewrite add_triangle_ok by (cbn [m_verts]; lia). cbn [obind m_verts m_inds].
      rewrite add_triangle_ok by (cbn [m_verts]; lia). cbn [m_verts m_inds].
      eexists. split; [reflexivity|]. rewrite <- app_assoc, <- flatten_app, <- filter_app. cbn [app].
      pose proof (quad_nondegenerate true _ _ _ _ Hnd4) as X. cbn [quad_tris] in X |- *. exact (f_equal (fun t => Mesh vs (acc ++ flatten t)) X).
    + rewrite add_triangle_ok by (cbn [m_verts]; lia). cbn [obind m_verts m_inds].
      rewrite add_triangle_ok by (cbn [m_verts]; lia). cbn [m_verts m_inds].
      eexists. split; [reflexivity|]. rewrite <- app_assoc, <- flatten_app, <- filter_app. cbn [app].
      pose proof (quad_nondegenerate false _ _ _ _ Hnd4) as X. cbn [quad_tris] in X |- *. exact (f_equal (fun t => Mesh vs (acc ++ flatten t)) X).
  - rewrite Hm, HP. reflexivity.
Qed.

Lemma dual_contouring_ok : forall sort, sorts dc_less sort ->
  exists qs es, NoDup qs /\ StronglySorted Z.lt (map (yxz_index n) qs) /\
    (forall q, In q qs <-> surface_cell n solid q) /\ zlen qs < kBadIndex /\
    (forall q, In q qs -> Permutation (es q) (filter (has_edge q) (all_edges g))) /\
    dual_contouring sort qef g =
      Ret (Mesh (map (fun q => dual_vertex qef q (es q) (map mat_at (cell_corners q))) qs)
                (flatten (flat_map (etris qs) (all_edges g)))).
Proof.
  intros sort Hsort. pose proof (size_valid g solid Hrep) as Hv.
  destruct (valid_even n Hv) as (h & Hn & Hb & _). destruct (cube_bound n h Hn Hb) as [_ B3].
  unfold dual_contouring. rewrite !collect_ok'. cbn [obind]. rewrite collect_ok'. cbn [obind]. rewrite collect_ok'. cbn [obind app].
  rewrite <- !flat_map_app, <- app_assoc. fold (all_edges g).
  set (l := flat_map ent (all_edges g)).
  destruct (Hsort l) as [Hperm Hsrt]. set (sl := sort l) in *.
  destruct (groups_ok (dc_group qef g) (length sl) sl Hsrt (le_n _)) as (ks & K1 & K2 & K3).
  assert (Kin : forall k, In k ks <-> exists q, surface_cell n solid q /\ k = yxz_index n q).
  { intro k. rewrite K2, <- ent_keys. fold l.
    split; intro H; (eapply Permutation_in; [|exact H]); apply Permutation_map; [apply Permutation_sym|]; assumption. }
  destruct (lift_keys n ks) as (qs & Hqs & Hcin).
  { apply Forall_forall. intros k Hk. apply Kin in Hk as (q & [Hq _] & ->). exists q. auto. }
  set (es := fun q => map snd (filter (fun x : dc_entry E => fst x =? yxz_index n q) sl)).
  rewrite Forall_forall in Hcin.
  assert (Hqin : forall q, In q qs <-> surface_cell n solid q).
  { intro q. split.
    - intro H. assert (Hk : In (yxz_index n q) ks) by (rewrite <- Hqs; apply in_map; assumption).
      apply Kin in Hk as (q' & Hq' & Heq). apply yxz_index_inj in Heq; try assumption.
      + subst q'. assumption.
      + apply cell_vertex_in, Hcin. assumption.
      + apply cell_vertex_in. apply Hq'.
    - intro H. assert (Hk : In (yxz_index n q) ks) by (apply Kin; exists q; auto).
      rewrite <- Hqs in Hk. apply in_map_iff in Hk as (q' & Heq & Hin). apply yxz_index_inj in Heq; try assumption.
      + subst q'. assumption.
      + apply cell_vertex_in, Hcin. assumption.
      + apply cell_vertex_in. apply H. }
  assert (Hnd : NoDup qs).
  { apply (NoDup_map_inv (yxz_index n)). rewrite Hqs. clear -K1. induction ks as [|k ks IH]; constructor;
      apply StronglySorted_inv in K1 as [K1 Kk]; auto. intro X. rewrite Forall_forall in Kk. apply Kk in X. lia. }
  assert (Hlen : zlen qs <= 1076890625).
  { rewrite <- (zlen_map _ _ (yxz_index n)), Hqs. eapply Z.le_trans.
    - apply (strict_length ks 0 ((n + 1) * (n + 1) * (n + 1))); [assumption| |nia].
      apply Forall_forall. intros k Hk. apply Kin in Hk as (q & [Hq _] & ->).
      apply point_to_index_ok; [assumption|apply cell_vertex_in; assumption].
    - lia. }
  exists qs, es. split; [assumption|]. split; [rewrite Hqs; assumption|]. split; [assumption|]. split; [unfold kBadIndex, u32max; lia|]. split.
  { intros q Hq. unfold es. rewrite <- (ent_filter q (all_edges g)) by (apply Hcin; assumption). fold l.
    apply Permutation_map. apply Permutation_sym.
    clear -Hperm. induction Hperm; cbn [filter]; repeat match goal with |- context [if ?b then _ else _] => destruct b end;
      try reflexivity; try (constructor; assumption); try assumption; try apply perm_swap.
    transitivity (filter (fun x => fst x =? yxz_index n q) l'); assumption. }
  set (dv := fun q => dual_vertex qef q (es q) (map mat_at (cell_corners q))).
  rewrite K3, <- Hqs, ofold_map.
  set (ids0 := fun i => if (0 <=? i) && (i <? data_size n) then Some kBadIndex else None).
  assert (Hds : data_size n = (n + 1) * (n + 1) * (n + 1)) by (apply data_size_valid; assumption).
  destruct (ofold_inv _ _ (fun done st => fst st = Mesh (map dv done) [] /\
      forall q, vertex_in n q -> snd st (yxz_index n q) = Some (cid done q))
    (fun st q => dc_group qef g (yxz_index n q) (map snd (filter (fun x : dc_entry E => fst x =? yxz_index n q) sl)) st)
    qs (mesh_new, ids0)) as (st & Hst & HP1 & HP2).
  - split; [reflexivity|]. intros q Hq. cbn [snd]. unfold ids0, cid. cbn [pos_of].
    destruct (point_to_index_ok n q Hv Hq) as [_ Hi].
    destruct (Z.leb_spec 0 (yxz_index n q)); [|lia]. destruct (Z.ltb_spec (yxz_index n q) (data_size n)); [|lia]. reflexivity.
  - intros done q rest [m ids] Heq [Hm Hids]. cbn [fst snd] in Hm, Hids. subst m.
    assert (Hq : In q qs) by (rewrite Heq; apply in_or_app; right; left; reflexivity).
    assert (Hqc : cell_in n q) by (apply Hcin; assumption).
    unfold dc_group. rewrite lower_ok, materials_ok by assumption. cbn [obind].
    change (dual_vertex qef q (map snd (filter (fun x : dc_entry E => fst x =? yxz_index n q) sl)) (map mat_at (cell_corners q))) with (dv q).
    assert (Hz : zlen (map dv done) + 1 <= two32).
    { rewrite zlen_map. rewrite Heq, zlen_app, zlen_cons in Hlen. pose proof (zlen_nonneg _ rest). unfold two32. lia. }
    rewrite (add_vertex_ok _ (Mesh (map dv done) []) (dv q) Hz). cbn [obind m_verts m_inds].
    assert (Hqv : vertex_in n q) by (apply cell_vertex_in; assumption).
    destruct (point_to_index_ok n q Hv Hqv) as [_ Hi].
    unfold array_write. rewrite Hds.
    destruct (Z.leb_spec 0 (yxz_index n q)); [|lia]. destruct (Z.ltb_spec (yxz_index n q) ((n + 1) * (n + 1) * (n + 1))); [|lia].
    cbn [andb obind]. eexists. split; [reflexivity|]. cbn [fst snd]. split.
    + rewrite map_app. reflexivity.
    + intros q' Hq'. rewrite zlen_map.
      assert (Hnin : ~ In q done).
      { intro X. rewrite Heq in Hnd. apply NoDup_remove_2 in Hnd. apply Hnd. apply in_or_app. left. assumption. }
      destruct (Z.eqb_spec (yxz_index n q') (yxz_index n q)) as [X|X].
      * apply yxz_index_inj in X; try assumption. subst q'. f_equal. symmetry. unfold cid.
        rewrite (pos_of_nodup (done ++ [q]) 0 q (zlen done)); [lia| |].
        -- rewrite Heq in Hnd. replace (done ++ q :: rest) with ((done ++ [q]) ++ rest) in Hnd by (rewrite <- app_assoc; reflexivity).
           clear -Hnd. induction (done ++ [q]) as [|a l IH]; constructor; cbn [app] in Hnd; inversion Hnd; subst; auto.
           intro X. apply H1. apply in_or_app. left. assumption.
        -- rewrite znth_app_r by lia. rewrite Z.sub_diag. reflexivity.
      * rewrite Hids by assumption. f_equal. unfold cid.
        assert (Hpa : forall l b, pos_of b (l ++ [q]) q' = match pos_of b l q' with Some k => Some k | None => None end).
        { assert (Hne : veqb q q' = false) by (destruct (veqb q q') eqn:Y; [apply veqb_eq in Y; subst; contradiction|reflexivity]).
          induction l0 as [|a l0 IHl]; intro b; cbn [app pos_of]; [rewrite Hne; reflexivity|].
          destruct (veqb a q'); [reflexivity|apply IHl]. }
        rewrite Hpa. destruct (pos_of 0 done q'); reflexivity.
  - match goal with |- obind ?o _ = _ => replace o with (Ret st) by (symmetry; exact Hst) end.
    destruct st as [m ids]. cbn [fst snd] in HP1, HP2. subst m. cbn [obind].
    assert (Hids : forall q, In q qs -> ids (yxz_index n q) = Some (cid qs q))
      by (intros q Hq; apply HP2, cell_vertex_in, Hcin; assumption).
    assert (Hlt : zlen qs < kBadIndex) by (unfold kBadIndex, u32max; lia).
    rewrite (quads_ok AX qs ids (map dv qs) []) by (try assumption; apply zlen_map). cbn [obind app].
    rewrite (quads_ok AY qs ids (map dv qs)) by (try assumption; apply zlen_map). cbn [obind].
    rewrite (quads_ok AZ qs ids (map dv qs)) by (try assumption; apply zlen_map).
    rewrite <- !flatten_app, <- !flat_map_app, <- app_assoc. reflexivity.
Qed.

End Represented.
