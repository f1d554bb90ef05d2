(* Correctness of marching cubes on grids that represent a solid. *)
From Coq Require Import ZArith List Bool Lia Sorted Permutation.
From Verif Require Import Base Arith Tables MeshModel MeshSpec MeshProofs GridModel GridSpec GridProofs
  EdgeModel EdgeSpec EdgeProofs FillModel FillSpec LoopLemmas FillProofs MCModel CellSpec CellTables MergeProofs.
Import ListNotations.
Local Open Scope Z_scope.

(* ------------------------------------------------------------------ *)
(* Numbering of the stored edges                                       *)
(* ------------------------------------------------------------------ *)

Fixpoint indexed {A} (base : Z) (l : list A) : list (Z * A) :=
  match l with [] => [] | a :: l' => (base, a) :: indexed (base + 1) l' end.

Lemma indexed_app : forall A (l1 l2 : list A) b,
  indexed b (l1 ++ l2) = indexed b l1 ++ indexed (b + zlen l1) l2.
Proof.
  induction l1 as [|a l1 IH]; intros l2 b; cbn [indexed app].
  - f_equal. unfold zlen; simpl; lia.
  - rewrite IH. do 2 f_equal. unfold zlen. cbn [length]. f_equal. lia.
Qed.

(* Position of [p] in the list, counted from [base]. *)
Fixpoint pos_of (base : Z) (l : list ivec3) (p : ivec3) : option Z :=
  match l with
  | [] => None
  | a :: l' => if veqb a p then Some base else pos_of (base + 1) l' p
  end.

Lemma zlen_cons : forall A (a : A) l, zlen (a :: l) = zlen l + 1.
Proof. intros. unfold zlen. cbn [length]. lia. Qed.

Lemma pos_of_some : forall l b p k, pos_of b l p = Some k ->
  b <= k < b + zlen l /\ znth l (k - b) = Some p.
Proof.
  induction l as [|a l IH]; intros b p k H; cbn [pos_of] in H; [discriminate|].
  rewrite zlen_cons. pose proof (zlen_nonneg _ l). destruct (veqb a p) eqn:E.
  - injection H as <-. apply veqb_eq in E. subst a. rewrite Z.sub_diag. split; [lia|reflexivity].
  - apply IH in H as [H1 H2]. split; [lia|]. rewrite znth_cons by lia. rewrite <- H2. f_equal. lia.
Qed.

Lemma pos_of_none : forall l b p, pos_of b l p = None <-> ~ In p l.
Proof.
  induction l as [|a l IH]; intros b p; cbn [pos_of].
  - split; [intros _ []|reflexivity].
  - destruct (veqb a p) eqn:E.
    + apply veqb_eq in E. split; [discriminate|]. intro H. destruct H. left; assumption.
    + rewrite IH. assert (a <> p) by (intros ->; rewrite (proj2 (veqb_eq p p) eq_refl) in E; discriminate).
      cbn [In]. tauto.
Qed.

Lemma pos_of_nodup : forall l b p k, NoDup l -> znth l k = Some p -> pos_of b l p = Some (b + k).
Proof.
  induction l as [|a l IH]; intros b p k Hnd H.
  - unfold znth in H. destruct (k <? 0); [discriminate|]. destruct (Z.to_nat k); discriminate.
  - inversion Hnd; subst. cbn [pos_of].
    assert (Hk : 0 <= k) by (apply znth_in in H as [_ H]; lia).
    destruct (Z.eq_dec k 0) as [->|Hk0].
    + cbn in H. injection H as ->. rewrite (proj2 (veqb_eq p p) eq_refl). f_equal. lia.
    + rewrite znth_cons in H by lia.
      assert (a <> p) by (intros ->; apply znth_in in H as [H _]; contradiction).
      destruct (veqb a p) eqn:E; [apply veqb_eq in E; contradiction|].
      rewrite (IH (b + 1) p (k - 1)) by assumption. f_equal. lia.
Qed.

(* ------------------------------------------------------------------ *)
(* collectCellEdges                                                    *)
(* ------------------------------------------------------------------ *)

(* What is pushed for the edges starting at [pts] to the list of the cells in which
   the edge has offset [o]. *)
Definition slot_list (n : Z) (o : ivec3) (base : Z) (pts : list ivec3) : list entry :=
  flat_map (fun kp => let c := vsub (snd kp) o in
              if is_cell_in_grid n c then [(yxz_index n c, fst kp)] else []) (indexed base pts).

Lemma slot_list_snoc : forall n o b l p, valid_size n ->
  slot_list n o b (l ++ [p]) = push (cell_index_or_bad n (vsub p o)) (b + zlen l) (slot_list n o b l).
Proof.
  intros n o b l p Hv. unfold slot_list. rewrite indexed_app, flat_map_app. cbn [indexed flat_map fst snd].
  rewrite app_nil_r. unfold push, cell_index_or_bad. destruct (is_cell_in_grid n (vsub p o)) eqn:E.
  - assert (Hc : cell_in n (vsub p o)) by (apply is_cell_in_grid_ok; assumption).
    assert (Hvx : vertex_in n (vsub p o)) by (apply Hc; apply in_cell_corners; lia).
    destruct (point_to_index_ok n _ Hv Hvx) as [_ Hi].
    destruct (valid_even n Hv) as (h & Hn & Hb & _). destruct (cube_bound n h Hn Hb) as [_ B3].
    destruct (Z.eqb_spec (yxz_index n (vsub p o)) kBadIndex) as [X|X]; [unfold kBadIndex, u32max in X; lia|reflexivity].
  - rewrite Z.eqb_refl, app_nil_r. reflexivity.
Qed.

(* offsets of the edge in the four cells around it *)
Definition around_offsets (d : axis) : list ivec3 :=
  let u := unit_vec (next_axis d) in
  let v := unit_vec (next_axis (next_axis d)) in
  [vadd u v; v; V3 0 0 0; u].

Lemma cells_around_offsets : forall d p, cells_around d p = map (vsub p) (around_offsets d).
Proof.
  intros d [x y z]. destruct d; unfold cells_around, around_offsets, vsub, vadd; cbn [next_axis unit_vec vx vy vz map];
    repeat (apply (f_equal2 (@cons ivec3)); [f_equal; lia|]); reflexivity.
Qed.

Section Collect.
Context {E : fpenv}.

Lemma collect_ok : forall d (g : ugrid E) vs inds,
  valid_size (g_size g) -> (forall e, In e (g_edges d g) -> edge_in (g_size g) d (lesser_endpoint e)) ->
  zlen vs + zlen (g_edges d g) <= two32 ->
  let L := fun o => slot_list (g_size g) o (zlen vs) (map lesser_endpoint (g_edges d g)) in
  collect_cell_edges d g (Mesh vs inds) =
    match map L (around_offsets d) with
    | [l0; l1; l2; l3] => Ret (Mesh (vs ++ map edge_vertex (g_edges d g)) inds, l0, l1, l2, l3)
    | _ => UB
    end.
Proof.
  intros d g vs inds Hv He Hlen L. unfold collect_cell_edges.
  set (es := g_edges d g) in *.
  set (u := unit_vec (next_axis d)). set (v := unit_vec (next_axis (next_axis d))).
  set (P := fun (done : list (uedge (fp_F E))) (st : collect_state E) => st =
    (Mesh (vs ++ map edge_vertex done) inds,
     slot_list (g_size g) (vadd u v) (zlen vs) (map lesser_endpoint done),
     slot_list (g_size g) v (zlen vs) (map lesser_endpoint done),
     slot_list (g_size g) (V3 0 0 0) (zlen vs) (map lesser_endpoint done),
     slot_list (g_size g) u (zlen vs) (map lesser_endpoint done))).
  destruct (ofold_inv _ _ P (collect_step d (g_size g)) es (Mesh vs inds, [], [], [], [])) as (st & Hst & HP).
  - unfold P. cbn [map]. rewrite app_nil_r. reflexivity.
  - intros done e rest st Hes Hst. unfold P in Hst. subst st. unfold collect_step.
    assert (Hlen' : zlen (vs ++ map edge_vertex done) + 1 <= two32).
    { rewrite zlen_app. unfold zlen in *. rewrite map_length. rewrite Hes, app_length in Hlen. cbn [length] in Hlen. lia. }
    pose proof (add_vertex_ok _ (Mesh (vs ++ map edge_vertex done) inds) (edge_vertex e) Hlen') as Hadd.
    rewrite Hadd. cbn [obind m_verts m_inds].
    rewrite adjacent_cells_ok; [|assumption|apply He; rewrite Hes; apply in_or_app; right; left; reflexivity].
    rewrite cells_around_offsets. cbn [obind map around_offsets].
    fold u v. eexists. split; [reflexivity|]. unfold P. rewrite !map_app. cbn [map].
    rewrite !slot_list_snoc by assumption.
    assert (Hz : zlen vs + zlen (map lesser_endpoint done) = zlen (vs ++ map edge_vertex done)).
    { rewrite zlen_app. unfold zlen. rewrite !map_length. reflexivity. }
    rewrite Hz. rewrite app_assoc. reflexivity.
  - rewrite Hst, HP. reflexivity.
Qed.
End Collect.

(* ------------------------------------------------------------------ *)
(* The entry lists are sorted                                          *)
(* ------------------------------------------------------------------ *)

Lemma cell_vertex_in : forall n c, cell_in n c -> vertex_in n c.
Proof. intros n c H. apply H. apply in_cell_corners. lia. Qed.

Lemma in_slot_list : forall n o pts b x, In x (slot_list n o b pts) ->
  exists p, In p pts /\ is_cell_in_grid n (vsub p o) = true /\ fst x = yxz_index n (vsub p o).
Proof.
  intros n o pts b x H. unfold slot_list in H. apply in_flat_map in H as ((k & p) & Hin & Hx).
  cbn [fst snd] in Hx. destruct (is_cell_in_grid n (vsub p o)) eqn:E; [|destruct Hx].
  destruct Hx as [<-|[]]. exists p. split; [|auto].
  revert b Hin. induction pts as [|a pts IH]; intros b Hin; cbn [indexed] in Hin; [destruct Hin|].
  destruct Hin as [Heq|Hin]; [injection Heq as _ ->; left; reflexivity|right; eapply IH; eassumption].
Qed.

Lemma slot_list_strict : forall n o pts b, valid_size n -> StronglySorted yxz_lt pts ->
  strict (slot_list n o b pts) /\ below_bad (slot_list n o b pts).
Proof.
  intros n o pts b Hv Hs. split.
  - revert b. induction pts as [|p pts IH]; intro b; [constructor|].
    apply StronglySorted_inv in Hs as [Hs Hp]. specialize (IH Hs (b + 1)).
    unfold slot_list in *. cbn [indexed flat_map fst snd].
    destruct (is_cell_in_grid n (vsub p o)) eqn:E; [|exact IH].
    constructor; [exact IH|]. apply Forall_forall. intros x Hx.
    apply (in_slot_list n o pts (b + 1)) in Hx as (q & Hq & Hqc & ->). cbn [fst].
    rewrite Forall_forall in Hp. specialize (Hp q Hq).
    apply yxz_index_lt; [assumption| | |].
    + apply cell_vertex_in, is_cell_in_grid_ok; assumption.
    + apply cell_vertex_in, is_cell_in_grid_ok; assumption.
    + unfold yxz_lt, vsub in *. cbn [vx vy vz]. lia.
  - apply Forall_forall. intros x Hx. apply in_slot_list in Hx as (p & _ & Hc & ->).
    apply is_cell_in_grid_ok in Hc; [|assumption]. apply cell_vertex_in in Hc.
    destruct (point_to_index_ok n _ Hv Hc) as [_ Hi].
    destruct (valid_even n Hv) as (h & Hn & Hb & _). destruct (cube_bound n h Hn Hb) as [_ B3].
    unfold kBadIndex, u32max. lia.
Qed.

Lemma assoc_slot_list : forall n o q pts b, valid_size n -> cell_in n q ->
  assoc (yxz_index n q) (slot_list n o b pts) = pos_of b pts (vadd q o).
Proof.
  intros n o q pts b Hv Hq. revert b. induction pts as [|p pts IH]; intro b; [reflexivity|].
  unfold slot_list in *. cbn [indexed flat_map fst snd pos_of].
  assert (Heq : veqb p (vadd q o) = true <-> vsub p o = q).
  { rewrite veqb_eq. destruct p as [x y z], q as [x' y' z'], o as [a b' c]. unfold vsub, vadd. cbn [vx vy vz].
    split; intro H; injection H as H1 H2 H3; f_equal; lia. }
  destruct (is_cell_in_grid n (vsub p o)) eqn:E.
  - cbn [app assoc]. apply is_cell_in_grid_ok in E; [|assumption].
    destruct (Z.eqb_spec (yxz_index n (vsub p o)) (yxz_index n q)) as [X|X].
    + apply yxz_index_inj in X; [|assumption|apply cell_vertex_in; assumption|apply cell_vertex_in; assumption].
      apply Heq in X. rewrite X. reflexivity.
    + destruct (veqb p (vadd q o)); [|apply IH]. destruct X. f_equal. apply Heq. reflexivity.
  - cbn [app]. destruct (veqb p (vadd q o)); [|apply IH].
    rewrite (proj1 Heq eq_refl) in E. apply is_cell_in_grid_ok in Hq; [congruence|assumption].
Qed.

(* ------------------------------------------------------------------ *)
(* Number of edges                                                     *)
(* ------------------------------------------------------------------ *)

Lemma flat_map_const_length : forall A B (f : A -> list B) k l, (forall a, In a l -> zlen (f a) = k) ->
  zlen (flat_map f l) = k * zlen l.
Proof.
  induction l as [|a l IH]; intro H; cbn [flat_map]; [unfold zlen; simpl; lia|].
  rewrite zlen_app, zlen_cons, IH, H; [lia|left; reflexivity|intros; apply H; right; assumption].
Qed.

Lemma zlen_map : forall A B (f : A -> B) l, zlen (map f l) = zlen l.
Proof. intros. unfold zlen. rewrite map_length. reflexivity. Qed.

Lemma edge_points_length : forall n d, valid_size n -> zlen (edge_points n d) = n * (n + 1) * (n + 1).
Proof.
  intros n d Hv. destruct (valid_even n Hv) as (h & Hn & Hb & _ & E2).
  unfold edge_points.
  assert (Hst : forall a, zlen (starts n d a) = if axis_eqb d a then n else n + 1).
  { intro a. unfold starts. rewrite E2. rewrite zlen_zrange; destruct (axis_eqb d a); lia. }
  rewrite (flat_map_const_length _ _ _ (zlen (starts n d AX) * zlen (starts n d AZ))).
  - rewrite !Hst. destruct d; cbn [axis_eqb]; lia.
  - intros y _. rewrite (flat_map_const_length _ _ _ (zlen (starts n d AZ))).
    + lia.
    + intros x _. apply zlen_map.
Qed.

Lemma filter_zlen : forall A (f : A -> bool) l, zlen (filter f l) <= zlen l.
Proof.
  induction l as [|a l IH]; cbn [filter]; [lia|]. destruct (f a); rewrite ?zlen_cons; lia.
Qed.

Section Represented.
Context {E : fpenv}.
Variables (g : ugrid E) (solid : ivec3 -> bool).
Hypothesis Hrep : represents_edges g solid.
Notation n := (g_size g).

Definition pts (d : axis) : list ivec3 := map lesser_endpoint (g_edges d g).
Definition base (d : axis) : Z :=
  match d with AX => 0 | AY => zlen (g_edges AX g) | AZ => zlen (g_edges AX g) + zlen (g_edges AY g) end.
Definition all_edges : list (uedge (fp_F E)) := g_edges AX g ++ g_edges AY g ++ g_edges AZ g.

(* vertex number of an edge of the grid *)
Definition vid (e : gedge) : option Z := pos_of (base (fst e)) (pts (fst e)) (snd e).

Lemma size_valid : valid_size n.
Proof. apply Hrep. Qed.

Lemma in_pts : forall d p, In p (pts d) <-> edge_in n d p /\ edge_crosses solid (d, p) = true.
Proof.
  intros d p. unfold pts. rewrite (rep_edges g solid Hrep). rewrite filter_In, in_edge_points by apply size_valid.
  reflexivity.
Qed.

Lemma pts_sorted : forall d, StronglySorted yxz_lt (pts d).
Proof. intro d. unfold pts. rewrite (rep_edges g solid Hrep). apply sorted_filter, edge_points_sorted. Qed.

Lemma edges_bound : forall d, zlen (g_edges d g) <= 1075840000.
Proof.
  intro d. rewrite <- (zlen_map _ _ lesser_endpoint). rewrite (rep_edges g solid Hrep).
  eapply Z.le_trans; [apply filter_zlen|]. rewrite edge_points_length by apply size_valid.
  destruct (valid_even n size_valid) as (h & Hn & Hb & _). nia.
Qed.

Lemma edges_in : forall d e, In e (g_edges d g) -> edge_in n d (lesser_endpoint e).
Proof. intros d e He. apply in_pts. unfold pts. apply in_map. assumption. Qed.

(* ---- vertex numbers ---- *)

Lemma vid_bound : forall e k, vid e = Some k -> base (fst e) <= k < base (fst e) + zlen (g_edges (fst e) g).
Proof. intros [d p] k H. unfold vid in H. apply pos_of_some in H as [H _]. unfold pts in H. rewrite zlen_map in H. exact H. Qed.

Lemma vid_range : forall e k, vid e = Some k -> 0 <= k < zlen all_edges.
Proof.
  intros e k H. apply vid_bound in H. unfold all_edges. rewrite !zlen_app.
  pose proof (zlen_nonneg _ (g_edges AX g)). pose proof (zlen_nonneg _ (g_edges AY g)).
  pose proof (zlen_nonneg _ (g_edges AZ g)). destruct (fst e); cbn [base] in H; lia.
Qed.

Lemma vid_inj : forall e e' k, vid e = Some k -> vid e' = Some k -> e = e'.
Proof.
  intros [d p] [d' p'] k H H'. pose proof (vid_bound _ _ H) as B. pose proof (vid_bound _ _ H') as B'.
  cbn [fst] in B, B'.
  assert (d = d').
  { pose proof (zlen_nonneg _ (g_edges AX g)). pose proof (zlen_nonneg _ (g_edges AY g)).
    destruct d, d'; try reflexivity; cbn [base] in B, B'; lia. }
  subst d'. unfold vid in H, H'. cbn [fst snd] in H, H'. apply pos_of_some in H as [_ H]. apply pos_of_some in H' as [_ H'].
  congruence.
Qed.

Lemma vid_none : forall e, vid e = None <-> ~ (edge_in n (fst e) (snd e) /\ edge_crosses solid e = true).
Proof. intros [d p]. unfold vid. cbn [fst snd]. rewrite pos_of_none, in_pts. reflexivity. Qed.

Lemma vid_some : forall e, is_some (vid e) = true <-> edge_in n (fst e) (snd e) /\ edge_crosses solid e = true.
Proof.
  intro e. pose proof (vid_none e) as H. destruct (vid e) as [k|] eqn:Ek; cbn [is_some].
  - split; [intros _|reflexivity]. destruct (edge_crosses solid e) eqn:X.
    + split; [|reflexivity]. destruct e as [d p]. unfold vid in Ek. cbn [fst snd] in *.
      apply pos_of_some in Ek as [_ Ek]. apply znth_in in Ek as [Ek _]. apply in_pts in Ek. apply Ek.
    + exfalso. assert (G : Some k = None) by (apply H; intros [_ Y]; discriminate). discriminate.
  - split; [discriminate|]. intro G. exfalso. apply H in G; [assumption|reflexivity].
Qed.

Lemma znth_app_r : forall A (l1 l2 : list A) i, zlen l1 <= i -> znth (l1 ++ l2) i = znth l2 (i - zlen l1).
Proof.
  intros A l1 l2 i H. unfold znth, zlen in *. destruct (Z.ltb_spec i 0); [lia|].
  destruct (Z.ltb_spec (i - Z.of_nat (length l1)) 0); [lia|].
  rewrite nth_error_app2 by lia. f_equal. lia.
Qed.
Lemma znth_app_l : forall A (l1 l2 : list A) i, i < zlen l1 -> znth (l1 ++ l2) i = znth l1 i.
Proof.
  intros A l1 l2 i H. unfold znth, zlen in *. destruct (Z.ltb_spec i 0); [reflexivity|].
  rewrite nth_error_app1 by lia. reflexivity.
Qed.
Lemma znth_map : forall A B (f : A -> B) l i, znth (map f l) i = option_map f (znth l i).
Proof. intros. unfold znth. destruct (i <? 0); [reflexivity|]. apply nth_error_map. Qed.

(* The k-th stored edge is the one numbered k. *)
Lemma all_edges_vid : forall k e, znth all_edges k = Some e ->
  exists d, ue_axis e = axis_num d /\ In e (g_edges d g) /\ vid (d, lesser_endpoint e) = Some k.
Proof.
  intros k e H. pose proof (znth_in _ _ _ _ H) as [_ Hk].
  assert (G : forall d, base d <= k < base d + zlen (g_edges d g) -> znth (g_edges d g) (k - base d) = Some e ->
     exists d, ue_axis e = axis_num d /\ In e (g_edges d g) /\ vid (d, lesser_endpoint e) = Some k).
  { intros d Hb Hz. exists d. pose proof (znth_in _ _ _ _ Hz) as [Hin _].
    destruct (rep_edge g solid Hrep d e Hin) as [Ha _]. split; [assumption|]. split; [assumption|].
    unfold vid. cbn [fst snd].
    rewrite (pos_of_nodup (pts d) (base d) _ (k - base d)).
    - f_equal. lia.
    - apply sorted_nodup, pts_sorted.
    - unfold pts. rewrite znth_map, Hz. reflexivity. }
  unfold all_edges in H, Hk. rewrite !zlen_app in Hk.
  destruct (Z_lt_ge_dec k (zlen (g_edges AX g))) as [L|L].
  - rewrite znth_app_l in H by assumption. apply (G AX); cbn [base]; [lia|]. rewrite Z.sub_0_r. assumption.
  - rewrite znth_app_r in H by lia.
    destruct (Z_lt_ge_dec (k - zlen (g_edges AX g)) (zlen (g_edges AY g))) as [L2|L2].
    + rewrite znth_app_l in H by assumption. apply (G AY); cbn [base]; [lia|assumption].
    + rewrite znth_app_r in H by lia. apply (G AZ); cbn [base]; [lia|]. rewrite <- H. f_equal. lia.
Qed.

(* ---- the collected lists ---- *)

Definition lists : list (list entry) :=
  map (fun i => let e := local_edge i in slot_list n (snd e) (base (fst e)) (pts (fst e))) slots.

Lemma lists_strict : Forall strict lists /\ Forall below_bad lists.
Proof.
  split; apply Forall_forall; intros l Hl; unfold lists in Hl; apply in_map_iff in Hl as (i & <- & _);
    apply slot_list_strict; try apply size_valid; apply pts_sorted.
Qed.

Lemma lists_assoc : forall q, cell_in n q ->
  map (assoc (yxz_index n q)) lists = map (fun i => vid (cell_edge q i)) slots.
Proof.
  intros q Hq. unfold lists. rewrite map_map. apply map_ext. intro i.
  rewrite assoc_slot_list; [|apply size_valid|assumption]. reflexivity.
Qed.

Lemma cell_edge_in : forall q i, cell_in n q -> 0 <= i < 12 -> edge_in n (fst (cell_edge q i)) (snd (cell_edge q i)).
Proof.
  intros q i Hq Hi. destruct (local_edge_ends i Hi) as [H1 H2].
  unfold unit_corners in H1, H2. rewrite in_cell_corners in H1, H2.
  unfold edge_in, element_in, edge_corners. cbn [cell_edge fst snd].
  intros r [<-|[<-|[]]]; apply Hq; apply in_cell_corners; unfold vadd in *; cbn [vx vy vz] in *; lia.
Qed.

Lemma vid_crossing : forall q i, cell_in n q -> 0 <= i < 12 ->
  is_some (vid (cell_edge q i)) = crossing (config solid q) i.
Proof.
  intros q i Hq Hi. rewrite crossing_edge by assumption. apply eq_true_iff_eq. rewrite vid_some.
  pose proof (cell_edge_in q i Hq Hi). tauto.
Qed.

Lemma lists_members : forall c, (exists l, In l lists /\ In c (map fst l)) <->
  exists q, surface_cell n solid q /\ c = yxz_index n q.
Proof.
  intro c. split.
  - intros (l & Hl & Hc). unfold lists in Hl. apply in_map_iff in Hl as (i & <- & Hi).
    apply in_map_iff in Hc as (x & <- & Hx). apply in_slot_list in Hx as (p & Hp & Hcell & Hx).
    apply in_slots in Hi. exists (vsub p (snd (local_edge i))). split; [|assumption]. split.
    + apply is_cell_in_grid_ok; [apply size_valid|assumption].
    + exists i. split; [assumption|]. apply in_pts in Hp as [_ Hp].
      assert (X : cell_edge (vsub p (snd (local_edge i))) i = (fst (local_edge i), p)).
      { unfold cell_edge. f_equal. destruct p as [x' y' z'], (local_edge i) as [d [a b' c']].
        unfold vadd, vsub. cbn [fst snd vx vy vz]. f_equal; lia. }
      rewrite X. assumption.
  - intros (q & (Hq & i & Hi & Hx) & ->).
    exists (slot_list n (snd (local_edge i)) (base (fst (local_edge i))) (pts (fst (local_edge i)))).
    split.
    + unfold lists. apply in_map_iff. exists i. split; [reflexivity|]. apply in_slots; assumption.
    + assert (Hs : is_some (vid (cell_edge q i)) = true).
      { apply vid_some. split; [apply cell_edge_in; assumption|assumption]. }
      unfold vid in Hs. cbn [cell_edge fst snd] in Hs.
      rewrite <- (assoc_slot_list n) in Hs by (apply size_valid || assumption).
      revert Hs. generalize (slot_list n (snd (local_edge i)) (base (fst (local_edge i))) (pts (fst (local_edge i)))).
      intros l. induction l as [|[c v] l IH]; cbn [assoc]; [discriminate|].
      destruct (Z.eqb_spec c (yxz_index n q)) as [->|]; intro Hs; [left; reflexivity|right; auto].
Qed.

(* ---- one cell ---- *)

Definition gid (q : ivec3) (i : Z) : Z := match vid (cell_edge q i) with Some k => k | None => -1 end.
Definition gtri (q : ivec3) (t : triangle) : triangle := let '(i, j, k) := t in (gid q i, gid q j, gid q k).
Definition cell_tris (q : ivec3) : list triangle := map (gtri q) (mc_tris (config solid q)).

Lemma mask_from_map : forall A B (f : A -> bool) (h : B -> A) l i,
  mask_from f i (map h l) = mask_from (fun b => f (h b)) i l.
Proof. induction l as [|b l IH]; intro i; cbn [mask_from map]; [reflexivity|]. rewrite IH. reflexivity. Qed.

Lemma mask_from_ext : forall A (f h : A -> bool) l i, (forall a, In a l -> f a = h a) ->
  mask_from f i l = mask_from h i l.
Proof.
  induction l as [|b l IH]; intros i H; cbn [mask_from]; [reflexivity|].
  rewrite H by (left; reflexivity). rewrite IH; [reflexivity|]. intros; apply H; right; assumption.
Qed.

Hypothesis Hmat : forall p, vertex_in n p ->
  exists m, g_mat g (yxz_index n p) = Some m /\ is_solid m = solid p.

Lemma vertex_mask_ok : forall q, cell_in n q ->
  get_vertex_mask n (g_mat g) (yxz_index n q) = Ret (mask_of (config solid q)).
Proof.
  intros q Hq. unfold get_vertex_mask.
  set (m := fun p => match g_mat g (yxz_index n p) with Some m => m | None => 0 end).
  rewrite (materials_of_cell_ok n (g_mat g) m).
  - cbn [obind]. rewrite mask_from_map. f_equal. unfold mask_of, config. rewrite mask_from_map.
    apply mask_from_ext. intros p Hp. unfold m.
    destruct (Hmat p) as (mm & -> & Hs); [apply Hq; assumption|]. assumption.
  - apply size_valid.
  - assumption.
  - intros p Hp. unfold m. destruct (Hmat p Hp) as (mm & -> & _). reflexivity.
Qed.

Lemma znth_slots_map : forall A (f : Z -> A) i, 0 <= i < 12 -> znth (map f slots) i = Some (f i).
Proof.
  intros A f i Hi. apply in_slots in Hi. cbv in Hi.
  repeat (destruct Hi as [<-|Hi]; [reflexivity|]). destruct Hi.
Qed.

Lemma gid_some : forall q i, cell_in n q -> 0 <= i < 12 -> crossing (config solid q) i = true ->
  vid (cell_edge q i) = Some (gid q i) /\ 0 <= gid q i < zlen all_edges.
Proof.
  intros q i Hq Hi Hc. rewrite <- vid_crossing in Hc by assumption. unfold gid.
  destruct (vid (cell_edge q i)) as [k|] eqn:Ek; [|discriminate]. split; [reflexivity|]. eapply vid_range; eassumption.
Qed.

Lemma cell_edge_inj : forall q i j, 0 <= i < 12 -> 0 <= j < 12 -> cell_edge q i = cell_edge q j -> i = j.
Proof.
  intros q i j Hi Hj He. destruct (Z.eq_dec i j) as [|Hn]; [assumption|]. exfalso.
  assert (Hinj : forallb (fun p => negb (gedge_eqb (local_edge (fst p)) (local_edge (snd p)))) all_pairs = true)
    by (vm_compute; reflexivity).
  rewrite forallb_forall in Hinj. specialize (Hinj (i, j) (in_all_pairs _ _ Hi Hj Hn)). cbn [fst snd] in Hinj.
  assert (local_edge i = local_edge j).
  { assert (D := f_equal fst He). assert (P := f_equal snd He). cbn [cell_edge fst snd] in D, P.
    destruct (local_edge i) as [d [a b c]], (local_edge j) as [d' [a' b' c']]. cbn [fst snd] in *. subst d'.
    unfold vadd in P. cbn [vx vy vz] in P. injection P as P1 P2 P3. do 2 f_equal; lia. }
  rewrite (proj2 (gedge_eqb_eq _ _) H) in Hinj. discriminate.
Qed.

Lemma good_local_spec : forall bs i j k, good_local bs (i, j, k) = true ->
  (0 <= i < 12 /\ crossing bs i = true) /\ (0 <= j < 12 /\ crossing bs j = true) /\
  (0 <= k < 12 /\ crossing bs k = true) /\ i <> j /\ j <> k /\ i <> k.
Proof.
  intros bs i j k H. unfold good_local in H.
  rewrite !andb_true_iff, negb_true_iff, !orb_false_iff, !Z.leb_le, !Z.ltb_lt, !Z.eqb_neq in H. tauto.
Qed.

Lemma gtri_good : forall q t, cell_in n q -> good_local (config solid q) t = true ->
  good_triangle (zlen all_edges) (gtri q t).
Proof.
  intros q [[i j] k] Hq Ht. apply good_local_spec in Ht as ((Hi & Ci) & (Hj & Cj) & (Hk & Ck) & N1 & N2 & N3).
  destruct (gid_some q i Hq Hi Ci) as [Vi Bi]. destruct (gid_some q j Hq Hj Cj) as [Vj Bj].
  destruct (gid_some q k Hq Hk Ck) as [Vk Bk]. unfold gtri, good_triangle.
  assert (D : forall a b, 0 <= a < 12 -> 0 <= b < 12 -> vid (cell_edge q a) = Some (gid q a) ->
     vid (cell_edge q b) = Some (gid q b) -> a <> b -> gid q a <> gid q b).
  { intros a b Ha Hb Va Vb Nab X. rewrite X in Va. pose proof (vid_inj _ _ _ Va Vb) as Y.
    apply cell_edge_inj in Y; [contradiction|assumption|assumption]. }
  repeat match goal with |- _ /\ _ => split end; try lia; apply D; assumption.
Qed.

Lemma mc_triangles_ok : forall V q (m : mesh V) row ts, cell_in n q -> zlen (m_verts m) = zlen all_edges ->
  parse_row row = Some ts -> forallb (good_local (config solid q)) ts = true ->
  mc_triangles row (map (fun i => vid (cell_edge q i)) slots) m =
  Ret (Mesh (m_verts m) (m_inds m ++ flatten (map (gtri q) ts))).
Proof.
  intros V q m row ts Hq Hm.
  assert (W : forall len row ts (m : mesh V), (length row <= len)%nat -> zlen (m_verts m) = zlen all_edges ->
    parse_row row = Some ts -> forallb (good_local (config solid q)) ts = true ->
    mc_triangles row (map (fun i => vid (cell_edge q i)) slots) m =
    Ret (Mesh (m_verts m) (m_inds m ++ flatten (map (gtri q) ts)))).
  { clear row ts m Hm. induction len as [|len IH]; intros row ts m Hlen Hm Hp Hg.
    - destruct row; [discriminate Hp|]. cbn [length] in Hlen. lia.
    - destruct row as [|i row1]; [discriminate Hp|]. cbn [parse_row] in Hp. cbn [mc_triangles].
      destruct (i =? -1).
      + injection Hp as <-. cbn [map flatten]. rewrite app_nil_r. destruct m; reflexivity.
      + destruct row1 as [|j [|k row']]; try discriminate Hp.
        destruct (parse_row row') as [ts'|] eqn:Ep; [|discriminate]. injection Hp as <-.
        cbn [forallb] in Hg. apply andb_true_iff in Hg as [Hg Hg'].
        pose proof (gtri_good q _ Hq Hg) as Hgood.
        apply good_local_spec in Hg as ((Hi & Ci) & (Hj & Cj) & (Hk & Ck) & N1 & N2 & N3).
        destruct (gid_some q i Hq Hi Ci) as [Vi Bi]. destruct (gid_some q j Hq Hj Cj) as [Vj Bj].
        destruct (gid_some q k Hq Hk Ck) as [Vk Bk].
        unfold read_vertex. rewrite !znth_slots_map by assumption. cbn [obind oread]. rewrite Vi, Vj, Vk. cbn [obind oread].
        rewrite add_triangle_ok by (rewrite Hm; lia). cbn [obind].
        rewrite (IH row' ts').
        * cbn [m_verts m_inds map]. unfold gtri at 2.
          cbn [gtri good_triangle] in Hgood. destruct Hgood as (_ & _ & _ & M1 & M2 & M3).
          assert (Hnd : filter nondegenerate [(gid q i, gid q j, gid q k)] = [(gid q i, gid q j, gid q k)]).
          { cbn [filter nondegenerate]. destruct (Z.eqb_spec (gid q i) (gid q j)); [contradiction|].
            destruct (Z.eqb_spec (gid q j) (gid q k)); [contradiction|].
            destruct (Z.eqb_spec (gid q i) (gid q k)); [contradiction|]. reflexivity. }
          rewrite Hnd. cbn [flatten]. rewrite <- app_assoc. reflexivity.
        * cbn [length] in Hlen. lia.
        * exact Hm.
        * assumption.
        * assumption. }
  intros Hp Hg. apply (W (length row)); auto.
Qed.

Lemma mc_cell_ok : forall V q (m : mesh V), cell_in n q -> zlen (m_verts m) = zlen all_edges ->
  mc_cell n (g_mat g) (yxz_index n q) (map (fun i => vid (cell_edge q i)) slots) m =
  Ret (Mesh (m_verts m) (m_inds m ++ flatten (cell_tris q))).
Proof.
  intros V q m Hq Hm. unfold mc_cell. rewrite vertex_mask_ok by assumption. cbn [obind].
  rewrite edge_mask_ok by reflexivity. cbn [obind oread].
  rewrite mask_from_map, (mask_from_ext _ _ (crossing (config solid q))).
  2: { intros i Hi. apply vid_crossing; [assumption|apply in_slots; assumption]. }
  rewrite Z.eqb_refl. cbn [oassert obind].
  destruct (row_ok (config solid q) eq_refl) as (R1 & R2 & R3 & _).
  rewrite R1. cbn [obind oread]. apply mc_triangles_ok; assumption.
Qed.

(* ---- the whole algorithm ---- *)

Lemma ofold_cells : forall V qs (m : mesh V), Forall (cell_in n) qs -> zlen (m_verts m) = zlen all_edges ->
  ofold (fun m q => mc_cell n (g_mat g) (yxz_index n q) (map (fun i => vid (cell_edge q i)) slots) m) qs m =
  Ret (Mesh (m_verts m) (m_inds m ++ flatten (flat_map cell_tris qs))).
Proof.
  induction qs as [|q qs IH]; intros m Hq Hm; cbn [ofold flat_map].
  - cbn [flatten]. rewrite app_nil_r. destruct m; reflexivity.
  - inversion Hq; subst. rewrite mc_cell_ok by assumption. cbn [obind]. rewrite IH by assumption.
    cbn [m_verts m_inds]. rewrite flatten_app, app_assoc. reflexivity.
Qed.

Lemma choose_cells : forall cells, (forall c, In c cells -> exists q, surface_cell n solid q /\ c = yxz_index n q) ->
  exists qs, cells = map (yxz_index n) qs /\ Forall (surface_cell n solid) qs.
Proof.
  induction cells as [|c cells IH]; intro H; [exists []; split; constructor|].
  destruct (H c (or_introl eq_refl)) as (q & Hq & ->).
  destruct IH as (qs & -> & Hqs); [intros; apply H; right; assumption|].
  exists (q :: qs). split; [reflexivity|constructor; assumption].
Qed.

Lemma marching_cubes_run : forall sort, sorts entry_less sort ->
  exists qs, NoDup qs /\ (forall q, In q qs <-> surface_cell n solid q) /\
    marching_cubes sort g = Ret (Mesh (map edge_vertex all_edges) (flatten (flat_map cell_tris qs))).
Proof.
  intros sort Hsort. pose proof (edges_bound AX) as BX. pose proof (edges_bound AY) as BY. pose proof (edges_bound AZ) as BZ.
  pose proof size_valid as Hv.
  assert (Hn0 : zlen (@nil (mvert (fp_F E))) = 0) by reflexivity.
  pose proof (zlen_nonneg _ (g_edges AX g)). pose proof (zlen_nonneg _ (g_edges AY g)).
  unfold marching_cubes, mesh_new.
  rewrite collect_ok; [|assumption|apply edges_in|rewrite Hn0; unfold two32; lia].
  cbn [map around_offsets obind app].
  rewrite collect_ok; [|assumption|apply edges_in|rewrite zlen_map; unfold two32; lia].
  cbn [map around_offsets obind app]. rewrite <- !map_app.
  rewrite collect_ok; [|assumption|apply edges_in|rewrite zlen_map, zlen_app; unfold two32; lia].
  cbn [map around_offsets obind]. rewrite <- !map_app, !zlen_map, zlen_app, <- app_assoc. rewrite Hn0.
  match goal with |- context [mc_loop _ _ ?l _] => assert (HL : l = lists) end.
  { match goal with |- ?l = _ => assert (HL : l = map sort lists) by reflexivity end.
    rewrite HL. rewrite (map_ext_in sort (fun l => l) lists), map_id; [reflexivity|].
    intros l Hl. apply sort_strict; [assumption|].
    pose proof (proj1 lists_strict) as S. rewrite Forall_forall in S. auto. }
  rewrite HL. clear HL. change (g_edges AX g ++ g_edges AY g ++ g_edges AZ g) with all_edges.
  destruct lists_strict as [S1 S2].
  destruct (merge_ok _ (mc_cell n (g_mat g)) (S (total_length lists)) lists (Mesh (map edge_vertex all_edges) []) S1 S2 (le_n _))
    as (cells & Hs & Hmem & Hloop).
  rewrite Hloop.
  destruct (choose_cells cells) as (qs & Hqs & Hall).
  { intros c Hc. apply lists_members. apply Hmem. assumption. }
  exists qs. rewrite Forall_forall in Hall.
  split; [|split].
  - apply NoDup_map_inv with (f := yxz_index n). rewrite <- Hqs. clear -Hs.
    induction cells as [|c cells IH]; constructor; apply StronglySorted_inv in Hs as [Hs Hc]; [|auto].
    intro G. rewrite Forall_forall in Hc. apply Hc in G. lia.
  - intro q. split; [apply Hall|]. intro Hq.
    assert (Hc : In (yxz_index n q) cells) by (apply Hmem, lists_members; exists q; auto).
    rewrite Hqs in Hc. apply in_map_iff in Hc as (q' & Hqq & Hq').
    apply yxz_index_inj in Hqq; [congruence|assumption|apply cell_vertex_in, (Hall q' Hq')|apply cell_vertex_in, Hq].
  - rewrite Hqs, ofold_map.
    rewrite (ofold_ext _ _ _ (fun m q => mc_cell n (g_mat g) (yxz_index n q) (map (fun i => vid (cell_edge q i)) slots) m)).
    + rewrite ofold_cells; [reflexivity| |apply zlen_map].
      apply Forall_forall. intros q Hq. apply (Hall q Hq).
    + intros m q Hq. rewrite lists_assoc by apply (Hall q Hq). reflexivity.
Qed.
End Represented.

Lemma marching_cubes_ok : forall {E} (g : ugrid E) solid, represents g solid -> forall sort, sorts entry_less sort ->
  exists qs, NoDup qs /\ (forall q, In q qs <-> surface_cell (g_size g) solid q) /\
    marching_cubes sort g = Ret (Mesh (map edge_vertex (all_edges g)) (flatten (flat_map (cell_tris g solid) qs))).
Proof. intros E g solid Hr. exact (marching_cubes_run g solid Hr (rep_mat g solid Hr)). Qed.
