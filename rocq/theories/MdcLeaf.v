(* Building the leaves of the octree for manifold dual contouring. *)
From Coq Require Import ZArith List Bool Lia.
From Verif Require Import Base Arith Tables MeshModel MaterialFilterModel GridModel GridSpec GridProofs
  EdgeModel EdgeSpec EdgeProofs FillModel FillSpec LoopLemmas FillProofs MCModel CellSpec CellTables
  MCProofs UdcModel UdcProofs OctreeModel OctreeSpec OctreeSums OctreeProofs OctreeFlux DcModel DcSpec DcBuild
  DualSpec DsuProofs MdcModel MdcSpec MdcTables.
Import ListNotations.
Local Open Scope Z_scope.

(* ---- lists ---- *)

Lemma nth_ext : forall T (l l' : list T), (forall i, nth_error l i = nth_error l' i) -> l = l'.
Proof.
  induction l as [|a l IH]; intros [|a' l'] H; [reflexivity|specialize (H O); discriminate|specialize (H O); discriminate|].
  pose proof (H O) as H0. injection H0 as ->. f_equal. apply IH. intro i. exact (H (S i)).
Qed.

Lemma nth_zseq : forall n a k, nth_error (zseq a n) k = if (k <? n)%nat then Some (a + Z.of_nat k) else None.
Proof.
  induction n as [|n IH]; intros a k; [destruct k; reflexivity|]. cbn [zseq]. destruct k as [|k]; [cbn; f_equal; lia|].
  cbn [nth_error]. rewrite IH. change (S k <? S n)%nat with (k <? n)%nat. destruct (k <? n)%nat; [f_equal; lia|reflexivity].
Qed.

Lemma zseq_len : forall n a, length (zseq a n) = n.
Proof. induction n; intro a; cbn [zseq length]; auto. Qed.

Lemma znth_zseq : forall n a i, znth (zseq a n) i = if (0 <=? i) && (i <? Z.of_nat n) then Some (a + i) else None.
Proof.
  intros n a i. unfold znth. destruct (Z.ltb_spec i 0); destruct (Z.leb_spec 0 i); try lia; cbn [andb]; [reflexivity|].
  rewrite nth_zseq. destruct (Nat.ltb_spec (Z.to_nat i) n), (Z.ltb_spec i (Z.of_nat n)); try lia; [f_equal; lia|reflexivity].
Qed.

Lemma znth_range : forall T (l : list T) i a, znth l i = Some a -> 0 <= i < Z.of_nat (length l).
Proof.
  intros T l i a H. unfold znth in H. destruct (Z.ltb_spec i 0); [discriminate|].
  assert (X : nth_error l (Z.to_nat i) <> None) by congruence. apply nth_error_Some in X. lia.
Qed.

Lemma znth_in : forall T (l : list T) i a, znth l i = Some a -> In a l.
Proof. intros T l i a H. unfold znth in H. destruct (i <? 0); [discriminate|]. eapply nth_error_In; eassumption. Qed.

Lemma in_znth : forall T (l : list T) a, In a l -> exists i, znth l i = Some a.
Proof.
  intros T l a H. apply In_nth_error in H as (k & Hk). exists (Z.of_nat k). unfold znth.
  destruct (Z.ltb_spec (Z.of_nat k) 0); [lia|]. rewrite Nat2Z.id. assumption.
Qed.

Lemma znth_some : forall T (l : list T) i, 0 <= i < Z.of_nat (length l) -> exists a, znth l i = Some a.
Proof.
  intros T l i H. unfold znth. destruct (Z.ltb_spec i 0); [lia|]. destruct (nth_error l (Z.to_nat i)) eqn:X; [eauto|].
  apply nth_error_None in X. lia.
Qed.

Lemma nodup_znth : forall T (l : list T) i j a, NoDup l -> znth l i = Some a -> znth l j = Some a -> i = j.
Proof.
  intros T l i j a H Hi Hj. pose proof (znth_range _ _ _ _ Hi). pose proof (znth_range _ _ _ _ Hj).
  unfold znth in Hi, Hj. destruct (Z.ltb_spec i 0); [lia|]. destruct (Z.ltb_spec j 0); [lia|].
  rewrite NoDup_nth_error in H. assert (Z.to_nat i = Z.to_nat j) by (apply H; [lia|congruence]). lia.
Qed.

Lemma znth_map_zseq' : forall T (f : Z -> T) n i, 0 <= i < Z.of_nat n -> znth (map f (zseq 0 n)) i = Some (f i).
Proof.
  intros T f n i H. rewrite znth_map, znth_zseq. destruct (Z.leb_spec 0 i), (Z.ltb_spec i (Z.of_nat n)); try lia. reflexivity.
Qed.

Lemma set_map_zseq : forall T (f : Z -> T) n s x, 0 <= s < Z.of_nat n ->
  set_nth (map f (zseq 0 n)) (Z.to_nat s) x = map (fun j => if j =? s then x else f j) (zseq 0 n).
Proof.
  intros T f n s x Hs. apply nth_ext. intro i. destruct (Nat.eq_dec (Z.to_nat s) i) as [<-|Hi].
  - rewrite nth_set_eq by (rewrite map_length, zseq_len; lia). symmetry.
    assert (X : nth_error (zseq 0 n) (Z.to_nat s) = Some s).
    { rewrite nth_zseq. destruct (Nat.ltb_spec (Z.to_nat s) n); [f_equal; lia|lia]. }
    rewrite (map_nth_error _ _ _ X), Z.eqb_refl. reflexivity.
  - rewrite nth_set_neq by assumption.
    assert (X : nth_error (zseq 0 n) i = None \/ nth_error (zseq 0 n) i = Some (Z.of_nat i)).
    { rewrite nth_zseq. destruct (i <? n)%nat; auto. }
    destruct X as [X|X].
    + transitivity (@None T); [|symmetry]; apply nth_error_None; rewrite map_length; apply nth_error_None; exact X.
    + rewrite !(map_nth_error _ _ _ X). destruct (Z.eqb_spec (Z.of_nat i) s); [lia|reflexivity].
Qed.

(* ---- the material filter ---- *)

Lemma fast_member : forall ms f, (ff_cand f = Empty -> ff_count f = 0) -> Forall (fun m => m <> Empty) ms ->
  (In (ff_cand (fast_add_all f ms)) ms \/ ff_cand (fast_add_all f ms) = ff_cand f) /\
  (ms <> [] \/ ff_cand f <> Empty -> ff_cand (fast_add_all f ms) <> Empty).
Proof.
  induction ms as [|m ms IH]; intros f Hf Hm; [cbn; tauto|].
  apply Forall_cons_iff in Hm as [Hm Hms]. unfold fast_add_all. cbn [fold_left].
  assert (X : ff_cand (fast_add f m) <> Empty /\ (ff_cand (fast_add f m) = m \/ ff_cand (fast_add f m) = ff_cand f)).
  { unfold fast_add. destruct (Z.eqb_spec m Empty); [contradiction|]. destruct (Z.eqb_spec m (ff_cand f)); cbn [ff_cand]; [subst; auto|].
    destruct (Z.gtb_spec (ff_count f) 1); cbn [ff_cand]; [|auto]. split; [|auto]. intro Y. specialize (Hf Y). lia. }
  destruct X as [X1 X2]. destruct (IH (fast_add f m)) as [I1 I2]; [intro; contradiction|assumption|].
  unfold fast_add_all in *. split; [|intros _; apply I2; auto].
  destruct I1 as [I1|I1]; [left; right; exact I1|]. rewrite I1. destruct X2 as [-> | ->]; [left; left; reflexivity|right; reflexivity].
Qed.

Lemma fast_selected : forall ms, ms <> [] -> Forall (fun m => m <> Empty) ms ->
  In (fast_select (fast_add_all fast_new ms)) ms.
Proof.
  intros ms H Hm. destruct (fast_member ms fast_new (fun _ => eq_refl) Hm) as [H1 H2].
  destruct H1 as [H1|H1]; [exact H1|]. exfalso. apply H2; [left; exact H|exact H1].
Qed.

(* ---- stores ---- *)

Lemma vs_write_ok : forall V (st : vstore V) a v w, vs_at st a = Some v ->
  exists st', vs_write st a w = Ret st' /\ vs_next st' = vs_next st /\ vs_at st' a = Some w /\
    forall b, b <> a -> vs_at st' b = vs_at st b.
Proof.
  intros V st a v w H. unfold vs_write, vs_read. rewrite H. cbn [oread obind]. eexists. split; [reflexivity|].
  cbn [vs_next vs_at]. rewrite Z.eqb_refl. split; [reflexivity|]. split; [reflexivity|]. intros b Hb.
  destruct (Z.eqb_spec b a); [contradiction|reflexivity].
Qed.

Lemma existsb_false : forall a l, ~ In a l -> existsb (Z.eqb a) l = false.
Proof.
  intros a l H. destruct (existsb (Z.eqb a) l) eqn:X; [|reflexivity]. apply existsb_exists in X as (b & Hb & X).
  apply Z.eqb_eq in X. subst. contradiction.
Qed.

Lemma vs_resize_ok : forall V (fresh : V) st old n, (forall a, In a old -> vs_at st a <> None) ->
  exists st' as_, vs_resize fresh st old n = (st', as_) /\ as_ = zseq (vs_next st) n /\ vs_next st' = vs_next st + Z.of_nat n /\
    (forall b, ~ In b old -> b < vs_next st -> vs_at st' b = vs_at st b) /\
    (forall a, In a as_ -> exists v, vs_at st' a = Some v /\ (v = fresh \/ exists a', In a' old /\ vs_at st a' = Some v)).
Proof.
  intros V fresh st old n Hold. unfold vs_resize. eexists _, _. split; [reflexivity|]. split; [reflexivity|].
  cbn [vs_next vs_at vs_delete]. split; [reflexivity|]. split.
  - intros b Hb Hlt. destruct (Z.leb_spec (vs_next st) b); [lia|]. cbn [andb]. rewrite existsb_false by exact Hb. reflexivity.
  - intros a Ha. apply in_zseq in Ha. destruct (Z.leb_spec (vs_next st) a); [|lia].
    destruct (Z.ltb_spec a (vs_next st + Z.of_nat n)); [|lia]. cbn [andb].
    destruct (nth_error old (Z.to_nat (a - vs_next st))) as [a'|] eqn:X; [|eauto].
    apply nth_error_In in X. destruct (vs_at st a') as [v|] eqn:Y; [|exfalso; apply (Hold a' X Y)]. eauto 6.
Qed.

Section Solve.
Context {E : fpenv} {Q S : Type}.
Variable ops : qef_ops (fp_F E) Q S.
Notation F := (fp_F E).
Notation A := (fp_f E).
Notation xvertex := (mdc_vertex F S).
Notation store := (vstore xvertex).

Lemma solve_vertices_ok : forall q size (gs : list (gather E Q)) as_ (st : store), NoDup as_ ->
  (forall i a, znth as_ i = Some a -> exists ga v, znth gs i = Some ga /\ vs_at st a = Some v) ->
  exists st', solve_vertices ops q size gs as_ st = Ret st' /\ vs_next st' = vs_next st /\
    (forall b, ~ In b as_ -> vs_at st' b = vs_at st b) /\
    (forall i a ga v, znth as_ i = Some a -> znth gs i = Some ga -> vs_at st a = Some v ->
       vs_at st' a = Some (solve_vertex ops q size ga v)).
Proof.
  intros q size gs as_ st Hnd Hall. unfold solve_vertices.
  assert (H : forall k, (k <= length as_)%nat -> exists st',
    ofold (fun st i => ga <- oread (znth gs i) ;; a <- oread (znth as_ i) ;; v <- vs_read st a ;;
      vs_write st a (solve_vertex ops q size ga v)) (zseq 0 k) st = Ret st' /\ vs_next st' = vs_next st /\
    (forall b, (forall i, 0 <= i < Z.of_nat k -> znth as_ i <> Some b) -> vs_at st' b = vs_at st b) /\
    (forall i a ga v, 0 <= i < Z.of_nat k -> znth as_ i = Some a -> znth gs i = Some ga -> vs_at st a = Some v ->
       vs_at st' a = Some (solve_vertex ops q size ga v))).
  { induction k as [|k IH]; intro Hk.
    - exists st. split; [reflexivity|]. split; [reflexivity|]. split; [reflexivity|]. intros; lia.
    - destruct (IH ltac:(lia)) as (st1 & R1 & N1 & F1 & W1).
      destruct (znth_some _ as_ (Z.of_nat k) ltac:(lia)) as (a & Ha). destruct (Hall _ _ Ha) as (ga & v & Hg & Hv).
      assert (Hv1 : vs_at st1 a = Some v).
      { rewrite F1; [exact Hv|]. intros i Hi X. pose proof (nodup_znth _ _ _ _ _ Hnd X Ha). lia. }
      destruct (vs_write_ok _ st1 a v (solve_vertex ops q size ga v) Hv1) as (st2 & R2 & N2 & A2 & F2).
      exists st2. replace (Datatypes.S k) with (k + 1)%nat by lia. rewrite zseq_app, ofold_app, R1. cbn [obind zseq ofold].
      replace (0 + Z.of_nat k) with (Z.of_nat k) by lia. rewrite Ha, Hg. cbn [oread obind]. unfold vs_read at 1. rewrite Hv1. cbn [oread obind].
      rewrite R2. cbn [obind]. split; [reflexivity|]. split; [lia|]. split.
      + intros b Hb. rewrite F2; [apply F1; intros; apply Hb; lia|]. intros ->. apply (Hb (Z.of_nat k)); [lia|exact Ha].
      + intros i a' ga' v' Hi Ha' Hg' Hv'. destruct (Z.eq_dec i (Z.of_nat k)) as [->|Hne].
        * rewrite Ha in Ha'. injection Ha' as <-. rewrite Hg in Hg'. injection Hg' as <-. rewrite Hv in Hv'. injection Hv' as <-. exact A2.
        * rewrite F2; [apply (W1 i a'); auto; lia|]. intros ->. pose proof (nodup_znth _ _ _ _ _ Hnd Ha Ha'). lia. }
  destruct (H (length as_) (le_n _)) as (st' & R & N & Fr & W). exists st'. split; [exact R|]. split; [exact N|]. split.
  - intros b Hb. apply Fr. intros i _ X. apply Hb. eapply znth_in; eassumption.
  - intros i a ga v Ha. apply (W i a); [eapply znth_range; eassumption|exact Ha].
Qed.

Lemma solve_solution : forall q n sol mats normals (v : xvertex) len, edge_len n = len ->
  let v' := solve_vertex ops q len (Gather sol (fast_add_all fast_new mats) (sum3 normals)) v in
  solution ops q n sol normals mats v' /\ xv_parent v' = xv_parent v /\ xv_surface v' = xv_surface v /\
  xv_collapsible v' = xv_collapsible v /\ xv_index v' = xv_index v.
Proof.
  intros q n sol mats normals v len <-. cbv zeta. unfold solve_vertex. cbn [ga_sol ga_normal ga_filter].
  destruct (qo_solve ops sol (vofZ3 A q) (vofZ3 A (upper_corner q (edge_len n)))) as [sol1 p] eqn:H1.
  destruct (qo_state ops sol1) as [sol2 s] eqn:H2. cbn [xv_parent xv_surface xv_collapsible xv_index].
  split; [|auto]. exists sol1, sol2, s. cbn [xv_pos xv_error xv_qef xv_normal xv_mat]. unfold cube_low, cube_high.
  split; [exact H1|]. auto.
Qed.

End Solve.

(* ---- tables ---- *)

Lemma edge_row : forall i, 0 <= i < 12 ->
  storage_axis (tab 0 kCellEdgeDirection i) = fst (local_edge i) /\
  znth kCellEdgeEndpoint i = Some [edge_start i; edge_end i] /\
  corner_offset (edge_start i) = snd (local_edge i) /\
  corner_offset (edge_end i) = vadd (snd (local_edge i)) (unit_vec (fst (local_edge i))) /\
  0 <= edge_start i < 8 /\ 0 <= edge_end i < 8.
Proof.
  intros i Hi. apply (in_zseq 12 0 i) in Hi. cbn [zseq In Z.add Pos.add Pos.succ] in Hi.
  decompose [or] Hi; subst; try contradiction; (do 4 (split; [reflexivity|])); vm_compute; split; split; congruence || reflexivity.
Qed.

(* The solid end point of a crossing edge *)
Definition solid_end (bs : list bool) (i : Z) : Z := if tab false bs (edge_start i) then edge_start i else edge_end i.
(* No edge before [i] has the solid end point of [i]. *)
Definition used_before (bs : list bool) (c : Z) (k : nat) : bool :=
  existsb (fun j => crossing bs j && (solid_end bs j =? c)) (zseq 0 k).
Definition first_at (bs : list bool) (i : Z) : bool := negb (used_before bs (solid_end bs i) (Z.to_nat i)).

Notation check_first bs :=
  (forallb (fun s => existsb (fun i => (set_index bs i =? s) && first_at bs i) (zseq 0 12)) (zseq 0 (Z.to_nat (set_count bs)))).
Lemma first_checked : forallb (fun bs => check_first bs) configs = true.
Proof. vm_compute. reflexivity. Qed.

Lemma first_in : forall (f : Z -> Z) (h : Z -> bool) l cnt s,
  forallb (fun s => existsb (fun i => (f i =? s) && h i) l) (zseq 0 (Z.to_nat cnt)) = true -> 0 <= s < cnt ->
  exists i, In i l /\ f i = s /\ h i = true.
Proof.
  intros f h l cnt s G Hs. rewrite forallb_forall in G. specialize (G s (proj2 (in_zseq (Z.to_nat cnt) 0 s) ltac:(lia))).
  apply existsb_exists in G as (i & Hi & G). apply andb_true_iff in G as [G1 G2]. apply Z.eqb_eq in G1. eauto.
Qed.

Lemma check_first_at : forall bs, length bs = 8%nat -> check_first bs = true.
Proof. exact (fun bs H => proj1 (forallb_forall _ _) first_checked bs (in_configs bs H)). Qed.

Lemma set_has_first : forall bs s, length bs = 8%nat -> 0 <= s < set_count bs ->
  exists i, 0 <= i < 12 /\ set_index bs i = s /\ first_at bs i = true.
Proof.
  intros bs s Hb Hs. destruct (first_in (set_index bs) (first_at bs) (zseq 0 12) (set_count bs) s (check_first_at bs Hb) Hs) as (i & Hi & H).
  exists i. split; [|exact H]. exact (proj1 (in_zseq 12 0 i) Hi).
Qed.

Lemma filter_snoc : forall T (f : T -> bool) l a, filter f (l ++ [a]) = filter f l ++ (if f a then [a] else []).
Proof. intros. rewrite filter_app. cbn [filter]. destruct (f a); reflexivity. Qed.

Lemma zseq_snoc : forall k, zseq 0 (Datatypes.S k) = zseq 0 k ++ [Z.of_nat k].
Proof. intro k. replace (Datatypes.S k) with (k + 1)%nat by lia. rewrite zseq_app. cbn [zseq]. do 2 f_equal. Qed.

(* The material of each stored edge is that of its solid end point. *)
Definition edges_carry {E} (g : ugrid E) (solid : ivec3 -> bool) : Prop :=
  forall d e, In e (g_edges d g) ->
    solid_material e = grid_material g (if solid (lesser_endpoint e) then lesser_endpoint e else vadd (lesser_endpoint e) (unit_vec d)) /\
    solid_material e <> Empty.

Section Leaf.
Context {E : fpenv} {Q S : Type}.
Variable ops : qef_ops (fp_F E) Q S.
Variable g : ugrid E.
Variable solid : ivec3 -> bool.
Hypothesis Hrep : represents g solid.
Notation F := (fp_F E).
Notation A := (fp_f E).
Notation n := (g_size g).
Notation mat := (grid_material g).
Notation xvertex := (mdc_vertex F S).
Notation store := (vstore xvertex).

Let Hv : valid_size n := rep_size _ _ Hrep.

Section Cell.
Variable q : ivec3.
Hypothesis Hq : cube_in_grid n q 0.
Notation bs := (config solid q).

(* The edge stored for edge [i] of the cell *)
Definition edge_at (i : Z) : option (uedge F) :=
  let '(d, p) := cell_edge q i in
  match find_edge (g_edges d g) (vx p) (vy p) (vz p) with Ret it => znth (g_edges d g) it | _ => None end.

Lemma corner_in : forall k, 0 <= k < 8 -> vertex_in n (vadd q (corner_offset k)) .
Proof.
  intros k Hk. pose proof (Hq _ (corner_closed q 0 k Hk)) as H. unfold cube_corner in H. rewrite edge_len_0 in H.
  replace (vadd q (corner_offset k)) with (vadd q (vscale 1 (corner_offset k))); [exact H|].
  unfold vadd, vscale. cbn [vx vy vz]. f_equal; lia.
Qed.

Lemma edge_stored : forall i, 0 <= i < 12 -> crossing bs i = true ->
  exists it e, find_edge (g_edges (fst (cell_edge q i)) g) (vx (snd (cell_edge q i))) (vy (snd (cell_edge q i))) (vz (snd (cell_edge q i))) = Ret it /\
    (it =? zlen (g_edges (fst (cell_edge q i)) g)) = false /\ znth (g_edges (fst (cell_edge q i)) g) it = Some e /\
    edge_at i = Some e /\ edge_key e = cell_edge q i /\ In e (g_edges (fst (cell_edge q i)) g) /\
    is_lesser_solid e = tab false bs (edge_start i).
Proof.
  intros i Hi Hc. destruct (edge_row i Hi) as (R1 & R2 & R3 & R4 & R5 & R6).
  assert (P1 : vadd q (corner_offset (edge_start i)) = snd (cell_edge q i)) by (rewrite R3; reflexivity).
  assert (P2 : vadd q (corner_offset (edge_end i)) = vadd (snd (cell_edge q i)) (unit_vec (fst (cell_edge q i)))).
  { rewrite R4. cbn [cell_edge fst snd]. symmetry. apply vadd_assoc. }
  assert (Hin : edge_in n (fst (cell_edge q i)) (snd (cell_edge q i))).
  { destruct (valid_even _ Hv) as (h & Hn & Hb & _). apply (edge_in_iff n h); [assumption|].
    pose proof (corner_in _ R5) as V1. pose proof (corner_in _ R6) as V2.
    rewrite P1 in V1. rewrite P2 in V2. apply (vertex_in_iff n h) in V1; [|assumption]. apply (vertex_in_iff n h) in V2; [|assumption].
    revert V1 V2. generalize (fst (cell_edge q i)) (snd (cell_edge q i)). intros d p V1 V2. clear - V1 V2.
    unfold vadd in *. cbn [vx vy vz] in *. destruct d; cbn [unit_vec vx vy vz] in *; lia. }
  rewrite crossing_edge in Hc by assumption.
  destruct (find_crossing g solid Hrep _ _ Hin) as (it & e & Hf & Hz & He & Hk & Hi').
  { rewrite <- surjective_pairing. exact Hc. }
  exists it, e. split; [exact Hf|]. split; [exact Hz|]. split; [exact He|]. split.
  { unfold edge_at. rewrite (surjective_pairing (cell_edge q i)). rewrite Hf. exact He. }
  rewrite <- surjective_pairing in Hk. split; [exact Hk|]. split; [exact Hi'|].
  destruct (rep_edge _ _ Hrep _ e Hi') as [_ ->].
  assert (lesser_endpoint e = snd (cell_edge q i)) as -> by (rewrite <- Hk; reflexivity).
  unfold edge_start. rewrite config_corner; [reflexivity|].
  clear - Hi. apply (in_zseq 12 0 i) in Hi. cbn [zseq In Z.add Pos.add Pos.succ] in Hi.
  decompose [or] Hi; subst; try contradiction; vm_compute; tauto.
Qed.

(* Edges and materials of set [s] among the first [k] edges *)
Definition in_set (s : Z) (k : nat) : list Z := filter (fun i => set_index bs i =? s) (zseq 0 k).
Definition set_edges (s : Z) (k : nat) : list (uedge F) := flat_map (fun i => match edge_at i with Some e => [e] | None => [] end) (in_set s k).
Definition set_mats (s : Z) (k : nat) : list material :=
  flat_map (fun i => match edge_at i with Some e => [solid_material e] | None => [] end) (filter (first_at bs) (in_set s k)).
Definition set_gather (sol : Q) (k : nat) (s : Z) : gather E Q :=
  Gather (fold_left (fun sol e => qo_add ops sol (surface_point E e) (surface_normal E e)) (set_edges s k) sol)
    (fast_add_all fast_new (set_mats s k)) (sum3 (map (surface_normal E) (set_edges s k))).
Definition set_top (k : nat) : Z := fold_left (fun k i => Z.max k (set_index bs i + 1)) (zseq 0 k) 0.
Definition set_used (k : nat) (c : Z) : bool := used_before bs c k.

Lemma set_top_12 : set_top 12 = set_count bs.
Proof. unfold set_top, set_count. reflexivity. Qed.

Lemma set_top_pos : forall k, 0 <= set_top k.
Proof.
  intro k. unfold set_top.
  assert (H : forall l k, 0 <= k -> 0 <= fold_left (fun k i => Z.max k (set_index bs i + 1)) l k).
  { induction l as [|a l IH]; intros j Hj; [assumption|]. cbn [fold_left]. apply IH. lia. }
  apply H. lia.
Qed.

Lemma set_step : forall sol k, (k < 12)%nat ->
  mdc_edge_step ops g q (mask_of bs) (set_top k, map (set_gather sol k) (zseq 0 4), map (set_used k) (zseq 0 8)) (Z.of_nat k) =
  Ret (set_top (Datatypes.S k), map (set_gather sol (Datatypes.S k)) (zseq 0 4), map (set_used (Datatypes.S k)) (zseq 0 8)).
Proof.
  intros sol k Hk. assert (Hi : 0 <= Z.of_nat k < 12) by lia. pose proof (config_length solid q) as Hl.
  destruct (edge_set_ok bs (Z.of_nat k) Hl Hi) as (He & Hc & Hr). pose proof (set_count_bound bs Hl) as H4.
  assert (Htop : set_top (Datatypes.S k) = Z.max (set_top k) (set_index bs (Z.of_nat k) + 1)).
  { unfold set_top. rewrite zseq_snoc, fold_left_app. reflexivity. }
  assert (Hin : forall s, in_set s (Datatypes.S k) = in_set s k ++ (if set_index bs (Z.of_nat k) =? s then [Z.of_nat k] else [])).
  { intro s. unfold in_set. rewrite zseq_snoc, filter_snoc. reflexivity. }
  assert (Hus : forall c, set_used (Datatypes.S k) c = set_used k c || (crossing bs (Z.of_nat k) && (solid_end bs (Z.of_nat k) =? c))).
  { intro c. unfold set_used, used_before. rewrite zseq_snoc, existsb_app. cbn [existsb]. rewrite orb_false_r. reflexivity. }
  unfold mdc_edge_step. rewrite He. cbn [obind].
  destruct (Z.ltb_spec (set_index bs (Z.of_nat k)) 0) as [Hneg|Hpos].
  - pose proof (set_top_pos k) as Ht. rewrite Htop, Z.max_l by lia. do 2 f_equal; [f_equal|].
    + apply map_ext_in. intros s Hs. apply in_zseq in Hs. unfold set_gather, set_edges, set_mats. rewrite Hin.
      destruct (Z.eqb_spec (set_index bs (Z.of_nat k)) s); [lia|]. rewrite app_nil_r. reflexivity.
    + apply map_ext. intro c. rewrite Hus. destruct (crossing bs (Z.of_nat k)) eqn:X; [|cbn [andb]; rewrite orb_false_r; reflexivity].
      exfalso. assert (0 <= set_index bs (Z.of_nat k)) by (apply Hc; reflexivity). lia.
  - assert (Hx : crossing bs (Z.of_nat k) = true) by (apply Hc; exact Hpos).
    destruct (edge_row _ Hi) as (R1 & R2 & R3 & R4 & R5 & R6).
    destruct (edge_stored _ Hi Hx) as (it & e & Hf & Hz & Hnth & Hat & Hkey & Hine & Hls).
    set (idx := set_index bs (Z.of_nat k)) in *. set (i := Z.of_nat k) in *.
    rewrite R1, R2. cbn [oread obind]. change (znth [edge_start i; edge_end i] 0) with (Some (edge_start i)).
    change (znth [edge_start i; edge_end i] 1) with (Some (edge_end i)). cbn [oread obind].
    change (fst (local_edge i)) with (fst (cell_edge q i)).
    rewrite R3. change (vadd q (snd (local_edge i))) with (snd (cell_edge q i)).
    rewrite Hf. cbn [obind]. rewrite Hz. cbn [negb oassert obind]. rewrite Hnth. cbn [oread obind].
    rewrite znth_map_zseq' by lia. cbn [oread obind]. rewrite Hls.
    change (if tab false bs (edge_start i) then edge_start i else edge_end i) with (solid_end bs i).
    assert (Hse : 0 <= solid_end bs i < 8) by (unfold solid_end; destruct (tab false bs (edge_start i)); assumption).
    rewrite znth_map_zseq' by lia. cbn [oread obind].
    rewrite !set_map_zseq by lia. rewrite Htop. do 2 f_equal; [f_equal|].
    + apply map_ext_in. intros s Hs. apply in_zseq in Hs. unfold set_gather, set_edges, set_mats. rewrite Hin.
      rewrite (Z.eqb_sym s idx). destruct (Z.eqb_spec idx s) as [<-|Hne]; [|rewrite app_nil_r; reflexivity].
      cbn [ga_sol ga_filter ga_normal]. rewrite filter_snoc, !flat_map_app. cbn [flat_map]. rewrite Hat. cbn [app].
      rewrite fold_left_app, map_app. unfold sum3. rewrite fold_left_app. cbn [fold_left map]. f_equal.
      unfold first_at. replace (Z.to_nat i) with k by lia. unfold set_used.
      destruct (used_before bs (solid_end bs i) k); cbn [negb flat_map]; [rewrite app_nil_r; reflexivity|].
      rewrite Hat. cbn [app]. unfold fast_add_all. rewrite fold_left_app. reflexivity.
    + apply map_ext. intro c. rewrite Hus, Hx. cbn [andb]. rewrite (Z.eqb_sym c).
      destruct (solid_end bs i =? c); [rewrite orb_true_r|rewrite orb_false_r]; reflexivity.
Qed.

Lemma set_loop : forall sol k, (k <= 12)%nat ->
  ofold (mdc_edge_step ops g q (mask_of bs)) (zseq 0 k) (0, map (fun _ => Gather sol fast_new (zero3 E)) (zseq 0 4), map (fun _ => false) (zseq 0 8)) =
  Ret (set_top k, map (set_gather sol k) (zseq 0 4), map (set_used k) (zseq 0 8)).
Proof.
  intros sol k. induction k as [|k IH]; intro Hk; [reflexivity|].
  rewrite zseq_snoc, ofold_app, IH by lia. cbn [obind ofold]. rewrite set_step by lia. reflexivity.
Qed.

Lemma in_set_ok : forall s i, 0 <= s -> In i (in_set s 12) -> 0 <= i < 12 /\ set_index bs i = s /\
  exists e, edge_at i = Some e /\ edge_key e = cell_edge q i /\ In e (g_edges (fst (cell_edge q i)) g).
Proof.
  intros s i Hs H. apply filter_In in H as [H1 H2]. apply in_zseq in H1. apply Z.eqb_eq in H2. split; [lia|]. split; [exact H2|].
  destruct (edge_set_ok bs i (config_length solid q) ltac:(lia)) as (_ & Hc & _).
  destruct (edge_stored i ltac:(lia)) as (it & e & _ & _ & _ & H3 & H4 & H5 & _); [apply Hc; lia|]. eauto.
Qed.

Lemma set_edges_keys : forall s, 0 <= s -> map edge_key (set_edges s 12) =
  filter (fun e => edge_crosses solid e && (sheet solid q e =? s)) (map (cell_edge q) (zseq 0 12)).
Proof.
  intros s Hs. transitivity (map (cell_edge q) (in_set s 12)).
  - unfold set_edges. assert (H : forall l, incl l (in_set s 12) ->
      map edge_key (flat_map (fun i => match edge_at i with Some e => [e] | None => [] end) l) = map (cell_edge q) l).
    { induction l as [|i l IH]; intro Hl; [reflexivity|]. cbn [flat_map map]. rewrite map_app, IH by (intros j Hj; apply Hl; right; exact Hj).
      destruct (in_set_ok s i Hs (Hl i (or_introl eq_refl))) as (_ & _ & e & -> & Hk & _). cbn [map app]. rewrite Hk. reflexivity. }
    apply H. apply incl_refl.
  - unfold in_set. assert (H : forall l, (forall i, In i l -> 0 <= i < 12) ->
      map (cell_edge q) (filter (fun i => set_index bs i =? s) l) =
      filter (fun e => edge_crosses solid e && (sheet solid q e =? s)) (map (cell_edge q) l)).
    { induction l as [|i l IH]; intro Hl; [reflexivity|]. cbn [filter map]. pose proof (Hl i (or_introl eq_refl)) as Hi.
      rewrite sheet_cell, <- crossing_edge by assumption.
      destruct (edge_set_ok bs i (config_length solid q) Hi) as (_ & Hc & _).
      destruct (Z.eqb_spec (set_index bs i) s) as [He|He].
      - assert (crossing bs i = true) as -> by (apply Hc; lia). cbn [andb map]. f_equal. apply IH. intros; apply Hl; right; assumption.
      - rewrite andb_false_r. apply IH. intros; apply Hl; right; assumption. }
    apply H. intros i Hi. apply in_zseq in Hi. lia.
Qed.

Lemma set_mats_in : forall s m, In m (set_mats s 12) -> exists e, In e (set_edges s 12) /\ m = solid_material e.
Proof.
  intros s m H. unfold set_mats in H. apply in_flat_map in H as (i & Hi & H). apply filter_In in Hi as [Hi _].
  destruct (edge_at i) as [e|] eqn:X; [|destruct H]. destruct H as [<-|[]]. exists e. split; [|reflexivity].
  unfold set_edges. apply in_flat_map. exists i. rewrite X. split; [exact Hi|left; reflexivity].
Qed.

Lemma set_mats_some : forall s, 0 <= s < set_count bs -> set_mats s 12 <> [].
Proof.
  intros s Hs. destruct (set_has_first bs s (config_length solid q) Hs) as (i & Hi & H1 & H2).
  assert (Hin : In i (in_set s 12)) by (apply filter_In; split; [apply in_zseq; lia|apply Z.eqb_eq; exact H1]).
  destruct (in_set_ok s i ltac:(lia) Hin) as (_ & _ & e & H3 & _). intro X.
  assert (Y : In (solid_material e) (set_mats s 12)); [|rewrite X in Y; destruct Y].
  unfold set_mats. apply in_flat_map. exists i. rewrite H3. split; [apply filter_In; auto|left; reflexivity].
Qed.

Lemma set_leaf_solution : forall s sol0 v, 0 <= s < set_count bs ->
  solution ops q 0 (fold_left (fun sol e => qo_add ops sol (surface_point E e) (surface_normal E e)) (set_edges s 12) (qo_reset ops sol0))
    (map (surface_normal E) (set_edges s 12)) (set_mats s 12) v -> leaf_solution ops g solid q s v.
Proof.
  intros s sol0 v Hs H. exists (set_edges s 12), (set_mats s 12), sol0. split; [apply set_edges_keys; lia|]. split.
  - intros e He. unfold set_edges in He. apply in_flat_map in He as (i & Hi & He).
    destruct (in_set_ok s i ltac:(lia) Hi) as (_ & _ & e' & Ha & Hk & Hin). rewrite Ha in He. destruct He as [<-|[]]. rewrite Hk. exact Hin.
  - split; [apply set_mats_some; exact Hs|]. split; [apply set_mats_in|exact H].
Qed.

(* What the vertices of a node which is built anew hold *)
Definition idle (st : store) (a : Z) : Prop := exists v, vs_at st a = Some v /\ xv_parent v = None /\ xv_surface v = None.

Lemma mdc_build_leaf_ok : forall l (st : store) sol, Forall (idle st) (ml_verts l) ->
  exists l' st', mdc_build_leaf ops g l q 1 st sol = Ret (l', st', qo_reset ops sol) /\
    ml_depth l' = ml_depth l /\ ml_mask l' = mask_of bs /\ ml_corners l' = Some (map mat (cell_corners q)) /\
    ml_verts l' = zseq (vs_next st) (Z.to_nat (set_count bs)) /\ vs_next st' = vs_next st + set_count bs /\
    (forall b, b < vs_next st -> ~ In b (ml_verts l) -> vs_at st' b = vs_at st b) /\
    (forall s a, znth (ml_verts l') s = Some a ->
       exists v, vs_at st' a = Some v /\ leaf_solution ops g solid q s v /\ xv_parent v = None /\ xv_surface v = None).
Proof.
  intros l st sol Hidle. unfold mdc_build_leaf.
  pose proof (cube_cell g q Hq) as Hc. pose proof (cell_vertex_in n q Hc) as Hqv.
  destruct (point_to_index_ok n q Hv Hqv) as [-> _]. cbn [obind].
  rewrite (materials_of_cell_ok n (g_mat g) mat q Hv Hc (mat_some g solid Hrep)). cbn [obind].
  assert (Hm : mask_from is_solid 0 (map mat (cell_corners q)) = mask_of bs).
  { unfold mask_of, config. rewrite !mask_from_map. apply mask_from_ext. intros p Hp. apply (mat_solid g solid Hrep). apply Hc. exact Hp. }
  rewrite Hm, set_loop by lia. cbn [obind]. rewrite set_top_12.
  pose proof (set_count_bound bs (config_length solid q)) as Hcnt.
  rewrite Forall_forall in Hidle.
  destruct (vs_resize_ok _ fresh_vertex st (ml_verts l) (Z.to_nat (set_count bs))) as (st1 & as_ & R1 & Has & N1 & F1 & V1).
  { intros a Ha. destruct (Hidle a Ha) as (v & -> & _). discriminate. }
  rewrite R1.
  assert (Hlen : forall i a, znth as_ i = Some a -> 0 <= i < set_count bs).
  { intros i a H. apply znth_range in H. rewrite Has, zseq_len in H. lia. }
  destruct (solve_vertices_ok ops q 1 (map (set_gather (qo_reset ops sol) 12) (zseq 0 4)) as_ st1) as (st2 & R2 & N2 & F2 & V2).
  { rewrite Has. apply zseq_nodup. }
  { intros i a H. pose proof (Hlen i a H) as Hi. destruct (V1 a (znth_in _ _ _ _ H)) as (v & Hva & _).
    eexists _, v. split; [apply znth_map_zseq'; lia|exact Hva]. }
  rewrite R2. cbn [obind]. eexists _, st2. split; [reflexivity|]. cbn [ml_depth ml_mask ml_corners ml_verts].
  do 3 (split; [reflexivity|]). split; [exact Has|]. split; [lia|]. split.
  - intros b Hb Hnb. rewrite F2; [apply F1; assumption|]. rewrite Has. intro X. apply in_zseq in X. lia.
  - intros s a Ha. pose proof (Hlen s a Ha) as Hs. destruct (V1 a (znth_in _ _ _ _ Ha)) as (v & Hva & Hor).
    rewrite (V2 s a _ v Ha (znth_map_zseq' _ _ 4 s ltac:(lia)) Hva). eexists. split; [reflexivity|].
    destruct (solve_solution ops q 0 (fold_left (fun sol e => qo_add ops sol (surface_point E e) (surface_normal E e)) (set_edges s 12) (qo_reset ops sol))
      (set_mats s 12) (map (surface_normal E) (set_edges s 12)) v 1 eq_refl) as (Hsol & Hp & Hsf & _ & _).
    unfold set_gather. split; [apply (set_leaf_solution s sol); [exact Hs|exact Hsol]|]. rewrite Hp, Hsf.
    destruct Hor as [->|(a' & Ha' & Hva')]; [split; reflexivity|].
    destruct (Hidle a' Ha') as (v' & Hv' & Hp' & Hs'). rewrite Hva' in Hv'. injection Hv' as <-. auto.
Qed.

End Cell.
End Leaf.
