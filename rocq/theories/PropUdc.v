(* Uniform dual contouring on filled grids: C16, C17, C18 *)
From Coq Require Import ZArith Reals List Bool Lia Lra Sorted Permutation.
From Verif Require Import Base Arith MeshModel MeshSpec MeshProofs MaterialFilterModel GridModel GridSpec GridProofs
  EdgeModel EdgeSpec EdgeProofs FillModel FillSpec LoopLemmas FillProofs MCModel CellSpec CellTables MergeProofs
  MCProofs UdcModel DualSpec DualProofs UdcProofs FloatArith PropFillNum PropMC OrientSpec.
Import ListNotations.
Local Open Scope Z_scope.

Lemma filled_edges : forall E (g0 : ugrid E) f solver g calls, valid_size (g_size g0) ->
  fill g0 f solver = Ret (g, calls) ->
  g_size g = g_size g0 /\ represents_edges g (fun p => le0 E (sample g0 f p)).
Proof.
  intros E g0 f solver g calls Hv Hf.
  destruct (fill_represents_edges E g0 f solver Hv) as (g' & c' & Hf' & Hsz & _ & Hr).
  rewrite Hf in Hf'. injection Hf' as <- <-. auto.
Qed.

Lemma strict_list_unique : forall n qs qs', StronglySorted Z.lt (map (yxz_index n) qs) ->
  StronglySorted Z.lt (map (yxz_index n) qs') -> (forall q, In q qs <-> In q qs') -> qs = qs'.
Proof.
  intros n. induction qs as [|q qs IH]; intros [|q' qs'] H1 H2 Hin.
  - reflexivity.
  - exfalso. apply (Hin q'). left. reflexivity.
  - exfalso. apply (Hin q). left. reflexivity.
  - cbn [map] in H1, H2. apply StronglySorted_inv in H1 as [H1 F1]. apply StronglySorted_inv in H2 as [H2 F2].
    rewrite Forall_forall in F1, F2.
    assert (Hq : q = q').
    { destruct (proj1 (Hin q) (or_introl eq_refl)) as [X|X]; [auto|].
      destruct (proj2 (Hin q') (or_introl eq_refl)) as [Y|Y]; [auto|].
      apply (in_map (yxz_index n)) in X, Y. apply F1 in Y. apply F2 in X. lia. }
    subst q'. f_equal. apply IH; try assumption. intro c. split; intro Hc.
    + destruct (proj1 (Hin c) (or_intror Hc)) as [X|X]; [|assumption]. subst c.
      apply (in_map (yxz_index n)) in Hc. apply F1 in Hc. lia.
    + destruct (proj2 (Hin c) (or_intror Hc)) as [X|X]; [|assumption]. subst c.
      apply (in_map (yxz_index n)) in Hc. apply F2 in Hc. lia.
Qed.

Lemma strict_nodup : forall n qs, StronglySorted Z.lt (map (yxz_index n) qs) -> NoDup qs.
Proof.
  intros n. induction qs as [|q qs IH]; intro H; constructor; cbn [map] in H; apply StronglySorted_inv in H as [H F]; auto.
  intro X. rewrite Forall_forall in F. apply (in_map (yxz_index n)) in X. apply F in X. lia.
Qed.

Lemma numbers_cid : forall qs, NoDup qs -> numbers qs (cid qs).
Proof.
  intros qs Hnd k q H. unfold cid. rewrite (pos_of_nodup qs 0 q k) by assumption. apply Z.add_0_l.
Qed.

Lemma numbers_agree : forall qs id, numbers qs id -> forall q, In q qs -> id q = cid qs q.
Proof. intros qs id Hid q Hq. apply cid_in in Hq as (_ & _ & H). apply Hid. assumption. Qed.

(* Everything about the run in one place. *)
Lemma udc_run : forall E (g : ugrid E) solid sort qef m qs, represents_edges g solid -> sorts dc_less sort ->
  surface_cells (g_size g) solid qs -> dual_contouring sort qef g = Ret m ->
  exists es, (forall q, In q qs -> Permutation (es q) (filter (fun e => edge_of_cell q (edge_key e)) (stored_edges g))) /\
    m = Mesh (map (fun q => dual_vertex qef q (es q) (map (mat_at g) (cell_corners q))) qs)
             (flatten (flat_map (etris g solid qs) (stored_edges g))).
Proof.
  intros E g solid sort qef m qs Hr Hs [Q1 Q2] Hm.
  destruct (dual_contouring_ok g solid Hr qef sort Hs) as (qs' & es & Hnd & Hss & Hqs & Hlen & Hes & Hdc).
  assert (qs = qs').
  { apply (strict_list_unique (g_size g)); try assumption. intro q. rewrite Q2, Hqs. reflexivity. }
  subst qs'. rewrite Hm in Hdc. injection Hdc as ->. exists es. split; [exact Hes|reflexivity].
Qed.

Lemma etris_eq : forall E (g : ugrid E) solid qs id inner, represents_edges g solid ->
  (forall q, In q qs <-> surface_cell (g_size g) solid q) -> numbers qs id ->
  (forall e, inner e = true <-> inner_edge (g_size g) e) ->
  flat_map (etris g solid qs) (stored_edges g) =
  flat_map (fun e => if inner (edge_key e) then around_quad id solid (edge_key e) else []) (stored_edges g).
Proof.
  intros E g solid qs id inner Hr Hqs Hid Hin.
  assert (X : forall l, (forall e, In e l -> In e (stored_edges g)) -> flat_map (etris g solid qs) l =
    flat_map (fun e => if inner (edge_key e) then around_quad id solid (edge_key e) else []) l); [|apply X; auto].
  induction l as [|e l IH]; intro Hl; [reflexivity|]. cbn [flat_map]. rewrite IH by (intros; apply Hl; right; assumption).
  f_equal. unfold etris.
  assert (B : inner_b g (edge_key e) = inner (edge_key e)).
  { destruct (inner (edge_key e)) eqn:Y; [apply (inner_b_ok g solid Hr), Hin; assumption|].
    destruct (inner_b g (edge_key e)) eqn:Z; [|reflexivity]. apply (inner_b_ok g solid Hr), Hin in Z. congruence. }
  rewrite B. destruct (inner (edge_key e)) eqn:I; [|reflexivity].
  apply Hin in I. unfold inner_edge in I. rewrite Forall_forall in I. unfold around_quad.
  assert (S : forall c, In c (cells_around (fst (edge_key e)) (snd (edge_key e))) -> cid qs c = id c).
  { intros c Hc. symmetry. apply numbers_agree; [assumption|]. apply Hqs.
    apply (around_surface g solid Hr e); [apply Hl; left; reflexivity|apply I; assumption|assumption]. }
  unfold cells_around in *. rewrite !S by (cbn [In]; auto). reflexivity.
Qed.

Lemma etris_good : forall E (g : ugrid E) solid qs, represents_edges g solid ->
  (forall q, In q qs <-> surface_cell (g_size g) solid q) ->
  Forall (good_triangle (zlen qs)) (flat_map (etris g solid qs) (stored_edges g)).
Proof.
  intros E g solid qs Hr Hqs. apply Forall_forall. intros t Ht. apply in_flat_map in Ht as (e & He & Ht).
  unfold etris in Ht. destruct (inner_b g (edge_key e)) eqn:I; [|destruct Ht].
  apply (inner_b_ok g solid Hr) in I. unfold inner_edge in I. rewrite Forall_forall in I.
  assert (S : forall c, In c (cells_around (fst (edge_key e)) (snd (edge_key e))) -> In c qs).
  { intros c Hc. apply Hqs. apply (around_surface g solid Hr e); auto. }
  pose proof (cells_around_nodup (fst (edge_key e)) (snd (edge_key e))) as Hnd. unfold around_quad in Ht.
  assert (Hlist : exists c0 c1 c2 c3, cells_around (fst (edge_key e)) (snd (edge_key e)) = [c0; c1; c2; c3])
      by (unfold cells_around; eauto).
  destruct Hlist as (c0 & c1 & c2 & c3 & Hc). rewrite Hc in *.
  assert (R : forall c, In c [c0; c1; c2; c3] -> 0 <= cid qs c < zlen qs) by (intros c X; apply S, cid_in in X; apply X).
  assert (D : NoDup (map (cid qs) [c0; c1; c2; c3])).
  { apply NoDup_map_inj; [|assumption]. intros a b Ha Hb. apply cid_inj; auto. }
  pose proof (R c0 ltac:(cbn; auto)) as R0. pose proof (R c1 ltac:(cbn; auto)) as R1.
  pose proof (R c2 ltac:(cbn; auto)) as R2. pose proof (R c3 ltac:(cbn; auto)) as R3.
  cbn [map] in D. inversion D as [|? ? D1 D2]; subst. inversion D2 as [|? ? D3 D4]; subst. inversion D4 as [|? ? D5 D6]; subst.
  cbn [In] in D1, D3, D5. unfold quad_tris in Ht.
  destruct (solid (snd (edge_key e))); cbn [In] in Ht; destruct Ht as [<-|[<-|[]]]; unfold good_triangle; intuition auto.
Qed.

(* ---- C16 ---- *)

(* Whatever the sort does with entries of one cell and whatever the QEF solver
   answers, the run ends normally with a valid mesh. *)
Theorem C16_valid : forall E (g0 : ugrid E) f solver sort qef,
  valid_size (g_size g0) -> sorts dc_less sort ->
  exists g calls m, fill g0 f solver = Ret (g, calls) /\ dual_contouring sort qef g = Ret m /\ mesh_valid m.
Proof.
  intros E g0 f solver sort qef Hv Hsort.
  destruct (fill_represents_edges E g0 f solver Hv) as (g & calls & Hf & Hsz & _ & Hr).
  destruct (dual_contouring_ok g _ Hr qef sort Hsort) as (qs & es & Hnd & Hss & Hqs & Hlen & Hes & Hdc).
  exists g, calls. eexists. split; [exact Hf|]. split; [exact Hdc|].
  eexists. split; [reflexivity|]. unfold mesh_vertex_count. cbn [m_verts]. rewrite zlen_map.
  apply etris_good; assumption.
Qed.
Print Assumptions C16_valid.

(* One vertex per cell met by the surface, in the order of the grid points: the
   QEF answer for the cell's stored edges between the cell's corners, the
   normalised sum of their normals and the filtered material of the corners. *)
Theorem C16_vertices : forall E (g0 : ugrid E) f solver sort qef g calls m qs,
  valid_size (g_size g0) -> sorts dc_less sort ->
  fill g0 f solver = Ret (g, calls) -> dual_contouring sort qef g = Ret m ->
  surface_cells (g_size g0) (fun p => le0 E (sample g0 f p)) qs ->
  Forall2 (fun q v => exists es mats,
      Permutation es (filter (fun e => edge_of_cell q (edge_key e)) (stored_edges g)) /\
      Forall2 (fun p m => g_mat g (yxz_index (g_size g0) p) = Some m) (cell_corners q) mats /\
      v = MVert
        (qef (map (fun e => (surface_point E e, surface_normal E e)) es)
           (vofZ3 (fp_f E) q) (vadd3 (fp_f E) (vofZ3 (fp_f E) q) (vofZ3 (fp_f E) (V3 1 1 1))))
        (normalize3 (fold_left (fun s e => vadd3 (fp_f E) s (surface_normal E e)) es (vofZ3 (fp_f E) (V3 0 0 0))))
        (fast_select (fast_add_all fast_new mats)))
    qs (m_verts m).
Proof.
  intros E g0 f solver sort qef g calls m qs Hv Hsort Hf Hm Hqs.
  destruct (filled_edges _ _ _ _ _ _ Hv Hf) as [Hsz Hr]. rewrite <- Hsz in *.
  destruct (udc_run _ _ _ _ _ _ _ Hr Hsort Hqs Hm) as (es & Hes & ->). cbn [m_verts].
  destruct Hqs as [_ Hin].
  assert (X : forall l, incl l qs -> Forall2 (fun q v => exists es mats,
      Permutation es (filter (fun e => edge_of_cell q (edge_key e)) (stored_edges g)) /\
      Forall2 (fun p m => g_mat g (yxz_index (g_size g) p) = Some m) (cell_corners q) mats /\
      v = MVert
        (qef (map (fun e => (surface_point E e, surface_normal E e)) es)
           (vofZ3 (fp_f E) q) (vadd3 (fp_f E) (vofZ3 (fp_f E) q) (vofZ3 (fp_f E) (V3 1 1 1))))
        (normalize3 (fold_left (fun s e => vadd3 (fp_f E) s (surface_normal E e)) es (vofZ3 (fp_f E) (V3 0 0 0))))
        (fast_select (fast_add_all fast_new mats)))
     l (map (fun q : ivec3 => dual_vertex qef q (es q) (map (mat_at g) (cell_corners q))) l)); [|apply X, incl_refl].
  induction l as [|q l IH]; intro Hl; cbn [map]; constructor.
  - exists (es q), (map (mat_at g) (cell_corners q)). split; [apply Hes, Hl; left; reflexivity|]. split; [|reflexivity].
    assert (Hc : cell_in (g_size g) q) by (apply (Hin q), Hl; left; reflexivity).
    unfold cell_in, element_in in Hc. revert Hc. generalize (cell_corners q). intros cs Hc.
    induction cs as [|p cs IHc]; cbn [map]; constructor.
    + destruct (rep_init g _ Hr p (Hc p (or_introl eq_refl))) as (mm & Hmm). unfold mat_at. rewrite Hmm. reflexivity.
    + apply IHc. intros; apply Hc; right; assumption.
  - apply IH. intros x Hx. apply Hl. right. assumption.
Qed.
Print Assumptions C16_vertices.

(* Two triangles for each stored edge whose four cells are all in the grid, none
   for the others. *)
Theorem C16_triangles : forall E (g0 : ugrid E) f solver sort qef g calls m ts qs id inner,
  valid_size (g_size g0) -> sorts dc_less sort ->
  fill g0 f solver = Ret (g, calls) -> dual_contouring sort qef g = Ret m -> mesh_valid_with m ts ->
  surface_cells (g_size g0) (fun p => le0 E (sample g0 f p)) qs -> numbers qs id ->
  (forall e, inner e = true <-> inner_edge (g_size g0) e) ->
  ts = flat_map (fun e => if inner (edge_key e) then around_quad id (fun p => le0 E (sample g0 f p)) (edge_key e) else [])
         (stored_edges g).
Proof.
  intros E g0 f solver sort qef g calls m ts qs id inner Hv Hsort Hf Hm [Hts _] Hqs Hid Hinner.
  destruct (filled_edges _ _ _ _ _ _ Hv Hf) as [Hsz Hr]. rewrite <- Hsz in *.
  destruct (udc_run _ _ _ _ _ _ _ Hr Hsort Hqs Hm) as (es & Hes & ->). cbn [m_inds] in Hts. apply flatten_inj in Hts. subst ts.
  apply etris_eq; try assumption. apply Hqs.
Qed.
Print Assumptions C16_triangles.

(* ---- C17 ---- *)

Lemma keys_nodup : forall E (g : ugrid E) solid, represents_edges g solid -> NoDup (map edge_key (stored_edges g)).
Proof.
  intros E g solid Hr.
  assert (X : forall (l : list (uedge (fp_F E))) b, (forall k e, znth l k = Some e -> vid g (edge_key e) = Some (b + k)) -> NoDup (map edge_key l)).
  { induction l as [|e l IH]; intros b H; cbn [map]; constructor.
    - intro Hin. apply in_map_iff in Hin as (e' & Heq & Hin). apply In_nth_error in Hin as (j & Hj).
      pose proof (H 0 e eq_refl) as H0. specialize (H (Z.of_nat (S j)) e').
      rewrite <- Heq in H0. rewrite H0 in H. assert (Some (b + 0) = Some (b + Z.of_nat (S j))); [|injection H1; lia].
      apply H. unfold znth. destruct (Z.ltb_spec (Z.of_nat (S j)) 0); [lia|]. rewrite Nat2Z.id. exact Hj.
    - apply (IH (b + 1)). intros k e' Hk. replace (b + 1 + k) with (b + (k + 1)) by lia. apply H.
      unfold znth in *. destruct (Z.ltb_spec k 0); [discriminate|]. destruct (Z.ltb_spec (k + 1) 0); [lia|].
      replace (Z.to_nat (k + 1)) with (S (Z.to_nat k)) by lia. exact Hk. }
  apply (X _ 0). intros k e Hk. apply (all_edges_key _ _ _ Hr) in Hk as [Hk _]. exact Hk.
Qed.

Lemma gsum_filter : forall A (p : A -> bool) (f : A -> Z) l, gsum f (filter p l) = gsum (fun a => if p a then f a else 0) l.
Proof. induction l as [|a l IH]; [reflexivity|]. cbn [filter]. rewrite gsum_cons. destruct (p a); rewrite ?gsum_cons, IH; lia. Qed.

(* Sides run as often forth as back unless they connect the vertices of two
   cells with a common face that has an edge on the border. *)
Theorem C17_closed : forall E (g0 : ugrid E) f solver sort qef g calls m ts qs,
  valid_size (g_size g0) -> sorts dc_less sort ->
  fill g0 f solver = Ret (g, calls) -> dual_contouring sort qef g = Ret m -> mesh_valid_with m ts ->
  surface_cells (g_size g0) (fun p => le0 E (sample g0 f p)) qs ->
  forall a b,
    side_count ts a b = side_count ts b a \/
    exists face e, ((znth qs a = Some (face_low face) /\ znth qs b = Some (face_high face)) \/
                    (znth qs a = Some (face_high face) /\ znth qs b = Some (face_low face))) /\
      In e (face_edges face) /\ ~ inner_edge (g_size g0) e.
Proof.
  intros E g0 f solver sort qef g calls m ts qs Hv Hsort Hf Hm [Hts Hgood] Hqs a b.
  destruct (filled_edges _ _ _ _ _ _ Hv Hf) as [Hsz Hr]. rewrite <- Hsz in *.
  set (solid := fun p => le0 E (sample g0 f p)) in *.
  destruct (udc_run _ _ _ _ _ _ _ Hr Hsort Hqs Hm) as (es & Hes & Em). rewrite Em in Hts, Hgood.
  cbn [m_inds] in Hts. apply flatten_inj in Hts. unfold mesh_vertex_count in Hgood. cbn [m_verts] in Hgood. rewrite zlen_map in Hgood.
  destruct Hqs as [Hss Hqs].
  (* which faces separate the two cells *)
  set (bad := fun face => exists e, In e (face_edges face) /\ ~ inner_edge (g_size g) e).
  set (L := filter (inner_b g) (map edge_key (stored_edges g))).
  assert (Hnet : net ts a b = gsum (fun e => weight solid e * edge_flux (face_delta (cid qs) a b) e) L).
  { rewrite <- Hts, net_gsum, gsum_flat_map. unfold L. rewrite gsum_filter, gsum_map. apply gsum_ext. intros e He.
    unfold etris. destruct (inner_b g (edge_key e)) eqn:I; [|rewrite gsum_nil; reflexivity].
    rewrite <- net_gsum. apply net_around. apply (all_edges_crossing g solid Hr). exact He. }
  destruct (Z.eq_dec (net ts a b) 0) as [Z0|NZ]; [left; unfold net in Z0; lia|].
  right.
  assert (NL : NoDup L) by (apply NoDup_filter, (keys_nodup _ _ _ Hr)).
  (* otherwise some separating face has an edge on the border *)
  assert (Hex : exists e face, In e L /\ In e (face_edges face) /\ face_delta (cid qs) a b face <> 0 /\
      exists e', In e' (face_edges face) /\ ~ inner_edge (g_size g) e').
  { set (test := fun e => existsb (fun face => negb (face_delta (cid qs) a b face =? 0) &&
        negb (forallb (inner_b g) (face_edges face))) (map snd (crossings e))).
    destruct (existsb test L) eqn:T.
    - apply existsb_exists in T as (e & He & Ht). unfold test in Ht. apply existsb_exists in Ht as (face & Hface & Ht).
      apply andb_true_iff in Ht as [Hd Hb]. apply negb_true_iff in Hd, Hb. apply Z.eqb_neq in Hd.
      exists e, face. split; [assumption|]. split.
      + apply in_map_iff in Hface as (c & <- & Hc). apply crossings_face. assumption.
      + split; [assumption|].
        destruct (forallb_neg _ _ _ Hb) as (e' & He' & Hi). exists e'. split; [assumption|].
        intro X. apply (inner_b_ok g solid Hr) in X. congruence.
    - exfalso. apply NZ. rewrite Hnet. apply stokes; [assumption|]. intros e face He Hface Hd e' He' Hc'.
      unfold L. apply filter_In.
      assert (I' : inner_b g e' = true).
      { destruct (inner_b g e') eqn:I'; [reflexivity|]. exfalso.
        assert (Y : existsb test L = true); [|congruence].
        apply existsb_exists. exists e. split; [assumption|]. unfold test. apply existsb_exists. exists face.
        split; [apply face_crossings; assumption|].
        apply andb_true_iff. split; [apply negb_true_iff, Z.eqb_neq; assumption|].
        apply negb_true_iff. destruct (forallb (inner_b g) (face_edges face)) eqn:Z; [|reflexivity].
        rewrite forallb_forall in Z. specialize (Z e' He'). congruence. }
      split; [|assumption].
      destruct (crossing_stored g solid Hr (fst e') (snd e')) as (e2 & H2 & K2).
      + apply (inner_b_ok g solid Hr) in I'. apply (inner_in_grid g solid Hr). assumption.
      + destruct e'; assumption.
      + rewrite <- surjective_pairing in K2. rewrite <- K2. apply in_map. exact H2. }
  destruct Hex as (e & face & He & Hface & Hd & e' & He' & Hni).
  exists face, e'. split; [|auto].
  unfold L in He. apply filter_In in He as [Hk Hi]. apply in_map_iff in Hk as (e0 & <- & He0).
  apply (inner_b_ok g solid Hr) in Hi. unfold inner_edge in Hi. rewrite Forall_forall in Hi.
  destruct (face_cells_around _ _ Hface) as [Hlo Hhi].
  assert (Qlo : In (face_low face) qs) by (apply Hqs, (around_surface g solid Hr e0); auto).
  assert (Qhi : In (face_high face) qs) by (apply Hqs, (around_surface g solid Hr e0); auto).
  apply cid_in in Qlo as (_ & _ & Qlo). apply cid_in in Qhi as (_ & _ & Qhi).
  apply signed_nonzero in Hd as [[Ha Hb]|[Hb Ha]]; subst a b; auto.
Qed.
Print Assumptions C17_closed.

(* ---- C18 ---- *)
Local Open Scope R_scope.

(* The closed and the open unit cube of a cell. *)
Definition in_cube (q : ivec3) (P : vec3 R) : Prop :=
  forall d, IZR (vget d q) <= vget d P <= IZR (vget d q) + 1.
Definition in_open_cube (q : ivec3) (P : vec3 R) : Prop :=
  forall d, IZR (vget d q) < vget d P < IZR (vget d q) + 1.

(* Twice the area vector of triangles between numbered points; a triangle seen
   counterclockwise has its vector pointing to the observer. *)
Definition area_along (pos : Z -> vec3 R) (d : axis) (ts : list triangle) : R :=
  fold_right (fun t s => (let '(a, b, c) := t in vget d (crossR (subR (pos b) (pos a)) (subR (pos c) (pos a)))) + s) 0 ts.

Lemma quad_area : forall pos id solid d p,
  area_along pos d (around_quad id solid (d, p)) =
  (if solid p then 1 else -1) *
  (let P := fun k => pos (id (nth k (cells_around d p) p)) in
   let u := next_axis d in let v := next_axis u in
   (vget u (P 2%nat) - vget u (P 0%nat)) * (vget v (P 3%nat) - vget v (P 1%nat)) -
   (vget v (P 2%nat) - vget v (P 0%nat)) * (vget u (P 3%nat) - vget u (P 1%nat))).
Proof.
  intros pos id solid d p. unfold around_quad, cells_around. cbn [fst snd nth].
  destruct (solid p); unfold quad_tris, area_along, crossR, subR; cbn [fold_right];
  destruct d; cbn [next_axis vget vx vy vz]; ring.
Qed.

Lemma around_coord : forall d p, let u := next_axis d in let v := next_axis u in
  let c := fun k => nth k (cells_around d p) p in
  (vget u (c 0%nat) = vget u p - 1 /\ vget v (c 0%nat) = vget v p - 1 /\
   vget u (c 1%nat) = vget u p /\ vget v (c 1%nat) = vget v p - 1 /\
   vget u (c 2%nat) = vget u p /\ vget v (c 2%nat) = vget v p /\
   vget u (c 3%nat) = vget u p - 1 /\ vget v (c 3%nat) = vget v p)%Z.
Proof.
  intros d [x y z]. unfold cells_around. destruct d; cbn [next_axis unit_vec nth vget]; unfold vsub; cbn [vget vx vy vz]; lia.
Qed.

Lemma quad_outward : forall pos id (solid : ivec3 -> bool) d p,
  (forall c, In c (cells_around d p) -> in_cube c (pos (id c))) ->
  0 <= (if solid p then 1 else -1) * area_along pos d (around_quad id solid (d, p)) /\
  ((forall c, In c (cells_around d p) -> in_open_cube c (pos (id c))) ->
   0 < (if solid p then 1 else -1) * area_along pos d (around_quad id solid (d, p))).
Proof.
  intros pos id solid d p H. rewrite quad_area. cbv zeta.
  pose proof (around_coord d p) as A. cbv zeta in A.
  assert (Hn : forall k, (k < 4)%nat -> In (nth k (cells_around d p) p) (cells_around d p))
    by (intros k Hk; apply nth_In; exact Hk).
  set (c := fun k => nth k (cells_around d p) p) in *.
  change (nth 0 (cells_around d p) p) with (c 0%nat) in *. change (nth 1 (cells_around d p) p) with (c 1%nat) in *.
  change (nth 2 (cells_around d p) p) with (c 2%nat) in *. change (nth 3 (cells_around d p) p) with (c 3%nat) in *.
  set (u := next_axis d) in *. set (v := next_axis u) in *.
  destruct A as (A0 & A1 & A2 & A3 & A4 & A5 & A6 & A7).
  pose proof (H _ (Hn 0%nat ltac:(lia))) as H0. pose proof (H _ (Hn 1%nat ltac:(lia))) as H1.
  pose proof (H _ (Hn 2%nat ltac:(lia))) as H2. pose proof (H _ (Hn 3%nat ltac:(lia))) as H3.
  change (nth 0 (cells_around d p) p) with (c 0%nat) in *. change (nth 1 (cells_around d p) p) with (c 1%nat) in *.
  change (nth 2 (cells_around d p) p) with (c 2%nat) in *. change (nth 3 (cells_around d p) p) with (c 3%nat) in *.
  assert (Sq : forall x : R, (if solid p then 1 else -1) * ((if solid p then 1 else -1) * x) = x)
    by (intro x; destruct (solid p); lra).
  rewrite Sq. split.
  - pose proof (H0 u) as U0. pose proof (H0 v) as V0. pose proof (H1 u) as U1. pose proof (H1 v) as V1.
    pose proof (H2 u) as U2. pose proof (H2 v) as V2. pose proof (H3 u) as U3. pose proof (H3 v) as V3.
    rewrite A0, minus_IZR in U0. rewrite A1, minus_IZR in V0. rewrite A2 in U1. rewrite A3, minus_IZR in V1.
    rewrite A4 in U2. rewrite A5 in V2. rewrite A6, minus_IZR in U3. rewrite A7 in V3.
    match goal with |- 0 <= ?a * ?b - ?x * ?y => assert (0 <= a /\ 0 <= b /\ 0 <= x /\ y <= 0) as (X1 & X2 & X3 & X4) by lra;
      pose proof (Rmult_le_pos a b X1 X2); pose proof (Rmult_le_pos x (- y) X3 ltac:(lra)) end.
    lra.
  - intro G. pose proof (G _ (Hn 0%nat ltac:(lia))) as G0. pose proof (G _ (Hn 1%nat ltac:(lia))) as G1.
    pose proof (G _ (Hn 2%nat ltac:(lia))) as G2. pose proof (G _ (Hn 3%nat ltac:(lia))) as G3.
    change (nth 0 (cells_around d p) p) with (c 0%nat) in *. change (nth 1 (cells_around d p) p) with (c 1%nat) in *.
    change (nth 2 (cells_around d p) p) with (c 2%nat) in *. change (nth 3 (cells_around d p) p) with (c 3%nat) in *.
    pose proof (G0 u) as U0. pose proof (G0 v) as V0. pose proof (G1 u) as U1. pose proof (G1 v) as V1.
    pose proof (G2 u) as U2. pose proof (G2 v) as V2. pose proof (G3 u) as U3. pose proof (G3 v) as V3.
    rewrite A0, minus_IZR in U0. rewrite A1, minus_IZR in V0. rewrite A2 in U1. rewrite A3, minus_IZR in V1.
    rewrite A4 in U2. rewrite A5 in V2. rewrite A6, minus_IZR in U3. rewrite A7 in V3.
    match goal with |- 0 < ?a * ?b - ?x * ?y => assert (0 < a /\ 0 < b /\ 0 < x /\ y < 0) as (X1 & X2 & X3 & X4) by lra;
      pose proof (Rmult_lt_0_compat a b X1 X2); pose proof (Rmult_lt_0_compat x (- y) X3 ltac:(lra)) end.
    lra.
Qed.

(* The triangles of the mesh come in pairs, one for each stored edge inside the
   grid.  Wherever the vertices are in their cells, the area vector of a pair
   does not point against the direction from the solid to the empty end of its
   edge, and points along it if the vertices are in the interiors. *)
Theorem C18_outward : forall E (g0 : ugrid E) f solver sort qef g calls m ts qs pos,
  valid_size (g_size g0) -> sorts dc_less sort ->
  fill g0 f solver = Ret (g, calls) -> dual_contouring sort qef g = Ret m -> mesh_valid_with m ts ->
  surface_cells (g_size g0) (fun p => le0 E (sample g0 f p)) qs ->
  (forall k q, znth qs k = Some q -> in_cube q (pos k)) ->
  exists quads : list (gedge * (triangle * triangle)),
    ts = flat_map (fun eq => [fst (snd eq); snd (snd eq)]) quads /\
    forall d p t1 t2, In ((d, p), (t1, t2)) quads ->
      edge_crosses (fun p => le0 E (sample g0 f p)) (d, p) = true /\
      let outward := if le0 E (sample g0 f p) then 1 else -1 in
      0 <= outward * area_along pos d [t1; t2] /\
      ((forall k q, znth qs k = Some q -> In q (cells_around d p) -> in_open_cube q (pos k)) ->
       0 < outward * area_along pos d [t1; t2]).
Proof.
  intros E g0 f solver sort qef g calls m ts qs pos Hv Hsort Hf Hm [Hts _] Hqs Hpos.
  destruct (filled_edges _ _ _ _ _ _ Hv Hf) as [Hsz Hr]. rewrite <- Hsz in *.
  set (solid := fun p => le0 E (sample g0 f p)) in *.
  destruct (udc_run _ _ _ _ _ _ _ Hr Hsort Hqs Hm) as (es & Hes & ->). cbn [m_inds] in Hts. apply flatten_inj in Hts. subst ts.
  destruct Hqs as [Hss Hqs].
  set (L := filter (fun e => inner_b g (edge_key e)) (stored_edges g)).
  set (pair2 := fun l : list triangle => match l with [t1; t2] => (t1, t2) | _ => ((0, 0, 0), (0, 0, 0))%Z end).
  assert (Q2 : forall e, around_quad (cid qs) solid e =
     [fst (pair2 (around_quad (cid qs) solid e)); snd (pair2 (around_quad (cid qs) solid e))]).
  { intros [d p]. unfold around_quad, cells_around. cbn [fst snd]. destruct (solid p); reflexivity. }
  exists (map (fun e => (edge_key e, pair2 (around_quad (cid qs) solid (edge_key e)))) L). split.
  - unfold L. generalize (stored_edges g). intro l. induction l as [|e l IH]; [reflexivity|].
    cbn [flat_map filter]. unfold etris at 1. destruct (inner_b g (edge_key e)); [|exact IH].
    cbn [map flat_map]. rewrite IH. cbn [fst snd]. rewrite Q2 at 1. reflexivity.
  - intros d p t1 t2 Hin. apply in_map_iff in Hin as (e & Heq & He).
    assert (K : edge_key e = (d, p)) by (apply (f_equal fst) in Heq; exact Heq).
    assert (T : around_quad (cid qs) solid (d, p) = [t1; t2]).
    { rewrite <- K. rewrite Q2. apply (f_equal snd) in Heq. cbn [snd] in Heq. rewrite Heq. reflexivity. }
    unfold L in He. apply filter_In in He as [He Hi]. apply (inner_b_ok g solid Hr) in Hi.
    unfold inner_edge in Hi. rewrite Forall_forall, K in Hi. cbn [fst snd] in Hi.
    split; [rewrite <- K; apply (all_edges_crossing g solid Hr); exact He|]. cbv zeta.
    assert (Hsurf : forall c, In c (cells_around d p) -> In c qs).
    { intros c Hc. apply Hqs. apply (around_surface g solid Hr e); [exact He|auto|rewrite K; exact Hc]. }
    destruct (quad_outward pos (cid qs) solid d p) as [O1 O2].
    { intros c Hc. apply Hpos. apply cid_in. apply Hsurf. assumption. }
    rewrite T in O1, O2. split; [exact O1|]. intro G. apply O2. intros c Hc. apply G; [|assumption].
    apply cid_in. apply Hsurf. assumption.
Qed.
Print Assumptions C18_outward.

(* ---- Cases ---- *)
Local Open Scope Z_scope.

Lemma isort_key : forall A (key : A -> Z), sorts (fun a b => key a <? key b) (isort (fun a b => key a <? key b)).
Proof.
  intros A key l. set (less := fun a b => key a <? key b). split.
  - induction l as [|a l IH]; [constructor|]. cbn [isort fold_right]. fold (isort less l).
    transitivity (a :: isort less l); [constructor; assumption|].
    generalize (isort less l). intro k. induction k as [|b k IHk]; cbn [insert]; [reflexivity|].
    destruct (less b a); [|reflexivity]. rewrite <- IHk. constructor.
  - induction l as [|a l IH]; [constructor|]. cbn [isort fold_right]. fold (isort less l).
    revert IH. generalize (isort less l). intro k. induction k as [|b k IHk]; cbn [insert]; intro H.
    + constructor; constructor.
    + inversion H as [|? ? H1 H2]; subst. destruct (less b a) eqn:E.
      * constructor; [apply IHk; assumption|].
        apply Forall_forall. intros x Hx. rewrite Forall_forall in H2.
        assert (Hx' : x = a \/ In x k).
        { clear -Hx. induction k as [|c k IH]; cbn [insert] in Hx; [destruct Hx as [->|[]]; auto|].
          destruct (less c a); cbn [In] in *; intuition auto. }
        destruct Hx' as [->|Hx']; [|apply H2; assumption].
        unfold less in *. rewrite Z.ltb_lt in E. apply Z.ltb_ge. lia.
      * constructor; [assumption|]. constructor; [exact E|].
        apply Forall_forall. intros x Hx. rewrite Forall_forall in H2. specialize (H2 x Hx).
        unfold less in *. rewrite Z.ltb_ge in *. lia.
Qed.

Lemma isort_dc : forall E, sorts (@dc_less E) (isort dc_less).
Proof. intro E. exact (isort_key (dc_entry E) fst). Qed.

(* The ball of PropMC.v with vertices at the lower corners of the cells: the
   surface is the cube around the only solid point. *)
Definition lower_qef : qef_solver envIEEE := fun _ lo _ => lo.

Example C16_C17_C18_ex :
  match fill c53_grid ball_field c10_solver with
  | Ret (g, _) => match dual_contouring (isort dc_less) lower_qef g with
      | Ret m => (mesh_vertex_count m, map (fun v => mv_mat v) (m_verts m), m_inds m)
      | _ => (0, [], [])
      end
  | _ => (0, [], [])
  end = (8, [Solid; Solid; Solid; Solid; Solid; Solid; Solid; Solid],
         [0; 1; 4; 4; 1; 5; 2; 6; 3; 6; 7; 3; 0; 2; 1; 1; 2; 3; 4; 5; 6; 5; 7; 6;
          0; 4; 2; 2; 4; 6; 1; 3; 5; 3; 7; 5]).
Proof. vm_compute. reflexivity. Qed.

(* The hypotheses of the theorems can be met for each filled grid: the list of
   cells, their numbering and the test for inner edges exist. *)
Lemma udc_hypotheses_met : forall E (g0 : ugrid E) f solver g calls,
  valid_size (g_size g0) -> fill g0 f solver = Ret (g, calls) ->
  exists qs id inner, surface_cells (g_size g0) (fun p => le0 E (sample g0 f p)) qs /\ numbers qs id /\
    (forall e, inner e = true <-> inner_edge (g_size g0) e) /\
    exists pos, forall k q, znth qs k = Some q -> in_open_cube q (pos k).
Proof.
  intros E g0 f solver g calls Hv Hf. destruct (filled_edges _ _ _ _ _ _ Hv Hf) as [Hsz Hr]. rewrite <- Hsz.
  destruct (dual_contouring_ok g _ Hr (fun _ lo _ => lo) _ (isort_dc E)) as (qs & es & Hnd & Hss & Hqs & _).
  exists qs, (cid qs), (inner_b g). split; [split; assumption|]. split; [apply numbers_cid; assumption|].
  split; [apply (inner_b_ok g _ Hr)|].
  exists (fun k => match znth qs k with
                   | Some q => V3 (IZR (vx q) + /2)%R (IZR (vy q) + /2)%R (IZR (vz q) + /2)%R
                   | None => V3 0%R 0%R 0%R end).
  intros k q ->. intro d. destruct d; cbn [vget vx vy vz]; lra.
Qed.

Example C16_hypotheses_ex : exists g calls, fill c53_grid ball_field c10_solver = Ret (g, calls) /\ valid_size (g_size c53_grid).
Proof.
  destruct ball_ok as (H1 & H2 & H3).
  destruct (fill_represents envIEEE c53_grid ball_field c10_solver H1 H2 H3) as (g & calls & Hf & _).
  exists g, calls. auto.
Qed.
