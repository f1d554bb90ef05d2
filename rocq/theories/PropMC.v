(* Marching cubes on filled grids: C13, C14, C15 *)
From Coq Require Import ZArith List Bool Lia Sorted Permutation.
From Verif Require Import Base Arith Tables MeshModel MeshSpec MeshProofs GridModel GridSpec GridProofs
  EdgeModel EdgeSpec EdgeProofs FillModel FillSpec LoopLemmas FillProofs MCModel CellSpec CellTables MergeProofs
  MCProofs MCClosed FloatArith PropFillNum.
Import ListNotations.
Local Open Scope Z_scope.

(* The edges stored in the grid, axis by axis. *)
Definition stored_edges {E} (g : ugrid E) : list (uedge (fp_F E)) := g_edges AX g ++ g_edges AY g ++ g_edges AZ g.

Lemma flatten_inj : forall ts ts', flatten ts = flatten ts' -> ts = ts'.
Proof.
  induction ts as [|[[a b] c] ts IH]; intros [|[[a' b'] c'] ts'] H; cbn [flatten] in H; try discriminate; [reflexivity|].
  injection H as -> -> -> H. f_equal. apply IH. assumption.
Qed.

Lemma filled_represents : forall E (g0 : ugrid E) f solver g calls, valid_size (g_size g0) -> nan_free g0 f ->
  solid_inside g0 f -> fill g0 f solver = Ret (g, calls) ->
  g_size g = g_size g0 /\ represents g (fun p => le0 E (sample g0 f p)).
Proof.
  intros E g0 f solver g calls Hv Hn Hs Hf.
  destruct (fill_represents E g0 f solver Hv Hn Hs) as (g' & c' & Hf' & Hsz & Hr).
  rewrite Hf in Hf'. injection Hf' as <- <-. auto.
Qed.

Lemma all_edges_key : forall E (g : ugrid E) solid, represents_edges g solid -> forall k e,
  znth (stored_edges g) k = Some e -> vid g (edge_key e) = Some k /\ In e (g_edges (fst (edge_key e)) g).
Proof.
  intros E g solid Hr k e H. destruct (all_edges_vid g solid Hr k e H) as (d & Ha & Hin & Hv).
  unfold edge_key. rewrite Ha. cbn [fst]. destruct d; auto.
Qed.

Lemma mc_run : forall E (g : ugrid E) solid sort m, represents g solid -> sorts entry_less sort ->
  marching_cubes sort g = Ret m ->
  exists qs, NoDup qs /\ (forall q, In q qs <-> surface_cell (g_size g) solid q) /\
    m = Mesh (map edge_vertex (stored_edges g)) (flatten (flat_map (cell_tris g solid) qs)).
Proof.
  intros E g solid sort m Hr Hs Hm. destruct (marching_cubes_ok g solid Hr sort Hs) as (qs & H1 & H2 & H3).
  exists qs. rewrite Hm in H3. injection H3 as ->. auto.
Qed.

(* ---- C13 ---- *)

(* Reading an uninitialised vertex number, overrunning a table and failing an
   assertion are outcomes other than [Ret]. *)
Theorem C13_valid : forall E (g0 : ugrid E) f solver sort,
  valid_size (g_size g0) -> nan_free g0 f -> solid_inside g0 f -> sorts entry_less sort ->
  exists g calls m, fill g0 f solver = Ret (g, calls) /\ marching_cubes sort g = Ret m /\ mesh_valid m.
Proof.
  intros E g0 f solver sort Hv Hn Hs Hsort.
  destruct (fill_represents E g0 f solver Hv Hn Hs) as (g & calls & Hf & Hsz & Hr).
  destruct (marching_cubes_ok g _ Hr sort Hsort) as (qs & H1 & H2 & H3).
  exists g, calls. eexists. split; [exact Hf|]. split; [exact H3|].
  eexists. split; [reflexivity|]. cbn [mesh_vertex_count m_verts].
  apply Forall_forall. intros t Ht. apply in_flat_map in Ht as (q & Hq & Ht).
  apply H2 in Hq as [Hq _]. pose proof (cell_tris_good g _ Hr q Hq) as G. rewrite Forall_forall in G.
  unfold mesh_vertex_count. cbn [m_verts]. rewrite zlen_map. apply G. assumption.
Qed.
Print Assumptions C13_valid.

(* The same for grids filled in any other way that leaves materials and edges
   consistent. *)
Theorem C13_represents : forall E (g : ugrid E) solid sort, represents g solid -> sorts entry_less sort ->
  exists m, marching_cubes sort g = Ret m /\ mesh_valid m.
Proof.
  intros E g solid sort Hr Hsort.
  destruct (marching_cubes_ok g _ Hr sort Hsort) as (qs & H1 & H2 & H3).
  eexists. split; [exact H3|].
  eexists. split; [reflexivity|]. cbn [mesh_vertex_count m_verts].
  apply Forall_forall. intros t Ht. apply in_flat_map in Ht as (q & Hq & Ht).
  apply H2 in Hq as [Hq _]. pose proof (cell_tris_good g _ Hr q Hq) as G. rewrite Forall_forall in G.
  unfold mesh_vertex_count. cbn [m_verts]. rewrite zlen_map. apply G. assumption.
Qed.
Print Assumptions C13_represents.

(* ---- C14 ---- *)

Theorem C14_vertices : forall E (g0 : ugrid E) f solver sort g calls m ts,
  valid_size (g_size g0) -> nan_free g0 f -> solid_inside g0 f -> sorts entry_less sort ->
  fill g0 f solver = Ret (g, calls) -> marching_cubes sort g = Ret m -> mesh_valid_with m ts ->
  m_verts m = map (fun e => MVert (surface_point E e) (surface_normal E e) (solid_material e)) (stored_edges g) /\
  forall k, 0 <= k < mesh_vertex_count m -> exists a b c, In (a, b, c) ts /\ (a = k \/ b = k \/ c = k).
Proof.
  intros E g0 f solver sort g calls m ts Hv Hn Hs Hsort Hf Hm [Hts _].
  destruct (filled_represents _ _ _ _ _ _ Hv Hn Hs Hf) as [_ Hr].
  destruct (mc_run _ _ _ _ _ Hr Hsort Hm) as (qs & Hnd & Hqs & ->). cbn [m_inds] in Hts. apply flatten_inj in Hts. subst ts.
  split; [reflexivity|]. intros k Hk. unfold mesh_vertex_count in Hk. cbn [m_verts] in Hk. rewrite zlen_map in Hk.
  apply (vertex_used g _ Hr); assumption.
Qed.
Print Assumptions C14_vertices.

(* The triangles are those the lookup table lists for the cells met by the
   surface: each triangle's edges belong to one cell of the grid whose
   corners are not all alike. *)
Theorem C14_triangles : forall E (g0 : ugrid E) f solver sort g calls m ts,
  valid_size (g_size g0) -> nan_free g0 f -> solid_inside g0 f -> sorts entry_less sort ->
  fill g0 f solver = Ret (g, calls) -> marching_cubes sort g = Ret m -> mesh_valid_with m ts ->
  forall a b c, In (a, b, c) ts ->
    exists q i j k ea eb ec,
      cell_in (g_size g0) q /\ 0 <= i < 12 /\ 0 <= j < 12 /\ 0 <= k < 12 /\
      znth (stored_edges g) a = Some ea /\ edge_key ea = cell_edge q i /\
      znth (stored_edges g) b = Some eb /\ edge_key eb = cell_edge q j /\
      znth (stored_edges g) c = Some ec /\ edge_key ec = cell_edge q k.
Proof.
  intros E g0 f solver sort g calls m ts Hv Hn Hs Hsort Hf Hm [Hts _] a b c Hin.
  destruct (filled_represents _ _ _ _ _ _ Hv Hn Hs Hf) as [Hsz Hr].
  destruct (mc_run _ _ _ _ _ Hr Hsort Hm) as (qs & Hnd & Hqs & ->). cbn [m_inds] in Hts. apply flatten_inj in Hts. subst ts.
  apply in_flat_map in Hin as (q & Hq & Hin). apply Hqs in Hq as [Hq _].
  unfold cell_tris in Hin. apply in_map_iff in Hin as ([[i j] k] & Ht & Hlt).
  destruct (row_ok (config (fun p => le0 E (sample g0 f p)) q) eq_refl) as (_ & _ & G & _).
  rewrite forallb_forall in G. specialize (G _ Hlt). apply good_local_spec in G as ([A1 A2] & [B1 B2] & [C1 C2] & _).
  unfold gtri in Ht. injection Ht as <- <- <-.
  assert (K : forall w, 0 <= w < 12 -> crossing (config (fun p => le0 E (sample g0 f p)) q) w = true ->
     exists e, znth (stored_edges g) (gid g q w) = Some e /\ edge_key e = cell_edge q w).
  { intros w Hw Hc. destruct (gid_some g _ Hr q w Hq Hw Hc) as [Vw Rw].
    destruct (znth_some _ (stored_edges g) (gid g q w) Rw) as (e & He). exists e. split; [assumption|].
    destruct (all_edges_key _ _ _ Hr _ _ He) as [V _]. exact (vid_inj g _ _ _ V Vw). }
  destruct (K i A1 A2) as (ea & Ea & Ka). destruct (K j B1 B2) as (eb & Eb & Kb). destruct (K k C1 C2) as (ec & Ec & Kc).
  exists q, i, j, k, ea, eb, ec. rewrite <- Hsz. repeat (split; [assumption|]). assumption.
Qed.
Print Assumptions C14_triangles.

(* ---- C15 ---- *)

Theorem C15_watertight : forall E (g0 : ugrid E) f solver sort g calls m ts,
  valid_size (g_size g0) -> nan_free g0 f -> solid_inside g0 f -> sorts entry_less sort ->
  fill g0 f solver = Ret (g, calls) -> marching_cubes sort g = Ret m -> mesh_valid_with m ts ->
  forall a b, a <> b ->
    side_count ts a b <= 1 /\
    (side_count ts a b = side_count ts b a \/
     exists ea eb, znth (stored_edges g) a = Some ea /\ znth (stored_edges g) b = Some eb /\
       in_outer_face (g_size g0) (edge_key ea) (edge_key eb)).
Proof.
  intros E g0 f solver sort g calls m ts Hv Hn Hs Hsort Hf Hm [Hts Hgood] a b Hab.
  destruct (filled_represents _ _ _ _ _ _ Hv Hn Hs Hf) as [Hsz Hr].
  destruct (mc_run _ _ _ _ _ Hr Hsort Hm) as (qs & Hnd & Hqs & Em). rewrite Em in Hts, Hgood.
  cbn [m_inds] in Hts. apply flatten_inj in Hts.
  unfold mesh_vertex_count in Hgood. cbn [m_verts] in Hgood. rewrite zlen_map in Hgood.
  set (N := zlen (stored_edges g)) in Hgood.
  assert (Z0 : forall x y, side_count ts x y <> 0 -> 0 <= x < N /\ 0 <= y < N).
  { intros x y Hne. unfold side_count in Hne. pose proof (countZ_nonneg _ (pair_eqb (x, y)) (flat_map sides ts)) as Hp.
    destruct (countZ_pos _ (pair_eqb (x, y)) (flat_map sides ts)) as ((x' & y') & Hin & He); [lia|].
    unfold pair_eqb in He. cbn [fst snd] in He. rewrite andb_true_iff, !Z.eqb_eq in He. destruct He as [-> ->].
    apply in_flat_map in Hin as ([[u v] w] & Ht & Hsd). rewrite Forall_forall in Hgood. specialize (Hgood _ Ht).
    unfold good_triangle in Hgood. cbn [sides In] in Hsd.
    destruct Hsd as [Hsd|[Hsd|[Hsd|[]]]]; injection Hsd as <- <-; lia. }
  assert (Hdec : (0 <= a < N /\ 0 <= b < N) \/ ~ (0 <= a < N /\ 0 <= b < N)) by lia.
  destruct Hdec as [[Ha Hb]|Hno].
  2: { assert (S1 : side_count ts a b = 0) by (destruct (Z.eq_dec (side_count ts a b) 0) as [|X]; [assumption|apply Z0 in X; lia]).
       assert (S2 : side_count ts b a = 0) by (destruct (Z.eq_dec (side_count ts b a) 0) as [|X]; [assumption|apply Z0 in X; lia]).
       split; [lia|left; congruence]. }
  destruct (znth_some _ (stored_edges g) a Ha) as (ea & Ea). destruct (znth_some _ (stored_edges g) b Hb) as (eb & Eb).
  destruct (all_edges_key _ _ _ Hr _ _ Ea) as [Va _]. destruct (all_edges_key _ _ _ Hr _ _ Eb) as [Vb _].
  destruct (mc_closed g _ Hr qs (edge_key ea) (edge_key eb) a b Hnd Hqs Va Vb Hab) as [Hle Heq].
  rewrite Hts in Hle, Heq. split; [exact Hle|].
  assert (Dec : in_outer_face (g_size g) (edge_key ea) (edge_key eb) \/ ~ in_outer_face (g_size g) (edge_key ea) (edge_key eb)).
  { set (ok := fun d => negb (axis_eqb (fst (edge_key ea)) d) && negb (axis_eqb (fst (edge_key eb)) d) &&
        (vget d (snd (edge_key ea)) =? vget d (snd (edge_key eb))) &&
        ((2 * vget d (snd (edge_key ea)) =? g_size g) || (2 * vget d (snd (edge_key ea)) =? - g_size g))).
    assert (Hok : forall d, ok d = true <-> exists s, (2 * s = g_size g \/ 2 * s = - g_size g) /\
        edge_in_plane d s (edge_key ea) /\ edge_in_plane d s (edge_key eb)).
    { intro d. unfold ok, edge_in_plane. rewrite !andb_true_iff, !negb_true_iff, orb_true_iff, !Z.eqb_eq. split.
      - intros [[[X1 X2] X3] X4]. exists (vget d (snd (edge_key ea))). split; [assumption|].
        split; (split; [intro Y; apply axis_eqb_eq in Y; congruence|congruence]).
      - intros (s & X & [Y1 Y2] & [Y3 Y4]). subst s.
        split; [split; [split|]|].
        + destruct (axis_eqb (fst (edge_key ea)) d) eqn:Z; [apply axis_eqb_eq in Z; contradiction|reflexivity].
        + destruct (axis_eqb (fst (edge_key eb)) d) eqn:Z; [apply axis_eqb_eq in Z; contradiction|reflexivity].
        + congruence.
        + assumption. }
    destruct (ok AX) eqn:OX; [left; apply Hok in OX; exists AX; exact OX|].
    destruct (ok AY) eqn:OY; [left; apply Hok in OY; exists AY; exact OY|].
    destruct (ok AZ) eqn:OZ; [left; apply Hok in OZ; exists AZ; exact OZ|].
    right. intros (d & H). apply Hok in H. destruct d; congruence. }
  destruct Dec as [D|D].
  - right. exists ea, eb. rewrite <- Hsz. auto.
  - left. apply Heq. exact D.
Qed.
Print Assumptions C15_watertight.

(* A sort and a filled grid to which the theorems apply: the ball x^2+y^2+z^2 <= 1/2
   in a grid of size 2 gives an octahedron. *)
Fixpoint insert {A} (less : A -> A -> bool) (a : A) (l : list A) : list A :=
  match l with [] => [a] | b :: l' => if less b a then b :: insert less a l' else a :: l end.
Definition isort {A} (less : A -> A -> bool) (l : list A) : list A := fold_right (insert less) [] l.

Lemma isort_entries : sorts entry_less (isort entry_less).
Proof.
  intro l. split.
  - induction l as [|a l IH]; [constructor|]. cbn [isort fold_right]. fold (isort entry_less l).
    transitivity (a :: isort entry_less l); [constructor; assumption|].
    generalize (isort entry_less l). intro k. induction k as [|b k IHk]; cbn [insert]; [reflexivity|].
    destruct (entry_less b a); [|reflexivity]. rewrite <- IHk. constructor.
  - induction l as [|a l IH]; [constructor|]. cbn [isort fold_right]. fold (isort entry_less l).
    revert IH. generalize (isort entry_less l). intro k. induction k as [|b k IHk]; cbn [insert]; intro H.
    + constructor; constructor.
    + inversion H as [|? ? H1 H2]; subst. destruct (entry_less b a) eqn:E.
      * constructor; [apply IHk; assumption|].
        apply Forall_forall. intros x Hx. rewrite Forall_forall in H2.
        assert (Hx' : x = a \/ In x k).
        { clear -Hx. induction k as [|c k IH]; cbn [insert] in Hx; [destruct Hx as [->|[]]; auto|].
          destruct (entry_less c a); cbn [In] in *; intuition auto. }
        destruct Hx' as [->|Hx']; [|apply H2; assumption].
        unfold entry_less in *. rewrite Z.ltb_lt in E. apply Z.ltb_ge. lia.
      * constructor; [assumption|]. constructor; [exact E|].
        apply Forall_forall. intros x Hx. rewrite Forall_forall in H2. specialize (H2 x Hx).
        unfold entry_less in *. rewrite Z.ltb_ge in *. lia.
Qed.

Definition ball_field : field envIEEE :=
  @Field envIEEE (fun p : vec3 b64 =>
      a_sub arith64 (a_add arith64 (a_add arith64 (a_mul arith64 (vx p) (vx p)) (a_mul arith64 (vy p) (vy p)))
        (a_mul arith64 (vz p) (vz p))) (f64 1 (-1)))
    (fun p => p) (fun _ _ => Solid).

Example ball_ok : valid_size (g_size c53_grid) /\ nan_free c53_grid ball_field /\ solid_inside c53_grid ball_field.
Proof.
  assert (Hv : valid_size 2) by (exists 1; split; [split; discriminate|reflexivity]).
  split; [exact Hv|]. split.
  - intros p Hp. apply (all_points_ok _ _ Hv) in Hp.
    assert (T : forallb (fun p => eqb (gt0 envIEEE (sample c53_grid ball_field p))
       (negb (le0 envIEEE (sample c53_grid ball_field p)))) (all_points 2) = true) by (vm_compute; reflexivity).
    rewrite forallb_forall in T. apply eqb_prop. apply T. assumption.
  - intros p Hp Hl. discriminate.
Qed.

Example C13_C14_C15_ex :
  match fill c53_grid ball_field c10_solver with
  | Ret (g, _) => match marching_cubes (isort entry_less) g with
      | Ret m => (mesh_vertex_count m, m_inds m)
      | _ => (0, [])
      end
  | _ => (0, [])
  end = (6, [2; 0; 4; 2; 5; 0; 4; 1; 2; 1; 5; 2; 4; 0; 3; 0; 5; 3; 4; 3; 1; 1; 3; 5]).
Proof. vm_compute. reflexivity. Qed.
