(* Edge storage and UniformGrid::fill: C08, C09, C10 (structural part), C11, C53 (positive part) *)
From Coq Require Import ZArith List Bool Lia Permutation Sorted.
From Verif Require Import Base Arith GridModel GridSpec GridProofs EdgeModel EdgeSpec EdgeProofs
  LoopLemmas FillModel FillSpec FillProofs.
Import ListNotations.
Local Open Scope Z_scope.

(* ---- C11 ---- *)

(* Any order std::sort may produce keeps exactly the edges and makes the
   storage sorted. *)
Theorem C11_sort : forall F (l l' : list (uedge F)),
  sort_result edge_less l l' -> Permutation l l' /\ edges_sorted l'.
Proof. intros F l l' H. split; [apply H|eapply edge_less_sorted; exact H]. Qed.
Print Assumptions C11_sort.

Theorem C11_find : forall F (l : list (uedge F)) x y z,
  edges_sorted l ->
  (forall e, In e l -> is_i16 (ue_x e) /\ is_i16 (ue_y e) /\ is_i16 (ue_z e)) ->
  exists it, find_edge l x y z = Ret it /\
   ((it = zlen l /\ forall e, In e l -> lesser_endpoint e <> V3 x y z) \/
    (exists e, znth l it = Some e /\ lesser_endpoint e = V3 x y z)).
Proof. exact find_edge_ok. Qed.
Print Assumptions C11_find.

(* Every coordinate triple within 16 bits survives, everything else trips the
   assertion. *)
Theorem C11_compressed : forall E lx ly lz grad off d sol mat,
  (is_i16 lx /\ is_i16 ly /\ is_i16 lz ->
   exists e, make_edge E lx ly lz grad off (axis_num d) sol mat = Ret e /\
     lesser_endpoint e = V3 lx ly lz /\ bigger_endpoint e = vadd (V3 lx ly lz) (unit_vec d) /\
     is_lesser_solid e = sol /\ solid_material e = mat) /\
  (~ (is_i16 lx /\ is_i16 ly /\ is_i16 lz) ->
   make_edge E lx ly lz grad off (axis_num d) sol mat = AssertFail).
Proof.
  intros. split.
  - intros (Hx & Hy & Hz).
    destruct (make_edge_ok E lx ly lz grad off (axis_num d) sol mat) as (e & H1 & H2 & H3 & H4 & H5); try assumption.
    { destruct d; cbn; lia. }
    exists e. rewrite (bigger_endpoint_ok _ e d) by assumption. rewrite H2. auto.
  - intro H. unfold make_edge.
    destruct ((lx <=? i16max) && (ly <=? i16max) && (lz <=? i16max)) eqn:A1; [|reflexivity].
    destruct ((lx >=? i16min) && (ly >=? i16min) && (lz >=? i16min)) eqn:A2; [|reflexivity].
    exfalso. apply H. rewrite !andb_true_iff, !Z.leb_le in A1.
    rewrite !andb_true_iff, !Z.geb_leb, !Z.leb_le in A2. unfold is_i16. lia.
Qed.
Print Assumptions C11_compressed.

Definition c11_edge (x y z : Z) : uedge nat := UEdge O O O false false 0 1 x y z.
Example C11_ex : sort_result edge_less [c11_edge 1 0 0; c11_edge 5 (-3) 2; c11_edge 1 0 0]
                                       [c11_edge 5 (-3) 2; c11_edge 1 0 0; c11_edge 1 0 0] /\
  find_edge [c11_edge 5 (-3) 2; c11_edge 1 0 0; c11_edge 1 0 0] 5 (-3) 2 = Ret 0 /\
  find_edge [c11_edge 5 (-3) 2; c11_edge 1 0 0; c11_edge 1 0 0] 65537 0 0 = Ret 3.
Proof.
  split; [|split; reflexivity]. split.
  - apply perm_swap.
  - repeat constructor.
Qed.

(* ---- C08 ---- *)

Theorem C08_materials : forall E (g : ugrid E) f solver, valid_size (g_size g) ->
  exists g' calls, fill g f solver = Ret (g', calls) /\ g_size g' = g_size g /\
    forall p, vertex_in (g_size g) p ->
      grid_at (g_size g') (g_mat g') p =
        Ret (if gt0 E (fl_value f (sample_pos g p)) then Empty
             else fl_material f (sample_pos g p) (fl_value f (sample_pos g p))).
Proof.
  intros E g f solver Hv.
  destruct (fill_ok E g f solver Hv) as (g' & calls & Hf & Hs & _ & _ & Hm & _).
  exists g', calls. split; [assumption|split; [assumption|]]. intros p Hp. rewrite Hs.
  apply (grid_at_ok _ _ (promised_material g f)); assumption.
Qed.
Print Assumptions C08_materials.

(* The result depends on size, position and step of the grid only, not on
   what it contained. *)
Theorem C08_no_trace : forall E (g1 g2 : ugrid E) f solver g1' g2' c1 c2,
  valid_size (g_size g1) ->
  g_size g1 = g_size g2 -> g_pos g1 = g_pos g2 -> g_step g1 = g_step g2 ->
  fill g1 f solver = Ret (g1', c1) -> fill g2 f solver = Ret (g2', c2) ->
  c1 = c2 /\ (forall d, g_edges d g1' = g_edges d g2') /\
  forall p, vertex_in (g_size g1) p ->
    grid_at (g_size g1') (g_mat g1') p = grid_at (g_size g2') (g_mat g2') p.
Proof.
  intros E g1 g2 f solver g1' g2' c1 c2 Hv Hs Hp Hst H1 H2.
  assert (Hv2 : valid_size (g_size g2)) by (rewrite <- Hs; assumption).
  destruct (fill_ok E g1 f solver Hv) as (h1 & d1 & F1 & S1 & _ & _ & M1 & E1 & K1).
  destruct (fill_ok E g2 f solver Hv2) as (h2 & d2 & F2 & S2 & _ & _ & M2 & E2 & K2).
  rewrite H1 in F1. rewrite H2 in F2. injection F1 as <- <-. injection F2 as <- <-.
  assert (Hpos : forall p, sample_pos g1 p = sample_pos g2 p).
  { intro p. unfold sample_pos. rewrite Hs, Hp, Hst. reflexivity. }
  assert (Hsam : forall p, sample g1 f p = sample g2 f p).
  { intro p. unfold sample. rewrite Hpos. reflexivity. }
  assert (Hpro : forall p, promised_material g1 f p = promised_material g2 f p).
  { intro p. unfold promised_material. rewrite Hsam, Hpos. reflexivity. }
  assert (Hcr : forall d p, crosses g1 f d p = crosses g2 f d p).
  { intros. unfold crosses. rewrite !Hsam. reflexivity. }
  assert (Hsc : forall d p, solver_call g1 f d p = solver_call g2 f d p).
  { intros. unfold solver_call. rewrite Hst, Hp, !Hsam. reflexivity. }
  assert (Hse : forall d p, stored_edge g1 f solver d p = stored_edge g2 f solver d p).
  { intros. unfold stored_edge. rewrite Hsc, !Hsam, Hpro, Hst. reflexivity. }
  assert (Hfi : forall d, filter (crosses g1 f d) (edge_points (g_size g1) d) =
                          filter (crosses g2 f d) (edge_points (g_size g2) d)).
  { intro d. rewrite Hs. apply filter_ext. apply Hcr. }
  assert (Hom : forall d l, omap (stored_edge g1 f solver d) l = omap (stored_edge g2 f solver d) l).
  { induction l as [|p l IH]; simpl; [reflexivity|]. rewrite Hse, IH. reflexivity. }
  split; [|split].
  - rewrite K1, K2. cbn [flat_map]. rewrite !Hfi.
    rewrite !(map_ext _ _ (Hsc _)). reflexivity.
  - intro d. specialize (E1 d). specialize (E2 d). rewrite Hom, Hfi, E2 in E1. congruence.
  - intros p Hin. rewrite S1, S2, <- Hs.
    rewrite (grid_at_ok _ _ (promised_material g1 f)); try assumption.
    rewrite (grid_at_ok _ _ (promised_material g2 f)); try assumption; [rewrite Hpro; reflexivity|].
    rewrite Hs. assumption.
Qed.
Print Assumptions C08_no_trace.

(* ---- C09 ---- *)

Theorem C09_edges : forall E (g : ugrid E) f solver, valid_size (g_size g) ->
  exists g' calls, fill g f solver = Ret (g', calls) /\
  forall d,
    edges_sorted (g_edges d g') /\ NoDup (map lesser_endpoint (g_edges d g')) /\
    forall x y z, exists it, find_edge (g_edges d g') x y z = Ret it /\
      let p := V3 x y z in let q := vadd p (unit_vec d) in
      let inside v := le0 E (fl_value f (sample_pos g v)) in
      (it < zlen (g_edges d g') <->
         edge_in (g_size g) d p /\ inside p <> inside q) /\
      (it < zlen (g_edges d g') -> exists e, znth (g_edges d g') it = Some e /\
         lesser_endpoint e = p /\ bigger_endpoint e = q /\ ue_axis e = axis_num d /\
         is_lesser_solid e = inside p /\
         exists m, grid_at (g_size g) (g_mat g') (if inside p then p else q) = Ret m /\
                   solid_material e = m).
Proof.
  intros E g f solver Hv.
  destruct (fill_ok E g f solver Hv) as (g' & calls & Hf & Hs & _ & _ & Hm & He & _).
  exists g', calls. split; [assumption|]. intro d.
  assert (Hall : Forall2 (fun p e => stored_edge g f solver d p = Ret e /\
     lesser_endpoint e = p /\ ue_axis e = axis_num d /\
     is_lesser_solid e = le0 E (sample g f p) /\
     solid_material e = promised_material g f (if le0 E (sample g f p) then p else vadd p (unit_vec d)))
     (filter (crosses g f d) (edge_points (g_size g) d)) (g_edges d g')).
  { apply omap_edges; [assumption| |apply He].
    intros p Hp. apply filter_In in Hp as [Hp _]. apply in_edge_points; assumption. }
  assert (Hmap : map lesser_endpoint (g_edges d g') = filter (crosses g f d) (edge_points (g_size g) d)).
  { eapply Forall2_map_eq; [exact Hall|]. intros a b H. apply H. }
  assert (Hst : StronglySorted yxz_lt (map lesser_endpoint (g_edges d g'))).
  { rewrite Hmap. apply sorted_filter, edge_points_sorted. }
  assert (Hso : edges_sorted (g_edges d g')).
  { clear - Hst. unfold edges_sorted. induction (g_edges d g') as [|e l IH]; simpl in *; constructor;
      apply StronglySorted_inv in Hst as [H1 H2]; [auto|].
    rewrite Forall_forall in *. intros b Hb G.
    specialize (H2 (lesser_endpoint b) (in_map _ _ _ Hb)). unfold yxz_lt in *. lia. }
  split; [assumption|split; [apply sorted_nodup; assumption|]].
  assert (H16 : forall e, In e (g_edges d g') -> is_i16 (ue_x e) /\ is_i16 (ue_y e) /\ is_i16 (ue_z e)).
  { intros e Hin. assert (Hp : In (lesser_endpoint e) (map lesser_endpoint (g_edges d g'))) by (apply in_map; assumption).
    rewrite Hmap in Hp. apply filter_In in Hp as [Hp _]. apply in_edge_points in Hp; [|assumption].
    destruct (valid_even _ Hv) as (h & Hn & Hb & E1 & E2).
    apply (edge_in_iff _ h) in Hp; [|assumption].
    assert (Hux : 0 <= vx (unit_vec d) <= 1 /\ 0 <= vy (unit_vec d) <= 1 /\ 0 <= vz (unit_vec d) <= 1)
      by (destruct d; cbn; lia).
    cbn [lesser_endpoint vx vy vz] in Hp. unfold is_i16, i16min, i16max. lia. }
  intros x y z. destruct (find_edge_ok _ (g_edges d g') x y z Hso H16) as (it & Hit & Hcase).
  exists it. split; [assumption|]. cbv zeta.
  assert (Hstored : (exists e, In e (g_edges d g') /\ lesser_endpoint e = V3 x y z) <->
     edge_in (g_size g) d (V3 x y z) /\
     le0 E (fl_value f (sample_pos g (V3 x y z))) <> le0 E (fl_value f (sample_pos g (vadd (V3 x y z) (unit_vec d))))).
  { split.
    - intros (e & Hin & Hl). assert (Hp : In (V3 x y z) (map lesser_endpoint (g_edges d g'))).
      { rewrite <- Hl. apply in_map; assumption. }
      rewrite Hmap in Hp. apply filter_In in Hp as [Hp Hc]. apply in_edge_points in Hp; [|assumption].
      split; [assumption|]. unfold crosses, sample in Hc. intro G. rewrite G in Hc.
      rewrite xorb_nilpotent in Hc. discriminate.
    - intros [Hin Hc]. assert (Hp : In (V3 x y z) (map lesser_endpoint (g_edges d g'))).
      { rewrite Hmap. apply filter_In. split; [apply in_edge_points; assumption|].
        unfold crosses, sample.
        destruct (le0 E (fl_value f (sample_pos g (V3 x y z)))),
          (le0 E (fl_value f (sample_pos g (vadd (V3 x y z) (unit_vec d))))); try reflexivity; congruence. }
      apply in_map_iff in Hp as (e & H1 & H2). exists e. auto. }
  split.
  - rewrite <- Hstored. destruct Hcase as [[-> Hno]|(e & Hz & Hl)].
    + split; [lia|]. intros (e & Hin & Hl). exfalso. apply (Hno e); assumption.
    + apply znth_in in Hz as [Hin Hr]. split; [|lia]. intros _. exists e. auto.
  - intro Hlt. destruct Hcase as [[-> Hno]|(e & Hz & Hl)]; [lia|].
    exists e. split; [assumption|split; [assumption|]].
    apply znth_in in Hz as [Hin _].
    destruct (Forall2_in_r _ _ _ _ _ _ Hall Hin) as (p & Hp & _ & L1 & L2 & L3 & L4).
    rewrite <- L1, Hl in Hp, L3, L4. clear L1.
    split; [rewrite (bigger_endpoint_ok _ e d) by assumption; rewrite Hl; reflexivity|].
    split; [exact L2|split; [exact L3|]].
    eexists. split; [|exact L4]. apply (grid_at_ok _ _ (promised_material g f)); try assumption.
    apply filter_In in Hp as [Hp _]. apply in_edge_points in Hp; [|assumption].
    fold (sample g f (V3 x y z)).
    destruct (le0 E (sample g f (V3 x y z))); apply Hp; [left|right; left]; reflexivity.
Qed.
Print Assumptions C09_edges.

(* ---- C10, structure: which calls are made ---- *)

Theorem C10_calls : forall E (g : ugrid E) f solver g' calls c, valid_size (g_size g) ->
  fill g f solver = Ret (g', calls) -> In c calls ->
  exists d p, edge_in (g_size g) d p /\
    let q := vadd p (unit_vec d) in
    let local v := vadd3 (fp_d E) (vscale3 (fp_d E) (vofZ3 (fp_d E) v) (g_step g)) (g_pos g) in
    zc_axis c = d /\ zc_start c = local p /\
    zc_end c = a_add (fp_d E) (vget d (local p)) (g_step g) /\
    zc_f0 c = fl_value f (sample_pos g p) /\ zc_f1 c = fl_value f (sample_pos g q) /\
    le0 E (zc_f0 c) <> le0 E (zc_f1 c).
Proof.
  intros E g f solver g' calls c Hv Hf Hc.
  destruct (fill_ok E g f solver Hv) as (h1 & d1 & F1 & _ & _ & _ & _ & _ & K1).
  rewrite Hf in F1. injection F1 as <- <-. subst calls.
  apply in_flat_map in Hc as (d & _ & Hc). apply in_map_iff in Hc as (p & <- & Hp).
  apply filter_In in Hp as [Hp Hcr]. apply in_edge_points in Hp; [|assumption].
  exists d, p. split; [assumption|]. cbv zeta. repeat split.
  cbn [solver_call zc_f0 zc_f1]. unfold crosses in Hcr. intro G. rewrite G, xorb_nilpotent in Hcr. discriminate.
Qed.
Print Assumptions C10_calls.

(* ---- C53, positive part ---- *)

(* Without NaN samples, and if the field never calls an inside point Empty, an
   edge is stored exactly when the stored materials of its ends differ in being
   Empty.  Missing: fields with NaN values, for which this fails. *)
Theorem C53_nan_partial : forall E (g : ugrid E) f solver, valid_size (g_size g) ->
  nan_free g f -> solid_inside g f ->
  exists g' calls, fill g f solver = Ret (g', calls) /\
  forall d p, edge_in (g_size g) d p ->
    exists m1 m2, grid_at (g_size g) (g_mat g') p = Ret m1 /\
      grid_at (g_size g) (g_mat g') (vadd p (unit_vec d)) = Ret m2 /\
      (In p (map lesser_endpoint (g_edges d g')) <-> (m1 = Empty <-> m2 <> Empty)).
Proof.
  intros E g f solver Hv Hnan Hsol.
  destruct (fill_ok E g f solver Hv) as (g' & calls & Hf & Hs & _ & _ & Hm & _).
  destruct (fill_represents E g f solver Hv Hnan Hsol) as (g'' & calls' & Hf' & _ & R).
  rewrite Hf in Hf'. injection Hf' as <- <-.
  exists g', calls. split; [assumption|]. intros d p Hp.
  assert (V1 : vertex_in (g_size g) p) by (apply Hp; left; reflexivity).
  assert (V2 : vertex_in (g_size g) (vadd p (unit_vec d))) by (apply Hp; right; left; reflexivity).
  exists (promised_material g f p), (promised_material g f (vadd p (unit_vec d))).
  split; [apply grid_at_ok; assumption|]. split; [apply grid_at_ok; assumption|].
  rewrite (rep_edges _ _ R d), Hs.
  assert (C : forall q, vertex_in (g_size g) q -> (promised_material g f q = Empty <-> le0 E (sample g f q) = false)).
  { intros q Hq. pose proof (rep_mat _ _ R q) as G. rewrite Hs in G. destruct (G Hq) as (m & Hmm & Hsl).
    rewrite (Hm q Hq) in Hmm. injection Hmm as <-. rewrite <- Hsl. unfold is_solid.
    destruct (Z.eqb_spec (promised_material g f q) Empty); simpl; split; intros; try congruence; contradiction. }
  pose proof (C _ V1) as C1. pose proof (C _ V2) as C2. rewrite filter_In.
  rewrite C1, C2. split.
  - intros [_ Hx]. destruct (le0 E (sample g f p)), (le0 E (sample g f (vadd p (unit_vec d)))); simpl in Hx;
      try discriminate; split; intros; congruence.
  - intro Hx. split; [apply in_edge_points; assumption|].
    destruct (le0 E (sample g f p)), (le0 E (sample g f (vadd p (unit_vec d)))); simpl; try reflexivity;
      exfalso; destruct Hx as [A B]; [assert (true = false) by (apply B; congruence); discriminate|apply A; reflexivity].
Qed.
Print Assumptions C53_nan_partial.
