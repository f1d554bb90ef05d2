(* Orientation of the marching cubes surface: C54 *)
From Coq Require Import ZArith Reals List Bool Lia Lra.
From Verif Require Import Base Arith Tables MeshModel MeshSpec MeshProofs GridModel GridSpec GridProofs
  EdgeModel EdgeSpec EdgeProofs FillModel FillSpec LoopLemmas FillProofs MCModel CellSpec CellTables MergeProofs
  MCProofs MCClosed FloatArith PropFillNum PropMC OrientSpec OrientProofs.
Import ListNotations.
Local Open Scope Z_scope.

(* Each triangle of the mesh belongs to a cell of the grid, and each of its
   directed sides that lies in a face of that cell has the solid end points of
   its two edges on its right, seen from outside the cell. *)
Theorem C54_oriented : forall E (g0 : ugrid E) f solver sort g calls m ts,
  valid_size (g_size g0) -> nan_free g0 f -> solid_inside g0 f -> sorts entry_less sort ->
  fill g0 f solver = Ret (g, calls) -> marching_cubes sort g = Ret m -> mesh_valid_with m ts ->
  forall t, In t ts ->
    exists q, cell_in (g_size g0) q /\
      forall a b, In (a, b) (sides t) ->
        exists i j ea eb, 0 <= i < 12 /\ 0 <= j < 12 /\
          znth (stored_edges g) a = Some ea /\ edge_key ea = cell_edge q i /\
          znth (stored_edges g) b = Some eb /\ edge_key eb = cell_edge q j /\
          side_oriented (fun p => le0 E (sample g0 f p)) q (edge_key ea) (edge_key eb).
Proof.
  intros E g0 f solver sort g calls m ts Hv Hn Hs Hsort Hf Hm [Hts _] t Hin.
  destruct (filled_represents _ _ _ _ _ _ Hv Hn Hs Hf) as [Hsz Hr].
  destruct (mc_run _ _ _ _ _ Hr Hsort Hm) as (qs & Hnd & Hqs & ->). cbn [m_inds] in Hts. apply flatten_inj in Hts. subst ts.
  apply in_flat_map in Hin as (q & Hq & Hin). apply Hqs in Hq as [Hq _].
  exists q. split; [rewrite <- Hsz; exact Hq|].
  unfold cell_tris in Hin. apply in_map_iff in Hin as ([[i j] k] & Ht & Hlt). subst t.
  destruct (row_ok (config (fun p => le0 E (sample g0 f p)) q) eq_refl) as (_ & _ & G & _).
  rewrite forallb_forall in G. specialize (G _ Hlt). apply good_local_spec in G as ([A1 A2] & [B1 B2] & [C1 C2] & _).
  assert (K : forall w, 0 <= w < 12 -> crossing (config (fun p => le0 E (sample g0 f p)) q) w = true ->
     exists e, znth (stored_edges g) (gid g q w) = Some e /\ edge_key e = cell_edge q w).
  { intros w Hw Hc. destruct (gid_some g _ Hr q w Hq Hw Hc) as [Vw Rw].
    destruct (znth_some _ (stored_edges g) (gid g q w) Rw) as (e & He). exists e. split; [assumption|].
    destruct (all_edges_key _ _ _ Hr _ _ He) as [V _]. exact (vid_inj g _ _ _ V Vw). }
  assert (L : forall u v, In (u, v) (sides (i, j, k)) ->
     In (u, v) (flat_map sides (mc_tris (config (fun p => le0 E (sample g0 f p)) q)))).
  { intros u v H. apply in_flat_map. exists (i, j, k). split; assumption. }
  assert (M : forall u v, In (u, v) (sides (i, j, k)) -> 0 <= u < 12 -> 0 <= v < 12 ->
     crossing (config (fun p => le0 E (sample g0 f p)) q) u = true ->
     crossing (config (fun p => le0 E (sample g0 f p)) q) v = true ->
     exists i j ea eb, 0 <= i < 12 /\ 0 <= j < 12 /\
          znth (stored_edges g) (gid g q u) = Some ea /\ edge_key ea = cell_edge q i /\
          znth (stored_edges g) (gid g q v) = Some eb /\ edge_key eb = cell_edge q j /\
          side_oriented (fun p => le0 E (sample g0 f p)) q (edge_key ea) (edge_key eb)).
  { intros u v H Hu Hv' Cu Cv. destruct (K u Hu Cu) as (ea & Ea & Ka). destruct (K v Hv' Cv) as (eb & Eb & Kb).
    exists u, v, ea, eb. rewrite Ka, Kb. repeat (split; [assumption || reflexivity|]).
    apply oriented_ok; auto. }
  intros a b Hab. unfold gtri in Hab. cbn [sides In] in Hab.
  destruct Hab as [Hab|[Hab|[Hab|[]]]]; injection Hab as <- <-; apply M; try assumption; cbn [sides In]; auto.
Qed.
Print Assumptions C54_oriented.

(* The ball of PropMC.v meets the hypotheses.  One cell of its mesh, with the
   corner 7 (the centre of the grid) solid: the side from its edge 11 to its
   edge 7 lies in the face x = 0, seen from outside which the centre is on the
   right. *)
Example C54_ex : valid_size (g_size c53_grid) /\ nan_free c53_grid ball_field /\ solid_inside c53_grid ball_field /\
  sorts entry_less (isort entry_less) /\
  side_oriented (fun p => le0 envIEEE (sample c53_grid ball_field p)) (V3 (-1) (-1) (-1))
    (AZ, V3 0 0 (-1)) (AY, V3 0 (-1) 0).
Proof.
  destruct ball_ok as (H1 & H2 & H3). split; [exact H1|]. split; [exact H2|]. split; [exact H3|].
  split; [exact isort_entries|].
  assert (T : In (11, 7) (flat_map sides (mc_tris (config (fun p => le0 envIEEE (sample c53_grid ball_field p)) (V3 (-1) (-1) (-1)))))).
  { replace (config (fun p => le0 envIEEE (sample c53_grid ball_field p)) (V3 (-1) (-1) (-1)))
      with [false; false; false; false; false; false; false; true] by (vm_compute; reflexivity).
    vm_compute. tauto. }
  exact (oriented_ok _ (V3 (-1) (-1) (-1)) 11 7 ltac:(lia) ltac:(lia) T).
Qed.
