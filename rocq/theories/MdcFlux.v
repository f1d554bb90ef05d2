(* Stokes' theorem for quads whose vertices depend on the edge: a cell may have several. *)
From Coq Require Import ZArith List Bool Lia.
From Verif Require Import Base Arith Tables GridSpec MeshSpec CellSpec DualSpec DualProofs OctreeSums OctreeFlux MdcModel MdcSpec MdcTables.
Import ListNotations.
Local Open Scope Z_scope.

Definition edge_flux2 (delta : gedge -> gedge -> Z) (e : gedge) : Z := gsum (fun c => fst c * delta (snd c) e) (crossings e).

Lemma stokes2 : forall solid delta L, NoDup L ->
  (forall e f, In e L -> In e (face_edges f) -> edge_crosses solid e = true -> delta f e <> 0 ->
    forall e', In e' (face_edges f) -> edge_crosses solid e' = true -> In e' L) ->
  (forall e f, In e L -> In e (face_edges f) -> gsum (fun e' => contribution solid f e' * delta f e') (face_edges f) = 0) ->
  gsum (fun e => weight solid e * edge_flux2 delta e) L = 0.
Proof.
  intros solid delta L HL Hall Hbal.
  set (I := flat_map (fun e => map (fun c => (weight solid e * fst c * delta (snd c) e, snd c)) (crossings e)) L).
  assert (E1 : gsum (fun e => weight solid e * edge_flux2 delta e) L = gsum (fun i => fst i * 1) I).
  { unfold I. rewrite gsum_flat_map. apply gsum_ext. intros e _. unfold edge_flux2. rewrite <- gsum_mul, gsum_map.
    apply gsum_ext. intros c _. cbn [fst snd]. lia. }
  rewrite E1. rewrite (gsum_group _ _ gedge_dec snd fst (fun _ => 1) I).
  apply gsum_zero. intros f Hf. apply nodup_In in Hf.
  assert (E2 : gsum (fun i => if gedge_dec (snd i) f then fst i else 0) I = gsum (fun e => contribution solid f e * delta f e) L).
  { unfold I. rewrite gsum_flat_map. apply gsum_ext. intros e _. rewrite gsum_map. unfold contribution.
    rewrite Z.mul_comm, <- gsum_mul. apply gsum_ext. intros c _. cbn [fst snd]. destruct (gedge_dec (snd c) f) as [<-|]; ring. }
  rewrite E2. clear E1 E2.
  apply in_map_iff in Hf as (i & Hi & Hin). unfold I in Hin. apply in_flat_map in Hin as (e & He & Hc).
  apply in_map_iff in Hc as (c & <- & Hc). cbn [snd] in Hi. subst f.
  assert (Hef : In e (face_edges (snd c))) by (apply crossings_face; assumption).
  set (f := snd c) in *. clearbody f. clear I c Hc.
  assert (Hw : forall a, edge_crosses solid a = false -> contribution solid f a = 0).
  { intros a Ha. unfold contribution. apply gsum_zero. intros c' _. rewrite (weight_zero solid a Ha).
    destruct (gedge_dec (snd c') f); reflexivity. }
  set (hit := fun a => edge_crosses solid a && negb (delta f a =? 0) && if in_dec gedge_dec a (face_edges f) then true else false).
  destruct (existsb hit L) eqn:X.
  - apply existsb_exists in X as (a & Ha & X). unfold hit in X. rewrite !andb_true_iff, negb_true_iff, Z.eqb_neq in X.
    destruct X as [[X1 X2] X3]. destruct (in_dec gedge_dec a (face_edges f)) as [Haf|]; [|discriminate].
    rewrite (gsum_support _ gedge_dec _ (filter (edge_crosses solid) (face_edges f)) L).
    + rewrite <- (gsum_support _ gedge_dec _ (filter (edge_crosses solid) (face_edges f)) (face_edges f)).
      * rewrite (Hbal e f) by assumption. lia.
      * apply NoDup_filter, face_edges_nodup.
      * apply face_edges_nodup.
      * intros b Hb. apply filter_In in Hb. apply Hb.
      * intros b Hb Hn. rewrite Hw; [lia|]. destruct (edge_crosses solid b) eqn:Y; [|reflexivity].
        exfalso. apply Hn. apply filter_In. auto.
    + apply NoDup_filter, face_edges_nodup.
    + assumption.
    + intros b Hb. apply filter_In in Hb as [Hb1 Hb2]. eapply (Hall a f); eassumption.
    + intros b _ Hb. destruct (edge_crosses solid b) eqn:Y; [|rewrite Hw by assumption; lia].
      rewrite contribution_zero; [lia|]. intro Z. apply Hb. apply filter_In. auto.
  - rewrite gsum_zero; [lia|]. intros a Ha.
    assert (Hn : hit a = false).
    { destruct (hit a) eqn:Y; [|reflexivity]. assert (T : existsb hit L = true) by (apply existsb_exists; eauto). congruence. }
    unfold hit in Hn. destruct (in_dec gedge_dec a (face_edges f)) as [|Hnf]; [|rewrite contribution_zero by assumption; lia].
    rewrite andb_true_r in Hn. apply andb_false_iff in Hn as [Hn|Hn]; [rewrite Hw by assumption; lia|].
    apply negb_false_iff, Z.eqb_eq in Hn. rewrite Hn. lia.
Qed.

(* The contributions of the edges of a face. *)
Lemma contributions : forall solid f e0 e1 e2 e3 v0 v1 v2 v3, face_edges f = [e0; e1; e2; e3] -> map solid (face_corners f) = [v0; v1; v2; v3] ->
  contribution solid f e0 = b2z v0 - b2z v1 /\ contribution solid f e1 = b2z v1 - b2z v2 /\
  contribution solid f e2 = - (b2z v3 - b2z v2) /\ contribution solid f e3 = - (b2z v0 - b2z v3).
Proof.
  intros solid [D f] e0 e1 e2 e3 v0 v1 v2 v3 He Hv. unfold face_edges in He. unfold face_corners in Hv. cbn [fst snd map] in He, Hv.
  set (a := next_axis D) in *. set (b := next_axis a) in *.
  assert (Nb : next_axis b = D) by (destruct D; reflexivity).
  injection He as <- <- <- <-. injection Hv as <- <- <- <-.
  assert (C : vadd (vadd f (unit_vec a)) (unit_vec b) = vadd (vadd f (unit_vec b)) (unit_vec a)).
  { destruct f as [x y z]. unfold vadd. destruct D; cbn; f_equal; lia. }
  split; [|split; [|split]].
  - rewrite (contribution_value solid (D, f) (a, f) 1 (1, (D, f))).
    2: { unfold crossings. cbn [fst snd]. fold b. rewrite Nb. right; left. reflexivity. }
    2, 3: reflexivity. unfold weight. cbn [fst snd]. lia.
  - rewrite (contribution_value solid (D, f) (b, vadd f (unit_vec a)) 1 (1, (D, f))).
    2: { unfold crossings. cbn [fst snd]. rewrite Nb. fold a. rewrite vadd_vsub. left. reflexivity. }
    2, 3: reflexivity. unfold weight. cbn [fst snd]. lia.
  - rewrite (contribution_value solid (D, f) (a, vadd f (unit_vec b)) (-1) (-1, (D, f))).
    2: { unfold crossings. cbn [fst snd]. fold b. rewrite Nb, vadd_vsub. right; right; right; left. reflexivity. }
    2, 3: reflexivity. unfold weight. cbn [fst snd]. rewrite C. lia.
  - rewrite (contribution_value solid (D, f) (b, f) (-1) (-1, (D, f))).
    2: { unfold crossings. cbn [fst snd]. rewrite Nb. right; right; left. reflexivity. }
    2, 3: reflexivity. unfold weight. cbn [fst snd]. lia.
Qed.

(* If the difference is the same at both ends of each curve, the face is balanced. *)
Lemma face_balance : forall solid delta f, (forall e e', on_one_curve solid f e e' -> delta e = delta e') ->
  gsum (fun e => contribution solid f e * delta e) (face_edges f) = 0.
Proof.
  intros solid delta f H.
  assert (He : exists e0 e1 e2 e3, face_edges f = [e0; e1; e2; e3]) by (unfold face_edges; eauto).
  assert (Hv : exists v0 v1 v2 v3, map solid (face_corners f) = [v0; v1; v2; v3]) by (unfold face_corners; cbn [map]; eauto).
  destruct He as (e0 & e1 & e2 & e3 & He). destruct Hv as (v0 & v1 & v2 & v3 & Hv).
  destruct (contributions solid f _ _ _ _ _ _ _ _ He Hv) as (C0 & C1 & C2 & C3).
  pose proof (pairs_ok [v0; v1; v2; v3] (delta e0) (delta e1) (delta e2) (delta e3) eq_refl) as P. unfold pairs_balanced in P.
  rewrite He, !gsum_cons, gsum_nil, C0, C1, C2, C3.
  assert (G : forall k l x y, In (k, l) (face_pairs [v0; v1; v2; v3]) -> znth [delta e0; delta e1; delta e2; delta e3] k = Some x ->
    znth [delta e0; delta e1; delta e2; delta e3] l = Some y -> x = y).
  { intros k l x y Hin Hk Hl. change [delta e0; delta e1; delta e2; delta e3] with (map delta [e0; e1; e2; e3]) in Hk, Hl.
    rewrite znth_map in Hk, Hl. destruct (znth [e0; e1; e2; e3] k) as [ek|] eqn:K; [|discriminate].
    destruct (znth [e0; e1; e2; e3] l) as [el|] eqn:L; [|discriminate]. injection Hk as <-. injection Hl as <-.
    apply H. exists k, l. rewrite Hv, He. auto. }
  specialize (P G). lia.
Qed.

Definition face_delta2 (id : ivec3 -> gedge -> Z) (a b : Z) (f e : gedge) : Z := signed a b (id (face_low f) e, id (face_high f) e).

Lemma flux2_cells : forall id a b d p c0 c1 c2 c3, cells_around d p = [c0; c1; c2; c3] ->
  edge_flux2 (face_delta2 id a b) (d, p) =
  let i := fun c => id c (d, p) in
  signed a b (i c0, i c1) + signed a b (i c1, i c2) + signed a b (i c2, i c3) + signed a b (i c3, i c0).
Proof.
  intros id a b d p c0 c1 c2 c3 H. exact (flux_cells (fun c => id c (d, p)) a b d p c0 c1 c2 c3 H).
Qed.
