(* Clustering of the dual vertices. *)
From Coq Require Import ZArith List Bool Lia Relations.
From Verif Require Import Base Arith Tables MeshModel MeshSpec MaterialFilterModel GridModel GridSpec GridProofs EdgeModel FillModel FillProofs MCModel CellSpec CellTables DualSpec DualProofs
  DsuModel DsuSpec DsuProofs
  UdcModel OctreeModel OctreeSpec OctreeSums OctreeProofs OctreeFlux DcModel DcSpec DcBuild MdcModel MdcSpec MdcTables MdcLeaf MdcTrav MdcForest MdcBuild.
Import ListNotations.
Local Open Scope Z_scope.

Lemma forall2_at : forall T U (P : T -> U -> Prop) l l' i b, Forall2 P l l' -> znth l' i = Some b -> exists a, znth l i = Some a /\ P a b.
Proof.
  intros T U P l l' i b H. unfold znth. destruct (i <? 0); [discriminate|]. generalize (Z.to_nat i) as k. induction H as [|x y l l' H _ IH]; intros [|k] Hk; try discriminate.
  - injection Hk as <-. exists x. auto.
  - apply IH. exact Hk.
Qed.

Lemma map_fst_combine : forall T U (l : list T) (l' : list U), length l' = length l -> map fst (combine l l') = l.
Proof. intros T U. induction l as [|a l IH]; intros [|b l'] H; try discriminate; [reflexivity|]. cbn [combine map fst]. rewrite IH; [reflexivity|]. injection H as H. exact H. Qed.

Lemma in_combine_nth : forall T U (l : list T) (l' : list U) a b, In (a, b) (combine l l') <-> exists k, nth_error l k = Some a /\ nth_error l' k = Some b.
Proof.
  intros T U. induction l as [|x l IH]; intros l' a b; [split; [intros []|intros (k & H & _); destruct k; discriminate]|].
  destruct l' as [|y l']; [split; [intros []|intros (k & _ & H); destruct k; discriminate]|]. cbn [combine In]. rewrite IH. split.
  - intros [H|(k & H1 & H2)]; [injection H as <- <-; exists O; auto|exists (S k); auto].
  - intros ([|k] & H1 & H2); [left; cbn in *; congruence|right; exists k; auto].
Qed.

(* ---- numbers of the classes ---- *)

Section Classes.
Local Open Scope nat_scope.
Variables (u0 : dsu) (n : nat) (Es : list (nat * nat)).
Hypothesis H0 : dinv u0 n Es.

Definition lead (i r : nat) : Prop := exists k, path (d_parent u0) i k r.

Lemma lead_total : forall i, i < n -> exists r, lead i r /\ r < n /\ lead r r.
Proof.
  intros i Hi. destruct H0 as (H1 & _ & H3 & _). destruct (H3 i Hi) as (k & r & s & Hp & _). exists r. split; [exists k; exact Hp|].
  split; [apply path_mem in Hp; lia|]. exists 0. constructor. eapply path_end; eassumption.
Qed.

Lemma lead_det : forall i r r', lead i r -> lead i r' -> r = r'.
Proof. intros i r r' (k & H) (k' & H'). exact (proj2 (path_det _ _ _ _ H _ _ H')). Qed.

Definition kept (u : dsu) : Prop := dinv u n Es /\ forall j e s, path (d_parent u0) j e s -> exists e', path (d_parent u) j e' s.

Lemma kept_leader : forall u i r, kept u -> i < n -> lead i r -> exists u', dsu_leader u i = Ret (u', r) /\ kept u'.
Proof.
  intros u i r [Hd Hk] Hi (k & Hr). destruct (dsu_leader_ok u n Es i Hd Hi) as (u' & r' & e & e' & H1 & H2 & H3 & _ & _ & H4).
  destruct (Hk _ _ _ Hr) as (k1 & Hr1). destruct (path_det _ _ _ _ H3 _ _ Hr1) as [_ ->]. exists u'. split; [exact H1|]. split; [exact H2|].
  intros j f s Hj. destruct (Hk _ _ _ Hj) as (f' & Hj'). apply (H4 _ _ _ Hj').
Qed.

Record numbered (i cnt : nat) (si : list (option nat)) : Prop := Numbered {
  nb_len : length si = n;
  nb_lead : forall j k r, nth_error si j = Some (Some k) -> lead j r -> k < cnt /\ nth_error si r = Some (Some k);
  nb_inj : forall r r' k, lead r r -> lead r' r' -> nth_error si r = Some (Some k) -> nth_error si r' = Some (Some k) -> r = r';
  nb_done : forall j, j < i -> exists k, nth_error si j = Some (Some k);
  nb_onto : forall k, k < cnt -> exists j, nth_error si j = Some (Some k)
}.

Lemma numbered_step : forall u i cnt si, kept u -> numbered i cnt si -> i < n ->
  exists u' cnt' si', set_idx_step (u, cnt, si) i = Ret (u', cnt', si') /\ kept u' /\ numbered (S i) cnt' si'.
Proof.
  intros u i cnt si Hk [N1 N2 N3 N4 N5] Hi. destruct (lead_total i Hi) as (r & Hr & Hrn & Hrr).
  destruct (kept_leader u i r Hk Hi Hr) as (u' & Hl & Hk'). unfold set_idx_step. rewrite Hl. cbn [obind].
  destruct (nth_error si r) as [o|] eqn:X; [|apply nth_error_None in X; lia]. cbn [oread obind].
  assert (G : forall si1 cnt1 k, length si1 = n -> k < cnt1 -> nth_error si1 r = Some (Some k) ->
     (forall j k r, nth_error si1 j = Some (Some k) -> lead j r -> k < cnt1 /\ nth_error si1 r = Some (Some k)) ->
     (forall r r' k, lead r r -> lead r' r' -> nth_error si1 r = Some (Some k) -> nth_error si1 r' = Some (Some k) -> r = r') ->
     (forall j, j < i -> exists k, nth_error si1 j = Some (Some k)) ->
     (forall k, k < cnt1 -> exists j, nth_error si1 j = Some (Some k)) -> numbered (S i) cnt1 (set_nth si1 i (Some k))).
  { clear -Hi Hr Hrr. intros si1 cnt1 k M1 Mk Mr M2 M3 M4 M5.
    assert (Y : forall j, nth_error (set_nth si1 i (Some k)) j = if Nat.eq_dec j i then Some (Some k) else nth_error si1 j).
    { intro j. destruct (Nat.eq_dec j i) as [->|N]; [apply nth_set_eq; lia|apply nth_set_neq; auto]. }
    assert (Yr : nth_error (set_nth si1 i (Some k)) r = Some (Some k)) by (rewrite Y; destruct (Nat.eq_dec r i); auto).
    constructor.
    - rewrite set_nth_length. exact M1.
    - intros j k' r' Hj Hl. rewrite Y in Hj. destruct (Nat.eq_dec j i) as [->|N].
      + injection Hj as <-. rewrite (lead_det _ _ _ Hl Hr). auto.
      + destruct (M2 j k' r' Hj Hl) as [K1 K2]. split; [exact K1|]. rewrite Y. destruct (Nat.eq_dec r' i) as [->|]; [|exact K2].
        assert (Z : lead i i).
        { destruct Hl as (e & Hl). exists 0. constructor. eapply path_end; eassumption. }
        rewrite <- (lead_det _ _ _ Z Hr) in Mr. congruence.
    - intros r1 r2 k' L1 L2 K1 K2. rewrite Y in K1, K2.
      assert (Z : forall x, lead x x -> x = i -> x = r) by (intros x Hx ->; exact (lead_det _ _ _ Hx Hr)).
      destruct (Nat.eq_dec r1 i) as [E1|]; destruct (Nat.eq_dec r2 i) as [E2|]; [congruence| | |eauto].
      + rewrite (Z r1 L1 E1) in *. injection K1 as <-. eapply M3; eassumption.
      + rewrite (Z r2 L2 E2) in *. injection K2 as <-. eapply M3; eassumption.
    - intros j Hj. rewrite Y. destruct (Nat.eq_dec j i); [eauto|]. apply M4. lia.
    - intros k' Hk'. destruct (M5 k' Hk') as (j & Hj). exists j. rewrite Y. destruct (Nat.eq_dec j i) as [->|]; [|exact Hj].
      destruct (M2 i k' r Hj Hr) as [_ Z]. congruence. }
  destruct o as [k|]; cbn [oread obind].
  - rewrite X. cbn [oread obind]. eexists _, _, _. split; [reflexivity|]. split; [exact Hk'|].
    apply G; auto. apply (N2 r k r X Hrr).
  - rewrite nth_set_eq by lia. cbn [oread obind]. eexists _, _, _. split; [reflexivity|]. split; [exact Hk'|].
    assert (Y : forall j, nth_error (set_nth si r (Some cnt)) j = if Nat.eq_dec j r then Some (Some cnt) else nth_error si j).
    { intro j. destruct (Nat.eq_dec j r) as [->|N]; [apply nth_set_eq; lia|apply nth_set_neq; auto]. }
    apply G.
    + rewrite set_nth_length. exact N1.
    + lia.
    + apply nth_set_eq. lia.
    + intros j k' r' Hj Hl'. rewrite Y in *. destruct (Nat.eq_dec j r) as [->|N].
      * injection Hj as <-. rewrite (lead_det _ _ _ Hl' Hrr). destruct (Nat.eq_dec r r); [auto|contradiction].
      * destruct (N2 j k' r' Hj Hl') as [K1 K2]. split; [lia|]. destruct (Nat.eq_dec r' r) as [->|]; [congruence|exact K2].
    + intros r1 r2 k' L1 L2 K1 K2. rewrite Y in K1, K2.
      destruct (Nat.eq_dec r1 r) as [E1|]; destruct (Nat.eq_dec r2 r) as [E2|]; [congruence| | |eauto].
      * injection K1 as <-. destruct (N2 r2 cnt r2 K2 L2). lia.
      * injection K2 as <-. destruct (N2 r1 cnt r1 K1 L1). lia.
    + intros j Hj. rewrite Y. destruct (Nat.eq_dec j r); [eauto|]. apply N4. lia.
    + intros k' Hk2. destruct (Nat.eq_dec k' cnt) as [->|]; [exists r; apply nth_set_eq; lia|].
      destruct (N5 k' ltac:(lia)) as (j & Hj). exists j. rewrite Y. destruct (Nat.eq_dec j r) as [->|]; [congruence|exact Hj].
Qed.

Lemma set_idx_ok : exists u' cnt si (idx : nat -> nat),
  ofold set_idx_step (seq 0 n) (u0, 0, repeat None n) = Ret (u', cnt, si) /\
  (forall i, i < n -> nth_error si i = Some (Some (idx i)) /\ idx i < cnt) /\
  (forall i j, i < n -> j < n -> (idx i = idx j <-> connected Es i j)) /\
  (forall k, k < cnt -> exists i, i < n /\ idx i = k).
Proof.
  assert (L : forall i, i <= n -> exists u' cnt si, ofold set_idx_step (seq 0 i) (u0, 0, repeat None n) = Ret (u', cnt, si) /\ kept u' /\ numbered i cnt si).
  { induction i as [|i IH]; intro Hi.
    - exists u0, 0, (repeat None n). split; [reflexivity|]. split; [split; [exact H0|eauto]|].
      assert (Y : forall j (k : nat), nth_error (repeat None n) j = Some (Some k) -> False).
      { intros j k Hj. rewrite nth_rep in Hj. destruct (j <? n); discriminate. }
      constructor; [apply repeat_length|..]; intros; try (exfalso; eapply Y; eassumption); lia.
    - destruct IH as (u1 & cnt & si & H1 & H2 & H3); [lia|]. rewrite seq_S, OctreeProofs.ofold_app, H1. cbn [obind ofold Nat.add].
      destruct (numbered_step u1 i cnt si H2 H3 ltac:(lia)) as (u2 & cnt2 & si2 & -> & K2 & K3). cbn [obind]. eauto 10. }
  destruct (L n (le_n _)) as (u' & cnt & si & H1 & [Hd Hk] & [N1 N2 N3 N4 N5]).
  exists u', cnt, si, (fun i => match nth_error si i with Some (Some k) => k | _ => 0 end). split; [exact H1|].
  assert (M : forall i, i < n -> exists k r, nth_error si i = Some (Some k) /\ lead i r /\ lead r r /\ k < cnt /\ nth_error si r = Some (Some k)).
  { intros i Hi. destruct (N4 i Hi) as (k & Hk1). destruct (lead_total i Hi) as (r & Hr & _ & Hrr). destruct (N2 i k r Hk1 Hr). eauto 10. }
  split; [|split].
  - intros i Hi. destruct (M i Hi) as (k & r & K1 & _ & _ & K2 & _). rewrite K1. auto.
  - intros i j Hi Hj. destruct (M i Hi) as (k & r & K1 & (e & K2) & K3 & K4 & K5). destruct (M j Hj) as (k' & r' & L1 & (e' & L2) & L3 & L4 & L5). rewrite K1, L1.
    destruct H0 as (_ & _ & _ & _ & H5 & _). rewrite <- (H5 _ _ _ _ _ _ K2 L2). split; [|congruence].
    intros ->. eapply N3; eassumption.
  - intros k Hk1. destruct (N5 k Hk1) as (j & Hj). exists j. rewrite Hj. split; [|reflexivity].
    rewrite <- N1. apply nth_error_Some. congruence.
Qed.
End Classes.

Section Cluster.
Context {E : fpenv} {Q S : Type}.
Variable ops : qef_ops (fp_F E) Q S.
Variable g : ugrid E.
Variable solid : ivec3 -> bool.
Notation F := (fp_F E).
Notation A := (fp_f E).
Notation xvertex := (mdc_vertex F S).
Notation store := (vstore xvertex).
Notation suc := Datatypes.S.
Notation leaf_ok := (MdcForest.leaf_ok g solid).
Notation good := (MdcForest.good ops g solid).
Notation pre := (MdcBuild.pre ops g solid).

(* The vertex of each leaf around an edge *)
Lemma shared_ok : forall n t q it e i, tree_ok leaf_ok n t q -> matches n t q it e -> 0 <= i < 4 ->
  exists c, znth (cells_around (fst e) (snd e)) i = Some c /\ in_cube q n c /\
    if edge_crosses solid e then exists a, leaf_vertex_at n t q c (sheet solid c e) a /\ shared_vertex (fst e) (snd it) i = Ret (Some a)
    else shared_vertex (fst e) (snd it) i = Ret None.
Proof.
  intros n t q [d leaves] [d' p] i Ht (H1 & H2 & H3) Hi. cbn [fst snd] in *. subst d'.
  assert (Hl : exists c l, znth (cells_around d p) i = Some c /\ znth leaves i = Some l /\ leaf_at n t q c = Some l /\ in_cube q n c).
  { destruct (znth_some _ (cells_around d p) i ltac:(cbn; lia)) as (c & Hc). destruct (forall2_at _ _ _ _ _ i c H3 Hc) as (l & Hl1 & Hl2).
    exists c, l. split; [exact Hc|]. split; [exact Hl1|]. split; [exact Hl2|]. eapply Forall_forall; [exact H2|]. eapply znth_in; eassumption. }
  destruct Hl as (c & l & Hc & Hli & Hla & Hin). exists c. split; [exact Hc|]. split; [exact Hin|].
  destruct (shape_leaf_at _ _ _ _ _ _ Ht Hin) as (l' & Hl' & _ & Hm & _ & Hlen). rewrite Hla in Hl'. injection Hl' as <-.
  destruct (shared_edge d p i c Hc) as (row & s & Hr & Hs & Hs2 & He).
  unfold shared_vertex. rewrite Hli. cbn [oread obind]. rewrite Hr. cbn [oread obind]. rewrite Hs. cbn [oread obind].
  rewrite Hm. destruct (edge_set_ok (config solid c) s (config_length solid c) Hs2) as (-> & _ & _). cbn [obind].
  rewrite <- (sheet_cell solid c s Hs2), He. pose proof (znth_in _ _ _ _ Hc) as Hcin. destruct (sheet_range solid c (d, p) Hcin) as [S1 S2].
  destruct (edge_crosses solid (d, p)).
  - assert (0 <= sheet solid c (d, p)) by (apply S1; reflexivity). destruct (Z.ltb_spec (sheet solid c (d, p)) 0); [lia|].
    unfold zlen. rewrite Hlen. destruct (Z.leb_spec (Z.of_nat (Z.to_nat (set_count (config solid c)))) (sheet solid c (d, p))); [lia|]. cbn [orb].
    destruct (znth_some _ (ml_verts l) (sheet solid c (d, p)) ltac:(lia)) as (a & Ha). exists a. split; [exists l; auto|]. rewrite Ha. reflexivity.
  - assert (sheet solid c (d, p) < 0). { destruct (Z.lt_ge_cases (sheet solid c (d, p)) 0) as [|X]; [assumption|]. apply S1 in X. discriminate. }
    destruct (Z.ltb_spec (sheet solid c (d, p)) 0); [|lia]. reflexivity.
Qed.

Section Node.
Variables (st0 : store) (m : nat) (sub : list mdc_tree) (q : ivec3) (afuel : nat).
Hypothesis H8 : length sub = 8%nat.
Hypothesis Hsub : forall i c, znth sub i = Some c -> good st0 m c (child_pos q m i).
Hypothesis Hnd : NoDup (flat_map tree_verts sub).
Hypothesis Hfuel : (m < afuel)%nat.

Notation V := (flat_map tree_verts sub).
Definition t0 : mdc_tree := ONode (MdcInner 0 0 []) sub.

Lemma t0_shape : tree_ok leaf_ok (suc m) t0 q.
Proof. split; [exact H8|]. intros i c Hi. exact (gd_shape _ _ _ _ _ _ _ (Hsub i c Hi)). Qed.
Lemma t0_verts : tree_verts t0 = V.
Proof. reflexivity. Qed.

Lemma in_V : forall a, In a V -> exists i c, znth sub i = Some c /\ 0 <= i < 8 /\ In a (tree_verts c).
Proof.
  intros a Ha. apply in_flat_map in Ha as (c & Hc & Ha). destruct (in_znth _ _ _ Hc) as (i & Hi). exists i, c.
  split; [exact Hi|]. split; [eapply znth_bound; eassumption|exact Ha].
Qed.
Lemma V_in : forall i c a, znth sub i = Some c -> In a (tree_verts c) -> In a V.
Proof. intros i c a Hi Ha. apply in_flat_map. exists c. split; [eapply znth_in; eassumption|exact Ha]. Qed.

Lemma V_live : forall a, In a V -> exists v s, vs_at st0 a = Some v /\ xv_surface v = None /\ xv_qef v = Some s.
Proof.
  intros a Ha. destruct (in_V a Ha) as (i & c & Hi & _ & Hc). destruct (in_vert_at _ _ _ _ _ (gd_shape _ _ _ _ _ _ _ (Hsub i c Hi)) Hc) as (k & Hk).
  destruct (gd_live _ _ _ _ _ _ _ (Hsub i c Hi) k a Hk) as (v & H1 & H2 & (s & H3) & _). eauto 10.
Qed.

Lemma V_closed : closed st0 V.
Proof.
  intros a p Ha Hp. destruct (in_V a Ha) as (i & c & Hi & _ & Hc). eapply V_in; [exact Hi|].
  eapply (good_closed _ _ _ _ _ _ _ (Hsub i c Hi)); eassumption.
Qed.

Lemma V_top : forall (st' : store) a, In a V ->
  (forall a v, In a V -> vs_at st0 a = Some v -> exists v', vs_at st' a = Some v' /\ xv_parent v' = xv_parent v) ->
  exists h, highest_ancestor afuel st' a = Ret h /\ top st0 a h /\ In h V.
Proof.
  intros st' a Ha Hst. destruct (in_V a Ha) as (i & c & Hi & _ & Hc). destruct (in_vert_at _ _ _ _ _ (gd_shape _ _ _ _ _ _ _ (Hsub i c Hi)) Hc) as (k & Hk).
  destruct (good_top _ _ _ _ _ _ _ st' (Hsub i c Hi)) with (fuel := afuel) (m := k) (a := a) as (h & K1 & K2 & K3).
  - intros x v Hx. apply Hst. eapply V_in; eassumption.
  - exact Hk.
  - lia.
  - exists h. split; [exact K1|]. split; [exact K2|]. eapply V_in; eassumption.
Qed.

(* Two vertices of a quad inside the cube *)
Definition mates (e : gedge) (b b' : Z) : Prop :=
  inner_quad solid q (suc m) e /\ exists c c', In c (cells_around (fst e) (snd e)) /\ In c' (cells_around (fst e) (snd e)) /\
    leaf_vertex_at (suc m) t0 q c (sheet solid c e) b /\ leaf_vertex_at (suc m) t0 q c' (sheet solid c' e) b'.

Record cinv (c : cluster E S) (Es : list (nat * nat)) : Prop := Cinv {
  ci_nodup : NoDup (cl_verts c);
  ci_next : vs_next (cl_store c) = vs_next st0;
  ci_top : forall h, In h (cl_verts c) -> In h V /\ parent_of st0 h = None;
  ci_set : forall k h v, nth_error (cl_verts c) k = Some h -> vs_at st0 h = Some v -> vs_at (cl_store c) h = Some (set_surface v (Some k));
  ci_rest : forall b, ~ In b (cl_verts c) -> vs_at (cl_store c) b = vs_at st0 b;
  ci_dsu : dinv (cl_dsu c) (length (cl_verts c)) Es;
  ci_pairs : forall i j, In (i, j) Es -> exists e b b' h h', mates e b b' /\ top st0 b h /\ top st0 b' h' /\
    nth_error (cl_verts c) i = Some h /\ nth_error (cl_verts c) j = Some h';
  ci_leaf : forall h, In h (cl_verts c) -> exists a, leaf_vertex (suc m) t0 q a /\ top st0 a h
}.

Definition ext (c c' : cluster E S) : Prop := exists l, cl_verts c' = cl_verts c ++ l.
Lemma ext_refl : forall c, ext c c.
Proof. intro c. exists []. rewrite app_nil_r. reflexivity. Qed.
Lemma ext_trans : forall c c' c'', ext c c' -> ext c' c'' -> ext c c''.
Proof. intros c c' c'' (l & H) (l' & H'). exists (l ++ l'). rewrite H', H, app_assoc. reflexivity. Qed.
Lemma ext_nth : forall c c' k h, ext c c' -> nth_error (cl_verts c) k = Some h -> nth_error (cl_verts c') k = Some h.
Proof. intros c c' k h (l & ->) H. rewrite nth_error_app1; [exact H|]. apply nth_error_Some. congruence. Qed.

Lemma cinv_parents : forall c Es a v, cinv c Es -> In a V -> vs_at st0 a = Some v ->
  exists v', vs_at (cl_store c) a = Some v' /\ xv_parent v' = xv_parent v.
Proof.
  intros c Es a v H Ha Hv. destruct (in_dec Z.eq_dec a (cl_verts c)) as [Hi|Hi].
  - apply In_nth_error in Hi as (k & Hk). rewrite (ci_set _ _ H k a v Hk Hv). eexists. split; reflexivity.
  - rewrite (ci_rest _ _ H a Hi). eauto.
Qed.

Lemma cluster_step_ok : forall c Es d leaves vs i a, cinv c Es -> shared_vertex d leaves i = Ret (Some a) -> leaf_vertex (suc m) t0 q a ->
  exists c' h, cluster_step afuel d leaves (c, Some vs) i = Ret (c', Some (vs ++ [h])) /\ cinv c' Es /\ ext c c' /\
    top st0 a h /\ In h (cl_verts c').
Proof.
  intros c Es d leaves vs i a Hc Hs Hla. unfold cluster_step. rewrite Hs. cbn [obind].
  assert (Ha : In a V). { destruct Hla as (x & s & _ & Hla). exact (leaf_vertex_in _ _ _ _ _ _ Hla). }
  destruct (V_top (cl_store c) a Ha (fun x v Hx Hv => cinv_parents c Es x v Hc Hx Hv)) as (h & -> & Ht & HhV). cbn [obind].
  destruct (V_live h HhV) as (v & s & Hv & Hsu & Hq). destruct (in_dec Z.eq_dec h (cl_verts c)) as [Hi|Hi].
  - apply In_nth_error in Hi as Hi'. destruct Hi' as (k & Hk). unfold vs_read. rewrite (ci_set _ _ Hc k h v Hk Hv). cbn [oread obind set_surface xv_surface].
    exists c, h. split; [reflexivity|]. split; [exact Hc|]. split; [apply ext_refl|]. auto.
  - pose proof (ci_rest _ _ Hc h Hi) as Hr. unfold vs_read. rewrite Hr, Hv. cbn [oread obind]. rewrite Hsu.
    unfold dsu_add_set. destruct Hc as [C1 C2 C3 C4 C5 C6 C7 C8].
    assert (Hcnt : dsu_count (cl_dsu c) = length (cl_verts c)) by apply C6.
    assert (Hcnt' : dsu_count (dsu_expand (cl_dsu c) (dsu_count (cl_dsu c) + 1)) = suc (length (cl_verts c))).
    { pose proof (dsu_expand_ok _ _ _ (dsu_count (cl_dsu c) + 1) C6) as X. rewrite Hcnt in X at 2. unfold dsu_count at 1. rewrite (proj1 X). lia. }
    rewrite Hcnt'. replace (suc (length (cl_verts c)) - 1)%nat with (length (cl_verts c)) by lia. rewrite Hv in Hr.
    destruct (vs_write_ok _ (cl_store c) h v (set_surface v (Some (length (cl_verts c)))) Hr) as (st' & Hw & W1 & W2 & W3). rewrite Hw. cbn [obind].
    eexists _, h. split; [reflexivity|]. cbn [cl_verts]. split; [|split; [exists [h]; reflexivity|split; [exact Ht|apply in_or_app; right; left; reflexivity]]].
    constructor; cbn [cl_verts cl_store cl_dsu].
    + apply nodup_app_intro; [exact C1|constructor; [intros []|constructor]|]. intros x Hx [<-|[]]. contradiction.
    + congruence.
    + intros x Hx. apply in_app_or in Hx as [Hx|[<-|[]]]; [auto|]. split; [exact HhV|apply Ht].
    + intros k x w Hk Hxw. destruct (Nat.lt_ge_cases k (length (cl_verts c))) as [Hlt|Hge].
      * rewrite nth_error_app1 in Hk by exact Hlt. rewrite W3; [apply C4; assumption|]. intros ->. apply Hi. eapply nth_error_In; eassumption.
      * rewrite nth_error_app2 in Hk by exact Hge. destruct (k - length (cl_verts c))%nat as [|j] eqn:X; [|destruct j; discriminate].
        cbn in Hk. injection Hk as <-. replace k with (length (cl_verts c)) by lia. rewrite Hv in Hxw. injection Hxw as <-. exact W2.
    + intros b Hb. rewrite in_app_iff in Hb. rewrite W3; [apply C5; tauto|]. intros ->. apply Hb. right. left. reflexivity.
    + rewrite app_length. cbn [length]. pose proof (dsu_expand_ok _ _ _ (dsu_count (cl_dsu c) + 1) C6) as X.
      replace (Nat.max (length (cl_verts c)) (dsu_count (cl_dsu c) + 1)) with (length (cl_verts c) + 1)%nat in X by (rewrite Hcnt; lia). exact X.
    + intros k j Hkj. destruct (C7 k j Hkj) as (e & b & b' & h1 & h2 & K1 & K2 & K3 & K4 & K5). exists e, b, b', h1, h2.
      do 3 (split; [assumption|]). split; (rewrite nth_error_app1; [assumption|apply nth_error_Some; congruence]).
    + intros x Hx. apply in_app_or in Hx as [Hx|[<-|[]]]; [auto|]. exists a. auto.
Qed.

Definition done (c : cluster E S) (Es : list (nat * nat)) (e : gedge) : Prop :=
  forall b b', mates e b b' -> exists i j h h', top st0 b h /\ top st0 b' h' /\
    nth_error (cl_verts c) i = Some h /\ nth_error (cl_verts c) j = Some h' /\ connected Es i j.

Lemma done_mono : forall c c' Es Es' e, ext c c' -> incl Es Es' -> done c Es e -> done c' Es' e.
Proof.
  intros c c' Es Es' e Hc Hi H b b' Hb. destruct (H b b' Hb) as (i & j & h & h' & K1 & K2 & K3 & K4 & K5). exists i, j, h, h'.
  split; [exact K1|]. split; [exact K2|]. split; [eapply ext_nth; eassumption|]. split; [eapply ext_nth; eassumption|]. eapply conn_mono; eassumption.
Qed.

Lemma cinv_surface : forall c Es k h, cinv c Es -> nth_error (cl_verts c) k = Some h -> surface_of (cl_store c) h = Ret k.
Proof.
  intros c Es k h Hc Hk. pose proof (ci_top _ _ Hc h (nth_error_In _ _ Hk)) as [HV _]. destruct (V_live h HV) as (v & s & Hv & _).
  unfold surface_of, vs_read. rewrite (ci_set _ _ Hc k h v Hk Hv). reflexivity.
Qed.

Lemma cluster_leaves_ok : forall c Es it e, cinv c Es -> matches (suc m) t0 q it e ->
  exists c' Es', cluster_edge_leaves afuel (fst it) (snd it) c = Ret c' /\ cinv c' Es' /\ ext c c' /\ incl Es Es' /\
    (edge_crosses solid e = true -> done c' Es' e).
Proof.
  intros c Es [d leaves] e Hc Hm. pose proof Hm as (Hd & Hin & _). cbn [fst snd] in *. subst d.
  pose proof (fun i Hi => shared_ok (suc m) t0 q (fst e, leaves) e i t0_shape Hm Hi) as Hsh. cbn [snd] in Hsh.
  destruct (Hsh 0 ltac:(lia)) as (c0 & X0 & N0 & Y0). destruct (Hsh 1 ltac:(lia)) as (c1 & X1 & N1 & Y1).
  destruct (Hsh 2 ltac:(lia)) as (c2 & X2 & N2 & Y2). destruct (Hsh 3 ltac:(lia)) as (c3 & X3 & N3 & Y3). clear Hsh.
  unfold cluster_edge_leaves. change (zseq 0 4) with [0; 1; 2; 3]. cbn [ofold].
  destruct (edge_crosses solid e) eqn:Hx.
  - destruct Y0 as (a0 & A0 & Y0), Y1 as (a1 & A1 & Y1), Y2 as (a2 & A2 & Y2), Y3 as (a3 & A3 & Y3).
    assert (HV : forall x s a, in_cube q (suc m) x -> leaf_vertex_at (suc m) t0 q x s a -> leaf_vertex (suc m) t0 q a) by (intros x s a Hx1 Hl; exists x, s; auto).
    destruct (cluster_step_ok c Es (fst e) leaves [] 0 a0 Hc Y0 (HV _ _ _ N0 A0)) as (d0 & h0 & -> & C0 & E0 & T0 & I0). cbn [obind app].
    destruct (cluster_step_ok d0 Es (fst e) leaves [h0] 1 a1 C0 Y1 (HV _ _ _ N1 A1)) as (d1 & h1 & -> & C1 & E1 & T1 & I1). cbn [obind app].
    destruct (cluster_step_ok d1 Es (fst e) leaves [h0; h1] 2 a2 C1 Y2 (HV _ _ _ N2 A2)) as (d2 & h2 & -> & C2 & E2 & T2 & I2). cbn [obind app].
    destruct (cluster_step_ok d2 Es (fst e) leaves [h0; h1; h2] 3 a3 C2 Y3 (HV _ _ _ N3 A3)) as (d3 & h3 & -> & C3 & E3 & T3 & I3). cbn [obind app].
    apply In_nth_error in I0 as (k0 & K0). apply In_nth_error in I1 as (k1 & K1). apply In_nth_error in I2 as (k2 & K2). apply In_nth_error in I3 as (k3 & K3).
    apply (ext_nth _ _ _ _ E1) in K0. apply (ext_nth _ _ _ _ E2) in K0, K1. apply (ext_nth _ _ _ _ E3) in K0, K1, K2.
    cbn [omap]. rewrite (cinv_surface _ _ _ _ C3 K0), (cinv_surface _ _ _ _ C3 K1), (cinv_surface _ _ _ _ C3 K2), (cinv_surface _ _ _ _ C3 K3). cbn [obind].
    assert (L : forall k h, nth_error (cl_verts d3) k = Some h -> (k < length (cl_verts d3))%nat) by (intros k h Hk; apply nth_error_Some; congruence).
    destruct (dsu_merge_ok _ _ _ k0 k1 (ci_dsu _ _ C3) (L _ _ K0) (L _ _ K1)) as (u1 & -> & D1). cbn [obind].
    destruct (dsu_merge_ok _ _ _ k2 k3 D1 (L _ _ K2) (L _ _ K3)) as (u2 & -> & D2). cbn [obind].
    destruct (dsu_merge_ok _ _ _ k0 k2 D2 (L _ _ K0) (L _ _ K2)) as (u3 & -> & D3). cbn [obind].
    set (Es' := (((Es ++ [(k0, k1)]) ++ [(k2, k3)]) ++ [(k0, k2)])) in *.
    assert (Hin0 : In c0 (cells_around (fst e) (snd e))) by (eapply znth_in; eassumption).
    assert (Hin1 : In c1 (cells_around (fst e) (snd e))) by (eapply znth_in; eassumption).
    assert (Hin2 : In c2 (cells_around (fst e) (snd e))) by (eapply znth_in; eassumption).
    assert (Hin3 : In c3 (cells_around (fst e) (snd e))) by (eapply znth_in; eassumption).
    eexists _, Es'. split; [reflexivity|]. destruct C3 as [P1 P2 P3 P4 P5 P6 P7 P8].
    split; [constructor; cbn [cl_verts cl_store cl_dsu]; auto|].
    + intros i j Hij. unfold Es' in Hij. rewrite !in_app_iff in Hij. cbn [In] in Hij.
      destruct Hij as [[[Hij|[Hij|[]]]|[Hij|[]]]|[Hij|[]]]; [auto|..]; injection Hij as <- <-; exists e.
      * exists a0, a1, h0, h1. split; [|auto]. split; [split; assumption|]. exists c0, c1. auto.
      * exists a2, a3, h2, h3. split; [|auto]. split; [split; assumption|]. exists c2, c3. auto.
      * exists a0, a2, h0, h2. split; [|auto]. split; [split; assumption|]. exists c0, c2. auto.
    + split; [|split].
      * destruct (ext_trans _ _ _ (ext_trans _ _ _ (ext_trans _ _ _ E0 E1) E2) E3) as (l & Hl). exists l. exact Hl.
      * intros x Hx'. unfold Es'. rewrite !in_app_iff. auto.
      * intros _ b b' (_ & z & z' & Hcc & Hcc' & Hb & Hb'). cbn [cl_verts].
        assert (Z : forall x y, In x (cells_around (fst e) (snd e)) -> leaf_vertex_at (suc m) t0 q x (sheet solid x e) y ->
          exists k h, top st0 y h /\ nth_error (cl_verts d3) k = Some h /\ connected Es' k0 k).
        { intros x y Hxx (ly & Ly1 & Ly2).
          assert (R : connected Es' k0 k0 /\ connected Es' k0 k1 /\ connected Es' k0 k2 /\ connected Es' k0 k3).
          { assert (R1 : connected Es' k0 k1) by (apply rst_step; unfold Es'; rewrite !in_app_iff; cbn [In]; auto).
            assert (R2 : connected Es' k0 k2) by (apply rst_step; unfold Es'; rewrite !in_app_iff; cbn [In]; auto).
            assert (R3 : connected Es' k2 k3) by (apply rst_step; unfold Es'; rewrite !in_app_iff; cbn [In]; auto).
            split; [apply conn_refl|]. split; [exact R1|]. split; [exact R2|]. eapply conn_trans; eassumption. }
          assert (W : x = c0 \/ x = c1 \/ x = c2 \/ x = c3).
          { revert X0 X1 X2 X3 Hxx. unfold cells_around. cbn [znth nth_error Z.ltb Z.compare Z.to_nat Pos.to_nat Pos.iter_op Nat.add In].
            unfold znth. cbn [Z.ltb Z.compare]. change (Z.to_nat 0) with 0%nat. change (Z.to_nat 1) with 1%nat. change (Z.to_nat 2) with 2%nat. change (Z.to_nat 3) with 3%nat. cbn [nth_error].
            intros Z0 Z1 Z2 Z3 Hxx. injection Z0 as <-. injection Z1 as <-. injection Z2 as <-. injection Z3 as <-. intuition congruence. }
          destruct A0 as (m0 & M0 & O0), A1 as (m1 & M1 & O1), A2 as (m2 & M2 & O2), A3 as (m3 & M3 & O3).
          destruct R as (R0 & R1 & R2 & R3).
          decompose [or] W; subst x; [exists k0, h0|exists k1, h1|exists k2, h2|exists k3, h3];
            (split; [congruence|auto]). }
        destruct (Z z b Hcc Hb) as (i & h & Z1 & Z2 & Z3). destruct (Z z' b' Hcc' Hb') as (j & h' & W1 & W2 & W3).
        exists i, j, h, h'. do 4 (split; [assumption|]). eapply conn_trans; [apply conn_sym; exact Z3|exact W3].
  - assert (S0 : cluster_step afuel (fst e) leaves (c, Some []) 0 = Ret (c, None)) by (unfold cluster_step; rewrite Y0; reflexivity).
    rewrite S0. cbn [obind cluster_step]. exists c, Es. split; [reflexivity|]. split; [exact Hc|]. split; [apply ext_refl|]. split; [apply incl_refl|discriminate].
Qed.

Lemma cluster_items_ok : forall items es c Es, Forall2 (matches (suc m) t0 q) items es -> cinv c Es ->
  exists c' Es', ofold (fun st it => cluster_edge_leaves afuel (fst it) (snd it) st) items c = Ret c' /\ cinv c' Es' /\ ext c c' /\ incl Es Es' /\
    (forall e, In e es -> edge_crosses solid e = true -> done c' Es' e).
Proof.
  intros items es c Es H. revert c Es. induction H as [|it e items es Hm _ IH]; intros c Es Hc.
  - exists c, Es. split; [reflexivity|]. split; [exact Hc|]. split; [apply ext_refl|]. split; [apply incl_refl|intros ? []].
  - destruct (cluster_leaves_ok c Es it e Hc Hm) as (c1 & Es1 & H1 & H2 & H3 & H4 & H5).
    destruct (IH c1 Es1 H2) as (c2 & Es2 & K1 & K2 & K3 & K4 & K5). exists c2, Es2. cbn [ofold]. rewrite H1. cbn [obind].
    split; [exact K1|]. split; [exact K2|]. split; [eapply ext_trans; eassumption|]. split; [eapply incl_tran; eassumption|].
    intros e' [<-|He] Hx; [|auto]. eapply done_mono; [exact K3|exact K4|]. auto.
Qed.

Lemma cluster_run_ok : forall fuel, (m < fuel)%nat -> exists c Es,
  run_calls mdc_procs (cluster_edge_leaves afuel) fuel sub (pr_cell_calls mdc_procs) (Cluster st0 (dsu_new 0) []) = Ret c /\ cinv c Es /\
  forall e, inner_quad solid q (suc m) e -> (forall i, 0 <= i < 8 -> ~ inner_quad solid (child_pos q m i) m e) -> done c Es e.
Proof.
  intros fuel Hf.
  assert (Hnd' : NoDup (tree_verts t0)) by (rewrite t0_verts; exact Hnd).
  destruct (full_calls solid (suc m) t0 q (shape_full _ _ _ _ _ t0_shape) Hnd' _ (@cluster_edge_leaves E S afuel) m fuel (MdcInner 0 0 []) sub eq_refl eq_refl Hf)
    as (items & es & H1 & H2 & H3). rewrite H1.
  destruct (cluster_items_ok items es (Cluster st0 (dsu_new 0) []) [] H2) as (c & Es & K1 & K2 & _ & _ & K5).
  - constructor; cbn [cl_verts cl_store cl_dsu length].
    + constructor.
    + reflexivity.
    + intros h [].
    + intros k h v Hk. destruct k; discriminate.
    + auto.
    + apply dsu_new_ok.
    + intros i j [].
    + intros h [].
  - exists c, Es. split; [exact K1|]. split; [exact K2|]. intros e [He1 He2] Hout. apply K5; [|exact He1]. apply H3; [exact He1|exact He2|].
    intros i Hi X. apply (Hout i Hi). split; assumption.
Qed.

(* ---- adopting the vertices of the children ---- *)

Definition members (i : nat) (ps : list (Z * nat)) : list Z := map fst (filter (fun p => Nat.eqb (snd p) i) ps).

Lemma members_in : forall i ps h, In h (members i ps) <-> In (h, i) ps.
Proof.
  intros i ps h. unfold members. rewrite in_map_iff. split.
  - intros ([h' j] & <- & H). apply filter_In in H as [H1 H2]. apply Nat.eqb_eq in H2. cbn [fst snd] in *. subst. exact H1.
  - intro H. exists (h, i). split; [reflexivity|]. apply filter_In. split; [exact H|]. apply Nat.eqb_refl.
Qed.
Lemma members_nodup : forall i ps, NoDup (map fst ps) -> NoDup (members i ps).
Proof.
  intros i. induction ps as [|[h j] ps IH]; intro H; [constructor|]. cbn [map fst] in H. apply NoDup_cons_iff in H as [H1 H2]. unfold members. cbn [filter].
  destruct (Nat.eqb (snd (h, j)) i); [|exact (IH H2)]. cbn [map fst]. constructor; [|exact (IH H2)]. intro X. apply members_in in X. apply H1. apply in_map_iff. exists (h, i). auto.
Qed.

Lemma adopt_ok : forall si as_ ps (st : store) (gs : list (gather E Q)), NoDup (map fst ps) ->
  (forall h i, In (h, i) ps -> (i < length gs)%nat /\ exists p k v s, nth_error as_ i = Some p /\ vs_at st h = Some v /\ xv_surface v = Some k /\
     nth_error si k = Some (Some i) /\ xv_qef v = Some s) ->
  exists st' gs', ofold (adopt_step ops si as_) (map fst ps) (st, gs) = Ret (st', gs') /\ vs_next st' = vs_next st /\ length gs' = length gs /\
    (forall b, ~ In b (map fst ps) -> vs_at st' b = vs_at st b) /\
    (forall h i v, In (h, i) ps -> vs_at st h = Some v -> vs_at st' h = Some (set_parent (set_surface v None) (nth_error as_ i))) /\
    (forall i ga, nth_error gs i = Some ga -> exists parts : list (xvertex * S),
       Forall2 (fun h p => vs_at st h = Some (fst p) /\ xv_qef (fst p) = Some (snd p)) (members i ps) parts /\
       nth_error gs' i = Some (Gather (fold_left (fun sol p => qo_merge ops sol (snd p)) parts (ga_sol ga))
         (fast_add_all (ga_filter ga) (map (fun p => xv_mat (fst p)) parts)) (fold_left (vadd3 A) (map (fun p => xv_normal (fst p)) parts) (ga_normal ga)))).
Proof.
  intros si as_. induction ps as [|[h i] ps IH]; intros st gs Hn Hps.
  - exists st, gs. split; [reflexivity|]. split; [reflexivity|]. split; [reflexivity|]. split; [auto|]. split; [intros h i v []|].
    intros i ga Hg. exists []. split; [constructor|]. rewrite Hg. destruct ga. reflexivity.
  - cbn [map fst] in Hn. apply NoDup_cons_iff in Hn as [Hn1 Hn2].
    destruct (Hps h i (or_introl eq_refl)) as (Hi & p & k & v & s & P1 & P2 & P3 & P4 & P5).
    destruct (nth_error gs i) as [ga|] eqn:Hga; [|apply nth_error_None in Hga; lia].
    destruct (vs_write_ok _ st h v (set_parent (set_surface v None) (Some p)) P2) as (st1 & W0 & W1 & W2 & W3).
    set (ga1 := Gather (qo_merge ops (ga_sol ga) s) (fast_add (ga_filter ga) (xv_mat v)) (vadd3 A (ga_normal ga) (xv_normal v))).
    destruct (IH st1 (set_nth gs i ga1) Hn2) as (st2 & gs2 & H1 & H2 & H3 & H4 & H5 & H6).
    + intros h' i' Hin. rewrite set_nth_length. assert (h' <> h). { intros ->. apply Hn1. apply in_map_iff. exists (h, i'). auto. }
      rewrite W3 by assumption. apply Hps. right. exact Hin.
    + exists st2, gs2. split.
      { cbn [map fst ofold]. unfold adopt_step at 1. unfold vs_read. rewrite P2. cbn [oread obind]. rewrite P3. cbn [oread obind]. rewrite P4. cbn [oread obind].
        rewrite Hga. cbn [oread obind]. rewrite P5. cbn [oread obind]. rewrite P1. cbn [oread obind]. rewrite W0. cbn [obind]. exact H1. }
      split; [congruence|]. split; [rewrite H3; apply set_nth_length|]. split; [|split].
      * intros b Hb. cbn [map fst In] in Hb. rewrite H4 by tauto. apply W3. intros ->. tauto.
      * intros h' i' v' [X|Hin] Hv'.
        -- injection X as <- <-. rewrite P2 in Hv'. injection Hv' as <-. rewrite H4 by exact Hn1. rewrite P1. exact W2.
        -- assert (h' <> h). { intros ->. apply Hn1. apply in_map_iff. exists (h, i'). auto. }
           apply H5; [exact Hin|]. rewrite W3 by assumption. exact Hv'.
      * intros j ga' Hj.
        assert (F2 : forall hs parts, ~ In h hs -> Forall2 (fun h p => vs_at st1 h = Some (fst p) /\ xv_qef (fst p) = Some (snd p)) hs (parts : list (xvertex * S)) ->
          Forall2 (fun h p => vs_at st h = Some (fst p) /\ xv_qef (fst p) = Some (snd p)) hs parts).
        { intros hs parts Hh HF. induction HF as [|x y hs parts [X1 X2] _ IHF]; constructor.
          - split; [|exact X2]. rewrite <- X1. symmetry. apply W3. intros ->. apply Hh. left. reflexivity.
          - apply IHF. intro X. apply Hh. right. exact X. }
        assert (Hm : ~ In h (members j ps)). { rewrite members_in. intro X. apply Hn1. apply in_map_iff. exists (h, j). auto. }
        unfold members. cbn [filter snd]. destruct (Nat.eqb_spec i j) as [<-|Hne].
        -- rewrite Hga in Hj. injection Hj as <-. destruct (H6 i ga1) as (parts & K1 & K2); [apply nth_set_eq; exact Hi|].
           exists ((v, s) :: parts). cbn [map fst]. split; [constructor; [split; assumption|apply F2; assumption]|]. exact K2.
        -- destruct (H6 j ga') as (parts & K1 & K2); [rewrite nth_set_neq by auto; exact Hj|]. exists parts. split; [apply F2; assumption|exact K2].
Qed.

(* ---- a node ---- *)

Hypothesis Hlow : forall a, In a V -> a < vs_next st0.

Definition cluster_node (fuel : nat) (b : mdc_inner) (sol : Q) : outcome (mdc_tree * store * Q) :=
  c <- run_calls mdc_procs (cluster_edge_leaves afuel) fuel sub (pr_cell_calls mdc_procs) (Cluster st0 (dsu_new 0) []) ;;
  let n := dsu_count (cl_dsu c) in
  '(_, new_cnt, si) <- ofold set_idx_step (seq 0 n) (cl_dsu c, O, repeat None n) ;;
  let '(st, as_) := vs_resize fresh_vertex (cl_store c) (mi_verts b) new_cnt in
  let sol := qo_reset ops sol in
  '(st, gs) <- ofold (adopt_step ops si as_) (cl_verts c) (st, repeat (Gather sol fast_new (zero3 E)) new_cnt) ;;
  st <- solve_vertices ops q (edge_len (suc m)) gs as_ st ;;
  Ret (ONode (MdcInner (mi_depth b) (mi_mask b) as_) sub, st, sol).

Lemma child_leaf : forall b a, leaf_vertex (suc m) (ONode b sub) q a -> exists i c, znth sub i = Some c /\ 0 <= i < 8 /\ leaf_vertex m c (child_pos q m i) a /\ In a (tree_verts c).
Proof.
  intros b a (x & s & Hx & l & Hl & Ha). cbn [leaf_at] in Hl. match type of Hl with match ?z with _ => _ end = _ => destruct z as [c|] eqn:Hi end; [|discriminate].
  assert (Y : leaf_vertex_at m c (child_pos q m (child_of q m x)) x s a) by (exists l; auto).
  exists (child_of q m x), c. split; [exact Hi|]. split; [apply child_of_range|]. split; [|exact (leaf_vertex_in _ _ _ _ _ _ Y)].
  exists x, s. split; [apply child_of_in; exact Hx|exact Y].
Qed.

Lemma same_child : forall i c j d a a' u, znth sub i = Some c -> znth sub j = Some d -> In a (tree_verts c) -> In a' (tree_verts d) ->
  ancestor st0 a u -> ancestor st0 a' u -> i = j.
Proof.
  intros i c j d a a' u Hi Hj Ha Ha' H H'. eapply nodup_flat_znth; [exact Hnd|exact Hi|exact Hj| |].
  - eapply (closed_anc st0 (tree_verts c)); [|exact Ha|exact H]. exact (good_closed _ _ _ _ _ _ _ (Hsub i c Hi)).
  - eapply (closed_anc st0 (tree_verts d)); [|exact Ha'|exact H']. exact (good_closed _ _ _ _ _ _ _ (Hsub j d Hj)).
Qed.

Lemma node_shape : forall b, tree_ok leaf_ok (suc m) (ONode b sub) q.
Proof. intro b. exact t0_shape. Qed.

Lemma common_linked : forall b a a' u, leaf_vertex (suc m) (ONode b sub) q a -> leaf_vertex (suc m) (ONode b sub) q a' ->
  ancestor st0 a u -> ancestor st0 a' u -> quad_linked solid (suc m) (ONode b sub) q q (suc m) a a'.
Proof.
  intros b a a' u Ha Ha' H H'. destruct (child_leaf b a Ha) as (i & c & Hi & Hr & La & Ia). destruct (child_leaf b a' Ha') as (j & d & Hj & _ & La' & Ia').
  pose proof (same_child _ _ _ _ _ _ _ Hi Hj Ia Ia' H H') as <-. rewrite Hi in Hj. injection Hj as <-.
  eapply linked_bigger; [exact (child_subcube q m i Hr)|].
  apply (linked_part g solid (suc m) (ONode b sub) q m c (child_pos q m i) (node_shape b)); [eapply part_in; [exact Hi|constructor]|].
  apply (gd_linked _ _ _ _ _ _ _ (Hsub i c Hi) m c _ (part_self _ _ _) a a' La La').
  exists u. split; [|auto]. eapply (closed_anc st0 (tree_verts c)); [|exact Ia|exact H]. exact (good_closed _ _ _ _ _ _ _ (Hsub i c Hi)).
Qed.

Lemma class_linked : forall b c Es i j, cinv c Es -> connected Es i j -> i = j \/ exists h h', nth_error (cl_verts c) i = Some h /\ nth_error (cl_verts c) j = Some h' /\
  forall a a', leaf_vertex (suc m) (ONode b sub) q a -> leaf_vertex (suc m) (ONode b sub) q a' -> top st0 a h -> top st0 a' h' ->
    quad_linked solid (suc m) (ONode b sub) q q (suc m) a a'.
Proof.
  intros b c Es i j Hc H. induction H as [i j H|i|i j _ IH|i j k _ IH1 _ IH2].
  - right. destruct (ci_pairs _ _ Hc i j H) as (e & x & x' & h & h' & (M1 & y & y' & M2 & M3 & M4 & M5) & T1 & T2 & N1 & N2). exists h, h'.
    split; [exact N1|]. split; [exact N2|]. intros a a' Ha Ha' Ta Ta'.
    assert (Lx : leaf_vertex (suc m) (ONode b sub) q x) by (exists y, (sheet solid y e); split; [exact (proj1 (Forall_forall _ _) (proj2 M1) y M2)|exact M4]).
    assert (Lx' : leaf_vertex (suc m) (ONode b sub) q x') by (exists y', (sheet solid y' e); split; [exact (proj1 (Forall_forall _ _) (proj2 M1) y' M3)|exact M5]).
    eapply linked_trans; [|exact (common_linked b x' a' h' Lx' Ha' (proj1 T2) (proj1 Ta'))].
    eapply ql_step; [exact (common_linked b a x h Ha Lx (proj1 Ta) (proj1 T1))|exact M1|exact M2|exact M3|exact M4|exact M5].
  - left. reflexivity.
  - destruct IH as [->|(h & h' & N1 & N2 & IH)]; [left; reflexivity|]. right. exists h', h. split; [exact N2|]. split; [exact N1|].
    intros a a' Ha Ha' Ta Ta'. apply linked_sym. apply IH; assumption.
  - destruct IH1 as [->|(h & h' & N1 & N2 & IH1)]; [exact IH2|]. destruct IH2 as [<-|(h1 & h2 & N3 & N4 & IH2)]; [right; exists h, h'; auto|].
    rewrite N2 in N3. injection N3 as <-. right. exists h, h2. split; [exact N1|]. split; [exact N4|].
    intros a a' Ha Ha' Ta Ta'. destruct (ci_leaf _ _ Hc h' (nth_error_In _ _ N2)) as (x & Lx & Tx).
    eapply linked_trans; [exact (IH1 a x Ha Lx Ta Tx)|exact (IH2 x a' Lx Ha' Tx Ta')].
Qed.

Lemma cluster_node_ok : forall fuel b sol, (m < fuel)%nat ->
  (forall a, In a (mi_verts b) -> idle st0 a /\ a < vs_next st0 /\ ~ In a V) ->
  exists as_ st' sol', cluster_node fuel b sol = Ret (ONode (MdcInner (mi_depth b) (mi_mask b) as_) sub, st', sol') /\
    good st' (suc m) (ONode (MdcInner (mi_depth b) (mi_mask b) as_) sub) q /\
    vs_next st0 <= vs_next st' /\ (forall a, In a as_ -> vs_next st0 <= a < vs_next st') /\
    (forall x, x < vs_next st0 -> ~ In x V -> ~ In x (mi_verts b) -> vs_at st' x = vs_at st0 x).
Proof.
  intros fuel b sol Hf Hold. unfold cluster_node.
  destruct (cluster_run_ok fuel Hf) as (c & Es & -> & Hc & Hdone). cbn [obind].
  pose proof (ci_dsu _ _ Hc) as Hd. assert (Hcnt : dsu_count (cl_dsu c) = length (cl_verts c)) by apply Hd. rewrite Hcnt.
  destruct (set_idx_ok (cl_dsu c) (length (cl_verts c)) Es Hd) as (u & cnt & si & idx & -> & I1 & I2 & I3). cbn [obind].
  set (hs := cl_verts c) in *. set (nx := vs_next st0).
  assert (Hold' : forall a, In a (mi_verts b) -> ~ In a hs).
  { intros a Ha Hh. apply (Hold a Ha). apply (ci_top _ _ Hc a Hh). }
  destruct (vs_resize_ok _ fresh_vertex (cl_store c) (mi_verts b) cnt) as (stR & as_ & -> & Ras & Rn & R1 & R2).
  { intros a Ha. rewrite (ci_rest _ _ Hc a (Hold' a Ha)). destruct (Hold a Ha) as ((v & Hv & _) & _). congruence. }
  rewrite (ci_next _ _ Hc) in *. fold nx in Ras, Rn, R1.
  assert (Has : forall i, (i < cnt)%nat -> nth_error as_ i = Some (nx + Z.of_nat i)).
  { intros i Hi. rewrite Ras, nth_zseq. destruct (Nat.ltb_spec i cnt); [reflexivity|lia]. }
  assert (Hin : forall a, In a as_ <-> nx <= a < nx + Z.of_nat cnt) by (intro a; rewrite Ras; apply in_zseq).
  assert (HnotV : forall a, In a as_ -> ~ In a V) by (intros a Ha HV; apply Hin in Ha; apply Hlow in HV; unfold nx in *; lia).
  set (ps := combine hs (map idx (seq 0 (length hs)))).
  assert (Hps : map fst ps = hs). { apply map_fst_combine. rewrite map_length, seq_length. reflexivity. }
  assert (Hpin : forall h i, In (h, i) ps <-> exists k, nth_error hs k = Some h /\ idx k = i /\ (k < length hs)%nat).
  { intros h i. unfold ps. rewrite in_combine_nth. split.
    - intros (k & K1 & K2). exists k. split; [exact K1|]. assert (k < length hs)%nat by (apply nth_error_Some; congruence). split; [|assumption].
      rewrite nth_error_map, nth_seq in K2. destruct (Nat.ltb_spec k (length hs)); [|lia]. cbn in K2. congruence.
    - intros (k & K1 & K2 & K3). exists k. split; [exact K1|]. rewrite nth_error_map, nth_seq. destruct (Nat.ltb_spec k (length hs)); [|lia]. cbn. congruence. }
  assert (HhV : forall h, In h hs -> In h V) by (intros h Hh; apply (ci_top _ _ Hc h Hh)).
  assert (HR : forall k h v, nth_error hs k = Some h -> vs_at st0 h = Some v -> vs_at stR h = Some (set_surface v (Some k))).
  { intros k h v Hk Hv. pose proof (nth_error_In _ _ Hk) as Hh. rewrite R1.
    - apply (ci_set _ _ Hc); assumption.
    - intro X. apply (Hold' h X). exact Hh.
    - apply Hlow. auto. }
  destruct (adopt_ok si as_ ps stR (repeat (Gather (qo_reset ops sol) fast_new (zero3 E)) cnt)) as (stA & gs & A1 & A2 & A3 & A4 & A5 & A6).
  { rewrite Hps. apply (ci_nodup _ _ Hc). }
  { intros h i Hhi. apply Hpin in Hhi as (k & K1 & K2 & K3). destruct (I1 k K3) as [K4 K5]. rewrite repeat_length. subst i. split; [exact K5|].
    destruct (V_live h (HhV h (nth_error_In _ _ K1))) as (v & s & Hv & Hsu & Hq). exists (nx + Z.of_nat (idx k)), k, (set_surface v (Some k)), s.
    split; [apply Has; exact K5|]. split; [apply HR; assumption|]. split; [reflexivity|]. split; [exact K4|exact Hq]. }
  rewrite Hps in A1, A4. rewrite A1. cbn [obind]. rewrite repeat_length in A3.
  assert (Hfresh : forall a, In a as_ -> exists v, vs_at stA a = Some v /\ xv_parent v = None /\ xv_surface v = None).
  { intros a Ha. rewrite A4; [|intro X; apply (HnotV a Ha); auto]. destruct (R2 a Ha) as (v & V1 & [->|(a' & V2 & V3)]); exists v || exists fresh_vertex.
    - split; [exact V1|]. split; reflexivity.
    - split; [exact V1|]. rewrite (ci_rest _ _ Hc a' (Hold' a' V2)) in V3. destruct (Hold a' V2) as ((w & W1 & W2 & W3) & _). rewrite V3 in W1. injection W1 as <-. auto. }
  destruct (solve_vertices_ok ops q (edge_len (suc m)) gs as_ stA) as (st' & S1 & S2 & S3 & S4).
  { rewrite Ras. apply zseq_nodup. }
  { intros i a Hi. pose proof (znth_in _ _ _ _ Hi) as Ha. destruct (Hfresh a Ha) as (v & Hv & _).
    assert (Hr : 0 <= i < Z.of_nat cnt). { apply znth_range in Hi. rewrite Ras, zseq_len in Hi. exact Hi. }
    destruct (znth_some _ gs i ltac:(lia)) as (ga & Hga). eauto. }
  rewrite S1. cbn [obind]. exists as_, st'. eexists. split; [reflexivity|].
  set (b1 := MdcInner (mi_depth b) (mi_mask b) as_).
  (* values of the old vertices *)
  assert (Hkeep : forall k h v, nth_error hs k = Some h -> vs_at st0 h = Some v -> vs_at st' h = Some (set_parent v (Some (nx + Z.of_nat (idx k))))).
  { intros k h v Hk Hv. assert (Hkl : (k < length hs)%nat) by (apply nth_error_Some; congruence). pose proof (HhV h (nth_error_In _ _ Hk)) as HV.
    rewrite S3 by (intro X; exact (HnotV h X HV)). rewrite (A5 h (idx k) (set_surface v (Some k))).
    - rewrite Has by (apply I1; exact Hkl). destruct (V_live h HV) as (w & s & Hw & Hsu & _). rewrite Hv in Hw. injection Hw as <-. destruct v. cbn in *. subst. reflexivity.
    - apply Hpin. exists k. auto.
    - apply HR; assumption. }
  assert (Hrest : forall x, x < nx -> ~ In x hs -> ~ In x (mi_verts b) -> vs_at st' x = vs_at st0 x).
  { intros x Hx Hnh Hno. rewrite S3 by (rewrite Hin; lia). rewrite A4 by exact Hnh. rewrite R1 by assumption. apply (ci_rest _ _ Hc). exact Hnh. }
  assert (HVo : forall a, In a V -> ~ In a (mi_verts b)) by (intros a HV Ha; exact (proj2 (proj2 (Hold a Ha)) HV)).
  assert (Hg : grow st0 st' (mi_verts b1) V).
  { constructor; cbn [mi_verts b1].
    - intros a v Ha Hv. destruct (in_dec Z.eq_dec a hs) as [Hh|Hh].
      + apply In_nth_error in Hh as (k & Hk). rewrite (Hkeep k a v Hk Hv). eexists. split; [reflexivity|]. split; [apply core_parent|]. split; [reflexivity|].
        right. pose proof (proj2 (ci_top _ _ Hc a (nth_error_In _ _ Hk))) as Hp. unfold parent_of in Hp. rewrite Hv in Hp. split; [exact Hp|].
        eexists. split; [|reflexivity]. apply Hin. assert (idx k < cnt)%nat by (apply I1; apply nth_error_Some; congruence). lia.
      + exists v. rewrite Hrest by auto. split; [exact Hv|]. split; [apply core_refl|]. auto.
    - exact HnotV.
    - intros a Ha. destruct (in_znth _ _ _ Ha) as (i & Hi). destruct (Hfresh a Ha) as (v & V1 & V2 & V3).
      assert (Hr : 0 <= i < Z.of_nat cnt). { apply znth_range in Hi. rewrite Ras, zseq_len in Hi. exact Hi. }
      destruct (znth_some _ gs i ltac:(lia)) as (ga & Hga). unfold parent_of. rewrite (S4 i a ga v Hi Hga V1). unfold solve_vertex.
      destruct (qo_solve _ _ _ _), (qo_state _ _). exact V2. }
  assert (Hclosed : closed st0 V) by exact V_closed.
  assert (Hlive : forall a, In a V -> exists v, vs_at st0 a = Some v) by (intros a Ha; destruct (V_live a Ha) as (v & s & Hv & _); eauto).
  assert (Hpar : forall k h, nth_error hs k = Some h -> parent_of st' h = Some (nx + Z.of_nat (idx k))).
  { intros k h Hk. destruct (Hlive h (HhV h (nth_error_In _ _ Hk))) as (v & Hv). unfold parent_of. rewrite (Hkeep k h v Hk Hv). reflexivity. }
  assert (Hsol : forall i, (i < cnt)%nat -> exists v, vs_at st' (nx + Z.of_nat i) = Some v /\ xv_parent v = None /\ xv_surface v = None /\ merge_solution ops st' q (suc m) (members i ps) v).
  { intros i Hi. assert (Ha : znth as_ (Z.of_nat i) = Some (nx + Z.of_nat i)). { unfold znth. destruct (Z.ltb_spec (Z.of_nat i) 0); [lia|]. rewrite Nat2Z.id. apply Has. exact Hi. }
    destruct (Hfresh _ (znth_in _ _ _ _ Ha)) as (v & V1 & V2 & V3).
    destruct (A6 i (Gather (qo_reset ops sol) fast_new (zero3 E))) as (parts & P1 & P2). { rewrite nth_rep. destruct (Nat.ltb_spec i cnt); [reflexivity|lia]. }
    cbn [ga_sol ga_filter ga_normal] in P2.
    assert (Hga : znth gs (Z.of_nat i) = nth_error gs i). { unfold znth. destruct (Z.ltb_spec (Z.of_nat i) 0); [lia|]. rewrite Nat2Z.id. reflexivity. }
    rewrite P2 in Hga. rewrite (S4 _ _ _ _ Ha Hga V1).
    destruct (solve_solution ops q (suc m) (fold_left (fun sol p => qo_merge ops sol (snd p)) parts (qo_reset ops sol))
      (map (fun p => xv_mat (fst p)) parts) (map (fun p => xv_normal (fst p)) parts) v (edge_len (suc m)) eq_refl) as (X1 & X2 & X3 & _).
    eexists. split; [reflexivity|]. split; [etransitivity; [exact X2|exact V2]|]. split; [etransitivity; [exact X3|exact V3]|].
    eapply (merge_solution_core ops stR st'); [apply core_refl| |exists parts, sol; split; [exact P1|exact X1]].
    intros h w Hh Hw. apply members_in in Hh. apply Hpin in Hh as (k & K1 & K2 & K3). destruct (Hlive h (HhV h (nth_error_In _ _ K1))) as (w0 & Hw0).
    rewrite (HR k h w0 K1 Hw0) in Hw. injection Hw as <-. rewrite (Hkeep k h w0 K1 Hw0). eexists. split; [reflexivity|]. unfold core_eq. auto. }
  split; [|split; [|split]].
  - apply (node_good ops g solid st0 st' m b1 sub q H8 Hsub Hg); cbn [mi_verts b1].
    + rewrite Ras. apply zseq_nodup.
    + exact Hnd.
    + intros a Ha. apply Hin in Ha. destruct (Hsol (Z.to_nat (a - nx)) ltac:(lia)) as (v & V1 & V2 & V3 & _). rewrite Z2Nat.id in V1 by lia.
      replace (nx + (a - nx)) with a in V1 by lia. exists v. auto.
    + intros a Ha. cbn [mi_verts b1] in Ha. apply Hin in Ha. destruct (Hsol (Z.to_nat (a - nx)) ltac:(lia)) as (v & V1 & V2 & V3 & V4). rewrite Z2Nat.id in V1 by lia.
      replace (nx + (a - nx)) with a in V1 by lia. exists v, (members (Z.to_nat (a - nx)) ps). split; [exact V1|].
      split; [apply members_nodup; rewrite Hps; apply (ci_nodup _ _ Hc)|]. split; [|split; [|exact V4]].
      * destruct (I3 (Z.to_nat (a - nx)) ltac:(lia)) as (k & K1 & K2). intro X.
        destruct (nth_error hs k) as [h|] eqn:Hk; [|apply nth_error_None in Hk; lia].
        assert (Y : In h (members (Z.to_nat (a - nx)) ps)) by (apply members_in; apply Hpin; exists k; auto). rewrite X in Y. exact Y.
      * intro h. rewrite members_in, Hpin. split.
        -- intros (k & K1 & K2 & K3). split; [apply HhV; eapply nth_error_In; eassumption|]. rewrite (Hpar k h K1), K2, Z2Nat.id by lia. f_equal. lia.
        -- intros [HV Hp]. destruct (in_dec Z.eq_dec h hs) as [Hh|Hh].
           ++ apply In_nth_error in Hh as (k & Hk). rewrite (Hpar k h Hk) in Hp. injection Hp as Hp. exists k. split; [exact Hk|]. split; [lia|]. apply nth_error_Some. congruence.
           ++ exfalso. unfold parent_of in Hp. rewrite Hrest in Hp; [|apply Hlow; exact HV|exact Hh|apply HVo; exact HV].
              apply (HnotV a); [apply Hin; exact Ha|]. eapply Hclosed; [exact HV|exact Hp].
    + assert (Hanc : forall a h, In a V -> In h V -> (ancestor st' a h <-> ancestor st0 a h)) by (apply (grow_anc st0 st' (mi_verts b1) V Hg Hclosed Hlive)).
      assert (Hup : forall a k h, In a V -> nth_error hs k = Some h -> ancestor st0 a h -> ancestor st' a (nx + Z.of_nat (idx k))).
      { intros a k h Ha Hk H. eapply anc_trans; [apply Hanc; [exact Ha| |exact H]; apply HhV; eapply nth_error_In; eassumption|].
        eapply anc_up; [exact (Hpar k h Hk)|constructor]. }
      assert (Hdown : forall a x, In a V -> In x as_ -> ancestor st' a x -> exists k h, nth_error hs k = Some h /\ top st0 a h /\ x = nx + Z.of_nat (idx k)).
      { intros a x Ha Hx H. induction H as [|a p x Hp H IH]; [exfalso; exact (HnotV a Hx Ha)|].
        destruct (in_dec Z.eq_dec a hs) as [Hh|Hh].
        - apply In_nth_error in Hh as (k & Hk). rewrite (Hpar k a Hk) in Hp. injection Hp as <-. exists k, a. split; [exact Hk|]. split; [split; [constructor|]|].
          + apply (ci_top _ _ Hc). eapply nth_error_In; eassumption.
          + apply (top_stop st'); [|exact H]. apply (gr_top _ _ _ _ Hg). cbn [mi_verts b1]. apply Hin.
            assert (idx k < cnt)%nat by (apply I1; apply nth_error_Some; congruence). lia.
        - assert (Hp0 : parent_of st0 a = Some p) by (unfold parent_of in *; rewrite Hrest in Hp by auto; exact Hp).
          destruct (IH (Hclosed _ _ Ha Hp0) Hx) as (k & h & K1 & [K2 K3] & K4). exists k, h. split; [exact K1|]. split; [|exact K4]. split; [|exact K3].
          eapply anc_up; eassumption. }
      assert (HleafV : forall a, leaf_vertex (suc m) (ONode b1 sub) q a -> In a V).
      { intros a Ha. destruct (child_leaf b1 a Ha) as (i & x & Hi & _ & _ & Hx). eapply V_in; eassumption. }
      intros a a' Ha Ha'. split.
      * intros (x & X1 & X2 & X3). cbn [tree_verts mi_verts b1] in X1. apply in_app_or in X1 as [X1|X1].
        -- destruct (Hdown a x (HleafV a Ha) X1 X2) as (k & h & K1 & K2 & K3). destruct (Hdown a' x (HleafV a' Ha') X1 X3) as (k' & h' & L1 & L2 & L3).
           assert (Hcon : connected Es k k'). { apply I2; [apply nth_error_Some; congruence|apply nth_error_Some; congruence|lia]. }
           destruct (class_linked b1 c Es k k' Hc Hcon) as [<-|(h1 & h2 & Q1 & Q2 & Q3)].
           ++ rewrite K1 in L1. injection L1 as <-. exact (common_linked b1 a a' h Ha Ha' (proj1 K2) (proj1 L2)).
           ++ fold hs in Q1, Q2. rewrite K1 in Q1. rewrite L1 in Q2. injection Q1 as <-. injection Q2 as <-. apply Q3; assumption.
        -- apply (common_linked b1 a a' x Ha Ha'); apply Hanc; auto.
      * intro H. revert Ha'. induction H as [a|a x x' e y y' H IH He Hy Hy' Hx Hx']; intro Ha'.
        -- exists a. split; [|split; constructor]. cbn [tree_verts]. apply in_or_app. right. auto.
        -- assert (Lx : leaf_vertex (suc m) (ONode b1 sub) q x) by (exists y, (sheet solid y e); split; [exact (proj1 (Forall_forall _ _) (proj2 He) y Hy)|exact Hx]).
           eapply common_trans; [exact (IH Ha Lx)|]. pose proof (HleafV x Lx) as HxV. pose proof (HleafV x' Ha') as Hx'V.
           destruct (Forall_dec (fun z => child_of q m z = child_of q m y) (fun z => Z.eq_dec _ _) (cells_around (fst e) (snd e))) as [Hall|Hnall].
           ++ set (i := child_of q m y) in *. assert (Hr : 0 <= i < 8) by apply child_of_range.
              destruct (znth_some _ sub i ltac:(rewrite H8; exact Hr)) as (d & Hi).
              assert (Hq : inner_quad solid (child_pos q m i) m e).
              { split; [apply He|]. apply Forall_forall. intros z Hz. rewrite <- (proj1 (Forall_forall _ _) Hall z Hz). apply child_of_in.
                exact (proj1 (Forall_forall _ _) (proj2 He) z Hz). }
              assert (Hlv : forall z w, In z (cells_around (fst e) (snd e)) -> leaf_vertex_at (suc m) (ONode b1 sub) q z (sheet solid z e) w -> leaf_vertex_at m d (child_pos q m i) z (sheet solid z e) w).
              { intros z w Hz (l & Hl & Hw). exists l. split; [|exact Hw]. cbn [leaf_at] in Hl. rewrite (proj1 (Forall_forall _ _) Hall z Hz) in Hl.
                match type of Hl with match ?z with _ => _ end = _ => destruct z as [d'|] eqn:Hi' end; [|discriminate].
                assert (X : Some d' = Some d) by (etransitivity; [symmetry; exact Hi'|exact Hi]). injection X as ->. exact Hl. }
              pose proof (Hlv y x Hy Hx) as D1. pose proof (Hlv y' x' Hy' Hx') as D2.
              destruct (proj2 (gd_linked _ _ _ _ _ _ _ (Hsub i d Hi) m d _ (part_self _ _ _) x x'
                (ex_intro _ y (ex_intro _ _ (conj (proj1 (Forall_forall _ _) (proj2 Hq) y Hy) D1)))
                (ex_intro _ y' (ex_intro _ _ (conj (proj1 (Forall_forall _ _) (proj2 Hq) y' Hy') D2))))) as (w & W1 & W2 & W3).
              { eapply ql_step; [constructor|exact Hq|exact Hy|exact Hy'|exact D1|exact D2]. }
              exists w. pose proof (V_in i d w Hi W1) as HwV. split; [cbn [tree_verts]; apply in_or_app; right; exact HwV|].
              split; apply Hanc; assumption.
           ++ destruct (Hdone e He) with (b := x) (b' := x') as (k & k' & h & h' & T1 & T2 & N1 & N2 & Hcon).
              ** intros i Hi X. apply Hnall. apply Forall_forall. intros z Hz.
                 rewrite (child_of_pos q m i z Hi (proj1 (Forall_forall _ _) (proj2 X) z Hz)). symmetry. apply (child_of_pos q m i y Hi). exact (proj1 (Forall_forall _ _) (proj2 X) y Hy).
              ** split; [exact He|]. exists y, y'. auto.
              ** fold hs in N1, N2. assert (Hkl : (k < length hs)%nat) by (apply nth_error_Some; congruence). assert (Hkl' : (k' < length hs)%nat) by (apply nth_error_Some; congruence).
                 assert (Hii : idx k = idx k') by (apply I2; assumption).
                 exists (nx + Z.of_nat (idx k)). split.
                 --- cbn [tree_verts mi_verts b1]. apply in_or_app. left. apply Hin. assert (idx k < cnt)%nat by (apply I1; exact Hkl). lia.
                 --- split; [eapply Hup; [exact HxV|exact N1|apply T1]|]. rewrite Hii. eapply Hup; [exact Hx'V|exact N2|apply T2].
  - unfold nx in *. lia.
  - intros a Ha. apply Hin in Ha. unfold nx in *. lia.
  - intros x Hx HV Ho. apply Hrest; [exact Hx| |exact Ho]. intro X. apply HV. auto.
Qed.
End Node.

Lemma cluster_cell_ok : forall n fuel afuel t q st sol, (n < fuel)%nat -> (n < afuel)%nat -> pre st n t q ->
  exists t' st' sol', cluster_cell ops fuel afuel t q (edge_len n) st sol = Ret (t', st', sol') /\ good st' n t' q /\
    vs_next st <= vs_next st' /\ (forall a, In a (tree_verts t') -> (In a (tree_verts t) \/ vs_next st <= a) /\ a < vs_next st') /\
    (forall b, b < vs_next st -> ~ In b (tree_verts t) -> vs_at st' b = vs_at st b) /\ depth_of t' = depth_of t.
Proof.
  induction n as [|m IH]; intros fuel afuel t q st sol Hf Haf Hp; (destruct fuel as [|fuel]; [lia|]); pose proof (pr_shape _ _ _ _ _ _ _ Hp) as Hsh;
    destruct t as [l|b cs0]; cbn [tree_ok] in Hsh; cbn [cluster_cell].
  - exists (OLeaf l), st, sol. split; [reflexivity|]. split.
    + apply leaf_good; [exact Hsh|exact (pr_nodup _ _ _ _ _ _ _ Hp)|]. intros s a Ha.
      assert (Hla : leaf_vertex_at 0 (OLeaf l) q q s a) by (exists l; auto).
      destruct (pr_leaf _ _ _ _ _ _ _ Hp q s a) as (v & V1 & V2); [unfold in_cube; rewrite edge_len_0; lia|exact Hla|].
      destruct (pr_idle _ _ _ _ _ _ _ Hp a (leaf_vertex_in _ _ _ _ _ _ Hla)) as (w & W1 & W2 & W3). rewrite V1 in W1. injection W1 as <-. eauto.
    + split; [lia|]. split; [|split; auto]. intros a Ha. split; [auto|]. exact (pr_next _ _ _ _ _ _ _ Hp a Ha).
  - contradiction.
  - destruct Hsh as (X & _). discriminate.
  - destruct Hsh as [H8 Hsh]. rewrite half_size. destruct Hp as [_ P2 P3 P4 P5]. cbn [tree_verts] in P2, P3, P4. apply nodup_app in P2 as (N1 & N2 & N3).
    assert (Hpc : forall i c, znth cs0 i = Some c -> pre st m c (child_pos q m i)).
    { intros i c Hi. pose proof (znth_bound _ _ _ _ Hi H8) as Hr.
      assert (Hv : forall a, In a (tree_verts c) -> In a (mi_verts b ++ flat_map tree_verts cs0)).
      { intros a Ha. apply in_or_app. right. apply in_flat_map. exists c. split; [eapply znth_in; eassumption|exact Ha]. }
      constructor.
      - exact (Hsh i c Hi).
      - eapply nodup_flat_part; [exact N2|]. eapply znth_in; eassumption.
      - intros a Ha. apply P3. auto.
      - intros a Ha. apply P4. auto.
      - intros x s a Hx (l & Hl & Ha). apply (P5 x s a); [eapply in_cube_sub; [exact (child_subcube q m i Hr)|exact Hx]|]. exists l. split; [|exact Ha].
        cbn [leaf_at]. rewrite (child_of_pos q m i x Hr Hx). match goal with |- match ?z with _ => _ end = _ => replace z with (Some c) by (symmetry; exact Hi) end. exact Hl. }
    match goal with |- context [ofold ?step (zseq 0 8) ([], st, sol)] =>
      destruct (ofold_inv _ step (fun i acc => let '(cs, st1, sol1) := acc in Z.of_nat (length cs) = i /\
          (forall j c, znth cs j = Some c -> good st1 m c (child_pos q m j)) /\
          (forall j c, i <= j -> znth cs0 j = Some c -> pre st1 m c (child_pos q m j)) /\
          NoDup (flat_map tree_verts cs) /\
          (forall a, In a (flat_map tree_verts cs) -> ((exists j c, 0 <= j < i /\ znth cs0 j = Some c /\ In a (tree_verts c)) \/ vs_next st <= a) /\ a < vs_next st1) /\
          vs_next st <= vs_next st1 /\ (forall x, x < vs_next st -> ~ In x (flat_map tree_verts cs0) -> vs_at st1 x = vs_at st x)) 8%nat ([], st, sol)) as ([[sub st1] sol1] & Hf1 & HI) end.
    + intros i [[cs st1] sol1] Hi (I1 & I2 & I3 & I4 & I5 & I6 & I7). change (Z.of_nat 8) with 8 in Hi.
      destruct (znth_some _ cs0 i ltac:(rewrite H8; exact Hi)) as (c0 & Hc0). cbn [child]. rewrite Hc0. cbn [oread obind].
      destruct (IH fuel afuel c0 (child_pos q m i) st1 sol1 ltac:(lia) ltac:(lia) (I3 i c0 ltac:(lia) Hc0)) as (t' & st2 & sol2 & Hb & K1 & K2 & K3 & K4 & _).
      unfold child_pos in Hb at 1. rewrite Hb. cbn [obind]. eexists. split; [reflexivity|]. cbv beta iota. rewrite app_length. cbn [length]. split; [lia|].
      assert (Hdis : forall a, In a (flat_map tree_verts cs) -> ~ In a (tree_verts c0)).
      { intros a Ha Hin. destruct (I5 a Ha) as [[(j & c & Hj & Hcj & Hain)|Hge] _].
        - pose proof (nodup_flat_znth _ _ _ _ _ _ _ _ _ N2 Hcj Hc0 Hain Hin). lia.
        - pose proof (pr_next _ _ _ _ _ _ _ (Hpc i c0 Hc0) a Hin). lia. }
      rewrite flat_map_snoc. split; [|split; [|split; [|split]]].
      * intros j c Hj. apply znth_snoc in Hj as [Hj|[-> ->]].
        -- eapply good_same; [exact (I2 j c Hj)|]. intros a v Ha Hv. assert (Hain : In a (flat_map tree_verts cs)) by (apply in_flat_map; exists c; split; [eapply znth_in; eassumption|exact Ha]).
           exists v. rewrite K4; [|apply I5; exact Hain|apply Hdis; exact Hain]. split; [exact Hv|]. split; [apply core_refl|]. auto.
        -- rewrite I1. exact K1.
      * intros j c Hj Hcj. eapply pre_same; [exact (I3 j c ltac:(lia) Hcj)| |exact K2]. intros a Ha. apply K4.
        -- exact (pr_next _ _ _ _ _ _ _ (I3 j c ltac:(lia) Hcj) a Ha).
        -- intro X. pose proof (nodup_flat_znth _ _ _ _ _ _ _ _ _ N2 Hcj Hc0 Ha X). lia.
      * apply nodup_app_intro; [exact I4|exact (gd_nodup _ _ _ _ _ _ _ K1)|]. intros a Ha Ha2. destruct (K3 a Ha2) as [[X|X] _]; [exact (Hdis a Ha X)|]. apply I5 in Ha. lia.
      * intros a Ha. apply in_app_or in Ha as [Ha|Ha].
        -- destruct (I5 a Ha) as [[(j & c & Hj & Hcj)|Hge] Hlt]; (split; [|lia]); [left; exists j, c; split; [lia|exact Hcj]|auto].
        -- destruct (K3 a Ha) as [[X|X] Y]; (split; [|exact Y]); [left; exists i, c0; split; [lia|auto]|right; lia].
      * split; [lia|]. intros x Hx Hnin. rewrite K4; [apply I7; assumption|lia|]. intro X. apply Hnin. apply in_flat_map. exists c0. split; [eapply znth_in; eassumption|exact X].
    + split; [reflexivity|]. split; [intros j c Hj; apply znth_range in Hj; cbn in Hj; lia|]. split; [intros j c _ Hj; apply Hpc; exact Hj|].
      split; [constructor|]. split; [intros a []|]. split; [lia|auto].
    + rewrite Hf1. cbn [obind]. destruct HI as (I1 & I2 & _ & I4 & I5 & I6 & I7). change (Z.of_nat 8) with 8 in I1.
      assert (H8s : length sub = 8%nat) by (apply Nat2Z.inj; exact I1).
      assert (Hold : forall a, In a (mi_verts b) -> ~ In a (flat_map tree_verts cs0)) by (intros a Ha; exact (N3 a Ha)).
      destruct (cluster_node_ok st1 m sub q afuel H8s I2 I4 ltac:(lia)) with (fuel := fuel) (b := b) (sol := sol1) as (as_ & st' & sol' & Heq & C1 & C2 & C3 & C4).
      * intros a Ha. apply I5. exact Ha.
      * lia.
      * intros a Ha. assert (Hlt : a < vs_next st) by (apply P4; apply in_or_app; auto). split; [|split].
        -- destruct (P3 a ltac:(apply in_or_app; auto)) as (v & Hv). exists v. rewrite I7; [exact Hv|exact Hlt|apply Hold; exact Ha].
        -- lia.
        -- intro X. destruct (I5 a X) as [[(j & c & _ & Hcj & Hin)|Hge] _]; [|lia]. apply (Hold a Ha). apply in_flat_map. exists c. split; [eapply znth_in; eassumption|exact Hin].
      * unfold cluster_node in Heq. eexists _, st', sol'. split; [exact Heq|]. split; [exact C1|]. split; [lia|]. split; [|split; [|reflexivity]].
        -- intros a Ha. cbn [tree_verts mi_verts] in *. apply in_app_or in Ha as [Ha|Ha]; [apply C3 in Ha; lia|].
           destruct (I5 a Ha) as [[(j & c & _ & Hcj & Hin)|Hge] Hlt]; (split; [|lia]); [|auto]. left. apply in_or_app. right. apply in_flat_map. exists c. split; [eapply znth_in; eassumption|exact Hin].
        -- intros x Hx Hnin. cbn [tree_verts] in Hnin. rewrite in_app_iff in Hnin. rewrite C4; [apply I7; tauto|lia| |tauto].
           intro X. destruct (I5 x X) as [[(j & c & _ & Hcj & Hin)|Hge] _]; [|lia]. apply Hnin. right. apply in_flat_map. exists c. split; [eapply znth_in; eassumption|exact Hin].
Qed.
End Cluster.
