(* The dual traversal visits every inner edge of the root cube exactly once. *)
From Coq Require Import ZArith List Bool Lia Permutation.
From Verif Require Import Base GridSpec CellSpec MeshSpec DualSpec DualProofs OctreeModel OctreeSpec OctreeSums.
Import ListNotations.
Local Open Scope Z_scope.

(* ------------------------------------------------------------------ *)
(* Lists                                                               *)
(* ------------------------------------------------------------------ *)

Lemma ofold_app : forall X T (f : T -> X -> outcome T) l1 l2 s,
  ofold f (l1 ++ l2) s = (s' <- ofold f l1 s ;; ofold f l2 s').
Proof.
  induction l1 as [|a l1 IH]; intros l2 s; cbn [app ofold]; [reflexivity|].
  destruct (f s a); cbn [obind]; auto.
Qed.

(* ------------------------------------------------------------------ *)
(* The traversal                                                       *)
(* ------------------------------------------------------------------ *)

Section Trav.
Variables A B : Type.
(* [X a q n]: leaf [a] occupies the cube of level [n] at [q]; [L]: the leaf of a
   unit cell. *)
Variable X : A -> ivec3 -> nat -> Prop.
Variable L : ivec3 -> option A.
Hypothesis XL : forall a q n c, X a q n -> in_cube q n c -> L c = Some a.

Notation tree := (otree A B).

(* [t] is a tree over the cube, or a leaf of a larger cube around it. *)
Definition covers (n : nat) (t : tree) (q : ivec3) : Prop :=
  tree_ok X n t q \/ exists a q' n', t = OLeaf a /\ (n < n')%nat /\ X a q' n' /\ subcube q n q' n'.

Lemma edge_len_S : forall m, edge_len (S m) = 2 * edge_len m.
Proof. intro m. unfold edge_len. rewrite Nat2Z.inj_succ, Z.pow_succ_r by lia. reflexivity. Qed.
Lemma edge_len_pos : forall m, 1 <= edge_len m.
Proof. intro m. unfold edge_len. assert (0 < 2 ^ Z.of_nat m) by (apply Z.pow_pos_nonneg; lia). lia. Qed.

Lemma covers_leaf : forall n a q c, covers n (OLeaf a) q -> in_cube q n c -> L c = Some a.
Proof.
  intros n a q c [H|(a' & q' & n' & Heq & Hn & HX & Hs)] Hc.
  - cbn in H. destruct n; eauto.
  - injection Heq as <-. apply (XL a q' n'); [assumption|]. unfold in_cube, subcube in *. lia.
Qed.

Lemma corner_offset_range : forall i, 0 <= i < 8 ->
  (0 <= vx (corner_offset i) <= 1) /\ (0 <= vy (corner_offset i) <= 1) /\ (0 <= vz (corner_offset i) <= 1).
Proof.
  intros i Hi. assert (H : In i (zseq 0 8)) by (apply in_zseq; lia).
  cbn in H. repeat (destruct H as [<-|H]; [vm_compute; intuition discriminate|]). destruct H.
Qed.

Lemma child_subcube : forall q m i, 0 <= i < 8 -> subcube (child_pos q m i) m q (S m).
Proof.
  intros q m i Hi. destruct (corner_offset_range i Hi) as (H1 & H2 & H3). pose proof (edge_len_pos m).
  unfold subcube, child_pos, vadd, vscale. cbn [vx vy vz]. rewrite edge_len_S. nia.
Qed.

Lemma sub_cover : forall m (t : tree) q i, covers (S m) t q -> 0 <= i < 8 ->
  exists r, (if is_subdivided t then child t i else Ret t) = Ret r /\
    covers m r (child_pos q m i) /\ (is_subdivided t = true -> tree_ok X m r (child_pos q m i)).
Proof.
  intros m t q i H Hi. pose proof (child_subcube q m i Hi) as Hs. destruct t as [a|b cs].
  - exists (OLeaf a). split; [reflexivity|]. split; [|discriminate].
    destruct H as [H|(a' & q' & n' & Heq & Hn & HX & Hs')].
    + cbn in H. right. exists a, q, (S m). auto.
    + injection Heq as <-. right. exists a, q', n'. repeat split; try lia; try assumption; unfold subcube in *; lia.
  - destruct H as [H|(a' & q' & n' & Heq & _)]; [|discriminate]. cbn in H. destruct H as [Hl Hc].
    destruct (znth cs i) as [c|] eqn:Hz.
    + exists c. cbn [is_subdivided child]. rewrite Hz. split; [reflexivity|]. pose proof (Hc i c Hz). split; [left|]; auto.
    + exfalso. unfold znth in Hz. destruct (Z.ltb_spec i 0); [lia|]. apply nth_error_None in Hz. lia.
Qed.

(* Nodes around an edge or a face. *)
Definition around (n : nat) (d : axis) (p : ivec3) : list ivec3 :=
  map (fun o => vadd p (vscale (edge_len n) o)) (cells_around d (V3 0 0 0)).
Definition beside (n : nat) (d : axis) (p : ivec3) : list ivec3 := [vsub p (vscale (edge_len n) (unit_vec d)); p].

(* At least one node is a tree over its cube. *)
Definition some_exact (n : nat) (nodes : list tree) (qs : list ivec3) : Prop :=
  exists t q, In (t, q) (combine nodes qs) /\ tree_ok X n t q.

Definition leaf_item (n : nat) (d : axis) (p : ivec3) (leaves : list A) : Prop :=
  Forall2 (fun a q => covers n (OLeaf a) q) leaves (around n d p) /\
  exists a q, In (a, q) (combine leaves (around n d p)) /\ X a q n.

Definition item := (axis * list A)%type.
Definition item_ok (it : item) : Prop := exists n p, leaf_item n (fst it) p (snd it).

(* [u] distributes the value [v] of the leaf quadruples over unit edges. *)
Definition compat (u : gedge -> Z) (v : item -> Z) : Prop :=
  (forall n d p leaves, leaf_item n d p leaves -> v (d, leaves) = seg_sum u d p (edge_len n)) /\
  (forall d p c0 c1 c2 c3, cells_around d p = [c0; c1; c2; c3] ->
     (L c0 = L c1 /\ L c2 = L c3) \/ (L c0 = L c3 /\ L c1 = L c2) -> u (d, p) = 0).

Variable St : Type.
Variable P : procs.
Hypothesis HP : procs_ok P.
Variable act : axis -> list A -> St -> outcome St.

Definition run_items (items : list item) (st : St) : outcome St :=
  ofold (fun st it => act (fst it) (snd it) st) items st.

Lemma run_items_app : forall i1 i2 st, run_items (i1 ++ i2) st = (st' <- run_items i1 st ;; run_items i2 st').
Proof. intros. unfold run_items. apply ofold_app. Qed.

(* What a traversal responsible for the edges summed by [U] does. *)
Definition does (f : St -> outcome St) (U : (gedge -> Z) -> Z) : Prop :=
  exists items, (forall st, f st = run_items items st) /\ Forall item_ok items /\
    forall u v, compat u v -> gsum v items = U u.

Lemma does_nil : forall f U, (forall st, f st = Ret st) -> (forall u v, compat u v -> U u = 0) -> does f U.
Proof.
  intros f U Hf HU. exists []. split; [exact Hf|]. split; [constructor|]. intros u v H. rewrite gsum_nil. symmetry. eauto.
Qed.

Lemma does_seq : forall f U h V, does f U -> does h V -> does (fun st => st' <- f st ;; h st') (fun u => U u + V u).
Proof.
  intros f U h V (i1 & H1 & F1 & S1) (i2 & H2 & F2 & S2). exists (i1 ++ i2). split; [|split].
  - intro st. rewrite run_items_app, H1. destruct (run_items i1 st); cbn [obind]; auto.
  - apply Forall_app. auto.
  - intros u v H. rewrite gsum_app. rewrite (S1 u v H), (S2 u v H). reflexivity.
Qed.

Lemma does_ofold : forall C (run : C -> St -> outcome St) (U : C -> (gedge -> Z) -> Z) l,
  (forall c, In c l -> does (run c) (U c)) ->
  does (ofold (fun st c => run c st) l) (fun u => gsum (fun c => U c u) l).
Proof.
  intros C run U l. induction l as [|c l IH]; intro H.
  - apply does_nil; [reflexivity|]. intros. apply gsum_nil.
  - destruct (does_seq _ _ _ _ (H c (or_introl eq_refl)) (IH (fun c' Hc => H c' (or_intror Hc)))) as (items & H1 & H2 & H3).
    exists items. split; [|split; assumption]. exact H1.
Qed.

Lemma does_eq : forall f U h V, does f U -> (forall st, h st = f st) -> (forall u, V u = U u) -> does h V.
Proof.
  intros f U h V (items & H1 & H2 & H3) Hf HU. exists items. split; [intro; rewrite Hf; apply H1|]. split; [assumption|].
  intros u v H. rewrite HU. eauto.
Qed.

(* A block of eight nodes. *)
Definition block (m : nat) (b : ivec3) (sub : list tree) : Prop :=
  Forall2 (fun t i => covers m t (child_pos b m i)) sub (zseq 0 8).

Lemma Forall2_len : forall T U (R : T -> U -> Prop) l l', Forall2 R l l' -> length l = length l'.
Proof. intros T U R l l' H. induction H; cbn [length]; congruence. Qed.

Lemma list8 : forall T (l : list T), length l = 8%nat ->
  exists a b c d e f g h, l = [a; b; c; d; e; f; g; h].
Proof.
  intros T l H. do 8 (destruct l as [|? l]; [discriminate|]). destruct l; [|discriminate]. repeat eexists.
Qed.

Definition exact_at (m : nat) (b : ivec3) (sub : list tree) (i : Z) : Prop :=
  exists t, znth sub i = Some t /\ tree_ok X m t (child_pos b m i).

Ltac nats := change (Pos.to_nat 1) with 1%nat; change (Pos.to_nat 2) with 2%nat; change (Pos.to_nat 3) with 3%nat;
  change (Pos.to_nat 4) with 4%nat; change (Pos.to_nat 5) with 5%nat; change (Pos.to_nat 6) with 6%nat;
  change (Pos.to_nat 7) with 7%nat.
Ltac step_lists := cbn [fst snd znth Z.ltb Z.compare Z.to_nat]; nats; cbn [nth_error oread obind].

Ltac offs := change (corner_offset 0) with (V3 0 0 0); change (corner_offset 1) with (V3 0 0 1);
  change (corner_offset 2) with (V3 1 0 0); change (corner_offset 3) with (V3 1 0 1);
  change (corner_offset 4) with (V3 0 1 0); change (corner_offset 5) with (V3 0 1 1);
  change (corner_offset 6) with (V3 1 1 0); change (corner_offset 7) with (V3 1 1 1).
Ltac pos_eq := apply vec_eq; unfold call_pos, child_pos; cbn [tab nth Z.to_nat]; nats; cbn [tab nth]; offs; unfold child_pos, seg_base, face_base, vadd, vsub, vscale;
  cbn -[edge_len Z.add Z.mul Z.sub]; rewrite ?edge_len_S; lia.

Ltac sub_all :=
  repeat match goal with
  | H : covers (S ?m) ?t ?q |- context [if is_subdivided ?t then child ?t ?i else Ret ?t] =>
      let r := fresh "r" in let E := fresh "E" in let C := fresh "C" in let T := fresh "T" in
      destruct (sub_cover m t q i H ltac:(lia)) as (r & E & C & T); rewrite E; cbn [obind]
  end.

Lemma covers_at : forall m t q q', covers m t q -> q = q' -> covers m t q'.
Proof. intros. subst. assumption. Qed.
Lemma tree_ok_at : forall m (t : tree) q q', tree_ok X m t q -> q = q' -> tree_ok X m t q'.
Proof. intros. subst. assumption. Qed.

Ltac find_exact :=
  match goal with
  | T : ?s = true -> tree_ok X ?m ?r _, H : ?s = true |- exact_at ?m _ _ _ =>
      exists r; split; [reflexivity|]; eapply tree_ok_at; [exact (T H)|pos_eq]
  end.

Lemma sub_leaf : forall t : tree, is_subdivided t = false -> exists a, t = OLeaf a.
Proof. intros [a|b cs] H; [eauto|discriminate]. Qed.

Lemma edge_block : forall m d p nodes, Forall2 (covers (S m)) nodes (around (S m) d p) ->
  exists sub, omap (sub_of nodes) (canon_edge_sub d) = Ret sub /\
    block m (seg_base d p (edge_len m)) sub /\
    (some_subdivided nodes (canon_edge_sub d) = true ->
      forall ix, In ix (canon_edge_calls d) -> exists i, In i ix /\ exact_at m (seg_base d p (edge_len m)) sub i) /\
    (some_subdivided nodes (canon_edge_sub d) = false -> exists leaves, nodes = map OLeaf leaves).
Proof.
  intros m d p nodes H. unfold around, cells_around in H. cbn [map] in H.
  inversion H as [|n0 q0 l0 l0' H0 T0]; subst. inversion T0 as [|n1 q1 l1 l1' H1 T1]; subst.
  inversion T1 as [|n2 q2 l2 l2' H2 T2]; subst. inversion T2 as [|n3 q3 l3 l3' H3 T3]; subst. inversion T3; subst.
  clear H T0 T1 T2 T3.
  assert (Hsub : some_subdivided [n0; n1; n2; n3] (canon_edge_sub d) = true -> is_subdivided n0 = true \/
    is_subdivided n1 = true \/ is_subdivided n2 = true \/ is_subdivided n3 = true).
  { unfold some_subdivided. destruct d; cbn [canon_edge_sub existsb]; step_lists; rewrite !orb_true_iff; intuition discriminate. }
  assert (Hns : some_subdivided [n0; n1; n2; n3] (canon_edge_sub d) = false -> is_subdivided n0 = false /\
    is_subdivided n1 = false /\ is_subdivided n2 = false /\ is_subdivided n3 = false).
  { unfold some_subdivided. destruct d; cbn [canon_edge_sub existsb]; step_lists; rewrite !orb_false_iff; intuition. }
  destruct d; cbn [canon_edge_sub omap]; unfold sub_of at 1 2 3 4 5 6 7 8; step_lists;
    sub_all; (eexists; split; [reflexivity|]; split; [|split]).
  all: try (unfold block; cbn [zseq Z.add Pos.add Pos.succ]; repeat (apply Forall2_cons; [eapply covers_at; [eassumption|pos_eq]|]); apply Forall2_nil).
  all: try (intros Hf; apply Hns in Hf as (F0 & F1 & F2 & F3); apply sub_leaf in F0 as [a0 ->], F1 as [a1 ->], F2 as [a2 ->], F3 as [a3 ->];
    exists [a0; a1; a2; a3]; reflexivity).
  all: intros Hf ix Hix; apply Hsub in Hf; cbn [canon_edge_calls In] in Hix; destruct Hix as [<-|[<-|[]]];
    destruct Hf as [Hf|[Hf|[Hf|Hf]]].
  all: first
    [ eexists; split; [left; reflexivity|]; find_exact
    | eexists; split; [right; left; reflexivity|]; find_exact
    | eexists; split; [right; right; left; reflexivity|]; find_exact
    | eexists; split; [right; right; right; left; reflexivity|]; find_exact ].
Qed.

Lemma face_block : forall m d p nodes, Forall2 (covers (S m)) nodes (beside (S m) d p) ->
  exists sub, omap (sub_of nodes) (canon_face_sub d) = Ret sub /\
    block m (face_base d p (edge_len m)) sub /\
    (some_subdivided nodes (canon_face_sub d) = true ->
      forall d' ix, In (PEdge d' ix) (canon_face_calls d) -> exists i, In i ix /\ exact_at m (face_base d p (edge_len m)) sub i) /\
    (some_subdivided nodes (canon_face_sub d) = false -> exists leaves, nodes = map OLeaf leaves).
Proof.
  intros m d p nodes H. unfold beside in H.
  inversion H as [|n0 q0 l0 l0' H0 T0]; subst. inversion T0 as [|n1 q1 l1 l1' H1 T1]; subst. inversion T1; subst.
  clear H T0 T1.
  assert (Hsub : some_subdivided [n0; n1] (canon_face_sub d) = true -> is_subdivided n0 = true \/
    is_subdivided n1 = true).
  { unfold some_subdivided. destruct d; cbn [canon_face_sub existsb]; step_lists; rewrite !orb_true_iff; intuition discriminate. }
  assert (Hns : some_subdivided [n0; n1] (canon_face_sub d) = false -> is_subdivided n0 = false /\
    is_subdivided n1 = false).
  { unfold some_subdivided. destruct d; cbn [canon_face_sub existsb]; step_lists; rewrite !orb_false_iff; intuition. }
  destruct d; cbn [canon_face_sub omap]; unfold sub_of at 1 2 3 4 5 6 7 8; step_lists;
    sub_all; (eexists; split; [reflexivity|]; split; [|split]).
  all: try (unfold block; cbn [zseq Z.add Pos.add Pos.succ]; repeat (apply Forall2_cons; [eapply covers_at; [eassumption|pos_eq]|]); apply Forall2_nil).
  all: try (intros Hf; apply Hns in Hf as (F0 & F1); apply sub_leaf in F0 as [a0 ->], F1 as [a1 ->];
    exists [a0; a1]; reflexivity).
  all: intros Hf d' ix Hix; apply Hsub in Hf; unfold canon_face_calls, canon_faces, canon_edges in Hix;
    cbn [canon_edge_calls next_axis map app In] in Hix;
    repeat (destruct Hix as [Hix|Hix]; [first [discriminate Hix|injection Hix as <- <-]|]); try (destruct Hix);
    destruct Hf as [Hf|Hf].
  all: first
    [ eexists; split; [left; reflexivity|]; find_exact
    | eexists; split; [right; left; reflexivity|]; find_exact
    | eexists; split; [right; right; left; reflexivity|]; find_exact
    | eexists; split; [right; right; right; left; reflexivity|]; find_exact ].
Qed.

(* Calls on a block. *)
Lemma block_edge : forall m b sub d ix, block m b sub -> In ix (canon_edge_calls d) ->
  exists q, pick sub ix = Ret q /\ Forall2 (covers m) q (around m d (call_pos b (edge_len m) (PEdge d ix))) /\
    (forall i, In i ix -> exact_at m b sub i -> some_exact m q (around m d (call_pos b (edge_len m) (PEdge d ix)))).
Proof.
  intros m b sub d ix H Hix.
  assert (Hlen : length sub = 8%nat) by (apply Forall2_len in H; exact H).
  destruct (list8 _ _ Hlen) as (s0 & s1 & s2 & s3 & s4 & s5 & s6 & s7 & ->). clear Hlen.
  unfold block in H. cbn [zseq Z.add Pos.add Pos.succ] in H.
  repeat match goal with H : Forall2 _ (_ :: _) (_ :: _) |- _ => inversion H; subst; clear H end.
  match goal with H : Forall2 _ [] [] |- _ => clear H end.
  destruct d; cbn [canon_edge_calls In] in Hix; destruct Hix as [<-|[<-|[]]]; unfold pick; cbn [omap]; step_lists;
    (eexists; split; [reflexivity|]; split;
     [unfold around; cbn [cells_around map]; unfold cells_around; cbn [map];
      repeat (apply Forall2_cons; [eapply covers_at; [eassumption|pos_eq]|]); apply Forall2_nil|]);
    intros i Hi (t & Ht & Hok); cbn [In] in Hi;
    destruct Hi as [<-|[<-|[<-|[<-|[]]]]]; revert Ht; step_lists; intro Ht; injection Ht as <-;
    (eexists; eexists; split; [|exact Hok]); unfold around, cells_around; cbn [map combine In];
    first [ left; f_equal; pos_eq | right; left; f_equal; pos_eq | right; right; left; f_equal; pos_eq
          | right; right; right; left; f_equal; pos_eq ].
Qed.

Lemma block_face : forall m b sub d ix, block m b sub -> In (PFace d ix) (canon_faces d) ->
  exists q, pick sub ix = Ret q /\ Forall2 (covers m) q (beside m d (call_pos b (edge_len m) (PFace d ix))).
Proof.
  intros m b sub d ix H Hix.
  assert (Hlen : length sub = 8%nat) by (apply Forall2_len in H; exact H).
  destruct (list8 _ _ Hlen) as (s0 & s1 & s2 & s3 & s4 & s5 & s6 & s7 & ->). clear Hlen.
  unfold block in H. cbn [zseq Z.add Pos.add Pos.succ] in H.
  repeat match goal with H : Forall2 _ (_ :: _) (_ :: _) |- _ => inversion H; subst; clear H end.
  match goal with H : Forall2 _ [] [] |- _ => clear H end.
  destruct d; unfold canon_faces in Hix; cbn [map In] in Hix;
    repeat (destruct Hix as [Hix|Hix]; [injection Hix as <-|]); try (destruct Hix); unfold pick; cbn [omap]; step_lists;
    (eexists; split; [reflexivity|]; unfold beside;
      repeat (apply Forall2_cons; [eapply covers_at; [eassumption|pos_eq]|]); apply Forall2_nil).
Qed.


Lemma edge_trav : forall n fuel d p nodes, (n < fuel)%nat ->
  Forall2 (covers n) nodes (around n d p) -> some_exact n nodes (around n d p) ->
  does (edge_proc P act fuel d nodes) (fun u => seg_sum u d p (edge_len n)).
Proof.
  assert (Hleaf : forall n d p leaves, Forall2 (covers n) (map OLeaf leaves) (around n d p) ->
    some_exact n (map OLeaf leaves) (around n d p) ->
    does (act d leaves) (fun u => seg_sum u d p (edge_len n))).
  { intros n d p leaves Hc (t & q & Hin & Hok). exists [(d, leaves)].
    assert (Hi : leaf_item n d p leaves).
    { split.
      - revert Hc. generalize (around n d p). clear. induction leaves as [|a l IH]; intros qs H; inversion H; subst; constructor; auto.
      - revert Hin. generalize (around n d p). clear Hc.
        induction leaves as [|a l IH]; intros [|q' qs] Hin; cbn [map combine In] in *; try contradiction.
        destruct Hin as [Hin|Hin].
        + injection Hin as <- <-. exists a, q'. split; [left; reflexivity|]. destruct n; exact Hok.
        + destruct (IH qs Hin) as (a' & q2 & H1 & H2). exists a', q2. auto. }
    split; [|split].
    - intro st. unfold run_items. cbn [ofold fst snd]. destruct (act d leaves st); reflexivity.
    - constructor; [exists n, p; exact Hi|constructor].
    - intros u v [Hv _]. rewrite gsum_cons, gsum_nil. rewrite (Hv n d p leaves Hi). lia. }
  induction n as [|m IH]; intros fuel d p nodes Hf Hc Hx; (destruct fuel as [|fuel]; [lia|]).
  - (* level zero: no node can be subdivided *)
    assert (Hn : exists leaves, nodes = map OLeaf leaves).
    { revert Hc. generalize (around 0 d p). clear. induction nodes as [|t nodes IH]; intros qs H; [exists []; reflexivity|].
      inversion H as [|? q ? qs' H1 H2]; subst. destruct (IH _ H2) as [l ->].
      destruct t as [a|b cs]; [exists (a :: l); reflexivity|].
      destruct H1 as [H1|(a & q' & n' & Heq & _)]; [destruct H1|discriminate]. }
    destruct Hn as [leaves ->].
    eapply does_eq; [apply (Hleaf O d p leaves); assumption| |reflexivity].
    intro st. cbn [edge_proc]. rewrite (po_edge_sub P HP).
    assert (Hlen : length leaves = 4%nat) by (apply Forall2_len in Hc; rewrite map_length in Hc; exact Hc).
    do 4 (destruct leaves as [|? leaves]; [discriminate|]). destruct leaves; [|discriminate].
    destruct d; reflexivity.
  - destruct (edge_block m d p nodes Hc) as (sub & Hsub & Hb & Hex & Hnl).
    destruct (some_subdivided nodes (canon_edge_sub d)) eqn:Hs.
    + eapply does_eq with (f := ofold (fun st ix => q <- pick sub ix ;; edge_proc P act fuel d q st) (pr_edge_calls P d)).
      * apply (does_ofold (list Z) (fun ix st => q <- pick sub ix ;; edge_proc P act fuel d q st)
          (fun ix u => call_sum u (seg_base d p (edge_len m)) (edge_len m) (PEdge d ix))).
        intros ix Hix. apply (Permutation_in _ (po_edge_calls P HP d)) in Hix.
        destruct (block_edge m _ sub d ix Hb Hix) as (q & Hq & Hcov & Hexq).
        eapply does_eq with (f := edge_proc P act fuel d q).
        -- apply (IH fuel d (call_pos (seg_base d p (edge_len m)) (edge_len m) (PEdge d ix)) q); [lia|exact Hcov|]. destruct (Hex eq_refl ix Hix) as (i & Hi & He). exact (Hexq i Hi He).
        -- intro st. rewrite Hq. reflexivity.
        -- reflexivity.
      * intro st. cbn [edge_proc]. rewrite (po_edge_sub P HP), Hsub. cbn [obind]. rewrite Hs. reflexivity.
      * intro u. rewrite edge_len_S, seg_split by apply edge_len_pos.
        rewrite (gsum_perm _ _ _ _ (po_edge_calls P HP d)). unfold canon_edges. rewrite gsum_map. reflexivity.
    + destruct (Hnl eq_refl) as [leaves ->].
      eapply does_eq; [apply (Hleaf (S m) d p leaves); assumption| |reflexivity].
      intro st. cbn [edge_proc]. rewrite (po_edge_sub P HP), Hsub. cbn [obind]. rewrite Hs.
      assert (Hom : forall l : list A, omap (@leaf_data A B) (map OLeaf l) = Ret l).
      { induction l as [|a l IHl]; [reflexivity|]. cbn [map omap leaf_data obind]. rewrite IHl. reflexivity. }
      rewrite Hom. reflexivity.
Qed.

Lemma in_around : forall d x y z c, In c (cells_around d (V3 x y z)) ->
  (x - 1 <= vx c <= x) /\ (y - 1 <= vy c <= y) /\ (z - 1 <= vz c <= z) /\
  (vget d c = vget d (V3 x y z)).
Proof.
  intros d x y z c H. unfold cells_around in H. cbn [In] in H.
  destruct d; cbn [next_axis unit_vec] in H; unfold vsub in H; cbn [vx vy vz] in H;
    destruct H as [<-|[<-|[<-|[<-|[]]]]]; cbn [vx vy vz vget]; lia.
Qed.

(* The edges inside a leaf do not count. *)
Lemma cell_leaf_zero : forall n a q u v, compat u v -> X a q n -> cell_sum u q (edge_len n) = 0.
Proof.
  intros n a q u v [_ Hz] HX. unfold cell_sum.
  assert (G : forall d x y z, (forall c, In c (cells_around d (V3 x y z)) -> in_cube q n c) -> u (d, V3 x y z) = 0).
  { intros d x y z Hc. unfold cells_around in Hc.
    eapply (Hz d (V3 x y z)); [reflexivity|]. left.
    rewrite !(XL a q n) by (try assumption; apply Hc; cbn [In]; auto). auto. }
  rewrite !bsum_zero; [lia| | |]; intros x y z Hx Hy Hzz; apply G; intros c Hc; apply in_around in Hc;
    unfold full, open, in_cube in *; cbn [fst snd vget vx vy vz] in *; lia.
Qed.

(* Neither do those between two leaves. *)
Lemma face_leaf_zero : forall n d p a0 a1 u v, compat u v ->
  Forall2 (covers n) (map OLeaf [a0; a1]) (beside n d p) -> face_sum u d p (edge_len n) = 0.
Proof.
  intros n d p a0 a1 u v [_ Hz] H. unfold beside in H. cbn [map] in H.
  inversion H as [|? ? ? ? H0 T0]; subst. inversion T0 as [|? ? ? ? H1 T1]; subst. clear H T0 T1.
  pose proof (fun c => covers_leaf n a0 _ c H0) as L0. pose proof (fun c => covers_leaf n a1 _ c H1) as L1. clear H0 H1.
  pose proof (edge_len_pos n). destruct p as [px py pz].
  destruct d; unfold face_sum; cbn [vx vy vz];
    rewrite !bsum_zero; try lia; intros x y z Hx Hy Hzz; unfold full, open, one in *; cbn [fst snd] in *;
    eapply Hz; try reflexivity; unfold vsub, vscale, unit_vec in *; cbn [next_axis vx vy vz] in *.
  all: first
    [ left; split; first
      [ rewrite !L0 by (unfold in_cube; cbn [vx vy vz]; lia); reflexivity
      | rewrite !L1 by (unfold in_cube; cbn [vx vy vz]; lia); reflexivity ]
    | right; split; first
      [ rewrite !L0 by (unfold in_cube; cbn [vx vy vz]; lia); reflexivity
      | rewrite !L1 by (unfold in_cube; cbn [vx vy vz]; lia); reflexivity ] ].
Qed.

Lemma canon_face_in : forall d d' ix, In (PFace d' ix) (canon_face_calls d) -> d' = d /\ In (PFace d' ix) (canon_faces d').
Proof.
  intros d d' ix H. unfold canon_face_calls in H. rewrite !in_app_iff in H.
  assert (E : forall e, ~ In (PFace d' ix) (canon_edges e)).
  { intros e He. unfold canon_edges in He. apply in_map_iff in He as (? & ? & _). discriminate. }
  destruct H as [H|[H|H]]; [|destruct (E _ H)|destruct (E _ H)].
  assert (d' = d); [|subst; auto]. unfold canon_faces in H. apply in_map_iff in H as (? & Heq & _). congruence.
Qed.
Lemma canon_edge_in : forall d d' ix, In (PEdge d' ix) (canon_face_calls d) -> In ix (canon_edge_calls d').
Proof.
  intros d d' ix H. unfold canon_face_calls in H. rewrite !in_app_iff in H.
  assert (E : forall e, In (PEdge d' ix) (canon_edges e) -> In ix (canon_edge_calls d')).
  { intros e He. unfold canon_edges in He. apply in_map_iff in He as (? & Heq & Hin). congruence. }
  destruct H as [H|[H|H]]; [|apply (E _ H)|apply (E _ H)].
  unfold canon_faces in H. apply in_map_iff in H as (? & ? & _). discriminate.
Qed.
Lemma canon_cell_in : forall c, In c canon_cell_calls ->
  match c with PFace d ix => In (PFace d ix) (canon_faces d) | PEdge d ix => In ix (canon_edge_calls d) end.
Proof.
  intros c H. unfold canon_cell_calls in H. rewrite !in_app_iff in H.
  assert (F : forall d, In c (canon_faces d) -> match c with PFace d ix => In (PFace d ix) (canon_faces d) | PEdge d ix => In ix (canon_edge_calls d) end).
  { intros d Hd. pose proof Hd as Hd'. unfold canon_faces in Hd. apply in_map_iff in Hd as (? & <- & _). exact Hd'. }
  assert (E : forall d, In c (canon_edges d) -> match c with PFace d ix => In (PFace d ix) (canon_faces d) | PEdge d ix => In ix (canon_edge_calls d) end).
  { intros d Hd. unfold canon_edges in Hd. apply in_map_iff in Hd as (? & <- & Hd). exact Hd. }
  destruct H as [H|[H|[H|[H|[H|H]]]]]; first [apply (F _ H)|apply (E _ H)].
Qed.

Lemma face_trav : forall n fuel d p nodes, (n < fuel)%nat ->
  Forall2 (covers n) nodes (beside n d p) ->
  does (face_proc P act fuel d nodes) (fun u => face_sum u d p (edge_len n)).
Proof.
  assert (Hleaf : forall n d p leaves, Forall2 (covers n) (map OLeaf leaves) (beside n d p) ->
    does (fun st => Ret st) (fun u => face_sum u d p (edge_len n))).
  { intros n d p leaves Hc. apply does_nil; [reflexivity|]. intros u v Huv.
    assert (Hlen : length leaves = 2%nat) by (apply Forall2_len in Hc; rewrite map_length in Hc; exact Hc).
    do 2 (destruct leaves as [|? leaves]; [discriminate|]). destruct leaves; [|discriminate].
    eapply face_leaf_zero; eassumption. }
  induction n as [|m IH]; intros fuel d p nodes Hf Hc; (destruct fuel as [|fuel]; [lia|]).
  - assert (Hn : exists leaves, nodes = map OLeaf leaves).
    { revert Hc. generalize (beside 0 d p). clear. induction nodes as [|t nodes IH]; intros qs H; [exists []; reflexivity|].
      inversion H as [|? q ? qs' H1 H2]; subst. destruct (IH _ H2) as [l ->].
      destruct t as [a|b cs]; [exists (a :: l); reflexivity|].
      destruct H1 as [H1|(a & q' & n' & Heq & _)]; [destruct H1|discriminate]. }
    destruct Hn as [leaves ->].
    eapply does_eq; [apply (Hleaf O d p leaves); assumption| |reflexivity].
    intro st. cbn [face_proc]. rewrite (po_face_sub P HP).
    assert (Hlen : length leaves = 2%nat) by (apply Forall2_len in Hc; rewrite map_length in Hc; exact Hc).
    do 2 (destruct leaves as [|? leaves]; [discriminate|]). destruct leaves; [|discriminate].
    destruct d; reflexivity.
  - destruct (face_block m d p nodes Hc) as (sub & Hsub & Hb & Hex & Hnl).
    destruct (some_subdivided nodes (canon_face_sub d)) eqn:Hs.
    + set (run := fun c st => match c with
          | PFace d' ix => q <- pick sub ix ;; face_proc P act fuel d' q st
          | PEdge d' ix => q <- pick sub ix ;; edge_proc P act fuel d' q st end).
      eapply does_eq with (f := ofold (fun st c => run c st) (pr_face_calls P d)).
      * apply (does_ofold pcall run (fun c u => call_sum u (face_base d p (edge_len m)) (edge_len m) c)).
        intros c Hcall. apply (Permutation_in _ (po_face_calls P HP d)) in Hcall. destruct c as [d' ix|d' ix].
        -- apply canon_face_in in Hcall as [_ Hcall].
           destruct (block_face m _ sub d' ix Hb Hcall) as (q & Hq & Hcov).
           eapply does_eq with (f := face_proc P act fuel d' q); [apply (IH fuel d' (call_pos (face_base d p (edge_len m)) (edge_len m) (PFace d' ix)) q); [lia|exact Hcov]| |reflexivity].
           intro st. unfold run. rewrite Hq. reflexivity.
        -- destruct (Hex eq_refl d' ix Hcall) as (i & Hi & He). apply canon_edge_in in Hcall.
           destruct (block_edge m _ sub d' ix Hb Hcall) as (q & Hq & Hcov & Hexq).
           eapply does_eq with (f := edge_proc P act fuel d' q);
             [apply (edge_trav m fuel d' (call_pos (face_base d p (edge_len m)) (edge_len m) (PEdge d' ix)) q); [lia|exact Hcov|exact (Hexq i Hi He)]| |reflexivity].
           intro st. unfold run. rewrite Hq. reflexivity.
      * intro st. cbn [face_proc]. rewrite (po_face_sub P HP), Hsub. cbn [obind]. rewrite Hs. reflexivity.
      * intro u. rewrite edge_len_S, face_split by apply edge_len_pos.
        rewrite (gsum_perm _ _ _ _ (po_face_calls P HP d)). reflexivity.
    + destruct (Hnl eq_refl) as [leaves ->].
      eapply does_eq; [apply (Hleaf (S m) d p leaves); assumption| |reflexivity].
      intro st. cbn [face_proc]. rewrite (po_face_sub P HP), Hsub. cbn [obind]. rewrite Hs. reflexivity.
Qed.

(* The calls on the children of a node. *)
Lemma calls_trav : forall m fuel (cs : list tree) q, (m < fuel)%nat -> length cs = 8%nat ->
  (forall i c, znth cs i = Some c -> tree_ok X m c (child_pos q m i)) ->
  does (run_calls P act fuel cs (pr_cell_calls P)) (fun u => gsum (fun c => call_sum u q (edge_len m) c) (pr_cell_calls P)).
Proof.
  intros m fuel cs q Hf Hlen Hc.
  assert (Hb : block m q cs).
  { destruct (list8 _ _ Hlen) as (s0 & s1 & s2 & s3 & s4 & s5 & s6 & s7 & ->).
    unfold block. cbn [zseq Z.add Pos.add Pos.succ].
    repeat (apply Forall2_cons; [left; apply Hc; reflexivity|]). apply Forall2_nil. }
  set (run := fun c st => match c with
        | PFace d' ix => q <- pick cs ix ;; face_proc P act fuel d' q st
        | PEdge d' ix => q <- pick cs ix ;; edge_proc P act fuel d' q st end).
  change (does (ofold (fun st c => run c st) (pr_cell_calls P)) (fun u => gsum (fun c => call_sum u q (edge_len m) c) (pr_cell_calls P))).
  apply (does_ofold pcall run (fun c u => call_sum u q (edge_len m) c)).
  intros c Hcall. apply (Permutation_in _ (po_cell_calls P HP)) in Hcall. apply canon_cell_in in Hcall.
  destruct c as [d' ix|d' ix].
  - destruct (block_face m _ cs d' ix Hb Hcall) as (nq & Hq & Hcov).
    eapply does_eq with (f := face_proc P act fuel d' nq); [apply (face_trav m fuel d' (call_pos q (edge_len m) (PFace d' ix)) nq); [lia|exact Hcov]| |reflexivity].
    intro st. unfold run. rewrite Hq. reflexivity.
  - destruct (block_edge m _ cs d' ix Hb Hcall) as (nq & Hq & Hcov & Hexq).
    eapply does_eq with (f := edge_proc P act fuel d' nq);
      [apply (edge_trav m fuel d' (call_pos q (edge_len m) (PEdge d' ix)) nq); [lia|exact Hcov|]| |reflexivity].
    + assert (Hne : exists i, In i ix /\ 0 <= i < 8).
      { destruct d'; cbn [canon_edge_calls In] in Hcall; destruct Hcall as [<-|[<-|[]]]; eexists; (split; [left; reflexivity|lia]). }
      destruct Hne as (i & Hi & Hr). apply (Hexq i Hi).
      destruct (znth cs i) as [c|] eqn:Hz; [exists c; split; [assumption|apply Hc; assumption]|].
      exfalso. unfold znth in Hz. destruct (Z.ltb_spec i 0); [lia|]. apply nth_error_None in Hz. lia.
    + intro st. unfold run. rewrite Hq. reflexivity.
Qed.

Lemma cell_trav : forall n fuel (t : tree) q, (n < fuel)%nat -> tree_ok X n t q ->
  does (cell_proc P act fuel t) (fun u => cell_sum u q (edge_len n)).
Proof.
  induction n as [|m IH]; intros fuel t q Hf Ht; (destruct fuel as [|fuel]; [lia|]); (destruct t as [a|b cs]).
  - apply does_nil; [reflexivity|]. intros u v Huv. eapply cell_leaf_zero; [exact Huv|exact Ht].
  - destruct Ht.
  - apply does_nil; [reflexivity|]. intros u v Huv. eapply cell_leaf_zero; [exact Huv|exact Ht].
  - cbn [tree_ok] in Ht. destruct Ht as [Hlen Hc].
    assert (Hp : pick cs (zseq 0 8) = Ret cs).
    { destruct (list8 _ _ Hlen) as (s0 & s1 & s2 & s3 & s4 & s5 & s6 & s7 & ->). reflexivity. }
    eapply does_eq with (f := fun st => st' <- ofold (fun st c => cell_proc P act fuel c st) cs st ;;
      run_calls P act fuel cs (pr_cell_calls P) st').
    + apply does_seq with
        (U := fun u => gsum (fun i => cell_sum u (child_pos q m i) (edge_len m)) (zseq 0 8))
        (V := fun u => gsum (fun c => call_sum u q (edge_len m) c) (pr_cell_calls P)).
      * eapply does_eq with (f := ofold (fun st ci => cell_proc P act fuel (fst ci) st) (combine cs (zseq 0 8))).
        -- apply (does_ofold (tree * Z) (fun ci => cell_proc P act fuel (fst ci))
             (fun ci u => cell_sum u (child_pos q m (snd ci)) (edge_len m))).
           intros [c i] Hin. cbn [fst snd]. apply IH; [lia|]. apply Hc.
           destruct (list8 _ _ Hlen) as (s0 & s1 & s2 & s3 & s4 & s5 & s6 & s7 & ->).
           cbn in Hin. repeat (destruct Hin as [Hin|Hin]; [injection Hin as <- <-; reflexivity|]). destruct Hin.
        -- intro st. destruct (list8 _ _ Hlen) as (s0 & s1 & s2 & s3 & s4 & s5 & s6 & s7 & ->). reflexivity.
        -- intro u. destruct (list8 _ _ Hlen) as (s0 & s1 & s2 & s3 & s4 & s5 & s6 & s7 & ->). reflexivity.
      * apply calls_trav; [lia|assumption|assumption].
    + intro st. cbn [cell_proc]. rewrite Hp. reflexivity.
    + intro u. cbv beta. rewrite edge_len_S, cell_split by apply edge_len_pos.
      rewrite (gsum_perm _ _ _ _ (po_cell_calls P HP)). reflexivity.
Qed.
End Trav.
