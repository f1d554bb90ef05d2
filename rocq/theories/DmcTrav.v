(* The traversal of dual marching cubes visits the inner corners of the leaves: a sum over the visited
   points of a function that vanishes where the leaves do not change along some axis is
   the sum over all inner points of the grid. *)
From Coq Require Import ZArith List Bool Lia.
From Verif Require Import Base GridSpec CellSpec MeshSpec DualSpec DualProofs OctreeModel OctreeSpec OctreeSums OctreeProofs DmcModel.
Import ListNotations.
Local Open Scope Z_scope.

Inductive kind := KFace (d : axis) | KEdge (d : axis) | KVert.

(* Where the nodes around a square, a segment, a point are, in units of their size *)
Definition place (k : kind) : list ivec3 :=
  match k with
  | KFace d => [vsub (V3 0 0 0) (unit_vec d); V3 0 0 0]
  | KEdge AX => [V3 0 (-1) (-1); V3 0 0 (-1); V3 0 0 0; V3 0 (-1) 0]
  | KEdge AY => [V3 (-1) 0 (-1); V3 (-1) 0 0; V3 0 0 0; V3 0 0 (-1)]
  | KEdge AZ => [V3 (-1) (-1) 0; V3 0 (-1) 0; V3 0 0 0; V3 (-1) 0 0]
  | KVert => map (fun i => vsub (corner_offset i) (V3 1 1 1)) (zseq 0 8)
  end.
Definition sub_table (k : kind) : list (Z * Z) :=
  match k with KFace d => dmc_face_sub d | KEdge d => dmc_edge_sub d | KVert => dmc_vert_sub end.
(* The block of eight sub-nodes starts here, in units of their size. *)
Definition base_off (k : kind) : ivec3 :=
  match k with
  | KFace d => vsub (V3 0 0 0) (unit_vec d)
  | KEdge d => vsub (unit_vec d) (V3 1 1 1)
  | KVert => V3 (-1) (-1) (-1)
  end.
Definition kinds : list kind := [KFace AX; KFace AY; KFace AZ; KEdge AX; KEdge AY; KEdge AZ; KVert].
Lemma in_kinds : forall k, In k kinds.
Proof. intros [[]|[]|]; cbn; auto 10. Qed.

Definition vzero := V3 0 0 0.
Definition check_sub (k : kind) : bool :=
  (zlen (sub_table k) =? 8) &&
  forallb (fun i => let '(n, c) := nth (Z.to_nat i) (sub_table k) (0, 0) in
    (0 <=? n) && (n <? zlen (place k)) && (0 <=? c) && (c <? 8) &&
    veqb (vadd (vscale 2 (nth (Z.to_nat n) (place k) vzero)) (corner_offset c)) (vadd (base_off k) (corner_offset i))) (zseq 0 8) &&
  forallb (fun n => existsb (fun e => fst e =? n) (sub_table k)) (zseq 0 (length (place k))).
Lemma sub_checked : forallb check_sub kinds = true.
Proof. vm_compute. reflexivity. Qed.

(* Calls on a block. *)
Definition call_kind (c : vcall) : kind := match c with VFace d _ => KFace d | VEdge d _ => KEdge d | VVert => KVert end.
Definition call_ix (c : vcall) : list Z := match c with VFace _ ix => ix | VEdge _ ix => ix | VVert => all_eight end.
Definition call_off (c : vcall) : ivec3 :=
  match c with
  | VFace _ ix => corner_offset (tab 0 ix 1)
  | VEdge _ ix => corner_offset (tab 0 ix 2)
  | VVert => V3 1 1 1
  end.
Definition check_call (c : vcall) : bool :=
  (zlen (call_ix c) =? zlen (place (call_kind c))) &&
  forallb (fun e => let '(i, o) := e in (0 <=? i) && (i <? 8) && veqb (corner_offset i) (vadd (call_off c) o))
    (combine (call_ix c) (place (call_kind c))).
Definition kind_calls (k : kind) : list vcall :=
  match k with KFace d => dmc_face_calls d | KEdge d => dmc_edge_calls d | KVert => [VVert] end.
Lemma calls_checked : forallb check_call dmc_cell_calls && forallb (fun k => forallb check_call (kind_calls k)) kinds = true.
Proof. vm_compute. reflexivity. Qed.

(* The inner points a call is responsible for *)
Definition along (k : kind) (a : axis) : bool :=
  match k with KFace d => negb (axis_eqb d a) | KEdge d => axis_eqb d a | KVert => false end.
Definition span_of (b : bool) (a s : Z) : Z * Z := if b then open a s else one a.
Definition kind_sum (u : ivec3 -> Z) (k : kind) (p : ivec3) (s : Z) : Z :=
  bsum u (span_of (along k AX) (vx p) s) (span_of (along k AY) (vy p) s) (span_of (along k AZ) (vz p) s).
Definition open_sum (u : ivec3 -> Z) (q : ivec3) (s : Z) : Z := bsum u (open (vx q) s) (open (vy q) s) (open (vz q) s).

Definition call_at (b : ivec3) (s : Z) (c : vcall) : ivec3 := vadd b (vscale s (call_off c)).
Definition call_total (u : ivec3 -> Z) (b : ivec3) (s : Z) (c : vcall) : Z := kind_sum u (call_kind c) (call_at b s c) s.
Definition base_at (k : kind) (p : ivec3) (s : Z) : ivec3 := vadd p (vscale s (base_off k)).

Lemma one_open : forall b a s, 1 <= s -> pieces (span_of b a (2 * s)) (if b then parts_open a s else [one a]).
Proof. intros [|] a s H; [apply po; auto | apply pieces_one]. Qed.

Lemma open_split : forall u q s, 1 <= s ->
  open_sum u q (2 * s) = gsum (fun i => open_sum u (vadd q (vscale s (corner_offset i))) s) (zseq 0 8) + gsum (call_total u q s) dmc_cell_calls.
Proof.
  intros u [x y z] s Hs. unfold open_sum at 1. cbn [vx vy vz].
  rewrite (bsum_pieces _ _ _ _ _ _ _ (po x s Hs) (po y s Hs) (po z s Hs)).
  unfold parts_open. rewrite !gsum_cons, !gsum_nil.
  cbn [zseq Z.add Pos.add Pos.succ dmc_cell_calls flat_map map app nth dmc_face_table dmc_edge_table].
  rewrite !gsum_cons, !gsum_nil. unfold call_total, call_at, kind_sum, open_sum, vadd, vscale.
  cbn -[bsum open one Z.add Z.mul]. unfold span_of. cbn -[bsum open one Z.add Z.mul].
  rewrite ?Z.mul_0_r, ?Z.mul_1_r, ?Z.add_0_r. ring.
Qed.

Lemma kind_split : forall u k p s, 1 <= s -> kind_sum u k p (2 * s) = gsum (call_total u (base_at k p s) s) (kind_calls k).
Proof.
  intros u k [x y z] s Hs. unfold kind_sum at 1. cbn [vx vy vz].
  rewrite (bsum_pieces _ _ _ _ _ _ _ (one_open _ x s Hs) (one_open _ y s Hs) (one_open _ z s Hs)).
  destruct k as [[]|[]|]; cbn [along axis_eqb negb]; unfold parts_open; rewrite !gsum_cons, !gsum_nil;
    cbn [kind_calls dmc_face_calls dmc_edge_calls dmc_face_table dmc_edge_table map app];
    rewrite !gsum_cons, !gsum_nil; unfold call_total, call_at, base_at, kind_sum, vadd, vsub, vscale;
    cbn -[bsum open one Z.add Z.mul]; unfold span_of; cbn -[bsum open one Z.add Z.mul];
    rewrite ?Z.mul_0_r, ?Z.mul_1_r, ?Z.add_0_r;
    repeat match goal with |- context [?a + s * (?b - 1) + s] => replace (a + s * (b - 1) + s) with (a + s * b) by ring end;
    repeat match goal with |- context [?a + s * (?b - 1)] => replace (a + s * (b - 1)) with (a + s * b - s) by ring end;
    repeat match goal with |- context [?a + s * -1 + s] => replace (a + s * -1 + s) with a by lia end;
    rewrite ?Z.mul_0_r, ?Z.mul_1_r, ?Z.add_0_r, ?Z.add_simpl_r; ring.
Qed.

Lemma veqb_true : forall p q, veqb p q = true -> p = q.
Proof. intros [x y z] [x' y' z'] H. unfold veqb in H. cbn [vx vy vz] in H. rewrite !andb_true_iff, !Z.eqb_eq in H. destruct H as [[-> ->] ->]. reflexivity. Qed.

Section Trav.
Variables A B : Type.
Variable X : A -> ivec3 -> nat -> Prop.
Variable L : ivec3 -> option A.
Hypothesis XL : forall a q n c, X a q n -> in_cube q n c -> L c = Some a.
Notation tree := (otree A B).
Notation covers := (covers A B X).

(* The eight unit cells around a point *)
Definition cells8 (p : ivec3) : list ivec3 := map (vadd p) (place KVert).
(* [p] is no corner of a leaf: the leaves do not change along an axis. *)
Definition flat_at (p : ivec3) : Prop := exists d, forall c, In c (cells8 p) -> vget d c = vget d p - 1 -> L (vadd c (unit_vec d)) = L c.

Variable St : Type.
Variable act : list A -> St -> outcome St.
Definition visit (p : ivec3) (st : St) : outcome St := ls <- omap (fun c => oread (L c)) (cells8 p) ;; act ls st.

(* What a part of the traversal does. *)
Variable root : ivec3.
Variable level : nat.
Definition inner (p : ivec3) : Prop :=
  vx root < vx p < vx root + edge_len level /\ vy root < vy p < vy root + edge_len level /\ vz root < vz p < vz root + edge_len level.
Definition visits (f : St -> outcome St) (U : (ivec3 -> Z) -> Z) : Prop :=
  exists ps, (forall st, f st = ofold (fun st p => visit p st) ps st) /\ Forall inner ps /\
    forall u, (forall p, flat_at p -> u p = 0) -> gsum u ps = U u.

Lemma visits_nil : forall f U, (forall st, f st = Ret st) -> (forall u, (forall p, flat_at p -> u p = 0) -> U u = 0) -> visits f U.
Proof. intros f U Hf HU. exists []. split; [exact Hf|]. split; [constructor|]. intros u H. rewrite gsum_nil. symmetry. auto. Qed.

Lemma visits_seq : forall f U h V, visits f U -> visits h V -> visits (fun st => st' <- f st ;; h st') (fun u => U u + V u).
Proof.
  intros f U h V (i1 & H1 & F1 & S1) (i2 & H2 & F2 & S2). exists (i1 ++ i2). split; [|split].
  - intro st. rewrite ofold_app, H1. destruct (ofold _ i1 st); cbn [obind]; auto.
  - apply Forall_app. auto.
  - intros u H. rewrite gsum_app, (S1 u H), (S2 u H). reflexivity.
Qed.
Lemma visits_ofold : forall C (run : C -> St -> outcome St) (U : C -> (ivec3 -> Z) -> Z) l,
  (forall c, In c l -> visits (run c) (U c)) -> visits (ofold (fun st c => run c st) l) (fun u => gsum (fun c => U c u) l).
Proof.
  intros C run U l. induction l as [|c l IH]; intro H.
  - apply visits_nil; [reflexivity|]. intros. apply gsum_nil.
  - destruct (visits_seq _ _ _ _ (H c (or_introl eq_refl)) (IH (fun c' Hc => H c' (or_intror Hc)))) as (ps & H1 & H2 & H3).
    exists ps. split; [|split; assumption]. exact H1.
Qed.
Lemma visits_eq : forall f U h V, visits f U -> (forall st, h st = f st) -> (forall u, V u = U u) -> visits h V.
Proof.
  intros f U h V (ps & H1 & H2 & H3) Hf HU. exists ps. split; [intro; rewrite Hf; apply H1|]. split; [assumption|].
  intros u H. rewrite HU. auto.
Qed.

(* ---- nodes around a square, segment or point ---- *)
Definition at_place (n : nat) (k : kind) (p : ivec3) (nodes : list tree) : Prop :=
  Forall2 (fun t o => covers n t (vadd p (vscale (edge_len n) o))) nodes (place k).
Notation block := (block A B X).

Lemma Forall2_nth : forall T U (R : T -> U -> Prop) l l' i d', Forall2 R l l' -> (i < length l')%nat ->
  exists a, nth_error l i = Some a /\ R a (nth i l' d').
Proof.
  intros T U R l l' i d' H. revert i. induction H as [|a b l l' Hab H IH]; intros i Hi; cbn in Hi; [lia|].
  destruct i as [|i]; [exists a; auto|]. apply IH. lia.
Qed.

Lemma zseq_nth : forall n a i, (i < n)%nat -> nth_error (zseq a n) i = Some (a + Z.of_nat i).
Proof.
  induction n as [|n IH]; intros a i Hi; [lia|]. destruct i as [|i]; cbn [zseq nth_error]; [f_equal; lia|]. rewrite IH by lia. f_equal. lia.
Qed.

Lemma omap_forall2 : forall T U (f : T -> outcome U) (R : U -> Z -> Prop) l a,
  (forall i, (i < length l)%nat -> forall e, nth_error l i = Some e -> exists r, f e = Ret r /\ R r (a + Z.of_nat i)) ->
  exists rs, omap f l = Ret rs /\ Forall2 R rs (zseq a (length l)).
Proof.
  intros T U f R l. induction l as [|e l IH]; intros a H; [exists []; split; [reflexivity|constructor]|].
  destruct (H 0%nat ltac:(cbn; lia) e eq_refl) as (r & H1 & H2). cbn [Z.of_nat] in H2. rewrite Z.add_0_r in H2.
  destruct (IH (a + 1)) as (rs & H3 & H4).
  { intros i Hi e' He. destruct (H (S i) ltac:(cbn; lia) e' He) as (r' & H5 & H6). exists r'. split; [exact H5|].
    replace (a + 1 + Z.of_nat i) with (a + Z.of_nat (S i)) by lia. exact H6. }
  exists (r :: rs). cbn [omap length zseq]. rewrite H1. cbn [obind]. rewrite H3. split; [reflexivity|]. constructor; assumption.
Qed.

Lemma check_sub_at : forall k i n c, nth_error (sub_table k) i = Some (n, c) ->
  (i < 8)%nat /\ 0 <= n < zlen (place k) /\ 0 <= c < 8 /\
  vadd (vscale 2 (nth (Z.to_nat n) (place k) vzero)) (corner_offset c) = vadd (base_off k) (corner_offset (Z.of_nat i)).
Proof.
  intros k i n c H. pose proof (proj1 (forallb_forall _ _) sub_checked k (in_kinds k)) as C. unfold check_sub in C.
  rewrite !andb_true_iff in C. destruct C as [[C1 C2] _]. apply Z.eqb_eq in C1. unfold zlen in C1.
  assert (Hi : (i < 8)%nat) by (assert (i < length (sub_table k))%nat by (apply nth_error_Some; congruence); lia).
  rewrite forallb_forall in C2. specialize (C2 (Z.of_nat i)). rewrite Nat2Z.id in C2.
  rewrite (nth_error_nth _ _ _ H) in C2. cbv beta iota in C2.
  assert (Hin : In (Z.of_nat i) (zseq 0 8)) by (apply in_zseq; lia). specialize (C2 Hin).
  rewrite !andb_true_iff, !Z.leb_le, !Z.ltb_lt in C2. destruct C2 as ((((C3 & C4) & C5) & C6) & C7).
  split; [exact Hi|]. split; [lia|]. split; [lia|]. apply veqb_true. exact C7.
Qed.

Lemma znth_nat : forall T (l : list T) i, 0 <= i -> znth l i = nth_error l (Z.to_nat i).
Proof. intros T l i H. unfold znth. destruct (Z.ltb_spec i 0); [lia|reflexivity]. Qed.

Lemma kind_block : forall m k p nodes, at_place (S m) k p nodes ->
  exists sub, omap (sub_of nodes) (sub_table k) = Ret sub /\ block m (base_at k p (edge_len m)) sub.
Proof.
  intros m k p nodes H.
  assert (Len : length (sub_table k) = 8%nat) by (destruct k as [[]|[]|]; reflexivity).
  destruct (omap_forall2 _ _ (sub_of nodes) (fun t i => covers m t (child_pos (base_at k p (edge_len m)) m i)) (sub_table k) 0) as (sub & H1 & H2).
  - intros i Hi [n c] He. destruct (check_sub_at k i n c He) as (Hi8 & Hn & Hc & Hp). cbn [Z.add].
    unfold zlen in Hn. destruct (Forall2_nth _ _ _ _ (place k) (Z.to_nat n) vzero H ltac:(lia)) as (t & Ht & Hcov).
    unfold sub_of. cbn [fst snd]. rewrite znth_nat by lia. rewrite Ht. cbn [oread obind].
    destruct (sub_cover _ _ X m t _ c Hcov Hc) as (r & Hr & Hr2 & _). exists r. split; [exact Hr|].
    eapply covers_at; [exact Hr2|]. unfold child_pos, base_at. apply (f_equal (vscale (edge_len m))) in Hp.
    pose proof (f_equal vx Hp) as P1. pose proof (f_equal vy Hp) as P2. pose proof (f_equal vz Hp) as P3. clear - P1 P2 P3.
    unfold vadd, vscale in *. cbn [vx vy vz] in *. rewrite edge_len_S. f_equal; lia.
  - exists sub. split; [exact H1|]. rewrite Len in H2. exact H2.
Qed.

Lemma not_subdivided : forall k n p nodes, at_place n k p nodes -> some_subdivided nodes (sub_table k) = false -> exists leaves, nodes = map OLeaf leaves.
Proof.
  intros k n p nodes H E.
  assert (G : forall t, In t nodes -> is_subdivided t = false).
  { intros t Ht. apply In_nth_error in Ht as (j & Hj).
    assert (Hl : length nodes = length (place k)) by (apply Forall2_len in H; exact H).
    assert (Hj2 : (j < length (place k))%nat) by (rewrite <- Hl; apply nth_error_Some; congruence).
    pose proof (proj1 (forallb_forall _ _) sub_checked k (in_kinds k)) as C. unfold check_sub in C. rewrite !andb_true_iff in C. destruct C as [_ C].
    rewrite forallb_forall in C. specialize (C (Z.of_nat j)). assert (Hin : In (Z.of_nat j) (zseq 0 (length (place k)))) by (apply in_zseq; lia).
    specialize (C Hin). apply existsb_exists in C as ((a & c) & Hac & Ha). cbn [fst] in Ha. apply Z.eqb_eq in Ha. subst a.
    unfold some_subdivided in E. destruct (is_subdivided t) eqn:Q; [|reflexivity]. rewrite <- E. symmetry. apply existsb_exists.
    exists (Z.of_nat j, c). split; [exact Hac|]. cbn [fst]. rewrite znth_nat, Nat2Z.id, Hj by lia. exact Q. }
  clear H E. induction nodes as [|t nodes IH]; [exists []; reflexivity|]. destruct IH as (l & ->); [intros t' Ht'; apply G; right; auto|].
  destruct t as [a|b cs]; [exists (a :: l); reflexivity|]. discriminate (G _ (or_introl eq_refl)).
Qed.

Lemma flat_level : forall k p nodes, at_place 0 k p nodes -> exists leaves, nodes = map OLeaf leaves.
Proof.
  intros k p nodes. unfold at_place. generalize (place k). induction nodes as [|t nodes IH]; intros qs H; [exists []; reflexivity|].
  inversion H as [|? q ? qs' H1 H2]; subst. destruct (IH _ H2) as [l ->].
  destruct t as [a|b cs]; [exists (a :: l); reflexivity|].
  destruct H1 as [H1|(a & q' & n' & Heq & _)]; [destruct H1|discriminate].
Qed.

Lemma leaves_not_subdivided : forall (leaves : list A) t, @some_subdivided A B (map OLeaf leaves) t = false.
Proof.
  intros leaves t. unfold some_subdivided. destruct (existsb _ t) eqn:E; [|reflexivity]. apply existsb_exists in E as (e & _ & He).
  unfold znth in He. destruct (_ <? 0); [discriminate|]. rewrite nth_error_map in He. destruct (nth_error leaves _); discriminate.
Qed.
Lemma sub_of_leaves : forall k n p leaves, at_place n k p (map OLeaf leaves) -> exists sub, omap (sub_of (map (@OLeaf A B) leaves)) (sub_table k) = Ret sub.
Proof.
  intros k n p leaves H. destruct (omap_forall2 _ _ (sub_of (map (@OLeaf A B) leaves)) (fun _ _ => True) (sub_table k) 0) as (sub & H1 & _); [|eauto].
  intros i Hi [a c] He. destruct (check_sub_at k i a c He) as (_ & Hn & _). unfold zlen in Hn.
  destruct (Forall2_nth _ _ _ _ (place k) (Z.to_nat a) vzero H ltac:(lia)) as (t & Ht & _). unfold sub_of. cbn [fst snd]. rewrite znth_nat by lia. rewrite Ht. cbn [oread obind].
  rewrite nth_error_map in Ht. destruct (nth_error leaves _); [|discriminate]. injection Ht as <-. eexists. split; [reflexivity|trivial].
Qed.

Lemma call_block : forall m b sub c, check_call c = true -> block m b sub ->
  exists q, pick sub (call_ix c) = Ret q /\ at_place m (call_kind c) (call_at b (edge_len m) c) q.
Proof.
  intros m b sub c C H. unfold check_call in C. rewrite andb_true_iff in C. destruct C as [C1 C2]. apply Z.eqb_eq in C1. unfold zlen in C1.
  unfold at_place, call_at. revert C1 C2. generalize (place (call_kind c)). generalize (call_ix c). generalize (call_off c). clear c. intros o ix.
  induction ix as [|i ix IH]; intros ps C1 C2; (destruct ps as [|p ps]; [|]); cbn [length] in C1; try lia.
  - exists []. split; [reflexivity|constructor].
  - cbn [combine forallb] in C2. rewrite !andb_true_iff in C2. destruct C2 as [[C2 C3] C4]. destruct C2 as [C2 C5]. apply Z.leb_le in C2. apply Z.ltb_lt in C5. apply veqb_true in C3.
    destruct (IH ps ltac:(lia) C4) as (q & Hq & Hf).
    destruct (Forall2_nth _ _ _ _ _ (Z.to_nat i) 0 H) as (t & Ht & Hc); [cbn; lia|].
    exists (t :: q). unfold pick in *. cbn [omap]. rewrite znth_nat, Ht by lia. cbn [oread obind]. rewrite Hq. split; [reflexivity|]. constructor; [|exact Hf].
    pose proof (zseq_nth 8 0 (Z.to_nat i) ltac:(lia)) as Hz. rewrite (nth_error_nth _ _ _ Hz) in Hc. rewrite Z2Nat.id in Hc by lia. cbn [Z.add] in Hc.
    eapply covers_at; [exact Hc|]. unfold child_pos. rewrite C3. unfold vadd, vscale. cbn [vx vy vz]. f_equal; lia.
Qed.

(* ---- leaves ---- *)
Lemma flat_leaves : forall n k p leaves u, k <> KVert -> (forall p, flat_at p -> u p = 0) -> at_place n k p (map OLeaf leaves) ->
  kind_sum u k p (edge_len n) = 0.
Proof.
  intros n k p leaves u Hk Hu H.
  assert (G : forall a q, In (a, q) (combine leaves (place k)) -> forall c, in_cube (vadd p (vscale (edge_len n) q)) n c -> L c = Some a).
  { intros a q Hin c Hc. apply (covers_leaf A B X L XL n a (vadd p (vscale (edge_len n) q))); [|exact Hc].
    unfold at_place in H. revert H Hin. generalize (place k). clear. induction leaves as [|a' l IH]; intros [|q' qs] H Hin; cbn in *; try contradiction.
    inversion H; subst. destruct Hin as [Hin|Hin]; [injection Hin as -> ->; assumption|]. eapply IH; eassumption. }
  assert (Hl : length leaves = length (place k)) by (apply Forall2_len in H; rewrite map_length in H; exact H). clear H.
  pose proof (edge_len_pos n) as Hp. destruct p as [px py pz].
  unfold kind_sum. apply bsum_zero. intros x y z Hx Hy Hz. apply Hu.
  destruct k as [[]|[]|]; [| | | | | |congruence]; cbn [along axis_eqb negb span_of] in Hx, Hy, Hz; unfold open, one in *; cbn [fst snd vx vy vz] in *;
    cbn [place length] in Hl.
  all: repeat match goal with H : length ?l = S _ |- _ => destruct l as [|? l]; [discriminate|]; cbn [length] in H; apply Nat.succ_inj in H end;
    try (match goal with H : length ?l = 0%nat |- _ => destruct l; [clear H|discriminate] end); cbn [place combine] in G.
  1: exists AY. 2: exists AX. 3: exists AX. 4: exists AX. 5: exists AY. 6: exists AZ.
  all: intros c Hc Hd; unfold cells8 in Hc; cbn [place map zseq Z.add Pos.add Pos.succ] in Hc;
    repeat match type of Hc with context [corner_offset ?i] => let v := eval vm_compute in (corner_offset i) in change (corner_offset i) with v in Hc end;
    unfold vsub, vadd in Hc; cbn [vx vy vz map In] in Hc;
    repeat (destruct Hc as [<-|Hc]; [cbn [vget vx vy vz] in Hd; try (exfalso; lia);
      match goal with |- L ?c1 = L ?c2 =>
        let tac a q := (rewrite (G a q ltac:(cbn; tauto) c1), (G a q ltac:(cbn; tauto) c2); [reflexivity| |]; unfold in_cube, vadd, vsub, vscale, unit_vec; cbn [vx vy vz]; lia) in
        match type of G with forall a q, In (a, q) ?l -> _ =>
          let rec go l := match l with (?a, ?q) :: ?l' => first [ solve [tac a q] | go l' ] end in go l
        end
      end|]); try (destruct Hc).
Qed.

(* ---- the traversal ---- *)
Definition kind_inside (k : kind) (p : ivec3) (s : Z) : Prop :=
  forall x y z, fst (span_of (along k AX) (vx p) s) <= x < snd (span_of (along k AX) (vx p) s) ->
    fst (span_of (along k AY) (vy p) s) <= y < snd (span_of (along k AY) (vy p) s) ->
    fst (span_of (along k AZ) (vz p) s) <= z < snd (span_of (along k AZ) (vz p) s) -> inner (V3 x y z).

Lemma kind_inside_call : forall k p s c, 1 <= s -> kind_inside k p (2 * s) -> In c (kind_calls k) ->
  kind_inside (call_kind c) (call_at (base_at k p s) s c) s.
Proof.
  intros k [px py pz] s c Hs H Hc x y z. revert Hc. specialize (H x y z). revert H.
  destruct k as [[]|[]|]; cbn [kind_calls dmc_face_calls dmc_edge_calls dmc_face_table dmc_edge_table map app In]; intros H Hc;
    repeat (destruct Hc as [<-|Hc];
      [unfold call_at, base_at, base_off, call_kind, call_off; cbn [tab nth Z.to_nat];
       repeat match goal with |- context [Pos.to_nat ?i] => let v := eval vm_compute in (Pos.to_nat i) in change (Pos.to_nat i) with v end;
       cbn [nth];
       repeat match goal with |- context [corner_offset ?i] => let v := eval vm_compute in (corner_offset i) in change (corner_offset i) with v end;
       unfold vadd, vsub, vscale, unit_vec in *; cbn [vx vy vz along axis_eqb negb span_of] in *; unfold open, one in *; cbn [fst snd] in *;
       intros; apply H; lia|]); destruct Hc.
Qed.

Definition open_inside (q : ivec3) (s : Z) : Prop :=
  forall x y z, vx q < x < vx q + s -> vy q < y < vy q + s -> vz q < z < vz q + s -> inner (V3 x y z).
Lemma open_inside_child : forall q s i, 0 <= i < 8 -> 1 <= s -> open_inside q (2 * s) -> open_inside (vadd q (vscale s (corner_offset i))) s.
Proof.
  intros q s i Hi Hs H x y z. destruct (corner_offset_range i Hi) as (H1 & H2 & H3). unfold vadd, vscale. cbn [vx vy vz]. intros. apply H; nia.
Qed.
Lemma open_inside_call : forall q s c, 1 <= s -> open_inside q (2 * s) -> In c dmc_cell_calls -> kind_inside (call_kind c) (call_at q s c) s.
Proof.
  intros [px py pz] s c Hs H Hc x y z. specialize (H x y z). revert Hc.
  cbn [dmc_cell_calls flat_map map app nth dmc_face_table dmc_edge_table In]. intros Hc.
  repeat (destruct Hc as [<-|Hc];
      [unfold call_at, call_kind, call_off; cbn [tab nth Z.to_nat];
       repeat match goal with |- context [Pos.to_nat ?i] => let v := eval vm_compute in (Pos.to_nat i) in change (Pos.to_nat i) with v end;
       cbn [nth];
       repeat match goal with |- context [corner_offset ?i] => let v := eval vm_compute in (corner_offset i) in change (corner_offset i) with v end;
       unfold vadd, vsub, vscale, unit_vec in *; cbn [vx vy vz along axis_eqb negb span_of] in *; unfold open, one in *; cbn [fst snd] in *;
       intros; apply H; lia|]); destruct Hc.
Qed.

Definition vproc (k : kind) (fuel : nat) (nodes : list tree) (st : St) : outcome St :=
  match k with
  | KFace d => vface_proc act fuel d nodes st
  | KEdge d => vedge_proc act fuel d nodes st
  | KVert => vert_proc act fuel nodes st
  end.
Definition run_call (fuel : nat) (sub : list tree) (c : vcall) (st : St) : outcome St :=
  q <- pick sub (call_ix c) ;; vproc (call_kind c) fuel q st.

Lemma pick_all : forall sub : list tree, length sub = 8%nat -> pick sub all_eight = Ret sub.
Proof. intros sub H. do 8 (destruct sub as [|? sub]; [discriminate|]). destruct sub; [reflexivity|discriminate]. Qed.

Lemma ofold_ext : forall C S (f g : S -> C -> outcome S) l st, (forall c st, In c l -> f st c = g st c) -> ofold f l st = ofold g l st.
Proof.
  intros C S f g l. induction l as [|c l IH]; intros st H; [reflexivity|]. cbn [ofold]. rewrite H by (left; reflexivity).
  destruct (g st c); cbn [obind]; auto. apply IH. intros. apply H. right. assumption.
Qed.

Lemma vproc_S : forall k fuel nodes sub st, omap (sub_of nodes) (sub_table k) = Ret sub -> some_subdivided nodes (sub_table k) = true -> length sub = 8%nat ->
  vproc k (S fuel) nodes st = ofold (fun st c => run_call fuel sub c st) (kind_calls k) st.
Proof.
  intros k fuel nodes sub st H1 H2 H3. destruct k as [d|d|]; cbn [vproc vface_proc vedge_proc vert_proc]; cbn [sub_table] in H1, H2; rewrite H1; cbn [obind]; rewrite H2.
  - apply ofold_ext. intros c s Hc. destruct c; reflexivity.
  - apply ofold_ext. intros c s Hc. destruct c as [d' ix| |]; try reflexivity. destruct d; cbn in Hc; intuition discriminate.
  - cbn [kind_calls ofold]. unfold run_call. cbn [call_ix call_kind vproc]. rewrite (pick_all sub H3). cbn [obind].
    destruct (vert_proc act fuel sub st); reflexivity.
Qed.

Lemma omap_leaf_data : forall leaves : list A, omap leaf_data (map (@OLeaf A B) leaves) = Ret leaves.
Proof. induction leaves as [|a l IH]; cbn [map omap leaf_data obind]; [reflexivity|]. rewrite IH. reflexivity. Qed.
Lemma omap_sub_of_leaves : forall leaves : list A, length leaves = 8%nat ->
  omap (sub_of (map (@OLeaf A B) leaves)) dmc_vert_sub = Ret (map (@OLeaf A B) leaves).
Proof. intros l H. do 8 (destruct l as [|? l]; [discriminate|]). destruct l; [reflexivity|discriminate]. Qed.

Lemma omap_cells : forall n qs leaves p, Forall2 (fun t o => covers n t (vadd p (vscale (edge_len n) o))) (map (@OLeaf A B) leaves) qs ->
  (forall o, In o qs -> -1 <= vx o <= 0 /\ -1 <= vy o <= 0 /\ -1 <= vz o <= 0) ->
  omap (fun c => oread (L c)) (map (vadd p) qs) = Ret leaves.
Proof.
  intros n qs. pose proof (edge_len_pos n) as Hp. induction qs as [|o qs IH]; intros leaves p H Hr; destruct leaves as [|a leaves]; inversion H; subst; [reflexivity|].
  cbn [map omap]. rewrite (covers_leaf A B X L XL n a (vadd p (vscale (edge_len n) o))).
  - cbn [oread obind]. rewrite (IH leaves p); [reflexivity|assumption|]. intros o' Ho. apply Hr. right. assumption.
  - assumption.
  - destruct (Hr o (or_introl eq_refl)) as (R1 & R2 & R3). unfold in_cube, vadd, vscale. cbn [vx vy vz]. nia.
Qed.
Lemma place_vert_range : forall o, In o (place KVert) -> -1 <= vx o <= 0 /\ -1 <= vy o <= 0 /\ -1 <= vz o <= 0.
Proof. intros o H. vm_compute in H. repeat (destruct H as [<-|H]; [cbn [vx vy vz]; lia|]). destruct H. Qed.

Lemma vert_sum : forall u p s, kind_sum u KVert p s = u p.
Proof.
  intros u [x y z] s. unfold kind_sum. cbn [along span_of vx vy vz]. unfold bsum, one, isum. cbn [fst snd].
  assert (Z1 : forall a, zrange a (a + 1) = [a]).
  { intro a. unfold zrange. replace (a + 1 - a) with 1 by lia. reflexivity. }
  rewrite !Z1, !gsum_cons, !gsum_nil. lia.
Qed.

Lemma leaves_visit : forall n fuel k p leaves, at_place n k p (map OLeaf leaves) -> kind_inside k p (edge_len n) ->
  visits (vproc k (S fuel) (map OLeaf leaves)) (fun u => kind_sum u k p (edge_len n)).
Proof.
  intros n fuel k p leaves H Hin.
  assert (V : k = KVert \/ k <> KVert) by (destruct k; [right|right|left]; congruence). destruct V as [->|Hk].
  - exists [p]. split; [|split].
    + intro st. cbn [vproc vert_proc ofold]. assert (Hl : length leaves = 8%nat) by (apply Forall2_len in H; rewrite map_length in H; exact H).
      rewrite (omap_sub_of_leaves leaves Hl). cbn [obind]. rewrite leaves_not_subdivided. rewrite omap_leaf_data. cbn [obind].
      unfold visit, cells8. rewrite (omap_cells n _ leaves p H place_vert_range). cbn [obind]. destruct (act leaves st); reflexivity.
    + constructor; [|constructor]. destruct p as [x y z]. apply Hin; cbn; lia.
    + intros u _. rewrite gsum_cons, gsum_nil, vert_sum. lia.
  - apply visits_nil; [|intros u Hu; eapply flat_leaves; eassumption].
    intro st. destruct (sub_of_leaves k n p leaves H) as [sub Hs].
    destruct k as [d|d|]; [| |congruence]; cbn [vproc vface_proc vedge_proc]; cbn [sub_table] in Hs; rewrite Hs; cbn [obind]; rewrite leaves_not_subdivided; reflexivity.
Qed.

Lemma block_length : forall m b sub, block m b sub -> length sub = 8%nat.
Proof. intros m b sub H. apply Forall2_len in H. rewrite H. reflexivity. Qed.

Lemma call_checked : forall k c, In c (kind_calls k) -> check_call c = true.
Proof.
  intros k c H. pose proof calls_checked as C. apply andb_true_iff in C as [_ C]. rewrite forallb_forall in C. specialize (C k (in_kinds k)).
  rewrite forallb_forall in C. auto.
Qed.

Lemma kind_trav : forall n fuel k p nodes, (n < fuel)%nat -> at_place n k p nodes -> kind_inside k p (edge_len n) ->
  visits (vproc k fuel nodes) (fun u => kind_sum u k p (edge_len n)).
Proof.
  induction n as [|m IH]; intros fuel k p nodes Hf H Hin; (destruct fuel as [|fuel]; [lia|]).
  - destruct (flat_level k p nodes H) as (leaves & ->). apply leaves_visit; assumption.
  - destruct (some_subdivided nodes (sub_table k)) eqn:Hs.
    + destruct (kind_block m k p nodes H) as (sub & H1 & H2). pose proof (block_length _ _ _ H2) as Hl. rewrite edge_len_S in *.
      pose proof (edge_len_pos m) as Hp.
      eapply visits_eq; [apply (visits_ofold _ (run_call fuel sub) (fun c u => call_total u (base_at k p (edge_len m)) (edge_len m) c))| |].
      * intros c Hc. destruct (call_block m _ sub c (call_checked k c Hc) H2) as (q & Hq & Hat).
        eapply visits_eq; [apply (IH fuel (call_kind c) _ q ltac:(lia) Hat)| |reflexivity].
        -- apply kind_inside_call; [lia|assumption|assumption].
        -- intro st. unfold run_call. rewrite Hq. reflexivity.
      * intro st. apply vproc_S; assumption.
      * intro u. apply kind_split. lia.
    + destruct (not_subdivided k (S m) p nodes H Hs) as (leaves & ->). apply leaves_visit; assumption.
Qed.

Lemma open_leaf_zero : forall n a q u, (forall p, flat_at p -> u p = 0) -> X a q n -> open_sum u q (edge_len n) = 0.
Proof.
  intros n a [qx qy qz] u Hu HX. unfold open_sum. apply bsum_zero. intros x y z Hx Hy Hz. apply Hu. unfold open in *. cbn [fst snd vx vy vz] in *.
  exists AX. intros c Hc Hd. unfold cells8 in Hc. apply in_map_iff in Hc as (o & <- & Ho). apply place_vert_range in Ho as (R1 & R2 & R3).
  unfold vget, vadd in Hd. cbn [vx] in Hd. rewrite !(XL a (V3 qx qy qz) n _ HX); [reflexivity| |]; unfold in_cube, vadd, unit_vec; cbn [vx vy vz]; lia.
Qed.

Lemma cell_calls_checked : forall c, In c dmc_cell_calls -> check_call c = true.
Proof. intros c H. pose proof calls_checked as C. apply andb_true_iff in C as [C _]. rewrite forallb_forall in C. auto. Qed.

Lemma cell_trav : forall n fuel (t : tree) q, (n < fuel)%nat -> tree_ok X n t q -> open_inside q (edge_len n) ->
  visits (vcell_proc act fuel t) (fun u => open_sum u q (edge_len n)).
Proof.
  induction n as [|m IH]; intros fuel t q Hf H Hin; (destruct fuel as [|fuel]; [lia|]); destruct t as [a|b cs]; try (cbn in H; contradiction).
  - apply visits_nil; [reflexivity|]. intros u Hu. apply (open_leaf_zero 0 a q u Hu H).
  - apply visits_nil; [reflexivity|]. intros u Hu. apply (open_leaf_zero (S m) a q u Hu H).
  - pose proof (edge_len_pos m) as Hp. rewrite edge_len_S in *. cbn [tree_ok] in H. destruct H as [Hl Hc].
    assert (Hb : block m q cs).
    { unfold OctreeProofs.block. assert (G : forall i, (i < 8)%nat -> exists c, nth_error cs i = Some c /\ tree_ok X m c (child_pos q m (Z.of_nat i))).
      { intros i Hi. destruct (nth_error cs i) as [c|] eqn:Hn; [|apply nth_error_None in Hn; lia]. exists c. split; [reflexivity|].
        apply (Hc (Z.of_nat i) c). rewrite znth_nat, Nat2Z.id by lia. exact Hn. }
      do 8 (destruct cs as [|? cs]; [discriminate|]). destruct cs; [|discriminate].
      cbn [zseq]. repeat (constructor; [left; match goal with |- tree_ok X m ?c (child_pos q m ?i) =>
        let j := eval vm_compute in (Z.to_nat i) in destruct (G j ltac:(lia)) as (c' & E1 & E2); cbn [nth_error] in E1; injection E1 as <-; exact E2 end|]). constructor. }
    eapply visits_eq; [apply visits_seq|  |].
    + apply (visits_ofold _ (fun e => vcell_proc act fuel (snd e)) (fun e u => open_sum u (vadd q (vscale (edge_len m) (corner_offset (fst e)))) (edge_len m)) (combine (zseq 0 8) cs)).
      intros [i c] Hic. cbn [fst snd]. assert (Hi : 0 <= i < 8) by (apply in_combine_l, in_zseq in Hic; lia).
      apply IH; [lia| |apply open_inside_child; [assumption|lia|assumption]].
      apply (Hc i c). rewrite znth_nat by lia. clear - Hic Hl.
      do 8 (destruct cs as [|? cs]; [discriminate|]). destruct cs; [|discriminate]. cbn [zseq combine Z.add Pos.add Pos.succ In] in Hic.
      repeat (destruct Hic as [Hic|Hic]; [injection Hic as <- <-; reflexivity|]). destruct Hic.
    + apply (visits_ofold _ (run_call fuel cs) (fun c u => call_total u q (edge_len m) c) dmc_cell_calls).
      intros c Hcc. destruct (call_block m _ cs c (cell_calls_checked c Hcc) Hb) as (q' & Hq & Hat).
      eapply visits_eq; [apply (kind_trav m fuel (call_kind c) _ q' ltac:(lia) Hat)| |reflexivity].
      * apply open_inside_call; [lia|assumption|assumption].
      * intro st. unfold run_call. rewrite Hq. reflexivity.
    + intro st. cbn [vcell_proc]. rewrite (pick_all cs Hl). cbn [obind].
      assert (E1 : ofold (fun st c => vcell_proc act fuel c st) cs st = ofold (fun st e => vcell_proc act fuel (snd e) st) (combine (zseq 0 8) cs) st).
      { clear - Hl. do 8 (destruct cs as [|? cs]; [discriminate|]). destruct cs; [reflexivity|discriminate]. }
      rewrite E1. destruct (ofold _ (combine _ _) st) as [st'| | | |]; reflexivity.
    + intro u. rewrite (open_split u q (edge_len m) ltac:(lia)). f_equal.
      clear - Hl. do 8 (destruct cs as [|? cs]; [discriminate|]). destruct cs; [reflexivity|discriminate].
Qed.
End Trav.
