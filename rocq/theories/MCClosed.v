(* The marching cubes surface is closed. *)
From Coq Require Import ZArith List Bool Lia Sorted Permutation.
From Verif Require Import Base Arith Tables MeshModel MeshSpec MeshProofs GridModel GridSpec GridProofs
  EdgeModel EdgeSpec EdgeProofs FillModel FillSpec LoopLemmas FillProofs MCModel CellSpec CellTables MergeProofs MCProofs.
Import ListNotations.
Local Open Scope Z_scope.

Fixpoint sumZ (l : list Z) : Z := match l with [] => 0 | a :: l' => a + sumZ l' end.

Lemma side_count_flat_map : forall A (f : A -> list triangle) l a b,
  side_count (flat_map f l) a b = sumZ (map (fun x => side_count (f x) a b) l).
Proof. induction l as [|x l IH]; intros; cbn [flat_map map sumZ]; [reflexivity|]. rewrite side_count_app, IH. reflexivity. Qed.

Lemma sum_zero : forall A (f : A -> Z) l, (forall x, In x l -> f x = 0) -> sumZ (map f l) = 0.
Proof.
  induction l as [|x l IH]; intro H; cbn [map sumZ]; [reflexivity|].
  rewrite H by (left; reflexivity). rewrite IH; [reflexivity|]. intros; apply H; right; assumption.
Qed.

Lemma sum_one : forall A (f : A -> Z) l c, NoDup l -> In c l -> (forall x, In x l -> x <> c -> f x = 0) ->
  sumZ (map f l) = f c.
Proof.
  induction l as [|x l IH]; intros c Hnd Hc H; [destruct Hc|]. inversion Hnd; subst. cbn [map sumZ].
  destruct Hc as [->|Hc].
  - rewrite sum_zero; [lia|]. intros y Hy. apply H; [right; assumption|]. intros ->. contradiction.
  - rewrite (H x) by (try (left; reflexivity); intros ->; contradiction).
    rewrite (IH c); [lia|assumption|assumption|]. intros; apply H; [right|]; assumption.
Qed.

Lemma sum_two : forall A (f : A -> Z) l c1 c2, NoDup l -> c1 <> c2 -> In c1 l -> In c2 l ->
  (forall x, In x l -> x <> c1 -> x <> c2 -> f x = 0) -> sumZ (map f l) = f c1 + f c2.
Proof.
  induction l as [|x l IH]; intros c1 c2 Hnd Hn H1 H2 H; [destruct H1|]. inversion Hnd; subst. cbn [map sumZ].
  destruct H1 as [->|H1].
  - destruct H2 as [->|H2]; [contradiction|].
    rewrite (sum_one _ f l c2); [reflexivity|assumption|assumption|].
    intros y Hy Hyc. apply H; [right; assumption| |assumption]. intros ->. contradiction.
  - destruct H2 as [->|H2].
    + rewrite (sum_one _ f l c1); [lia|assumption|assumption|].
      intros y Hy Hyc. apply H; [right; assumption|assumption|]. intros ->. contradiction.
    + rewrite (H x) by (try (left; reflexivity); intros ->; contradiction).
      rewrite (IH c1 c2); try assumption; [lia|]. intros; apply H; [right| |]; assumption.
Qed.

Lemma countZ_map : forall A B (f : B -> bool) (h : A -> B) l, countZ f (map h l) = countZ (fun a => f (h a)) l.
Proof. induction l; cbn [countZ map]; [reflexivity|]. rewrite IHl. reflexivity. Qed.
Lemma countZ_ext : forall A (f h : A -> bool) l, (forall a, In a l -> f a = h a) -> countZ f l = countZ h l.
Proof.
  induction l as [|a l IH]; intro H; cbn [countZ]; [reflexivity|]. rewrite H by (left; reflexivity).
  rewrite IH; [reflexivity|]. intros; apply H; right; assumption.
Qed.
Lemma countZ_none : forall A (f : A -> bool) l, (forall a, In a l -> f a = false) -> countZ f l = 0.
Proof.
  induction l as [|a l IH]; intro H; cbn [countZ]; [reflexivity|]. rewrite H by (left; reflexivity).
  rewrite IH; [reflexivity|]. intros; apply H; right; assumption.
Qed.

Lemma countZ_pos : forall A (f : A -> bool) l, 0 < countZ f l -> exists a, In a l /\ f a = true.
Proof.
  induction l as [|a l IH]; cbn [countZ]; [lia|]. destruct (f a) eqn:E; intro H.
  - exists a. split; [left; reflexivity|assumption].
  - cbn [b2z] in H. destruct IH as (x & Hx & Hf); [lia|]. exists x. split; [right|]; assumption.
Qed.

Lemma flat_map_sides_map : forall (h : Z -> Z) ts,
  flat_map sides (map (fun t : triangle => let '(i, j, k) := t in (h i, h j, h k)) ts) =
  map (fun p => (h (fst p), h (snd p))) (flat_map sides ts).
Proof.
  induction ts as [|[[i j] k] ts IH]; [reflexivity|]. cbn [map flat_map sides app fst snd]. rewrite IH. reflexivity.
Qed.

Ltac edge_number :=
  unfold cell_edge;
  match goal with |- context [local_edge ?k] =>
    let v := eval vm_compute in (local_edge k) in change (local_edge k) with v end;
  unfold vadd; cbn [fst snd vx vy vz]; f_equal; f_equal; lia.

Section Closed.
Context {E : fpenv}.
Variables (g : ugrid E) (solid : ivec3 -> bool).
Hypothesis Hrep : represents g solid.
Notation n := (g_size g).
Notation vid := (vid g).
Notation cell_tris := (cell_tris g solid).
Notation gid := (gid g).

Lemma local_sides_crossing : forall bs i j, length bs = 8%nat -> 0 < local_sides bs i j ->
  (0 <= i < 12 /\ crossing bs i = true) /\ (0 <= j < 12 /\ crossing bs j = true) /\ i <> j.
Proof.
  intros bs i j Hl H. unfold local_sides, side_count in H. apply countZ_pos in H as ((x & y) & Hin & He).
  unfold pair_eqb in He. cbn [fst snd] in He. rewrite andb_true_iff, !Z.eqb_eq in He. destruct He as [-> ->].
  apply in_flat_map in Hin as ([[a b] c] & Ht & Hs).
  destruct (row_ok bs Hl) as (_ & _ & G & _). rewrite forallb_forall in G. specialize (G _ Ht).
  apply good_local_spec in G as (A & B & C & D).
  cbn [sides In] in Hs. destruct Hs as [Hs|[Hs|[Hs|[]]]]; injection Hs as <- <-; intuition congruence.
Qed.

(* Sides contributed by one cell: those between its edges numbered i and j. *)
Lemma cell_sides : forall q ea eb a b i j, cell_in n q -> vid ea = Some a -> vid eb = Some b ->
  0 <= i < 12 -> 0 <= j < 12 -> cell_edge q i = ea -> cell_edge q j = eb ->
  side_count (cell_tris q) a b = local_sides (config solid q) i j.
Proof.
  intros q ea eb a b i j Hq Va Vb Hi Hj Ei Ej. unfold cell_tris, side_count.
  rewrite (map_ext _ (fun t : triangle => let '(x, y, z) := t in (gid q x, gid q y, gid q z)))
    by (intros [[x y] z]; reflexivity).
  rewrite flat_map_sides_map, countZ_map. unfold local_sides, side_count.
  apply countZ_ext. intros [x y] Hxy. cbn [fst snd].
  assert (Hgood : forall w, (w = x \/ w = y) -> 0 <= w < 12 /\ crossing (config solid q) w = true).
  { apply in_flat_map in Hxy as ([[u v] w] & Ht & Hs).
    destruct (row_ok (config solid q) eq_refl) as (_ & _ & G & _). rewrite forallb_forall in G. specialize (G _ Ht).
    apply good_local_spec in G as (A & B & C & D).
    cbn [sides In] in Hs. destruct Hs as [Hs|[Hs|[Hs|[]]]]; injection Hs as <- <-; intros r [->| ->]; assumption. }
  assert (K : forall w e c k, (w = x \/ w = y) -> 0 <= k < 12 -> vid e = Some c -> cell_edge q k = e ->
     (c =? gid q w) = (k =? w)).
  { intros w e c k Hw Hk Ve Ek. destruct (Hgood w Hw) as [Hw1 Hw2].
    destruct (gid_some g solid Hrep q w Hq Hw1 Hw2) as [Vw _].
    destruct (Z.eqb_spec k w) as [->|N].
    - rewrite Ek, Ve in Vw. injection Vw as <-. apply Z.eqb_refl.
    - destruct (Z.eqb_spec c (gid q w)) as [X|X]; [|reflexivity]. exfalso. subst c.
      pose proof (vid_inj g _ _ _ Ve Vw) as Y. rewrite <- Ek in Y. apply cell_edge_inj in Y; [contradiction|assumption|assumption]. }
  unfold pair_eqb. cbn [fst snd].
  rewrite (K x ea a i), (K y eb b j); auto.
Qed.

Lemma cell_sides_zero : forall q ea eb a b, cell_in n q -> vid ea = Some a -> vid eb = Some b ->
  ~ (exists i j, 0 <= i < 12 /\ 0 <= j < 12 /\ cell_edge q i = ea /\ cell_edge q j = eb) ->
  side_count (cell_tris q) a b = 0.
Proof.
  intros q ea eb a b Hq Va Vb Hno. unfold cell_tris, side_count.
  rewrite (map_ext _ (fun t : triangle => let '(x, y, z) := t in (gid q x, gid q y, gid q z)))
    by (intros [[x y] z]; reflexivity).
  rewrite flat_map_sides_map, countZ_map.
  apply countZ_none. intros [x y] Hxy. cbn [fst snd].
  destruct (pair_eqb (a, b) (gid q x, gid q y)) eqn:X; [|reflexivity]. exfalso. apply Hno.
  unfold pair_eqb in X. cbn [fst snd] in X. rewrite andb_true_iff, !Z.eqb_eq in X. destruct X as [-> ->].
  exists x, y.
  apply in_flat_map in Hxy as ([[u v] w] & Ht & Hs).
  destruct (row_ok (config solid q) eq_refl) as (_ & _ & G & _). rewrite forallb_forall in G. specialize (G _ Ht).
  apply good_local_spec in G as (A & B & C & D).
  assert (H : (0 <= x < 12 /\ crossing (config solid q) x = true) /\ (0 <= y < 12 /\ crossing (config solid q) y = true)).
  { cbn [sides In] in Hs. destruct Hs as [Hs|[Hs|[Hs|[]]]]; injection Hs as <- <-; auto. }
  destruct H as [[Hx Cx] [Hy Cy]].
  destruct (gid_some g solid Hrep q x Hq Hx Cx) as [Vx _]. destruct (gid_some g solid Hrep q y Hq Hy Cy) as [Vy _].
  split; [assumption|]. split; [assumption|].
  split; [exact (vid_inj g _ _ _ Vx Va)|exact (vid_inj g _ _ _ Vy Vb)].
Qed.

Lemma edge_dec : forall a b : gedge, {a = b} + {a <> b}.
Proof. repeat decide equality. Qed.

Lemma slots_dec : forall q ea eb,
  (exists i j, 0 <= i < 12 /\ 0 <= j < 12 /\ cell_edge q i = ea /\ cell_edge q j = eb) \/
  ~ (exists i j, 0 <= i < 12 /\ 0 <= j < 12 /\ cell_edge q i = ea /\ cell_edge q j = eb).
Proof.
  intros q ea eb.
  destruct (existsb (fun i => gedge_eqb (cell_edge q i) ea) slots) eqn:X1.
  - destruct (existsb (fun j => gedge_eqb (cell_edge q j) eb) slots) eqn:X2.
    + left. apply existsb_exists in X1 as (i & Hi & Ei). apply existsb_exists in X2 as (j & Hj & Ej).
      apply gedge_eqb_eq in Ei. apply gedge_eqb_eq in Ej. apply in_slots in Hi. apply in_slots in Hj.
      exists i, j. auto.
    + right. intros (i & j & Hi & Hj & Ei & Ej).
      assert (existsb (fun j => gedge_eqb (cell_edge q j) eb) slots = true); [|congruence].
      apply existsb_exists. exists j. split; [apply in_slots; assumption|apply gedge_eqb_eq; assumption].
  - right. intros (i & j & Hi & Hj & Ei & Ej).
    assert (existsb (fun i => gedge_eqb (cell_edge q i) ea) slots = true); [|congruence].
    apply existsb_exists. exists i. split; [apply in_slots; assumption|apply gedge_eqb_eq; assumption].
Qed.

Lemma exists_or_none : forall (qs : list ivec3) ea eb,
  (exists q i j, In q qs /\ 0 <= i < 12 /\ 0 <= j < 12 /\ cell_edge q i = ea /\ cell_edge q j = eb) \/
  (forall q, In q qs -> ~ (exists i j, 0 <= i < 12 /\ 0 <= j < 12 /\ cell_edge q i = ea /\ cell_edge q j = eb)).
Proof.
  intros qs ea eb. induction qs as [|q qs IH]; [right; intros q []|].
  destruct (slots_dec q ea eb) as [(i & j & H)|H]; [left; exists q, i, j; split; [left; reflexivity|assumption]|].
  destruct IH as [(q' & i & j & Hq & H')|H']; [left; exists q', i, j; split; [right; assumption|assumption]|].
  right. intros q' [<-|Hq]; [assumption|apply H'; assumption].
Qed.

Lemma cell_edge_shift : forall q o i, cell_edge (vadd q o) i = (fst (cell_edge o i), vadd q (snd (cell_edge o i))).
Proof.
  intros [x y z] [a b c] i. unfold cell_edge. cbn [fst snd]. f_equal.
  destruct (snd (local_edge i)) as [u v w]. unfold vadd. cbn [vx vy vz]. f_equal; lia.
Qed.

Lemma vadd_vsub : forall q q' : ivec3, vadd q (vsub q' q) = q'.
Proof. intros [x y z] [a b c]. unfold vadd, vsub. cbn [vx vy vz]. f_equal; lia. Qed.

Lemma outer_face : forall q o i j d s, cell_in n q -> ~ cell_in n (vadd q o) -> face_of o = Some (d, s) ->
  edge_in_plane d s (local_edge i) -> edge_in_plane d s (local_edge j) ->
  in_outer_face n (cell_edge q i) (cell_edge q j).
Proof.
  intros q o i j d s Hq Hn Hf [Di Pi] [Dj Pj].
  destruct (valid_even n (size_valid g solid Hrep)) as (h & Hh & Hb & _).
  rewrite (cell_in_iff n h) in Hq, Hn by assumption.
  exists d, (vget d q + s). split; [|split; (split; [assumption|])].
  - unfold face_of in Hf.
    repeat match type of Hf with (if veqb o ?v then _ else _) = _ =>
      destruct (veqb o v) eqn:X;
        [apply veqb_eq in X; injection Hf as <- <-; subst o; unfold vadd in Hn; cbn [vx vy vz vget] in *; lia|clear X] end.
    discriminate.
  - rewrite <- Pi. cbn [cell_edge snd]. destruct d; reflexivity.
  - rewrite <- Pj. cbn [cell_edge snd]. destruct d; reflexivity.
Qed.

Lemma mc_closed : forall qs ea eb a b, NoDup qs -> (forall q, In q qs <-> surface_cell n solid q) ->
  vid ea = Some a -> vid eb = Some b -> a <> b ->
  let ts := flat_map cell_tris qs in
  side_count ts a b <= 1 /\ (~ in_outer_face n ea eb -> side_count ts a b = side_count ts b a).
Proof.
  intros qs ea eb a b Hnd Hqs Va Vb Hab ts. unfold ts. rewrite !side_count_flat_map.
  assert (Hcell : forall q, In q qs -> cell_in n q) by (intros q Hq; apply Hqs in Hq; apply Hq).
  destruct (exists_or_none qs ea eb) as [(q0 & i & j & Hq0 & Hi & Hj & Ei & Ej)|Hnone].
  2: { rewrite !sum_zero; [split; [lia|reflexivity]| |].
       - intros q Hq. eapply cell_sides_zero; eauto. intros (i & j & A & B & C & D). apply (Hnone q Hq). exists j, i. auto.
       - intros q Hq. eapply cell_sides_zero; eauto. }
  assert (Hij : i <> j) by (intros ->; apply Hab; congruence).
  assert (Hother : forall q, In q qs -> q <> q0 ->
     (forall o i1 j1, partner i j = Some (o, i1, j1) -> q <> vadd q0 o) ->
     side_count (cell_tris q) a b = 0 /\ side_count (cell_tris q) b a = 0).
  { intros q Hq Hne Hp.
    assert (Hno : ~ (exists i j, 0 <= i < 12 /\ 0 <= j < 12 /\ cell_edge q i = ea /\ cell_edge q j = eb)).
    { intros (i' & j' & Hi' & Hj' & Ei' & Ej').
      destruct (partner_unique q0 q i j i' j') as [(A & _)|A]; try assumption; try congruence.
      apply (Hp _ _ _ A). symmetry. apply vadd_vsub. }
    split; [eapply cell_sides_zero; eauto|]. eapply cell_sides_zero; eauto.
    intros (i' & j' & A & B & C & D). apply Hno. exists j', i'. auto. }
  assert (S0 : side_count (cell_tris q0) a b = local_sides (config solid q0) i j) by (eapply cell_sides; eauto).
  assert (S0' : side_count (cell_tris q0) b a = local_sides (config solid q0) j i) by (eapply cell_sides; eauto).
  destruct (partner i j) as [[[o i1] j1]|] eqn:Hp.
  - destruct (partner_props _ _ _ _ _ Hi Hj Hij Hp) as (Hi1 & Hj1 & Hij1 & L1 & L2 & Ho & Hcof & d & s & Hf & P1 & P2).
    assert (Ei1 : cell_edge (vadd q0 o) i1 = ea).
    { rewrite cell_edge_shift, <- L1, <- Ei. reflexivity. }
    assert (Ej1 : cell_edge (vadd q0 o) j1 = eb).
    { rewrite cell_edge_shift, <- L2, <- Ej. reflexivity. }
    destruct (is_cell_in_grid n (vadd q0 o)) eqn:Hin.
    + apply is_cell_in_grid_ok in Hin; [|apply Hrep].
      assert (Hq1 : In (vadd q0 o) qs).
      { apply Hqs. split; [assumption|]. exists i1. split; [assumption|]. rewrite Ei1.
        assert (X : is_some (vid ea) = true) by (rewrite Va; reflexivity).
        apply (vid_some g solid Hrep) in X. apply X. }
      assert (Hne : q0 <> vadd q0 o).
      { intro X. clear -Ho X. destruct q0 as [x y z]. unfold directions in Ho.
        repeat (destruct Ho as [<-|Ho]; [unfold vadd in X; cbn [vx vy vz] in X; injection X as X1 X2 X3; lia|]). destruct Ho. }
      rewrite !(sum_two _ _ qs q0 (vadd q0 o)); try assumption.
      2,3: intros x Hx N1 N2; apply Hother; try assumption; intros o' i' j' Heq; injection Heq as <- <- <-; assumption.
      rewrite S0, S0'.
      assert (S1 : side_count (cell_tris (vadd q0 o)) a b = local_sides (config solid (vadd q0 o)) i1 j1) by (eapply cell_sides; eauto).
      assert (S1' : side_count (cell_tris (vadd q0 o)) b a = local_sides (config solid (vadd q0 o)) j1 i1) by (eapply cell_sides; eauto).
      rewrite S1, S1'.
      destruct (balance (config solid q0) (config solid (vadd q0 o)) i j o i1 j1) as [B1 B2]; try assumption; try reflexivity.
      { intros c Hc Hc'. apply config_agree; assumption. }
      split; [assumption|intros _; assumption].
    + assert (Hout : ~ cell_in n (vadd q0 o)).
      { intro X. apply is_cell_in_grid_ok in X; [congruence|apply Hrep]. }
      assert (Hother' : forall q, In q qs -> q <> q0 -> side_count (cell_tris q) a b = 0 /\ side_count (cell_tris q) b a = 0).
      { intros q Hq Hne. apply Hother; try assumption. intros o' i' j' Heq. injection Heq as <- <- <-.
        intros ->. apply Hout. apply Hcell. assumption. }
      rewrite !(sum_one _ _ qs q0); try assumption; try (intros x Hx Hne; apply Hother'; assumption).
      rewrite S0, S0'.
      destruct (face_ok (config solid q0) o i j i1 j1) as (_ & _ & B & _); try assumption; try reflexivity.
      split; [assumption|]. intro X. exfalso. apply X. rewrite <- Ei, <- Ej.
      eapply outer_face; eauto.
  - rewrite !(sum_one _ _ qs q0); try assumption;
      try (intros x Hx Hne; apply Hother; try assumption; intros o' i' j' Heq; discriminate).
    rewrite S0, S0'. destruct (lone_ok (config solid q0) i j) as [B1 B2]; try assumption; try reflexivity.
    split; [assumption|intros _; assumption].
Qed.

(* ---- validity and use of vertices ---- *)

Lemma cell_tris_good : forall q, cell_in n q -> Forall (good_triangle (zlen (all_edges g))) (cell_tris q).
Proof.
  intros q Hq. apply Forall_forall. intros t Ht. unfold cell_tris in Ht. apply in_map_iff in Ht as (lt & <- & Hlt).
  apply (gtri_good g solid Hrep); [assumption|].
  destruct (row_ok (config solid q) eq_refl) as (_ & _ & G & _). rewrite forallb_forall in G. auto.
Qed.

(* Every edge of the grid is an edge of some cell of the grid. *)
Lemma edge_has_cell : forall d p, edge_in n d p -> exists q i, cell_in n q /\ 0 <= i < 12 /\ cell_edge q i = (d, p).
Proof.
  intros d p He. destruct (valid_even n (size_valid g solid Hrep)) as (h & Hh & Hb & _).
  rewrite (edge_in_iff n h) in He by assumption.
  set (f := fun x => if x =? h then 1 else 0).
  assert (Hf : forall x, - h <= x <= h -> - h <= x - f x < h /\ (f x = 0 \/ f x = 1)).
  { intros x Hx. unfold f. destruct (Z.eqb_spec x h); lia. }
  destruct p as [x y z]. cbn [vx vy vz] in He.
  destruct d; cbn [unit_vec vx vy vz] in He.
  - pose proof (Hf y ltac:(lia)) as Fy. pose proof (Hf z ltac:(lia)) as Fz.
    exists (V3 x (y - f y) (z - f z)), (2 * f y + f z).
    rewrite (cell_in_iff n h) by assumption. cbn [vx vy vz]. split; [lia|]. split; [lia|].
    destruct Fy as [_ [-> | ->]], Fz as [_ [-> | ->]]; edge_number.
  - pose proof (Hf x ltac:(lia)) as Fx. pose proof (Hf z ltac:(lia)) as Fz.
    exists (V3 (x - f x) y (z - f z)), (4 + 2 * f x + f z).
    rewrite (cell_in_iff n h) by assumption. cbn [vx vy vz]. split; [lia|]. split; [lia|].
    destruct Fx as [_ [-> | ->]], Fz as [_ [-> | ->]]; edge_number.
  - pose proof (Hf x ltac:(lia)) as Fx. pose proof (Hf y ltac:(lia)) as Fy.
    exists (V3 (x - f x) (y - f y) z), (8 + 2 * f y + f x).
    rewrite (cell_in_iff n h) by assumption. cbn [vx vy vz]. split; [lia|]. split; [lia|].
    destruct Fx as [_ [-> | ->]], Fy as [_ [-> | ->]]; edge_number.
Qed.

Lemma vertex_used : forall qs k, (forall q, In q qs <-> surface_cell n solid q) -> 0 <= k < zlen (all_edges g) ->
  exists a b c, In (a, b, c) (flat_map cell_tris qs) /\ (a = k \/ b = k \/ c = k).
Proof.
  intros qs k Hqs Hk. destruct (znth_some _ _ _ Hk) as (e & He).
  destruct (all_edges_vid g solid Hrep k e He) as (d & _ & Hin & Hv).
  assert (Hin' : edge_in n d (lesser_endpoint e)) by (apply (edges_in g solid Hrep); assumption).
  destruct (edge_has_cell _ _ Hin') as (q & i & Hq & Hi & Hce).
  assert (Hs : is_some (vid (cell_edge q i)) = true) by (rewrite Hce, Hv; reflexivity).
  pose proof Hs as Hs2. rewrite (vid_crossing g solid Hrep) in Hs by assumption.
  destruct (row_ok (config solid q) eq_refl) as (_ & _ & _ & G). destruct (G i Hi Hs) as (a & b & c & Hin3 & Hor).
  exists (gid q a), (gid q b), (gid q c). split.
  - apply in_flat_map. exists q. split.
    + apply Hqs. split; [assumption|]. exists i. split; [assumption|].
      apply (vid_some g solid Hrep) in Hs2. apply Hs2.
    + unfold cell_tris. apply in_map_iff. exists (a, b, c). split; [reflexivity|assumption].
  - assert (X : gid q i = k) by (unfold gid; rewrite Hce, Hv; reflexivity).
    destruct Hor as [->|[->| ->]]; auto.
Qed.
End Closed.
