(* Marching cubes on the grid of unit cells of an octree, where several edges of the grid can stand for
   the same vertex: the sides of all triangles cancel, up to the border. *)
From Coq Require Import ZArith List Bool Lia Permutation.
From Verif Require Import Base Tables GridSpec MeshSpec MCModel CellSpec CellTables DualProofs OctreeModel OctreeSums.
Import ListNotations.
Local Open Scope Z_scope.

(* ---- counting ---- *)
Lemma pair_eqb_eq : forall p q, pair_eqb p q = true <-> p = q.
Proof.
  intros [a b] [c d]. unfold pair_eqb. cbn [fst snd]. rewrite andb_true_iff, !Z.eqb_eq. split; [intros [-> ->]; reflexivity|].
  intro H. injection H as -> ->. auto.
Qed.
Definition pair_dec : forall a b : Z * Z, {a = b} + {a <> b}.
Proof. decide equality; apply Z.eq_dec. Defined.

Lemma gsum_count : forall (g : Z * Z -> Z) l U, NoDup U -> incl l U -> gsum g l = gsum (fun x => countZ (pair_eqb x) l * g x) U.
Proof.
  intros g l U HU. induction l as [|a l IH]; intro Hi.
  - rewrite gsum_nil. symmetry. apply gsum_zero. intros. cbn [countZ]. lia.
  - rewrite gsum_cons, IH by (intros x Hx; apply Hi; right; assumption). cbn [countZ].
    rewrite (gsum_ext _ (fun x => (b2z (pair_eqb x a) + countZ (pair_eqb x) l) * g x)
      (fun x => b2z (pair_eqb x a) * g x + countZ (pair_eqb x) l * g x)) by (intros; lia).
    rewrite gsum_add. f_equal. rewrite (gsum_support _ pair_dec _ [a] U).
    + rewrite gsum_cons, gsum_nil. rewrite (proj2 (pair_eqb_eq a a) eq_refl). cbn [b2z]. lia.
    + constructor; [intros []|constructor].
    + assumption.
    + intros x [<-|[]]. apply Hi. left. reflexivity.
    + intros x _ Hn. destruct (pair_eqb x a) eqn:E; [|cbn [b2z]; lia]. apply pair_eqb_eq in E. subst. destruct Hn. left. reflexivity.
Qed.

Definition swap (p : Z * Z) : Z * Z := (snd p, fst p).
Lemma count_swap : forall l x, countZ (pair_eqb x) (map swap l) = countZ (pair_eqb (swap x)) l.
Proof.
  induction l as [|a l IH]; intro x; [reflexivity|]. cbn [map countZ]. rewrite IH. f_equal. f_equal. unfold pair_eqb, swap. cbn [fst snd]. apply andb_comm.
Qed.

Fixpoint nodupb {T} (eqb : T -> T -> bool) (l : list T) : bool :=
  match l with [] => true | a :: l' => negb (existsb (eqb a) l') && nodupb eqb l' end.
Lemma nodupb_ok : forall T (eqb : T -> T -> bool) l, (forall a, eqb a a = true) -> nodupb eqb l = true -> NoDup l.
Proof.
  intros T eqb l He. induction l as [|a l IH]; intro H; [constructor|]. cbn [nodupb] in H. apply andb_true_iff in H as [H1 H2].
  constructor; [|auto]. intro Hin. rewrite negb_true_iff in H1. assert (existsb (eqb a) l = true) by (apply existsb_exists; eauto). congruence.
Qed.

(* ---- pairs of edges of a cell ---- *)
Definition face_pairs (o : ivec3) : list (Z * Z) := map (fun q => let '(i, j, _, _) := q in (i, j)) (cofacial_at o).
Definition all_split : list (Z * Z) := lone_list ++ flat_map face_pairs directions.
Lemma all_split_checked : nodupb pair_eqb all_split && nodupb pair_eqb all_pairs && forallb (fun p => existsb (pair_eqb p) all_split) all_pairs &&
  forallb (fun p => existsb (pair_eqb p) all_pairs) all_split = true.
Proof. vm_compute. reflexivity. Qed.
Lemma all_pairs_nodup : NoDup all_pairs.
Proof.
  pose proof all_split_checked as C. rewrite !andb_true_iff in C. destruct C as (((_ & C) & _) & _).
  apply (nodupb_ok _ pair_eqb); [|exact C]. intro a. apply pair_eqb_eq. reflexivity.
Qed.
Lemma all_split_perm : Permutation all_pairs all_split.
Proof.
  pose proof all_split_checked as C. rewrite !andb_true_iff in C. destruct C as (((C1 & C2) & C3) & C4). rewrite forallb_forall in C3, C4.
  apply NoDup_Permutation.
  - apply all_pairs_nodup.
  - apply (nodupb_ok _ pair_eqb); [|exact C1]. intro a. apply pair_eqb_eq. reflexivity.
  - intro x. split; intro H.
    + apply C3 in H. apply existsb_exists in H as (y & Hy & E). apply pair_eqb_eq in E. congruence.
    + apply C4 in H. apply existsb_exists in H as (y & Hy & E). apply pair_eqb_eq in E. congruence.
Qed.

Definition quad := (Z * Z * Z * Z)%type.
Definition quad_eqb (a b : quad) : bool := let '(a1, a2, a3, a4) := a in let '(b1, b2, b3, b4) := b in (a1 =? b1) && (a2 =? b2) && (a3 =? b3) && (a4 =? b4).
Lemma quad_eqb_eq : forall a b, quad_eqb a b = true <-> a = b.
Proof.
  intros [[[a1 a2] a3] a4] [[[b1 b2] b3] b4]. cbn [quad_eqb]. rewrite !andb_true_iff, !Z.eqb_eq. split; [intros [[[-> ->] ->] ->]; reflexivity|].
  intro H. injection H as -> -> -> ->. auto.
Qed.
Definition turn (q : quad) : quad := let '(i, j, i1, j1) := q in (i1, j1, i, j).
Definition check_turn (o : ivec3) : bool :=
  let a := map turn (cofacial_at o) in let b := cofacial_at (vneg o) in
  nodupb quad_eqb a && nodupb quad_eqb b && forallb (fun x => existsb (quad_eqb x) b) a && forallb (fun x => existsb (quad_eqb x) a) b.
Lemma turn_checked : forallb check_turn directions = true.
Proof. vm_compute. reflexivity. Qed.
Lemma turn_perm : forall o, In o directions -> Permutation (map turn (cofacial_at o)) (cofacial_at (vneg o)).
Proof.
  intros o Ho. pose proof (proj1 (forallb_forall _ _) turn_checked o Ho) as C. unfold check_turn in C. rewrite !andb_true_iff in C.
  destruct C as (((C1 & C2) & C3) & C4). rewrite forallb_forall in C3, C4. apply NoDup_Permutation.
  - apply (nodupb_ok _ quad_eqb); [|exact C1]. intro a. apply quad_eqb_eq. reflexivity.
  - apply (nodupb_ok _ quad_eqb); [|exact C2]. intro a. apply quad_eqb_eq. reflexivity.
  - intro x. split; intro H.
    + apply C3 in H. apply existsb_exists in H as (y & Hy & E). apply quad_eqb_eq in E. congruence.
    + apply C4 in H. apply existsb_exists in H as (y & Hy & E). apply quad_eqb_eq in E. congruence.
Qed.

Lemma cofacial_entry : forall o i j i1 j1, In (i, j, i1, j1) (cofacial_at o) ->
  0 <= i < 12 /\ 0 <= j < 12 /\ i <> j /\ partner i j = Some (o, i1, j1).
Proof.
  intros o i j i1 j1 H. unfold cofacial_at in H. apply in_flat_map in H as ([[[[i' j'] o'] i1'] j1'] & H1 & H2).
  destruct (veqb o o') eqn:E; [|destruct H2]. destruct H2 as [H2|[]]. injection H2 as -> -> -> ->. apply veqb_eq in E. subst o'.
  rewrite cofacial_list_ok in H1. unfold cofacial in H1. apply in_flat_map in H1 as ([a b] & Hab & H3). cbn [fst snd] in H3.
  destruct (partner a b) as [[[o' c] d]|] eqn:P; [|destruct H3]. destruct H3 as [H3|[]]. injection H3 as -> -> -> -> ->.
  unfold all_pairs in Hab. apply filter_In in Hab as [Hab Hn]. apply in_prod_iff in Hab as [Ha Hb]. apply in_slots in Ha, Hb. cbn [fst snd] in Hn.
  destruct (Z.eqb_spec i j); [discriminate|]. auto.
Qed.

(* ---- symmetric cells ---- *)
(* Edge [i] moved to the lower of the two sides across [d] *)
Definition rep (d : axis) (i : Z) : Z :=
  let '(a, o) := local_edge i in
  if axis_eqb a d then i
  else match find (fun j => gedge_eqb (local_edge j) (a, match d with AX => V3 0 (vy o) (vz o) | AY => V3 (vx o) 0 (vz o) | AZ => V3 (vx o) (vy o) 0 end)) slots with
       | Some j => j | None => i end.
Definition constant_along (d : axis) (bs : list bool) : bool :=
  forallb (fun c => implb (vget d c =? 0) (Bool.eqb (tab false bs (corner_number c)) (tab false bs (corner_number (vadd c (unit_vec d)))))) unit_corners.
Definition check_flat (d : axis) (bs : list bool) : bool :=
  implb (constant_along d bs)
    (let l := map (fun p => (rep d (fst p), rep d (snd p))) (flat_map sides (mc_tris bs)) in
     forallb (fun p => countZ (pair_eqb p) l =? countZ (pair_eqb (swap p)) l) (list_prod slots slots) &&
     forallb (fun p => existsb (pair_eqb p) (list_prod slots slots)) l).
Lemma flat_checked : forallb (fun d => forallb (check_flat d) configs) [AX; AY; AZ] = true.
Proof. vm_compute. reflexivity. Qed.
Lemma slots_prod_nodup : nodupb pair_eqb (list_prod slots slots) = true.
Proof. vm_compute. reflexivity. Qed.

Lemma balanced_sum : forall l U (g : Z -> Z -> Z), NoDup U -> incl l U -> (forall p, In p U -> countZ (pair_eqb p) l = countZ (pair_eqb (swap p)) l) ->
  (forall p, In p U -> In (swap p) U) ->
  gsum (fun p => g (fst p) (snd p) - g (snd p) (fst p)) l = 0.
Proof.
  intros l U g HU Hi Hc Hs.
  rewrite (gsum_ext _ _ (fun p => g (fst p) (snd p) + (-1) * g (snd p) (fst p))) by (intros; lia). rewrite gsum_add, gsum_mul.
  assert (E : gsum (fun p => g (snd p) (fst p)) l = gsum (fun p => g (fst p) (snd p)) (map swap l)) by (rewrite gsum_map; reflexivity).
  rewrite E, (gsum_count _ l U HU Hi). rewrite (gsum_count _ (map swap l) U HU).
  - rewrite (gsum_ext _ (fun x => countZ (pair_eqb x) (map swap l) * _) (fun x => countZ (pair_eqb x) l * g (fst x) (snd x))); [lia|].
    intros p Hp. rewrite count_swap, <- (Hc p Hp). reflexivity.
  - intros x Hx. apply in_map_iff in Hx as (y & <- & Hy). apply Hs. auto.
Qed.

Section Flux.
Variable solid : ivec3 -> bool.
Variable f : gedge -> gedge -> Z.

Definition at_cell (q : ivec3) (i j : Z) : Z := f (cell_edge q i) (cell_edge q j).
(* Sides of the triangles of a cell, each in both directions with opposite signs *)
Definition cell_flux (q : ivec3) : Z :=
  gsum (fun p => at_cell q (fst p) (snd p) - at_cell q (snd p) (fst p)) (flat_map sides (mc_tris (config solid q))).
Definition face_flux (o q : ivec3) : Z :=
  gsum (fun e : quad => let '(i, j, _, _) := e in net (config solid q) i j * at_cell q i j) (cofacial_at o).

Lemma sides_in : forall bs p, length bs = 8%nat -> In p (flat_map sides (mc_tris bs)) ->
  0 <= fst p < 12 /\ 0 <= snd p < 12 /\ fst p <> snd p /\ crossing bs (fst p) = true /\ crossing bs (snd p) = true.
Proof.
  intros bs p Hl H. apply in_flat_map in H as ([[a b] c] & H1 & H2).
  destruct (row_ok bs Hl) as (_ & _ & G & _). rewrite forallb_forall in G. specialize (G _ H1). unfold good_local in G.
  rewrite !andb_true_iff, negb_true_iff, !orb_false_iff, !Z.leb_le, !Z.ltb_lt, !Z.eqb_neq in G.
  cbn [sides In] in H2. destruct H2 as [<-|[<-|[<-|[]]]]; cbn [fst snd]; lia || (repeat split; try lia; tauto).
Qed.

Lemma cell_flux_pairs : forall q, cell_flux q = gsum (fun p => net (config solid q) (fst p) (snd p) * at_cell q (fst p) (snd p)) all_pairs.
Proof.
  intro q. unfold cell_flux. set (l := flat_map sides (mc_tris (config solid q))).
  assert (Hi : incl l all_pairs).
  { intros [a b] Hp. destruct (sides_in _ _ (config_length solid q) Hp) as (H1 & H2 & H3 & _). apply in_all_pairs; assumption. }
  assert (Hs : forall p, In p all_pairs -> In (swap p) all_pairs).
  { intros [a b] Hp. unfold all_pairs in *. apply filter_In in Hp as [Hp Hn]. apply in_prod_iff in Hp as [Ha Hb]. apply filter_In.
    split; [apply in_prod; assumption|]. cbn [swap fst snd] in *. rewrite Z.eqb_sym. exact Hn. }
  rewrite (gsum_ext _ _ (fun p => at_cell q (fst p) (snd p) + (-1) * at_cell q (snd p) (fst p))) by (intros; lia). rewrite gsum_add, gsum_mul.
  assert (E : gsum (fun p => at_cell q (snd p) (fst p)) l = gsum (fun p => at_cell q (fst p) (snd p)) (map swap l)) by (rewrite gsum_map; reflexivity).
  rewrite E, (gsum_count _ l all_pairs all_pairs_nodup Hi). rewrite (gsum_count _ (map swap l) all_pairs all_pairs_nodup).
  2: { intros x Hx. apply in_map_iff in Hx as (y & <- & Hy). apply Hs. auto. }
  rewrite <- gsum_mul, <- gsum_add. apply gsum_ext. intros [i j] _. rewrite count_swap. unfold net, local_sides, side_count. fold l. unfold swap. cbn [fst snd]. ring.
Qed.

Lemma cell_flux_faces : forall q, cell_flux q = gsum (fun o => face_flux o q) directions.
Proof.
  intro q. rewrite cell_flux_pairs. rewrite (gsum_perm _ _ _ _ all_split_perm). unfold all_split. rewrite gsum_app.
  rewrite gsum_zero.
  - rewrite gsum_flat_map. cbn [Z.add]. apply gsum_ext. intros o _. unfold face_pairs, face_flux. rewrite gsum_map. apply gsum_ext.
    intros [[[i j] i1] j1] _. reflexivity.
  - intros [i j] H. cbn [fst snd]. rewrite lone_list_ok in H. unfold lone_pairs in H. apply filter_In in H as [H1 H2]. cbn [fst snd] in H2.
    unfold all_pairs in H1. apply filter_In in H1 as [H1 Hn]. apply in_prod_iff in H1 as [Ha Hb]. apply in_slots in Ha, Hb. cbn [fst snd] in Hn.
    destruct (partner i j) eqn:P; [discriminate|]. unfold net.
    destruct (lone_ok (config solid q) i j (config_length _ _) Ha Hb ltac:(intros ->; rewrite Z.eqb_refl in Hn; discriminate) P) as [-> _]. lia.
Qed.

Lemma face_flux_opposite : forall o q, In o directions -> face_flux o q = - face_flux (vneg o) (vadd q o).
Proof.
  intros o q Ho. unfold face_flux at 2. rewrite <- (gsum_perm _ _ _ _ (turn_perm o Ho)), gsum_map. unfold face_flux.
  rewrite Z.opp_eq_mul_m1, Z.mul_comm, <- gsum_mul. apply gsum_ext. intros [[[i j] i1] j1] H. cbn [turn].
  destruct (cofacial_entry _ _ _ _ _ H) as (Hi & Hj & Hn & Hp).
  destruct (partner_props _ _ _ _ _ Hi Hj Hn Hp) as (Hi1 & Hj1 & _ & E1 & E2 & _).
  destruct (balance (config solid q) (config solid (vadd q o)) i j o i1 j1 (config_length _ _) (config_length _ _) Hi Hj Hn Hp (fun c => config_agree solid q o c)) as [B _].
  assert (F : forall k k1, local_edge k = cell_edge o k1 -> cell_edge (vadd q o) k1 = cell_edge q k).
  { intros k k1 E. unfold cell_edge at 2. rewrite E. unfold cell_edge. cbn [fst snd]. f_equal. unfold vadd. cbn [vx vy vz]. f_equal; lia. }
  unfold at_cell. rewrite (F i i1 E1), (F j j1 E2). unfold net. replace (local_sides (config solid q) i j - local_sides (config solid q) j i)
    with (- (local_sides (config solid (vadd q o)) i1 j1 - local_sides (config solid (vadd q o)) j1 i1)) by lia. ring.
Qed.

(* A cell in which nothing changes along [d] *)
Lemma flat_flux : forall d q, (forall c, In c unit_corners -> vget d c = 0 -> solid (vadd q (vadd c (unit_vec d))) = solid (vadd q c)) ->
  (forall i j, 0 <= i < 12 -> 0 <= j < 12 -> crossing (config solid q) i = true -> crossing (config solid q) j = true ->
     at_cell q i j = at_cell q (rep d i) (rep d j)) -> cell_flux q = 0.
Proof.
  intros d q Hs Hf. unfold cell_flux. set (l := flat_map sides (mc_tris (config solid q))).
  assert (C : check_flat d (config solid q) = true).
  { pose proof flat_checked as C. rewrite forallb_forall in C. assert (Hd : In d [AX; AY; AZ]) by (destruct d; cbn; tauto). specialize (C d Hd).
    rewrite forallb_forall in C. apply C. apply in_configs. apply config_length. }
  unfold check_flat in C. fold l in C.
  assert (K : constant_along d (config solid q) = true).
  { unfold constant_along. apply forallb_forall. intros c Hc. destruct (Z.eqb_spec (vget d c) 0) as [E|E]; [|reflexivity]. cbn [implb].
    rewrite config_corner by assumption.
    assert (Hc' : In (vadd c (unit_vec d)) unit_corners).
    { clear -Hc E. unfold unit_corners, cell_corners in Hc. cbn [map] in Hc.
      repeat (destruct Hc as [<-|Hc]; [destruct d; cbn in E; try lia; vm_compute; tauto|]). destruct Hc. }
    rewrite config_corner by assumption. rewrite Hs by assumption. apply Bool.eqb_reflx. }
  rewrite K in C. cbn [implb] in C. rewrite andb_true_iff in C. destruct C as [C1 C2]. rewrite forallb_forall in C1, C2.
  rewrite (gsum_ext _ _ (fun p => at_cell q (rep d (fst p)) (rep d (snd p)) - at_cell q (rep d (snd p)) (rep d (fst p)))).
  2: { intros p Hp. destruct (sides_in _ _ (config_length solid q) Hp) as (H1 & H2 & H3 & H4 & H5). rewrite !(Hf (fst p)), (Hf (snd p)) by assumption. reflexivity. }
  rewrite <- (gsum_map _ _ (fun p => at_cell q (fst p) (snd p) - at_cell q (snd p) (fst p)) (fun p => (rep d (fst p), rep d (snd p)))).
  apply (balanced_sum _ (list_prod slots slots)).
  - apply (nodupb_ok _ pair_eqb); [|exact slots_prod_nodup]. intro a. apply pair_eqb_eq. reflexivity.
  - intros x Hx. specialize (C2 x Hx). apply existsb_exists in C2 as (y & Hy & E). apply pair_eqb_eq in E. congruence.
  - intros p Hp. specialize (C1 p Hp). apply Z.eqb_eq in C1. exact C1.
  - intros [a b] Hp. apply in_prod_iff in Hp as [Ha Hb]. apply in_prod; assumption.
Qed.

(* ---- sums over boxes ---- *)
Lemma isum_tele : forall lo hi g, lo <= hi -> isum (lo, hi) (fun x => g x - g (x - 1)) = g (hi - 1) - g (lo - 1).
Proof.
  intros lo hi g H. replace hi with (lo + Z.of_nat (Z.to_nat (hi - lo))) by lia. generalize (Z.to_nat (hi - lo)). clear hi H.
  intro n. revert lo. induction n as [|n IH]; intro lo.
  - unfold isum. cbn [fst snd]. replace (lo + Z.of_nat 0) with lo by lia. unfold zrange. rewrite Z.sub_diag. cbn [Z.to_nat zseq]. rewrite gsum_nil. lia.
  - rewrite (isum_split lo (lo + 1)) by lia. replace (lo + Z.of_nat (S n)) with (lo + 1 + Z.of_nat n) by lia. rewrite IH.
    unfold isum. cbn [fst snd]. unfold zrange. replace (lo + 1 - lo) with 1 by lia. change (Z.to_nat 1) with 1%nat. cbn [zseq]. rewrite gsum_cons, gsum_nil.
    replace (lo + 1 - 1) with lo by lia. lia.
Qed.

Definition in_range (r : Z * Z) (x : Z) : Prop := fst r <= x < snd r.

Lemma box_flux : forall rx ry rz,
  (forall o x y z, In o directions -> in_range rx x -> in_range ry y -> in_range rz z ->
     ~ (in_range rx (x + vx o) /\ in_range ry (y + vy o) /\ in_range rz (z + vz o)) -> face_flux o (V3 x y z) = 0) ->
  bsum cell_flux rx ry rz = 0.
Proof.
  intros [x0 x1] [y0 y1] [z0 z1] H. unfold in_range in H. cbn [fst snd] in H.
  destruct (Z_lt_le_dec x0 x1) as [Hx|Hx]; [|apply bsum_zero; cbn; intros; lia].
  destruct (Z_lt_le_dec y0 y1) as [Hy|Hy]; [|apply bsum_zero; cbn; intros; lia].
  destruct (Z_lt_le_dec z0 z1) as [Hz|Hz]; [|apply bsum_zero; cbn; intros; lia].
  assert (O : forall o, In o directions -> forall q, face_flux (vneg o) q = - face_flux o (vadd q (vneg o))).
  { intros o Ho q. assert (Ho' : In (vneg o) directions) by (unfold directions in Ho; repeat (destruct Ho as [<-|Ho]; [cbn; tauto|]); destruct Ho).
    rewrite (face_flux_opposite (vneg o) q Ho'). f_equal. f_equal. unfold vneg. cbn [vx vy vz]. destruct o as [a b c]. cbn [vx vy vz]. f_equal; lia. }
  assert (M1 : forall t, t + -1 = t - 1) by (intro; lia).
  assert (S : forall q, cell_flux q = (face_flux (V3 1 0 0) q - face_flux (V3 1 0 0) (vadd q (V3 (-1) 0 0))) +
    (face_flux (V3 0 1 0) q - face_flux (V3 0 1 0) (vadd q (V3 0 (-1) 0))) + (face_flux (V3 0 0 1) q - face_flux (V3 0 0 1) (vadd q (V3 0 0 (-1))))).
  { intro q. rewrite cell_flux_faces. unfold directions. rewrite !gsum_cons, gsum_nil.
    pose proof (O (V3 1 0 0) ltac:(cbn; tauto) q) as O1. pose proof (O (V3 0 1 0) ltac:(cbn; tauto) q) as O2. pose proof (O (V3 0 0 1) ltac:(cbn; tauto) q) as O3.
    change (vneg (V3 1 0 0)) with (V3 (-1) 0 0) in O1. change (vneg (V3 0 1 0)) with (V3 0 (-1) 0) in O2. change (vneg (V3 0 0 1)) with (V3 0 0 (-1)) in O3. lia. }
  assert (B : forall o q, In o directions -> face_flux o (vadd q (vneg o)) = - face_flux (vneg o) q) by (intros o q Ho; rewrite (O o Ho q); lia).
  unfold bsum.
  rewrite (isum_ext (x0, x1) _ (fun x =>
    (isum (y0, y1) (fun y => isum (z0, z1) (fun z => face_flux (V3 1 0 0) (V3 x y z))) - isum (y0, y1) (fun y => isum (z0, z1) (fun z => face_flux (V3 1 0 0) (V3 (x - 1) y z)))) +
    (isum (y0, y1) (fun y => isum (z0, z1) (fun z => face_flux (V3 0 1 0) (V3 x y z)) - isum (z0, z1) (fun z => face_flux (V3 0 1 0) (V3 x (y - 1) z))) +
     isum (y0, y1) (fun y => isum (z0, z1) (fun z => face_flux (V3 0 0 1) (V3 x y z) - face_flux (V3 0 0 1) (V3 x y (z - 1))))))).
  2: { intros x _.
    assert (SubI : forall r (g h : Z -> Z), isum r g - isum r h = isum r (fun t => g t - h t)).
    { intros r g h. rewrite (isum_ext r (fun t => g t - h t) (fun t => g t + (-1) * h t)) by (intros; lia). rewrite isum_add.
      unfold isum. rewrite gsum_mul. lia. }
    rewrite SubI. rewrite <- !isum_add. apply isum_ext. intros y _. rewrite !SubI, <- !isum_add. apply isum_ext. intros z _. rewrite S.
    unfold vadd. cbn [vx vy vz]. rewrite !Z.add_0_r. rewrite !M1. ring. }
  rewrite !isum_add.
  rewrite (isum_tele x0 x1 (fun x => isum (y0, y1) (fun y => isum (z0, z1) (fun z => face_flux (V3 1 0 0) (V3 x y z))))) by lia.
  rewrite (isum_zero (y0, y1)); [|intros y Hy'; apply isum_zero; intros z Hz'; apply H; cbn [fst snd vx vy vz directions In] in *; try tauto; lia].
  rewrite (isum_zero (y0, y1)).
  2: { intros y Hy'. apply isum_zero. intros z Hz'. pose proof (B (V3 1 0 0) (V3 x0 y z) ltac:(cbn; tauto)) as B1.
       change (vneg (V3 1 0 0)) with (V3 (-1) 0 0) in B1. unfold vadd in B1. cbn [vx vy vz] in B1. rewrite !Z.add_0_r, M1 in B1. rewrite B1.
       rewrite H; [reflexivity|cbn; tauto| | | |]; cbn [fst snd vx vy vz] in *; try lia. }
  rewrite (isum_zero (x0, x1)).
  2: { intros x Hx'. rewrite (isum_tele y0 y1 (fun y => isum (z0, z1) (fun z => face_flux (V3 0 1 0) (V3 x y z)))) by lia.
       rewrite (isum_zero (z0, z1)); [|intros z Hz'; apply H; cbn [fst snd vx vy vz directions In] in *; try tauto; lia].
       rewrite (isum_zero (z0, z1)); [reflexivity|].
       intros z Hz'. pose proof (B (V3 0 1 0) (V3 x y0 z) ltac:(cbn; tauto)) as B1.
       change (vneg (V3 0 1 0)) with (V3 0 (-1) 0) in B1. unfold vadd in B1. cbn [vx vy vz] in B1. rewrite !Z.add_0_r, M1 in B1. rewrite B1.
       rewrite H; [reflexivity|cbn; tauto| | | |]; cbn [fst snd vx vy vz] in *; try lia. }
  rewrite (isum_zero (x0, x1)); [reflexivity|].
  intros x Hx'. apply isum_zero. intros y Hy'. rewrite (isum_tele z0 z1 (fun z => face_flux (V3 0 0 1) (V3 x y z))) by lia.
  rewrite H; [|cbn; tauto| | | |]; cbn [fst snd vx vy vz] in *; try lia.
  pose proof (B (V3 0 0 1) (V3 x y z0) ltac:(cbn; tauto)) as B1.
  change (vneg (V3 0 0 1)) with (V3 0 0 (-1)) in B1. unfold vadd in B1. cbn [vx vy vz] in B1. rewrite !Z.add_0_r, M1 in B1. rewrite B1.
  rewrite H; [reflexivity|cbn; tauto| | | |]; cbn [fst snd vx vy vz] in *; try lia.
Qed.

(* A side of a face joins two edges in that face. *)
Lemma face_flux_zero : forall o q, In o directions ->
  (forall i j d s, face_of o = Some (d, s) -> 0 <= i < 12 -> 0 <= j < 12 -> edge_in_plane d s (local_edge i) -> edge_in_plane d s (local_edge j) ->
     crossing (config solid q) i = true -> crossing (config solid q) j = true -> at_cell q i j = 0) -> face_flux o q = 0.
Proof.
  intros o q Ho H. unfold face_flux. apply gsum_zero. intros [[[i j] i1] j1] Hin.
  destruct (cofacial_entry _ _ _ _ _ Hin) as (Hi & Hj & Hn & Hp).
  destruct (partner_props _ _ _ _ _ Hi Hj Hn Hp) as (_ & _ & _ & _ & _ & _ & _ & d & s & Hd & P1 & P2).
  destruct (Z.eq_dec (net (config solid q) i j) 0) as [->|N]; [lia|].
  assert (C : crossing (config solid q) i = true /\ crossing (config solid q) j = true).
  { assert (G : forall a b, 0 < local_sides (config solid q) a b -> crossing (config solid q) a = true /\ crossing (config solid q) b = true).
    { intros a b Hc. unfold local_sides, side_count in Hc. assert (Hin' : In (a, b) (flat_map sides (mc_tris (config solid q)))).
      { revert Hc. generalize (flat_map sides (mc_tris (config solid q))). intro l. induction l as [|p l IH]; cbn [countZ]; [lia|].
        destruct (pair_eqb (a, b) p) eqn:E; [apply pair_eqb_eq in E; left; auto|]. cbn [b2z]. right. apply IH. lia. }
      destruct (sides_in _ _ (config_length solid q) Hin') as (_ & _ & _ & C1 & C2). auto. }
    assert (P : forall a b, 0 <= local_sides (config solid q) a b).
    { intros a b. unfold local_sides, side_count. generalize (flat_map sides (mc_tris (config solid q))). intro l.
      induction l as [|p l IH]; cbn [countZ]; [lia|]. unfold b2z. destruct (pair_eqb _ _); lia. }
    unfold net in N. pose proof (P i j). pose proof (P j i).
    destruct (Z_lt_le_dec 0 (local_sides (config solid q) i j)) as [L|L]; [apply G; assumption|].
    assert (L2 : 0 < local_sides (config solid q) j i) by lia. apply G in L2. tauto. }
  destruct C as [C1 C2]. rewrite (H i j d s Hd Hi Hj P1 P2 C1 C2). lia.
Qed.
End Flux.
