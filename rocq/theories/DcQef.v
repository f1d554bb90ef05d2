(* Proofs about dual contouring with the QEF solver of the library. *)
From Coq Require Import ZArith List Bool Lia.
From Verif Require Import Base Arith GridSpec EdgeModel EdgeSpec FillModel FillSpec LoopLemmas CellSpec UdcModel OctreeModel OctreeSpec
  OctreeProofs OctreeFlux DcModel DcSpec DcBuild QefModel QefSpec QefProofs SolverModel.
Import ListNotations.
Local Open Scope Z_scope.

(* ---- cubes of one kind ---- *)

Lemma mixed_kind : forall solid q n, mixed solid q n = false -> exists b, forall i, 0 <= i < 8 -> solid (cube_corner q n i) = b.
Proof.
  intros solid q n H. unfold mixed in H. apply negb_false_iff in H. unfold one_kind in H. apply orb_true_iff in H as [H|H]; rewrite forallb_forall in H.
  - exists true. intros i Hi. apply H. unfold cube_corners. rewrite map_map. apply (in_map (fun x => solid (cube_corner q n x))). apply in_zseq. lia.
  - exists false. intros i Hi. apply negb_true_iff, H. unfold cube_corners. rewrite map_map. apply (in_map (fun x => solid (cube_corner q n x))). apply in_zseq. lia.
Qed.
Lemma kind_mixed : forall solid q n b, (forall i, 0 <= i < 8 -> solid (cube_corner q n i) = b) -> mixed solid q n = false.
Proof.
  intros solid q n b H. unfold mixed. apply negb_false_iff. unfold one_kind. apply orb_true_iff.
  assert (X : forall x, In x (map solid (cube_corners q n)) -> x = b).
  { intros x Hx. unfold cube_corners in Hx. rewrite map_map in Hx. apply in_map_iff in Hx as (i & <- & Hi). apply H. apply in_zseq in Hi. lia. }
  destruct b; [left|right]; apply forallb_forall; intros x Hx; rewrite (X x Hx); reflexivity.
Qed.

Lemma uniform_sub : forall solid q m i, 0 <= i < 8 -> uniform solid q (S m) -> uniform solid (child_pos q m i) m.
Proof. intros solid q m i Hi (b & H). exists b. intros p Hp. apply H. eapply octant_closed; eassumption. Qed.

Lemma uniform_not_mixed : forall solid q n, uniform solid q n -> mixed solid q n = false.
Proof. intros solid q n (b & H). apply (kind_mixed _ _ _ b). intros i Hi. apply H, corner_closed, Hi. Qed.

(* The vertices of the octants with even coordinates are corners. *)
Lemma lattice_corner : forall q m o, lattice_point o -> vx o <> 1 -> vy o <> 1 -> vz o <> 1 ->
  exists i, 0 <= i < 8 /\ lattice q m o = cube_corner q (S m) i.
Proof.
  intros q m o (Hx & Hy & Hz) Nx Ny Nz.
  exists ((if vy o =? 2 then 4 else 0) + (if vx o =? 2 then 2 else 0) + (if vz o =? 2 then 1 else 0)).
  unfold lattice, cube_corner. rewrite edge_len_S.
  destruct (Z.eqb_spec (vy o) 2), (Z.eqb_spec (vx o) 2), (Z.eqb_spec (vz o) 2); (split; [lia|]);
    match goal with |- context [corner_offset ?k] => let v := eval vm_compute in (corner_offset k) in change (corner_offset k) with v end;
    destruct o as [ox oy oz]; unfold vadd, vscale; cbn [vx vy vz] in *; f_equal;
    match goal with |- _ + _ * ?a = _ => (replace a with 0 by lia; ring) || (replace a with 2 by lia; ring) end.
Qed.

Lemma one_sheet_sub : forall mat solid q m i, one_sheet mat solid q (S m) -> 0 <= i < 8 -> one_sheet mat solid (child_pos q m i) m.
Proof.
  intros mat solid q m i H Hi. inversion H; subst.
  - apply one_sheet_uniform. eapply uniform_sub; eassumption.
  - auto.
Qed.

Lemma closed_bits : forall q p, in_closed_cube q 0 p -> exists i, 0 <= i < 8 /\ p = cube_corner q 0 i.
Proof. intros q p H. apply closed_unit in H. unfold cube_corners in H. apply in_map_iff in H as (i & <- & Hi). apply in_zseq in Hi. exists i. split; [lia|reflexivity]. Qed.

Lemma lattice_closed : forall q m o, lattice_point o -> in_closed_cube q (S m) (lattice q m o).
Proof.
  intros q m o (Hx & Hy & Hz). unfold in_closed_cube, lattice. rewrite edge_len_S. pose proof (edge_len_pos m). unfold vadd, vscale. cbn [vx vy vz]. nia.
Qed.

Lemma sheet_uniform : forall mat solid n q, one_sheet mat solid q n ->
  (forall p, in_closed_cube q n p -> is_solid (mat p) = solid p) -> mixed solid q n = false -> uniform solid q n.
Proof.
  intros mat solid n. induction n as [|m IH]; intros q H M X.
  - destruct (mixed_kind _ _ _ X) as (b & Hb). exists b. intros p Hp. apply closed_bits in Hp as (i & Hi & ->). auto.
  - inversion H as [|q' n' U|q' m' P1 P2 P3 P4 P5 P6]; subst; [assumption|].
    destruct (mixed_kind _ _ _ X) as (b & Hb).
    assert (C0 : forall o, lattice_point o -> vx o <> 1 -> vy o <> 1 -> vz o <> 1 -> is_solid (mat (lattice q m o)) = b).
    { intros o Ho N1 N2 N3. destruct (lattice_corner q m o Ho N1 N2 N3) as (i & Hi & ->). rewrite M by (apply corner_closed; exact Hi). auto. }
    assert (C : forall o, lattice_point o -> is_solid (mat (lattice q m o)) = b).
    { intros o Ho. pose proof Ho as (Ox & Oy & Oz).
      destruct (Z.eq_dec (vx o) 1) as [Ex|Nx]; destruct (Z.eq_dec (vy o) 1) as [Ey|Ny]; destruct (Z.eq_dec (vz o) 1) as [Ez|Nz].
      - destruct P5 as (i & Hi & E). assert (Eo : o = V3 1 1 1) by (destruct o as [a1 a2 a3]; cbn [vx vy vz] in *; congruence). rewrite Eo, E.
        rewrite M by (apply corner_closed; exact Hi). auto.
      - destruct (P4 AX AY o ltac:(discriminate) Ho Ex Ey) as (s & t & Hs & Ht & ->).
        apply C0; unfold lattice_point; unfold vadd, vscale, unit_vec; cbn [vx vy vz]; lia.
      - destruct (P4 AX AZ o ltac:(discriminate) Ho Ex Ez) as (s & t & Hs & Ht & ->).
        apply C0; unfold lattice_point; unfold vadd, vscale, unit_vec; cbn [vx vy vz]; lia.
      - destruct (P3 AX o Ho Ex) as [-> | ->]; apply C0; unfold lattice_point; unfold vadd, vsub, unit_vec; cbn [vx vy vz]; lia.
      - destruct (P4 AY AZ o ltac:(discriminate) Ho Ey Ez) as (s & t & Hs & Ht & ->).
        apply C0; unfold lattice_point; unfold vadd, vscale, unit_vec; cbn [vx vy vz]; lia.
      - destruct (P3 AY o Ho Ey) as [-> | ->]; apply C0; unfold lattice_point; unfold vadd, vsub, unit_vec; cbn [vx vy vz]; lia.
      - destruct (P3 AZ o Ho Ez) as [-> | ->]; apply C0; unfold lattice_point; unfold vadd, vsub, unit_vec; cbn [vx vy vz]; lia.
      - apply C0; assumption. }
    apply uniform_octants. intros i Hi. apply IH; [auto| |].
    + intros p Hp. apply M. eapply octant_closed; eassumption.
    + apply (kind_mixed _ _ _ b). intros j Hj. rewrite octant_corner.
      change (vadd q (vscale (edge_len m) (vadd (corner_offset i) (corner_offset j)))) with (lattice q m (vadd (corner_offset i) (corner_offset j))).
      assert (L : lattice_point (vadd (corner_offset i) (corner_offset j))).
      { pose proof (corner_bits i Hi) as (? & ? & ?). pose proof (corner_bits j Hj) as (? & ? & ?). unfold lattice_point, vadd. cbn [vx vy vz]. lia. }
      rewrite <- M by (apply lattice_closed; exact L). apply C, L.
Qed.

(* ---- the cells of a cube ---- *)

Fixpoint cells (n : nat) (q : ivec3) : list ivec3 :=
  match n with
  | O => [q]
  | S m => flat_map (fun i => cells m (child_pos q m i)) (zseq 0 8)
  end.

Lemma cells_in : forall n q c, In c (cells n q) <-> in_cube q n c.
Proof.
  induction n as [|m IH]; intros q c.
  - cbn [cells]. unfold in_cube. rewrite edge_len_0. split.
    + intros [<-|[]]. lia.
    + intro H. left. destruct q as [q1 q2 q3], c as [c1 c2 c3]. cbn [vx vy vz] in H. f_equal; lia.
  - cbn [cells]. rewrite in_flat_map. split.
    + intros (i & Hi & Hc). apply IH in Hc. apply in_zseq in Hi. eapply in_cube_sub; [apply child_subcube|exact Hc]. lia.
    + intro H. exists (child_of q m c). split; [|apply IH, child_of_in, H]. apply in_zseq. pose proof (child_of_range q m c). lia.
Qed.

Lemma NoDup_app_intro : forall T (a b : list T), NoDup a -> NoDup b -> (forall u, In u a -> ~ In u b) -> NoDup (a ++ b).
Proof.
  intros T a. induction a as [|u a IH]; intros b Ha Hb Hd; cbn [app]; [exact Hb|]. inversion Ha; subst. constructor.
  - intro X. apply in_app_iff in X as [X|X]; [contradiction|]. apply (Hd u); [left; reflexivity|exact X].
  - apply IH; auto. intros v Hv. apply Hd. right. exact Hv.
Qed.
Lemma distinct_zseq : forall n a, NoDup (zseq a n).
Proof. induction n as [|n IH]; intro a; cbn [zseq]; constructor; [|apply IH]. rewrite in_zseq. lia. Qed.

Lemma cells_nodup : forall n q, NoDup (cells n q).
Proof.
  induction n as [|m IH]; intros q; cbn [cells]; [repeat constructor; intros []|].
  assert (G : forall l, NoDup l -> (forall i, In i l -> 0 <= i < 8) -> NoDup (flat_map (fun i => cells m (child_pos q m i)) l)).
  { induction l as [|a l IHl]; intros Hn Hr; cbn [flat_map]; [constructor|]. inversion Hn as [|a' l' N1 N2]; subst.
    apply NoDup_app_intro; [apply IH|apply IHl; [assumption|intros; apply Hr; right; assumption]|].
    intros c H1 H2. apply in_flat_map in H2 as (i & Hi & H3). apply cells_in in H1. apply cells_in in H3.
    apply child_of_pos in H1; [|apply Hr; left; reflexivity]. apply child_of_pos in H3; [|apply Hr; right; assumption]. congruence. }
  apply G; [apply distinct_zseq|]. intros i Hi. apply in_zseq in Hi. lia.
Qed.

(* ---- the calls of the solver for a leaf ---- *)

Section Calls.
Context {E : fpenv}.
Notation F := (fp_F E).
Notation A := (fp_f E).
Variable float_min : F.
Variable hypot copysign : F -> F -> F.
Variable msin mcos matan : F -> F.
Variable tune : tuning F.
Variable g : ugrid E.
Variable solid : ivec3 -> bool.
Variable eps : F.
Variable free : solver F -> Prop.
Notation ops := (solver3_ops A float_min hypot copysign msin mcos matan tune).
Notation hist := (history A float_min hypot copysign msin mcos matan 3 8 s3_limit free).

Definition plane_at (e : uedge F) : fvec F * fvec F := (fvec_of (surface_point E e), fvec_of (surface_normal E e)).
Definition crossings (c : ivec3) : list gedge := filter (edge_crosses solid) (map (cell_edge c) (zseq 0 12)).
(* at most so many compressions of the matrix *)
Fixpoint compressions (n : nat) : nat := match n with O => 13 | S m => 8 * (compressions m + 2) + 1 end.

Lemma add_count : forall s p n s', add_plane A float_min 3 8 s p n = Ret s' -> q_count s' = u32 (q_count s + 1).
Proof.
  intros s p n s' H. unfold add_plane in H. destruct (Nat.eqb (q_used s) 8); cbn [compress q_used q_count] in H;
    destruct (Nat.ltb _ _); try discriminate; injection H as <-; reflexivity.
Qed.
Lemma merge_count : forall s d s', merge A float_min 3 8 s d = Ret s' -> 0 <= q_count s -> 0 <= s_count d -> q_count s + s_count d < two32 ->
  0 <= q_count s' <= q_count s + s_count d.
Proof.
  intros s d s' H H1 H2 H3. unfold merge in H.
  assert (X : exists dim sum count, (if q_dim s <? s_dim d then (s_dim d, s_sum d, s_count d) else if s_dim d =? q_dim s then
     (q_dim s, fun c => a_add A (q_sum s c) (s_sum d c), u32 (q_count s + s_count d)) else (q_dim s, q_sum s, q_count s)) = (dim, sum, count) /\
     0 <= count <= q_count s + s_count d).
  { destruct (_ <? _); [eexists _, _, _; split; [reflexivity|lia]|]. destruct (_ =? _); eexists _, _, _; (split; [reflexivity|]); [|lia].
    unfold u32. rewrite Z.mod_small by lia. lia. }
  destruct X as (dim & sum & count & X & Hc). rewrite X in H.
  destruct (Nat.ltb (8 - 4) (q_used s)); cbn [compress q_used] in H; destruct (Nat.ltb _ _); try discriminate; injection H as <-; exact Hc.
Qed.
Lemma state_runs : forall s, q_count s < s3_limit -> exists d s', state A float_min 3 s3_limit s = Ret (d, s') /\ s_count d = q_count s.
Proof.
  intros s H. unfold state. cbn [compress q_count]. destruct (Z.ltb_spec (q_count s) s3_limit); [|lia]. cbn [oassert obind].
  eexists _, _. split; reflexivity.
Qed.

Lemma adds_history : forall es s L k, hist s L k -> 0 <= q_count s -> q_count s + zlen es < two32 ->
  let s' := fold_left (fun sol e => qo_add ops sol (surface_point E e) (surface_normal E e)) es s in
  hist s' (L ++ map plane_at es) (k + length es) /\ q_count s' = q_count s + zlen es.
Proof.
  induction es as [|e es IH]; intros s L k H H0 H1; cbn [fold_left map length].
  - rewrite app_nil_r, Nat.add_0_r. cbn [zlen length]. split; [exact H|]. unfold zlen. cbn. lia.
  - destruct (add_plane_runs A float_min 3 8 ltac:(lia) s (fvec_of (surface_point E e)) (fvec_of (surface_normal E e))) as (s1 & R & _).
    { eapply history_rows; [|exact H]. lia. }
    pose proof (add_count _ _ _ _ R) as C. unfold zlen in *. cbn [length] in H1.
    assert (C1 : q_count s1 = q_count s + 1) by (rewrite C; unfold u32; rewrite Z.mod_small by lia; reflexivity).
    unfold qo_add at 2 4. cbn [solver3_ops]. unfold s3_add. rewrite R.
    specialize (IH s1 (L ++ [plane_at e]) (k + 1)%nat).
    destruct IH as [I1 I2].
    + eapply h_plane; [exact H|exact R|right; reflexivity].
    + lia.
    + lia.
    + rewrite <- app_assoc in I1. cbn [app] in I1. replace (k + S (length es))%nat with (k + 1 + length es)%nat by lia. split; [exact I1|]. rewrite I2. cbn [length]. lia.
Qed.

(* What is known about the solver of a leaf after solve. *)
Definition known (q : ivec3) (n : nat) (v : vec3 F) (s : qstate F) : Prop :=
  exists sol1 es k, hist sol1 (map plane_at es) k /\ (k <= compressions n)%nat /\
    map edge_key es = flat_map crossings (cells n q) /\ (forall e, In e es -> In e (g_edges (fst (edge_key e)) g)) /\
    (exists sol2, s3_state A float_min sol1 = Ret (s, sol2)) /\ 0 <= q_count sol1 <= 12 * 8 ^ Z.of_nat n /\
    (exists sol0, s3_solve A float_min hypot copysign msin mcos matan tune sol0 (cube_low q) (cube_high q n) = (sol1, v)) /\
    (n <> O -> a_lt A eps (eval A 3 sol1 (fvec_of v)) = false).

Lemma merges_history : forall q m, (m <= 7)%nat -> forall (parts : list (Z * (vec3 F * vec3 F * qstate F))),
  (forall i v' nrm' s', In (i, (v', nrm', s')) parts -> known (child_pos q m i) m v' s') ->
  forall s es k, hist s (map plane_at es) k -> 0 <= q_count s -> q_count s + zlen parts * (12 * 8 ^ Z.of_nat m) < two32 ->
  exists es', let s' := fold_left (fun sol p => qo_merge ops sol (snd (snd p))) parts s in
  exists k', hist s' (map plane_at (es ++ es')) k' /\ (k' <= k + length parts * (compressions m + 2))%nat /\
    map edge_key es' = flat_map (fun i => flat_map crossings (cells m (child_pos q m i))) (map fst parts) /\
    (forall e, In e es' -> In e (g_edges (fst (edge_key e)) g)) /\ 0 <= q_count s' <= q_count s + zlen parts * (12 * 8 ^ Z.of_nat m).
Proof.
  intros q m Hm. induction parts as [|[i [[v' nrm'] s']] parts IH]; intros HP s es k H H0 H1; cbn [fold_left map fst snd].
  - exists []. exists k. rewrite app_nil_r. unfold zlen in *. cbn [length] in *. change (Z.of_nat 0) with 0. rewrite Z.mul_0_l, Nat.mul_0_l.
    split; [exact H|]. split; [lia|]. split; [reflexivity|]. split; [intros e []|]. lia.
  - destruct (HP i v' nrm' s' (or_introl eq_refl)) as (sol1 & es1 & k1 & K1 & K2 & K3 & K4 & (sol2 & K5) & K6 & _ & _).
    unfold s3_state in K5. pose proof (state_used _ _ _ _ _ _ _ K5) as (_ & Ks & _).
    assert (Kc : s_count s' = q_count sol1) by (rewrite Ks; reflexivity).
    destruct (merge_runs A float_min 3 8 ltac:(lia) s s') as (s1 & R & _).
    { eapply history_rows; [|exact H]. lia. }
    unfold zlen in *. cbn [length] in *.
    assert (B : 0 <= q_count s1 <= q_count s + s_count s') by (apply (merge_count _ _ _ R); lia).
    unfold qo_merge at 2 4 6. cbn [solver3_ops]. unfold s3_merge. rewrite R.
    destruct (IH ltac:(intros; eapply HP; right; eassumption) s1 (es ++ es1) (k + 1 + (k1 + 1))%nat) as (es' & k' & I1 & I2 & I3 & I4 & I5).
    + rewrite map_app. eapply h_merge; [exact H|exact K1|exact K5|right; reflexivity|exact R|right; reflexivity].
    + lia.
    + lia.
    + exists (es1 ++ es'), k'. rewrite app_assoc. split; [exact I1|]. split; [lia|]. split; [rewrite map_app, K3, I3; reflexivity|].
      split; [intros e He; apply in_app_iff in He as [He|He]; auto|]. lia.
Qed.

Lemma uniform_crossings : forall q n, uniform solid q n -> flat_map crossings (cells n q) = [].
Proof.
  intros q n (b & H). assert (G : forall l, (forall c, In c l -> in_cube q n c) -> flat_map crossings l = []).
  { induction l as [|c l IH]; intro Hl; [reflexivity|]. cbn [flat_map]. rewrite IH by (intros; apply Hl; right; assumption). rewrite app_nil_r.
    specialize (Hl c (or_introl eq_refl)). unfold crossings.
    assert (X : forall e, In e (map (cell_edge c) (zseq 0 12)) -> edge_crosses solid e = false).
    { intros e He. apply in_map_iff in He as (i & <- & Hi). apply in_zseq in Hi. unfold edge_crosses, cell_edge. cbn [fst snd].
      assert (Li : i = 0 \/ i = 1 \/ i = 2 \/ i = 3 \/ i = 4 \/ i = 5 \/ i = 6 \/ i = 7 \/ i = 8 \/ i = 9 \/ i = 10 \/ i = 11) by lia.
      unfold in_cube in Hl. rewrite !H; [apply xorb_nilpotent| |];
      decompose [or] Li; subst;
        repeat match goal with |- context [local_edge ?k] => let v := eval vm_compute in (local_edge k) in change (local_edge k) with v end;
        unfold in_closed_cube, vadd; cbn [fst snd unit_vec vx vy vz]; lia. }
    revert X. generalize (map (cell_edge c) (zseq 0 12)). induction l0 as [|e l0 IH0]; intro X; [reflexivity|]. cbn [filter].
    rewrite (X e (or_introl eq_refl)). apply IH0. intros e' He'. apply X. right. exact He'. }
  apply G. intros c Hc. apply cells_in. exact Hc.
Qed.

Lemma flat_filter : forall T (f : Z -> list T) p l, (forall i, In i l -> p i = false -> f i = []) -> flat_map f (filter p l) = flat_map f l.
Proof.
  intros T f p. induction l as [|i l IH]; intro H; [reflexivity|]. cbn [filter flat_map]. specialize (IH ltac:(intros; apply H; [right; assumption|assumption])).
  destruct (p i) eqn:X; cbn [flat_map]; rewrite IH; [reflexivity|]. rewrite (H i (or_introl eq_refl) X). reflexivity.
Qed.

Lemma filter_count : forall T (p : T -> bool) l, (length (filter p l) <= length l)%nat.
Proof. induction l as [|x l IH]; cbn [filter length]; [lia|]. destruct (p x); cbn [length]; lia. Qed.

Lemma measured_known : forall q n v nrm s, measured ops g solid eps q n v nrm s -> (n <= 8)%nat ->
  one_sheet (grid_material g) solid q n -> (forall p, in_closed_cube q n p -> is_solid (grid_material g p) = solid p) ->
  known q n v s.
Proof.
  intros q n v nrm s H. induction H as [q es sol0 sol1 sol2 v s H1 H2 H3 H4|q m parts sol0 sol1 sol2 v s H1 H2 IH H3 H4 H5]; intros Hn Hs Hm.
  - destruct (adds_history es (qo_reset ops sol0) [] 0%nat) as [A1 A2].
    { apply h_new. }
    { cbn. lia. }
    { assert (L : (length es <= 12)%nat) by (rewrite <- (map_length (@edge_key F)), H1; rewrite filter_count; rewrite map_length; reflexivity).
      cbn. unfold zlen, two32. lia. }
    assert (L : (length es <= 12)%nat) by (rewrite <- (map_length (@edge_key F)), H1; rewrite filter_count; rewrite map_length; reflexivity).
    cbn [app] in A1. cbv zeta in A1, A2. set (s1 := fold_left _ _ _) in *.
    pose proof H3 as H3'. unfold qo_solve in H3. cbn [solver3_ops] in H3. unfold s3_solve in H3.
    destruct (solve A float_min hypot copysign msin mcos matan 3 tune s1 (fvec_of (cube_low q)) (fvec_of (cube_high q 0))) as [z s1'] eqn:X.
    injection H3 as H3a H3b. subst s1'.
    pose proof (solve_solver _ _ _ _ _ _ _ _ _ _ _ _ _ _ X) as (_ & _ & _ & C).
    assert (C' : 0 <= q_count sol1 <= 12) by (rewrite C, A2; change (q_count (qo_reset ops sol0)) with 0; unfold zlen; lia).
    destruct (state_runs sol1) as (d & s' & R & _); [unfold s3_limit; lia|].
    unfold qo_state in H4. cbn [solver3_ops] in H4. unfold s3_state in H4. rewrite R in H4. injection H4 as <- <-.
    exists sol1, es, (0 + length es + 1)%nat. split; [eapply h_solve; [exact A1|exact X|right; reflexivity]|].
    split; [cbn [compressions]; lia|]. split; [cbn [cells flat_map]; rewrite app_nil_r; exact H1|]. split; [exact H2|].
    split; [exists s'; exact R|]. split; [exact C'|]. split; [exists s1; exact H3'|]. congruence.
  - assert (P8 : (length parts <= 8)%nat) by (rewrite <- (map_length fst), H1; rewrite filter_count; reflexivity).
    assert (B8 : 0 < 8 ^ Z.of_nat m <= 8 ^ 7) by (split; [apply Z.pow_pos_nonneg; lia|apply Z.pow_le_mono_r; lia]).
    change (8 ^ 7) with 2097152 in B8.
    destruct (merges_history q m ltac:(lia) parts) with (s := qo_reset ops sol0) (es := @nil (uedge F)) (k := 0%nat) as (es & k & M1 & M2 & M3 & M4 & M5).
    { intros i v' nrm' s' Hi. apply (IH i v' nrm' s' Hi).
      - lia.
      - apply one_sheet_sub; [exact Hs|]. apply (in_map fst) in Hi. rewrite H1 in Hi. apply filter_In in Hi as [Hi _]. apply in_zseq in Hi. cbn [fst] in Hi. lia.
      - intros p Hp. apply Hm. apply (in_map fst) in Hi. rewrite H1 in Hi. apply filter_In in Hi as [Hi _]. apply in_zseq in Hi. cbn [fst] in Hi.
        eapply octant_closed; [|exact Hp]. lia. }
    { apply h_new. }
    { cbn. lia. }
    { change (q_count (qo_reset ops sol0)) with 0. unfold zlen, two32. assert (Z8 : 0 <= Z.of_nat (length parts) <= 8) by lia.
      revert Z8 B8. generalize (Z.of_nat (length parts)) (8 ^ Z.of_nat m). clear. nia. }
    cbv zeta in M1, M5. cbn [app] in M1. set (s1 := fold_left _ _ _) in *.
    pose proof H3 as H3'. unfold qo_solve in H3. cbn [solver3_ops] in H3. unfold s3_solve in H3.
    destruct (solve A float_min hypot copysign msin mcos matan 3 tune s1 (fvec_of (cube_low q)) (fvec_of (cube_high q (S m)))) as [z s1'] eqn:X.
    injection H3 as H3a H3b. subst s1'.
    pose proof (solve_solver _ _ _ _ _ _ _ _ _ _ _ _ _ _ X) as (_ & _ & _ & C).
    change (q_count (qo_reset ops sol0)) with 0 in M5.
    assert (C' : 0 <= q_count sol1 <= 12 * 8 ^ Z.of_nat (S m)).
    { rewrite C. rewrite Nat2Z.inj_succ, Z.pow_succ_r by lia. unfold zlen in M5. nia. }
    destruct (state_runs sol1) as (d & s' & R & _).
    { rewrite Nat2Z.inj_succ, Z.pow_succ_r in C' by lia. unfold s3_limit. change (2 ^ 30) with 1073741824. lia. }
    unfold qo_state in H5. cbn [solver3_ops] in H5. unfold s3_state in H5. rewrite R in H5. injection H5 as <- <-.
    exists sol1, es, (k + 1)%nat. split; [eapply h_solve; [exact M1|exact X|right; reflexivity]|].
    split; [cbn [compressions]; nia|]. split.
    { rewrite M3, H1. cbn [cells]. rewrite flat_filter.
      - symmetry. clear. induction (zseq 0 8) as [|i l IHl]; [reflexivity|]. cbn [flat_map]. rewrite flat_map_app, IHl. reflexivity.
      - intros i Hi Hx. apply in_zseq in Hi. apply uniform_crossings. apply (sheet_uniform (grid_material g)); [|intros p Hp; apply Hm; eapply octant_closed; [|exact Hp]; lia|exact Hx].
        apply one_sheet_sub; [exact Hs|lia]. }
    split; [exact M4|]. split; [exists s'; exact R|]. split; [exact C'|]. split; [exists s1; exact H3'|]. intros _. exact H4.
Qed.
End Calls.
