(* Numbering of the vertices, validity and closedness of the mesh of dual marching cubes. *)
From Coq Require Import ZArith List Bool Lia.
From Verif Require Import Base Arith Tables MeshModel MeshSpec MeshProofs GridSpec MCModel CellSpec CellTables MCProofs MCClosed
  DualProofs OctreeModel OctreeSpec OctreeSums OctreeProofs OctreeFlux DcModel DcBuild DmcModel DmcTrav DmcFlux DmcContour DmcSpec DmcProofs.
Import ListNotations.
Local Open Scope Z_scope.

Lemma vec_dec : forall a b : ivec3, {a = b} + {a <> b}.
Proof. intros a b. destruct (veqb a b) eqn:Q; [left; apply veqb_eq; assumption|right; intro H; apply veqb_eq in H; congruence]. Defined.

Section Mesh.
Variable E : fpenv.
Notation F := (fp_F E).
Notation leaf := (dmc_leaf F).
Variables (n : nat) (q : ivec3) (t : dmc_octree E).
Notation root := (dt_root E t).
Hypothesis Hsize : dt_size E t = edge_len n.
Hypothesis Hok : tree_ok (fun _ _ _ => True) n root q.
Notation L := (leaf_at n root q).
Notation solid := (solid E L).
Notation key_of := (key_of E L).
Notation vid := (vid E L).
Notation has_key := (has_key E L).
Notation near := (neighbours n q).
Notation inv := (inv E L near).
Notation cell_tris := (cell_tris E L).

Definition cubes (a : leaf) (q' : ivec3) (n' : nat) : Prop := True /\ subcube q' n' q n /\ forall c, in_cube q' n' c -> L c = Some a.
Lemma cubes_L : forall a q' n' c, cubes a q' n' -> in_cube q' n' c -> L c = Some a.
Proof. intros a q' n' c (_ & _ & H). apply H. Qed.

Definition run (ps : list ivec3) (st : dmc_state E) : outcome (dmc_state E) := ofold (fun st p => visit leaf L (dmc_state E) (dmc_act E) p st) ps st.

Lemma contour_run : exists ps, Forall (inner q n) ps /\
  (forall u, (forall p, flat_at leaf L p -> u p = 0) -> gsum u ps = open_sum u q (edge_len n)) /\
  dmc_contour E t = ('(_, m) <- run ps ([], mesh_new) ;; Ret m).
Proof.
  destruct (cell_trav leaf unit cubes L cubes_L (dmc_state E) (dmc_act E) q n n (dc_fuel (dt_size E t)) root q) as (ps & H1 & H2 & H3).
  - rewrite Hsize. rewrite (proj1 (root_size n)). lia.
  - exact (tree_leaf_at _ _ _ n root q Hok).
  - intros x y z Hx Hy Hz. unfold inner. cbn [vx vy vz]. lia.
  - exists ps. split; [assumption|]. split; [assumption|]. unfold dmc_contour. rewrite H1. reflexivity.
Qed.

Lemma reg_inner : forall p, inner q n p -> reg near p.
Proof.
  intros p Hp i Hi. destruct (corner_edge (below p) i Hi) as [H1 H2].
  assert (G : forall c, In c (cell_corners (below p)) -> in_cube q n c).
  { intros c Hc. rewrite <- cells8_corners in Hc. rewrite (cells8_iff p c) in Hc. rewrite (inner_iff n q p) in Hp. rewrite (in_cube_iff q n c).
    intro a. specialize (Hc a). specialize (Hp a). lia. }
  split; apply G; [unfold znth in H1|unfold znth in H2]; match goal with H : (if ?b then _ else _) = _ |- _ => destruct b; [discriminate|eapply nth_error_In; exact H] end.
Qed.

(* The numbering found in the map *)
Definition num_of (vm : vertex_map) (x y : Z) : option Z := vm_find vm (node_key x y).

Lemma node_key_sym : forall x y, node_key x y = node_key y x.
Proof. intros x y. unfold node_key. destruct (Z.ltb_spec y x), (Z.ltb_spec x y); try reflexivity; try lia. replace x with y by lia. reflexivity. Qed.
Lemma node_key_inj : forall x y x' y', node_key x y = node_key x' y' -> (x' = x /\ y' = y) \/ (x' = y /\ y' = x).
Proof. intros x y x' y'. unfold node_key. destruct (y <? x), (y' <? x'); intro H; injection H as -> ->; auto. Qed.

Lemma sign_inside : forall a, sign_of E a = node_inside E a.
Proof. intro a. unfold sign_of, node_inside. destruct (dn_dual a) as [[p w]|]; reflexivity. Qed.
Lemma crosses_opposite : forall e a b, joins E n q root e a b -> (edge_crosses solid e = true <-> opposite E a b).
Proof.
  intros e a b (_ & Ha & Hb). unfold edge_crosses. change (vadd (snd e) (unit_vec (fst e))) with (other_end e). unfold DmcContour.solid. rewrite Ha, Hb, !sign_inside.
  unfold opposite. destruct (node_inside E a), (node_inside E b); cbn; split; congruence.
Qed.
Lemma key_joins : forall e a b, joins E n q root e a b -> key_of e = node_key (dn_addr a) (dn_addr b).
Proof. intros e a b (_ & Ha & Hb). unfold DmcContour.key_of. change (far_end e) with (other_end e). rewrite Ha, Hb. reflexivity. Qed.

Lemma numbering_ok : forall vm m, inv vm m -> numbering E n q root (num_of vm) m.
Proof.
  intros vm m I. constructor.
  - intros x y. unfold num_of. rewrite node_key_sym. reflexivity.
  - intros x y x' y' k H1 H2. unfold num_of in *. apply (found_position E L near vm m _ _ I) in H1 as [_ H1]. apply (found_position E L near vm m _ _ I) in H2 as [_ H2].
    rewrite H1 in H2. injection H2 as H2. apply node_key_inj. exact H2.
  - intros x y k H. apply (found_position E L near vm m _ _ I) in H as [H _]. unfold mesh_vertex_count, zlen in *. rewrite (inv_count _ _ _ _ _ I). exact H.
  - intros k Hk. unfold mesh_vertex_count, zlen in Hk. rewrite (inv_count _ _ _ _ _ I) in Hk.
    destruct (nth_error (map fst vm) (Z.to_nat k)) as [x|] eqn:Hx; [|apply nth_error_None in Hx; rewrite map_length in Hx; lia].
    destruct (inv_from _ _ _ _ _ I _ _ Hx) as (e & a & b & v & H1 & H2 & H3 & H4 & H5 & H6 & H7).
    assert (J : joins E n q root e a b) by (split; [exact H1|split; assumption]).
    exists e, a, b, v. split; [exact J|]. split; [apply (crosses_opposite e a b J); exact H2|]. split.
    + unfold num_of. rewrite <- (key_joins e a b J), H3. 
      destruct (vm_find vm x) as [i|] eqn:Hf.
      * apply (found_position E L near vm m _ _ I) in Hf as [Hi Hf]. f_equal.
        assert (Z.to_nat i = Z.to_nat k); [|lia].
        apply (proj1 (NoDup_nth_error (map fst vm)) (inv_nodup _ _ _ _ _ I)); [rewrite map_length; unfold zlen in Hi; lia|congruence].
      * exfalso. apply vm_find_none in Hf. apply Hf. eapply nth_error_In. exact Hx.
    + split; [|exact H6]. rewrite znth_nat by lia. exact H7.
Qed.

(* ---- all crossing pairs get a vertex ---- *)
Lemma cell_edge_of : forall p c d, In c (cells8 p) -> vget d c = vget d p - 1 -> exists i, 0 <= i < 12 /\ cell_edge (below p) i = (d, c).
Proof.
  intros p c d Hc Hd. rewrite (cells8_iff p c) in Hc. pose proof (Hc AX) as X. pose proof (Hc AY) as Y. pose proof (Hc AZ) as Z.
  destruct p as [x y z], c as [x' y' z']. cbn [vget vx vy vz] in *.
  assert (XX : x' = x - 1 \/ x' = x) by lia. assert (YY : y' = y - 1 \/ y' = y) by lia. assert (ZZ : z' = z - 1 \/ z' = z) by lia. clear X Y Z Hc.
  assert (G : forall i dd o, local_edge i = (dd, o) -> dd = d -> vadd (below (V3 x y z)) o = V3 x' y' z' -> cell_edge (below (V3 x y z)) i = (d, V3 x' y' z')).
  { intros i dd o H1 H2 H3. unfold cell_edge. rewrite H1. rewrite <- H2, <- H3. reflexivity. }
  destruct d; cbn [vget vx vy vz] in Hd.
  - destruct YY as [-> | ->], ZZ as [-> | ->]; [exists 0|exists 1|exists 2|exists 3];
      (split; [lia|]; eapply G; [reflexivity|reflexivity|]; apply vec_eq; cbn; lia).
  - destruct XX as [-> | ->], ZZ as [-> | ->]; [exists 4|exists 5|exists 6|exists 7];
      (split; [lia|]; eapply G; [reflexivity|reflexivity|]; apply vec_eq; cbn; lia).
  - destruct XX as [-> | ->], YY as [-> | ->]; [exists 8|exists 10|exists 9|exists 11];
      (split; [lia|]; eapply G; [reflexivity|reflexivity|]; apply vec_eq; cbn; lia).
Qed.

Definition ind (p0 p : ivec3) : Z := if veqb p p0 then 1 else 0.
Lemma visited : forall ps p0, (forall u, (forall p, flat_at leaf L p -> u p = 0) -> gsum u ps = open_sum u q (edge_len n)) ->
  inner q n p0 -> ~ flat_at leaf L p0 -> In p0 ps.
Proof.
  intros ps p0 Hsum Hin Hf.
  assert (G : gsum (ind p0) ps = 1).
  { rewrite Hsum.
    - unfold open_sum. rewrite bsum_box. rewrite (gsum_support _ vec_dec _ [p0]).
      + rewrite gsum_cons, gsum_nil. unfold ind. rewrite (proj2 (veqb_eq p0 p0) eq_refl). reflexivity.
      + constructor; [intros []|constructor].
      + apply box_nodup.
      + intros x [<-|[]]. apply in_box. unfold open. cbn [fst snd]. unfold inner in Hin. lia.
      + intros x _ Hx. unfold ind. destruct (veqb x p0) eqn:Q; [|reflexivity]. apply veqb_eq in Q. subst. destruct Hx. left. reflexivity.
    - intros p Hp. unfold ind. destruct (veqb p p0) eqn:Q; [|reflexivity]. apply veqb_eq in Q. subst. contradiction. }
  destruct (in_dec vec_dec p0 ps) as [H|H]; [exact H|]. rewrite gsum_zero in G; [lia|].
  intros p Hp. unfold ind. destruct (veqb p p0) eqn:Q; [|reflexivity]. apply veqb_eq in Q. subst. contradiction.
Qed.

Lemma key_same : forall d c c', L c = L c' -> L (vadd c (unit_vec d)) = L (vadd c' (unit_vec d)) -> key_of (d, c) = key_of (d, c').
Proof. intros d c c' H1 H2. unfold DmcContour.key_of, far_end. cbn [fst snd]. rewrite H1, H2. reflexivity. Qed.

Lemma all_numbered : forall ps vm m, distinct_nodes E root -> 
  (forall u, (forall p, flat_at leaf L p -> u p = 0) -> gsum u ps = open_sum u q (edge_len n)) ->
  (forall p i, In p ps -> 0 <= i < 12 -> crossing (config solid (below p)) i = true -> has_key vm (cell_edge (below p) i)) -> inv vm m ->
  forall e a b, joins E n q root e a b -> opposite E a b -> num_of vm (dn_addr a) (dn_addr b) <> None.
Proof.
  intros ps vm m Hd Hsum Hall I [d c] a b J O. pose proof J as ((N1 & N2) & J1 & J2). cbn [fst snd] in *. unfold other_end in *. cbn [fst snd] in *.
  assert (Hne : L c <> L (vadd c (unit_vec d))). { rewrite J1, J2. intro X. injection X as ->. apply O. reflexivity. }
  destruct (neighbour_point E n q root Hok Hd d c _ N1 N2 eq_refl Hne) as (p & e & P1 & P2 & P3 & P4 & P5 & P6).
  destruct (cell_edge_of p e d P3 P4) as (i & Hi & Hce).
  pose proof (visited ps p Hsum P1 P2) as Hin.
  assert (Hk : key_of (d, e) = node_key (dn_addr a) (dn_addr b)).
  { rewrite (key_same d e c P5) by congruence. apply (key_joins (d, c) a b J). }
  assert (Hc : crossing (config solid (below p)) i = true).
  { rewrite crossing_edge by assumption. rewrite Hce. pose proof (proj2 (crosses_opposite (d, c) a b J) O) as Hx. unfold edge_crosses in *. cbn [fst snd] in *.
    unfold DmcContour.solid in *. rewrite P5, P6. exact Hx. }
  specialize (Hall p i Hin Hi Hc). rewrite Hce in Hall. unfold DmcContour.has_key in Hall. rewrite Hk in Hall. exact Hall.
Qed.

(* ---- triangles ---- *)
Lemma tri_good : forall vm m p, inv vm m -> (forall i, 0 <= i < 12 -> crossing (config solid (below p)) i = true -> has_key vm (cell_edge (below p) i)) ->
  forall tr, In tr (filter nondegenerate (cell_tris (below p) vm)) -> good_triangle (mesh_vertex_count m) tr.
Proof.
  intros vm m p I Hall tr Htr. apply filter_In in Htr as [Htr Hnd]. unfold DmcContour.cell_tris in Htr. apply in_map_iff in Htr as ([[i j] k] & <- & Hin).
  destruct (row_ok _ (config_length solid (below p))) as (_ & _ & R3 & _). rewrite forallb_forall in R3. specialize (R3 _ Hin).
  apply good_local_spec in R3 as ((Hi & Ci) & (Hj & Cj) & (Hk & Ck) & _).
  assert (B : forall s, 0 <= s < 12 -> crossing (config solid (below p)) s = true -> 0 <= vid vm (cell_edge (below p) s) < mesh_vertex_count m).
  { intros s Hs Cs. specialize (Hall s Hs Cs). unfold DmcContour.has_key in Hall. unfold DmcContour.vid. destruct (vm_find vm _) as [x|] eqn:Q; [|congruence].
    apply (found_position E L near vm m _ _ I) in Q as [Q _]. unfold mesh_vertex_count, zlen in *. rewrite (inv_count _ _ _ _ _ I). exact Q. }
  cbn [gtri nondegenerate] in Hnd. rewrite negb_true_iff, !orb_false_iff, !Z.eqb_neq in Hnd. cbn [gtri good_triangle].
  pose proof (B i Hi Ci). pose proof (B j Hj Cj). pose proof (B k Hk Ck). tauto.
Qed.

(* sides *)
Lemma side_nondegenerate : forall ts a b, side_count (filter nondegenerate ts) a b - side_count (filter nondegenerate ts) b a = side_count ts a b - side_count ts b a.
Proof.
  intros ts a b. unfold side_count. induction ts as [|[[x y] z] ts IH]; [reflexivity|]. cbn [filter flat_map sides app].
  destruct (nondegenerate (x, y, z)) eqn:Q.
  - cbn [flat_map sides app countZ]. lia.
  - rewrite IH. cbn [countZ]. cbn [nondegenerate] in Q. rewrite negb_false_iff, !orb_true_iff, !Z.eqb_eq in Q. unfold pair_eqb. cbn [fst snd].
    assert (G : b2z ((a =? x) && (b =? y)) + (b2z ((a =? y) && (b =? z)) + b2z ((a =? z) && (b =? x))) =
                b2z ((b =? x) && (a =? y)) + (b2z ((b =? y) && (a =? z)) + b2z ((b =? z) && (a =? x)))); [|lia].
    destruct Q as [[Q|Q]|Q]; subst.
    + rewrite (andb_comm (b =? y) (a =? y)), (andb_comm (b =? y) (a =? z)), (andb_comm (b =? z) (a =? y)). ring.
    + rewrite (andb_comm (b =? z) (a =? z)), (andb_comm (b =? x) (a =? z)), (andb_comm (b =? z) (a =? x)). ring.
    + rewrite (andb_comm (b =? z) (a =? y)), (andb_comm (b =? y) (a =? z)), (andb_comm (b =? z) (a =? z)). ring.
Qed.

Definition flux_fun (vm : vertex_map) (a b : Z) (e e' : gedge) : Z := b2z (vid vm e =? a) * b2z (vid vm e' =? b).
Lemma sides_flux : forall vm p a b, side_count (cell_tris (below p) vm) a b - side_count (cell_tris (below p) vm) b a = cell_flux solid (flux_fun vm a b) (below p).
Proof.
  intros vm p a b. unfold side_count, cell_flux, DmcContour.cell_tris. generalize (mc_tris (config solid (below p))). intro ts.
  induction ts as [|[[x y] z] ts IH]; [reflexivity|]. cbn [map flat_map gtri sides app countZ]. rewrite !gsum_cons. rewrite <- IH. cbn [fst snd]. unfold at_cell, flux_fun.
  set (X := vid vm (cell_edge (below p) x)). set (Y := vid vm (cell_edge (below p) y)). set (W := vid vm (cell_edge (below p) z)).
  assert (B : forall u v u' v', b2z (pair_eqb (u, v) (u', v')) = b2z (u' =? u) * b2z (v' =? v)).
  { intros. unfold pair_eqb. cbn [fst snd]. rewrite (Z.eqb_sym u u'), (Z.eqb_sym v v'). destruct (u' =? u), (v' =? v); reflexivity. }
  rewrite !B. ring.
Qed.

Lemma sides_total : forall vm ps a b, side_count (filter nondegenerate (flat_map (fun p => cell_tris (below p) vm) ps)) a b -
  side_count (filter nondegenerate (flat_map (fun p => cell_tris (below p) vm) ps)) b a = gsum (fun p => cell_flux solid (flux_fun vm a b) (below p)) ps.
Proof.
  intros vm ps a b. rewrite side_nondegenerate. induction ps as [|p ps IH]; [reflexivity|]. cbn [flat_map]. rewrite !side_count_app, gsum_cons, <- sides_flux. lia.
Qed.

Lemma rep_edge : forall d i, 0 <= i < 12 -> fst (local_edge i) <> d -> fst (local_edge (rep d i)) = fst (local_edge i) /\ vget d (snd (local_edge (rep d i))) = 0 /\
  (snd (local_edge i) = snd (local_edge (rep d i)) \/ snd (local_edge i) = vadd (snd (local_edge (rep d i))) (unit_vec d)).
Proof.
  intros d i Hi Hn. apply in_slots in Hi. vm_compute in Hi.
  repeat (destruct Hi as [<-|Hi]; [destruct d; try (exfalso; apply Hn; reflexivity); (split; [reflexivity|]; split; [reflexivity|]; first [left; reflexivity|right; reflexivity])|]). destruct Hi.
Qed.
Lemma local_corner : forall i, 0 <= i < 12 -> forall a, 0 <= vget a (snd (local_edge i)) <= 1 /\ 0 <= vget a (vadd (snd (local_edge i)) (unit_vec (fst (local_edge i)))) <= 1.
Proof.
  intros i Hi a. apply in_slots in Hi. vm_compute in Hi. repeat (destruct Hi as [<-|Hi]; [destruct a; vm_compute; intuition discriminate|]). destruct Hi.
Qed.

Lemma below_get : forall p a, vget a (below p) = vget a p - 1.
Proof. intros [x y z] []; reflexivity. Qed.

Lemma flat_flux_zero : forall vm a b p, flat_at leaf L p -> cell_flux solid (flux_fun vm a b) (below p) = 0.
Proof.
  intros vm a b p (d & Hf).
  assert (K : forall c, (forall x, 0 <= vget x c <= 1) -> vget d c = 0 -> L (vadd (below p) (vadd c (unit_vec d))) = L (vadd (below p) c)).
  { intros c Hc Hd. replace (vadd (below p) (vadd c (unit_vec d))) with (vadd (vadd (below p) c) (unit_vec d)) by (apply vec_eq; unfold vadd; cbn [vx vy vz]; lia).
    apply Hf.
    - rewrite (cells8_iff p _). intro x. rewrite vget_add, below_get. specialize (Hc x). lia.
    - rewrite vget_add, below_get. lia. }
  apply (flat_flux solid (flux_fun vm a b) d).
  - intros c Hc Hd. unfold DmcContour.solid. rewrite K; [reflexivity| |exact Hd].
    intro x. unfold unit_corners, cell_corners in Hc. cbn [map In] in Hc. clear -Hc. repeat (destruct Hc as [<-|Hc]; [destruct x; cbn; lia|]). destruct Hc.
  - intros i j Hi Hj Ci Cj. unfold at_cell, flux_fun.
    assert (V : forall s, 0 <= s < 12 -> crossing (config solid (below p)) s = true -> vid vm (cell_edge (below p) s) = vid vm (cell_edge (below p) (rep d s))).
    { intros s Hs Cs. unfold DmcContour.vid. f_equal.
      replace (key_of (cell_edge (below p) s)) with (key_of (cell_edge (below p) (rep d s))); [reflexivity|].
      assert (Hax : fst (local_edge s) = d \/ fst (local_edge s) <> d) by (destruct (axis_eqb_spec (fst (local_edge s)) d) as [[_ ?]|[_ ?]]; auto).
      destruct Hax as [Hax|Hax].
      - unfold rep. destruct (local_edge s) as [ax o] eqn:Hle. cbn [fst] in Hax. subst ax. destruct (axis_eqb_spec d d) as [[-> _]|[_ ?]]; [reflexivity|congruence].
      - destruct (rep_edge d s Hs Hax) as (R1 & R2 & R3). pose proof (local_corner s Hs) as C.
        unfold cell_edge. rewrite R1. destruct R3 as [R3|R3]; [rewrite R3; reflexivity|]. rewrite R3.
        set (o := snd (local_edge (rep d s))) in *. set (ax := fst (local_edge s)) in *.
        assert (Co : forall x, 0 <= vget x o <= 1).
        { intro x. specialize (C x). rewrite R3, !vget_add, !vget_unit in C. destruct (axis_eqb_spec x d) as [[Q ->]|[Q Hx]]; [rewrite R2; lia|]. rewrite Q in C. lia. }
        apply key_same.
        + symmetry. apply K; assumption.
        + rewrite (vec_eq (vadd (vadd (below p) (vadd o (unit_vec d))) (unit_vec ax)) (vadd (below p) (vadd (vadd o (unit_vec ax)) (unit_vec d)))) by (unfold vadd; cbn [vx vy vz]; lia).
          rewrite (vec_eq (vadd (vadd (below p) o) (unit_vec ax)) (vadd (below p) (vadd o (unit_vec ax)))) by (unfold vadd; cbn [vx vy vz]; lia).
          symmetry. apply K.
          * intro x. specialize (C x). rewrite R3, !vget_add in C. rewrite !vget_add. rewrite !vget_unit in *.
            destruct (axis_eqb_spec x d) as [[Q ->]|[Q Hx]]; [|rewrite Q in C; lia].
            rewrite R2. destruct (axis_eqb_spec d ax) as [[Q' Q2]|[Q' _]]; [exfalso; apply Hax; congruence|rewrite Q'; lia].
          * rewrite vget_add, vget_unit, R2. destruct (axis_eqb_spec d ax) as [[Q' Q2]|[Q' _]]; [exfalso; apply Hax; congruence|rewrite Q'; lia]. }
    rewrite <- (V i Hi Ci), <- (V j Hj Cj). reflexivity.
Qed.
End Mesh.
