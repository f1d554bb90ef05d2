(* Dual marching cubes: C33, C42 - C44, C67 - C69.  Nothing about the arithmetic is assumed here; see
   PropDmcExact and PropDmcIeee for the rest. *)
From Coq Require Import ZArith List Bool Lia.
From Verif Require Import Base Arith FloatArith Tables MeshModel MeshSpec GridSpec FillModel MCModel CellSpec OctreeModel OctreeSpec OctreeProofs
  DcModel DcBuild QefModel DmcModel DmcTrav DmcContour DmcSpec DmcProofs DmcMesh DmcClosed DmcBuild PropMC PropDc.
Import ListNotations.
Local Open Scope Z_scope.

(* ---- C33 ---- *)

(* The constructor of DMC_Octree accepts the positive powers of two and throws for the other sizes.  The
   root cube is that of C33_dc_centre. *)
Theorem C33_dmc_sizes : forall E addr_of (size : Z) (pos : vec3 (fp_D E)) (scale : fp_D E),
  ((exists m, size = edge_len m) /\ exists t, dmc_new E addr_of size pos scale = Ret t /\ dt_size E t = size /\
     is_subdivided (dt_root E t) = false) \/
  ((~ exists m, size = edge_len m) /\ dmc_new E addr_of size pos scale = Throw InvalidArgument).
Proof.
  intros E addr_of size pos scale. unfold dmc_new. destruct ((size <=? 0) || negb (Z.land size (size - 1) =? 0)) eqn:X.
  - right. split; [|reflexivity]. intro H. apply new_size in H. congruence.
  - left. split; [apply new_size; exact X|]. eexists. split; [reflexivity|]. split; reflexivity.
Qed.
Print Assumptions C33_dmc_sizes.

Definition origin64 : vec3 b64 := V3 (f64 0 0) (f64 0 0) (f64 0 0).
Example C33_dmc_ex : (exists t, dmc_new envIEEE vx 16 origin64 (f64 1 0) = Ret t) /\
  dmc_new envIEEE vx 24 origin64 (f64 1 0) = Throw InvalidArgument /\ dmc_new envIEEE vx (-8) origin64 (f64 1 0) = Throw InvalidArgument.
Proof. split; [eexists; reflexivity|]. split; reflexivity. Qed.

(* ---- building ---- *)

Section Build.
Variable E : fpenv.
Notation F := (fp_F E).
Notation D := (fp_D E).
Notation leaf := (dmc_leaf F).
(* the conversion to double, the limits of float, the functions of the mathematical library,
   the square root of three *)
Variable widen : F -> D.
Variables float_min float_lowest float_max : F.
Variables hypot copysign : F -> F -> F.
Variables msin mcos matan : F -> F.
Variable root_three : D.
(* where the nodes are in memory *)
Variable addr_of : ivec3 -> Z.
Notation build := (dmc_build E widen float_min float_lowest float_max hypot copysign msin mcos matan root_three addr_of).
Notation generate_dual := (generate_dual E widen float_min float_lowest float_max hypot copysign msin mcos matan).

(* the arguments of buildNode *)
Definition node_args (fl : field E) (tune : tuning F) (eps : F) (simple : bool) (samples : option (ivec3 -> Z -> list (vec3 F))) (early : bool)
    (t : dmc_octree E) : dmc_args E :=
  DmcArgs E fl tune (a_div (fp_f E) eps (fp_narrow E (a_mul (fp_d E) (dt_scale E t) (dt_scale E t)))) simple samples early.

Lemma build_node : forall fl tune eps simple samples early t r, build fl tune eps simple samples early t = Ret r ->
  dt_pos E r = dt_pos E t /\ dt_scale E r = dt_scale E t /\ dt_size E r = dt_size E t /\
  dmc_build_node E widen float_min float_lowest float_max hypot copysign msin mcos matan root_three addr_of (dc_fuel (dt_size E t)) t
    (node_args fl tune eps simple samples early t) (dc_min_corner (dt_size E t)) (dt_size E t) = Ret (dt_root E r).
Proof.
  intros fl tune eps simple samples early t r H. unfold dmc_build in H. change (DmcArgs E fl tune _ simple samples early) with (node_args fl tune eps simple samples early t) in H.
  destruct (dmc_build_node _ _ _ _ _ _ _ _ _ _ _ _ _ _ _ _ _) as [rt| | | |]; try discriminate. cbn [obind] in H. injection H as <-. cbn. auto.
Qed.

(* C67: for every field, tuning, tolerance, sampling and policy, build leaves a tree whose leaves tile the root
   cube.  The dual vertex and the normal of each leaf have been written, the material exactly when the dual
   vertex is not outside.  The nodes are different objects. *)
Theorem C67_tiles : forall fl tune eps simple samples early n t r, dt_size E t = edge_len n ->
  build fl tune eps simple samples early t = Ret r ->
  dt_pos E r = dt_pos E t /\ dt_scale E r = dt_scale E t /\ dt_size E r = edge_len n /\
  tree_ok (fun a _ _ => dn_dual a <> None /\ dn_normal a <> None /\ (dn_mat a <> None <-> node_inside E a = true)) n (dt_root E r) (dc_min_corner (edge_len n)) /\
  ((forall p p', in_cube (dc_min_corner (edge_len n)) n p -> in_cube (dc_min_corner (edge_len n)) n p' -> addr_of p = addr_of p' -> p = p') ->
   distinct_nodes E (dt_root E r)).
Proof.
  intros fl tune eps simple samples early n t r Hs H. destruct (build_node _ _ _ _ _ _ _ _ H) as (H1 & H2 & H3 & H4). rewrite Hs in *.
  apply build_shape in H4. split; [exact H1|]. split; [exact H2|]. split; [exact H3|]. split.
  - eapply tree_ok_mono; [|exact H4]. intros a q' n' (ok & Hg & _).
    destruct (generate_total E widen float_min float_lowest float_max hypot copysign msin mcos matan t (node_args fl tune eps simple samples early t) (dmc_fresh (addr_of q')) q' (edge_len n'))
      as (a' & ok' & Hg' & _ & Hn & p & w & Hd & Hm). rewrite Hg in Hg'. injection Hg' as <- <-. split; [congruence|]. split; [exact Hn|].
    unfold node_inside. rewrite Hd. change (a_le (fp_f E) w (a_ofZ (fp_f E) 0)) with (dmc_inside E w). destruct (dmc_inside E w).
    + destruct Hm as [mt ->]. split; [reflexivity|discriminate].
    + rewrite Hm. cbn. split; [intro X; destruct X; reflexivity|discriminate].
  - intro Hinj. eapply (distinct_addresses E addr_of); [exact Hinj|]. eapply tree_ok_mono; [|exact H4]. intros a q' n' Hl. eapply made_address. exact Hl.
Qed.

(* C68: with the simple policy, or for roots of at most 2^27 cells across, build returns.  With the other policy a
   larger root overflows: size * 8 is computed in 32 bits. *)
Theorem C68_partial : forall fl tune eps simple samples early n t, dt_size E t = edge_len n -> simple = true \/ (n <= 27)%nat ->
  exists r, build fl tune eps simple samples early t = Ret r.
Proof.
  intros fl tune eps simple samples early n t Hs Hp. unfold dmc_build. change (DmcArgs E fl tune _ simple samples early) with (node_args fl tune eps simple samples early t).
  rewrite Hs. destruct (build_total E widen float_min float_lowest float_max hypot copysign msin mcos matan root_three addr_of (dc_fuel (edge_len n)) n t
    (node_args fl tune eps simple samples early t) (dc_min_corner (edge_len n))) as [rt Hr].
  - rewrite (proj1 (root_size n)). lia.
  - destruct Hp as [Hp|Hp]; [left; exact Hp|right]. unfold edge_len.
    assert (2 ^ Z.of_nat n <= 2 ^ 27) by (apply Z.pow_le_mono_r; lia). unfold i32max. lia.
  - rewrite Hr. eexists. reflexivity.
Qed.
Theorem C68_overflow : forall fl tune eps samples n t, dt_size E t = edge_len n -> (28 <= n)%nat ->
  build fl tune eps false samples false t = UB.
Proof.
  intros fl tune eps samples n t Hs Hn. unfold dmc_build. rewrite Hs.
  assert (B : 2 ^ 28 <= edge_len n) by (unfold edge_len; apply Z.pow_le_mono_r; lia).
  assert (X : dmc_build_node E widen float_min float_lowest float_max hypot copysign msin mcos matan root_three addr_of (dc_fuel (edge_len n)) t
    (DmcArgs E fl tune (a_div (fp_f E) eps (fp_narrow E (a_mul (fp_d E) (dt_scale E t) (dt_scale E t)))) false samples false) (dc_min_corner (edge_len n)) (edge_len n) = UB).
  { unfold dc_fuel. cbn [dmc_build_node ba_early ba_simple andb]. destruct (Z.eqb_spec (edge_len n) 1); [lia|]. destruct (Z.ltb_spec i32max (edge_len n * 8)); [reflexivity|]. unfold i32max in *. lia. }
  rewrite X. reflexivity.
Qed.

(* C69: why a node was not split.  It is a single cell, splitting has been stopped early, the simple policy does not
   ask for it, or the error of the dual vertex is within the tolerance and there are more than 8 nodes of this size
   across. *)
Theorem C69_leaves : forall fl tune eps simple samples early n t r, dt_size E t = edge_len n ->
  build fl tune eps simple samples early t = Ret r ->
  let args := node_args fl tune eps simple samples early t in
  tree_ok (fun a q' n' => exists ok, generate_dual t args (dmc_fresh (addr_of q')) q' (edge_len n') = Ret (a, ok) /\
     (n' = 0%nat \/ (early = true /\ should_stop E root_three t args q' (edge_len n') = true) \/
      (simple = true /\ (n' < n)%nat /\ should_split E widen t args q' (edge_len n') = false) \/
      (simple = false /\ (n' + 3 < n)%nat /\ ok = true))) n (dt_root E r) (dc_min_corner (edge_len n)).
Proof.
  intros fl tune eps simple samples early n t r Hs H args. destruct (build_node _ _ _ _ _ _ _ _ H) as (_ & _ & _ & H4). rewrite Hs in *.
  apply build_shape in H4. fold args in H4.
  assert (Both : forall m (tr : otree leaf unit) q, tree_ok (leaf_made E widen float_min float_lowest float_max hypot copysign msin mcos matan root_three addr_of t args) m tr q ->
    (m <= n)%nat -> tree_ok (fun a q' n' => (n' <= n)%nat /\ leaf_made E widen float_min float_lowest float_max hypot copysign msin mcos matan root_three addr_of t args a q' n') m tr q).
  { clear. induction m as [|m IH]; intros [a|b cs] q Ht Hm; cbn [tree_ok] in *; auto. destruct Ht as [Hl Ht]. split; [exact Hl|]. intros i c Hi. apply IH; [apply Ht; exact Hi|lia]. }
  apply Both in H4; [|lia]. eapply tree_ok_mono; [|exact H4]. intros a q' n' (Hle & ok & Hg & Hr). exists ok. split; [exact Hg|].
  destruct Hr as [Hr|[(Hr1 & Hr2)|[(Hr1 & Hr2 & Hr3)|(Hr1 & Hr2 & Hr3)]]].
  - left. apply edge_len_one. exact Hr.
  - right. left. split; assumption.
  - right. right. left. split; [exact Hr1|]. split; [|exact Hr3]. rewrite Hs in Hr2. assert (n' <> n) by (intros ->; apply Hr2; reflexivity). lia.
  - right. right. right. split; [exact Hr1|]. split; [|exact Hr3]. rewrite Hs in Hr2.
    assert (X : 2 ^ (Z.of_nat n' + 3) < 2 ^ Z.of_nat n) by (rewrite Z.pow_add_r by lia; unfold edge_len in Hr2; exact Hr2).
    apply Z.pow_lt_mono_r_iff in X; lia.
Qed.
End Build.
Print Assumptions C67_tiles.
Print Assumptions C68_partial.
Print Assumptions C68_overflow.
Print Assumptions C69_leaves.

(* ---- contouring ---- *)

Section Contour.
Variable E : fpenv.
Notation leaf := (dmc_leaf (fp_F E)).

(* A tree over the cube of level [n] at [q] whose nodes are different objects. *)
Record dmc_tree_ok (n : nat) (q : ivec3) (t : dmc_octree E) : Prop := {
  dk_size : dt_size E t = edge_len n;
  dk_tiles : tree_ok (fun _ _ _ => True) n (dt_root E t) q;
  dk_nodes : distinct_nodes E (dt_root E t) }.

(* C43: whatever the shape of the octree and the data of its leaves, the mesh returned by contour has exactly one
   vertex for each pair of neighbouring leaves on different sides of the surface, made from the data of these two, and
   its triangles have three different existing vertices. *)
Theorem C43_mesh : forall n q t m, dmc_tree_ok n q t -> dmc_contour E t = Ret m ->
  mesh_valid m /\ exists num, numbering E n q (dt_root E t) num m /\
    forall e a b, joins E n q (dt_root E t) e a b -> opposite E a b -> num (dn_addr a) (dn_addr b) <> None.
Proof.
  intros n q t m [H1 H2 H3] H. destruct (contour_mesh E n q t H1 H2 m H H3) as (num & ts & N & A & V & _). split; [exists ts; exact V|]. exists num. split; assumption.
Qed.

(* C44: a directed side occurs as often as the opposite one unless its two vertices lie between leaves along the same
   side of the root cube. *)
Theorem C44_closed : forall n q t m ts, dmc_tree_ok n q t -> dmc_contour E t = Ret m -> m_inds m = flatten ts ->
  exists num, numbering E n q (dt_root E t) num m /\
    forall k l, ~ border_side E n q (dt_root E t) num k l -> side_count ts k l = side_count ts l k.
Proof.
  intros n q t m ts [H1 H2 H3] H Hts. destruct (contour_mesh E n q t H1 H2 m H H3) as (num & ts' & N & _ & (V & _) & C).
  rewrite Hts in V. apply flatten_inj in V. subst ts'. exists num. split; assumption.
Qed.

(* The cell at the side of the cube [c] belongs to *)
Definition outermost (n : nat) (q c : ivec3) : Prop := in_cube q n c /\ exists d, vget d c = vget d q \/ vget d c = vget d q + edge_len n - 1.
(* C44: if all leaves at the sides of the root cube are on the same side of the surface, the mesh is closed. *)
Theorem C44_inside : forall n q t m ts side, dmc_tree_ok n q t -> dmc_contour E t = Ret m -> m_inds m = flatten ts ->
  (forall c a, outermost n q c -> leaf_at n (dt_root E t) q c = Some a -> node_inside E a = side) ->
  forall k l, side_count ts k l = side_count ts l k.
Proof.
  intros n q t m ts side K H Hts Hb k l. destruct (C44_closed n q t m ts K H Hts) as (num & N & C). apply C.
  intros (d & s & [d1 c1] & a1 & b1 & e2 & a2 & b2 & Hs & ((J1 & J2) & J3 & J4) & O & (P1 & P2) & _). unfold other_end in *. cbn [fst snd] in *.
  apply O. transitivity side; [|symmetry]; eapply Hb; try eassumption.
  - split; [exact J1|]. exists d. rewrite P2. exact Hs.
  - split; [exact J2|]. exists d. rewrite vget_add, vget_unit, P2. destruct (axis_eqb_spec d d1) as [[_ Q]|[Q _]]; [congruence|]. rewrite Q. lia.
Qed.

(* C42, materials: if the outside leaves have the material Empty or none, and the inside ones another, every vertex has
   the material of the inside leaf of its pair. *)
Theorem C42_material : forall n q t m, dmc_tree_ok n q t -> dmc_contour E t = Ret m ->
  (forall a, In a (leaves_of (dt_root E t)) -> if node_inside E a then dn_mat a <> Some Empty else dn_mat a = Some Empty \/ dn_mat a = None) ->
  forall v, In v (m_verts m) -> exists e a b, joins E n q (dt_root E t) e a b /\ opposite E a b /\ dmc_vertex E a b = Ret v /\
    dn_mat (if node_inside E a then a else b) = Some (mv_mat v).
Proof.
  intros n q t m K H Hm v Hv. destruct (C43_mesh n q t m K H) as (_ & num & N & _).
  apply In_nth_error in Hv as (k & Hk).
  assert (Lk : (k < length (m_verts m))%nat) by (apply nth_error_Some; congruence).
  destruct (num_from _ _ _ _ _ _ N (Z.of_nat k)) as (e & a & b & v' & J & O & _ & Z & V); [unfold mesh_vertex_count, zlen; lia|].
  rewrite znth_nat in Z by lia. rewrite Nat2Z.id in Z. assert (v' = v) by congruence. subst v'.
  exists e, a, b. split; [exact J|]. split; [exact O|]. split; [exact V|].
  destruct J as (_ & Ja & Jb). apply leaf_at_in in Ja. apply leaf_at_in in Jb. pose proof (Hm a Ja) as Ma. pose proof (Hm b Jb) as Mb.
  unfold dmc_vertex in V. destruct (dn_dual a); [|discriminate]. destruct (dn_dual b); [|discriminate]. cbn [oread obind] in V.
  destruct (dn_normal a); [|discriminate]. destruct (dn_normal b); [|discriminate]. cbn [oread obind] in V.
  destruct (dn_mat a) as [ma|] eqn:Qa; [|discriminate]. cbn [oread obind] in V. unfold opposite in O.
  destruct (node_inside E a) eqn:Ia.
  - rewrite Qa. destruct (Z.eqb_spec ma Empty) as [->|Ne]; [congruence|]. cbn [obind] in V. injection V as <-. reflexivity.
  - destruct Ma as [Ma|Ma]; [|discriminate]. injection Ma as ->. change (Empty =? Empty) with true in V. destruct (dn_mat b) as [mb|]; [|discriminate].
    cbn [oread obind] in V. injection V as <-. reflexivity.
Qed.
End Contour.
Print Assumptions C43_mesh.
Print Assumptions C44_closed.
Print Assumptions C44_inside.
Print Assumptions C42_material.

(* C42, as far as it holds: for a field whose materials are never Empty and an octree made by build, contour returns
   a mesh exactly if in all pairs of neighbouring leaves on different sides of the surface the one with the
   smaller coordinates is inside.  In all other cases it reads a material that has not been written. *)
Theorem C42_partial : forall E widen float_min float_lowest float_max hypot copysign msin mcos matan root_three addr_of fl tune eps simple samples early n t r,
  let q := dc_min_corner (edge_len n) in
  dt_size E t = edge_len n -> (n <= 10)%nat -> (forall p p', in_cube q n p -> in_cube q n p' -> addr_of p = addr_of p' -> p = p') -> (forall p v, fl_material fl p v <> Empty) ->
  dmc_build E widen float_min float_lowest float_max hypot copysign msin mcos matan root_three addr_of fl tune eps simple samples early t = Ret r ->
  ((exists m, dmc_contour E r = Ret m) <-> forall e a b, joins E n q (dt_root E r) e a b -> opposite E a b -> node_inside E a = true).
Proof.
  intros E widen float_min float_lowest float_max hypot copysign msin mcos matan root_three addr_of fl tune eps simple samples early n t r q Hs Hn Hinj Hmat H.
  destruct (C67_tiles E widen float_min float_lowest float_max hypot copysign msin mcos matan root_three addr_of fl tune eps simple samples early n t r Hs H) as (_ & _ & H3 & H4 & H5).
  specialize (H5 Hinj). fold q in H4.
  assert (Hok : tree_ok (fun _ _ _ => True) n (dt_root E r) q) by (eapply tree_ok_mono; [|exact H4]; auto).
  assert (Leaf : forall a, In a (leaves_of (dt_root E r)) -> dn_dual a <> None /\ dn_normal a <> None /\ (dn_mat a <> None <-> node_inside E a = true)).
  { intros a Ha. destruct (leaf_cubes _ _ _ _ _ _ a H4 Ha) as (_ & _ & X & _). exact X. }
  assert (NE : forall a, In a (leaves_of (dt_root E r)) -> dn_mat a <> Some Empty).
  { intros a Ha. destruct (build_node E widen float_min float_lowest float_max hypot copysign msin mcos matan root_three addr_of _ _ _ _ _ _ _ _ H) as (_ & _ & _ & Hb).
    rewrite Hs in Hb. apply build_shape in Hb. destruct (leaf_cubes _ _ _ _ _ _ a Hb Ha) as (q' & n' & (ok & Hg & _) & _). clear -Hg Hmat.
    unfold generate_dual in Hg. destruct (ofold _ _ _) as [[sol avg]| | | |]; try discriminate. cbn [obind] in Hg.
    destruct (dmc_solve _ _ _ _ _ _ _ _ _ _ _ _ _) as [v1 s1]. destruct (a_lt _ _ _).
    - destruct (dmc_solve _ _ _ _ _ _ _ _ _ _ _ _ _) as [v2 s2]. injection Hg as <- _. cbn [dn_mat]. destruct (dmc_inside E _); [|discriminate]. intro X. injection X as X. eapply Hmat. exact X.
    - injection Hg as <- _. cbn [dn_mat]. destruct (dmc_inside E _); [|discriminate]. intro X. injection X as X. eapply Hmat. exact X. }
  split.
  - intros [m Hm] e a b J O. destruct (contour_needs E n q r H3 Hok m Hm H5 e a b J O) as [v Hv]. destruct J as (_ & Ja & _). apply leaf_at_in in Ja.
    destruct (Leaf a Ja) as (_ & _ & X). apply X. unfold dmc_vertex in Hv. intro Q. rewrite Q in Hv.
    destruct (dn_dual a); [|discriminate]. destruct (dn_dual b); [|discriminate]. cbn [oread obind] in Hv. destruct (dn_normal a); [|discriminate]. destruct (dn_normal b); discriminate.
  - intro Hin. apply (contour_returns E n q r H3 Hok).
    + assert (B : edge_len n <= 2 ^ 10) by (unfold edge_len; apply Z.pow_le_mono_r; lia). assert (P : 0 <= edge_len n) by (unfold edge_len; apply Z.pow_nonneg; lia).
      assert (edge_len n * edge_len n <= 2 ^ 10 * 2 ^ 10) by (apply Z.mul_le_mono_nonneg; assumption).
      assert (edge_len n * edge_len n * edge_len n <= 2 ^ 10 * 2 ^ 10 * 2 ^ 10) by (apply Z.mul_le_mono_nonneg; try assumption; apply Z.mul_nonneg_nonneg; assumption).
      unfold two32. lia.
    + apply Forall_forall. intros a Ha. apply (Leaf a Ha).
    + intros e a b J O. specialize (Hin e a b J O). destruct J as (_ & Ja & Jb). apply leaf_at_in in Ja. apply leaf_at_in in Jb.
      destruct (Leaf a Ja) as (A1 & A2 & A3). destruct (Leaf b Jb) as (B1 & B2 & _). apply A3 in Hin. pose proof (NE a Ja) as A4. unfold dmc_vertex.
      destruct (dn_dual a); [|congruence]. destruct (dn_dual b); [|congruence]. cbn [oread obind]. destruct (dn_normal a); [|congruence]. destruct (dn_normal b); [|congruence]. cbn [oread obind].
      destruct (dn_mat a) as [ma|]; [|congruence]. cbn [oread obind]. destruct (Z.eqb_spec ma Empty) as [->|_]; [congruence|]. eexists. reflexivity.
Qed.
Print Assumptions C42_partial.
