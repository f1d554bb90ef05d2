(* Dual marching cubes in single and double precision: C42, C43, and cases for the theorems of PropDmc *)
From Coq Require Import ZArith List Bool Lia.
From Flocq Require Import IEEE754.BinarySingleNaN.
From Verif Require Import Base Arith FloatArith Tables MeshModel MeshSpec GridSpec FillModel MCModel CellSpec OctreeModel OctreeSpec OctreeProofs
  DcModel DcBuild QefModel DmcModel DmcTrav DmcContour DmcSpec DmcProofs DmcMesh DmcClosed DmcBuild PropMC PropDc PropDmc PropQefSolve.
Import ListNotations.
Local Open Scope Z_scope.

(* std::numeric_limits<float>: lowest, max; glm::root_three<double> () *)
Definition lowest32 : b32 := f32 (-16777215) 104.
Definition max32 : b32 := f32 16777215 104.
Definition root_three64 : b64 := f64 7800463371553962 (-52).
(* A place in memory for each node *)
Definition place_of (q : ivec3) : Z := vx q + 4096 * vy q + 16777216 * vz q.
Notation build32 hypot copysign msin mcos matan :=
  (dmc_build envIEEE widen least_normal32 lowest32 max32 hypot copysign msin mcos matan root_three64 place_of).

(* A solid that fills one half of space, as a field without gradient: 1 outside, -1 inside.  The solid is on the side
   of the positive x if [right]. *)
Definition half_space (right : bool) : field envIEEE :=
  @Field envIEEE (fun p => if Bool.eqb right (a_lt arith64 (vx p) (f64 0 0)) then f64 1 0 else f64 (-1) 0) (fun _ => V3 (f64 0 0) (f64 0 0) (f64 0 0)) (fun _ _ => 7).

(* build and contour of an octree with 8 leaves *)
Section Run.
Variables T U W : Type.
Variables (start : outcome T) (f : T -> outcome U) (g : U -> outcome W) (good : outcome W -> bool).
Definition run_test : bool := match start with Ret t => match f t with Ret r => good (g r) | _ => false end | _ => false end.
Lemma run_tested : run_test = true -> exists t r, start = Ret t /\ f t = Ret r /\ good (g r) = true.
Proof. unfold run_test. destruct start as [t| | | |]; try discriminate. destruct (f t) as [r| | | |] eqn:Q; try discriminate. intro H. exists t, r. auto. Qed.
End Run.
Definition is_ub {W} (o : outcome W) : bool := match o with UB => true | _ => false end.
Lemma half_right : forall hypot copysign msin mcos matan,
  run_test _ _ _ (dmc_new envIEEE place_of 2 origin64 (f64 1 0)) (build32 hypot copysign msin mcos matan (half_space true) default_tuning (f32 1 (-3)) true None false)
    (dmc_contour envIEEE) is_ub = true.
Proof. intros hypot copysign msin mcos matan. vm_cast_no_check (@eq_refl bool true). Qed.

(* C42, refuted: a half space x >= 0, an octree of eight single cells.  contour reads the material of a node
   outside, which nobody has written. *)
Theorem C42_refuted : forall hypot copysign msin mcos matan, exists fl t r,
  dmc_new envIEEE place_of 2 origin64 (f64 1 0) = Ret t /\
  build32 hypot copysign msin mcos matan fl default_tuning (f32 1 (-3)) true None false t = Ret r /\
  dmc_contour envIEEE r = UB.
Proof.
  intros hypot copysign msin mcos matan. destruct (run_tested _ _ _ _ _ _ _ (half_right hypot copysign msin mcos matan)) as (t & r & Ht & Hr & H).
  exists (half_space true), t, r. split; [exact Ht|]. split; [exact Hr|]. unfold is_ub in H. destruct (dmc_contour envIEEE r); try discriminate. reflexivity.
Qed.
Print Assumptions C42_refuted.

(* ---- a tree with given leaves ---- *)

(* eight single cells: the dual vertices in the middle, on one side of x = 0 with the value 1, on the other side
   with -1; the normals are +x and -x *)
Definition small_leaf (i : Z) : dmc_leaf b32 :=
  let o := vsub (corner_offset i) (V3 1 1 1) in
  let c k := f32 (2 * k + 1) (-1) in
  let out := vx o <? 0 in
  DmcLeaf i (Some (V3 (c (vx o)) (c (vy o)) (c (vz o)), if out then f32 1 0 else f32 (-1) 0))
    (Some (V3 (if out then f32 1 0 else f32 (-1) 0) (f32 0 0) (f32 0 0))) (Some (if out then Empty else 7)).
Definition small_tree : dmc_octree envIEEE :=
  DmcOctree envIEEE origin64 (f64 1 0) 2 (ONode tt (map (fun i => OLeaf (small_leaf i)) (zseq 0 8))).
Lemma small_ok : dmc_tree_ok envIEEE 1 (V3 (-1) (-1) (-1)) small_tree.
Proof.
  constructor.
  - reflexivity.
  - split; [reflexivity|]. intros i c H. unfold znth in H. destruct (i <? 0); [discriminate|]. apply nth_error_In in H. apply in_map_iff in H as (j & <- & _). exact I.
  - unfold distinct_nodes. change (map dn_addr (leaves_of (dt_root envIEEE small_tree))) with (zseq 0 8). apply OctreeFlux.zseq_nodup.
Qed.

(* C43, refuted: all nodes have been written, contour returns, and the normal of a vertex is not a
   number: the normals of its two nodes cancel, and their sum is divided by its length, zero. *)
Theorem C43_refuted : exists n q t m, dmc_tree_ok envIEEE n q t /\ Forall (leaf_ready envIEEE) (leaves_of (dt_root envIEEE t)) /\
  dmc_contour envIEEE t = Ret m /\ exists v, In v (m_verts m) /\ is_nan (vx (mv_normal v)) = true.
Proof.
  assert (H : match dmc_contour envIEEE small_tree with Ret m => existsb (fun v => is_nan (vx (mv_normal v))) (m_verts m) | _ => false end = true) by (vm_compute; reflexivity).
  destruct (dmc_contour envIEEE small_tree) as [m| | | |] eqn:Hm; try discriminate. apply existsb_exists in H.
  exists 1%nat, (V3 (-1) (-1) (-1)), small_tree, m. split; [exact small_ok|]. split; [|split; [exact Hm|exact H]].
  unfold small_tree. cbn [dt_root]. cbn [leaves_of]. apply Forall_forall. intros a Ha. apply in_flat_map in Ha as (c & Hc & Ha). apply in_map_iff in Hc as (i & <- & _).
  destruct Ha as [<-|[]]. unfold leaf_ready, small_leaf. cbn [dn_dual dn_normal dn_mat]. split; [discriminate|split; discriminate].
Qed.
Print Assumptions C43_refuted.

(* ---- cases for the theorems of PropDmc ---- *)

Definition is_square (o : outcome (mesh (mvert b32))) : bool := match o with Ret m => (zlen (m_verts m) =? 4) && (zlen (m_inds m) =? 6) | _ => false end.
Lemma half_left : forall hypot copysign msin mcos matan,
  run_test _ _ _ (dmc_new envIEEE place_of 2 origin64 (f64 1 0)) (build32 hypot copysign msin mcos matan (half_space false) default_tuning (f32 1 (-3)) true None false)
    (dmc_contour envIEEE) is_square = true.
Proof. intros hypot copysign msin mcos matan. vm_cast_no_check (@eq_refl bool true). Qed.
Lemma place_of_2 : forall p p', in_cube (V3 (-1) (-1) (-1)) 1 p -> in_cube (V3 (-1) (-1) (-1)) 1 p' -> place_of p = place_of p' -> p = p'.
Proof. intros [x y z] [x' y' z'] (H1 & H2 & H3) (H4 & H5 & H6) H. unfold place_of in H. cbn [vx vy vz] in *. change (edge_len 1) with 2 in *. f_equal; lia. Qed.

(* The half space x < 0: build and contour return, with a square of four vertices and two triangles. *)
Example C42_ex : forall hypot copysign msin mcos matan, exists t r m,
  dmc_new envIEEE place_of 2 origin64 (f64 1 0) = Ret t /\ dt_size envIEEE t = edge_len 1 /\
  build32 hypot copysign msin mcos matan (half_space false) default_tuning (f32 1 (-3)) true None false t = Ret r /\
  (forall p v, fl_material (half_space false) p v <> Empty) /\ dmc_contour envIEEE r = Ret m /\ zlen (m_verts m) = 4 /\ zlen (m_inds m) = 6.
Proof.
  intros hypot copysign msin mcos matan. destruct (run_tested _ _ _ _ _ _ _ (half_left hypot copysign msin mcos matan)) as (t & r & Ht & Hr & H).
  unfold is_square in H. destruct (dmc_contour envIEEE r) as [m| | | |] eqn:Hm; try discriminate. apply andb_true_iff in H as [H1 H2]. apply Z.eqb_eq in H1. apply Z.eqb_eq in H2.
  exists t, r, m. split; [exact Ht|]. split.
  - destruct (C33_dmc_sizes envIEEE place_of 2 origin64 (f64 1 0)) as [(_ & t' & Ht' & Hs & _)|(_ & X)]; [|rewrite X in Ht; discriminate]. rewrite Ht in Ht'. injection Ht' as <-. exact Hs.
  - split; [exact Hr|]. split; [discriminate|]. auto.
Qed.

(* An adaptive octree over a cube of 8 cells across: leaves of two cells across, one of them split.  The eight in the
   middle are inside. *)
Definition ball_leaf (q : ivec3) (n : nat) : dmc_leaf b32 :=
  let c k := f32 (2 * k + edge_len n) (-1) in
  let inside := (-2 <=? vx q) && (vx q <? 2) && (-2 <=? vy q) && (vy q <? 2) && (-2 <=? vz q) && (vz q <? 2) in
  DmcLeaf (place_of q) (Some (V3 (c (vx q)) (c (vy q)) (c (vz q)), if inside then f32 (-1) 0 else f32 1 0))
    (Some (V3 (f32 1 0) (f32 0 0) (f32 0 0))) (Some (if inside then 7 else Empty)).
Fixpoint ball_tree (n : nat) (q : ivec3) : otree (dmc_leaf b32) unit :=
  match n with
  | O => OLeaf (ball_leaf q 0)
  | S m => if (n =? 1)%nat && negb (veqb q (V3 0 0 0)) then OLeaf (ball_leaf q n)
           else ONode tt (map (fun i => ball_tree m (child_pos q m i)) (zseq 0 8))
  end.
Definition ball : dmc_octree envIEEE := DmcOctree envIEEE origin64 (f64 1 0) 8 (ball_tree 3 (V3 (-4) (-4) (-4))).
Lemma ball_shape : forall n q, tree_ok (fun a q' n' => a = ball_leaf q' n') n (ball_tree n q) q.
Proof.
  induction n as [|n IH]; intro q; cbn [ball_tree]; [reflexivity|]. destruct (_ && _); [reflexivity|]. cbn [tree_ok]. split; [reflexivity|].
  intros i c H. unfold znth in H. destruct (Z.ltb_spec i 0); [discriminate|]. rewrite nth_error_map in H. destruct (nth_error (zseq 0 8) (Z.to_nat i)) as [j|] eqn:Q; [|discriminate].
  injection H as <-. apply zseq_in_nth in Q as [Q _]. replace j with i by lia. apply IH.
Qed.
Lemma ball_ok : dmc_tree_ok envIEEE 3 (V3 (-4) (-4) (-4)) ball.
Proof.
  constructor.
  - reflexivity.
  - eapply tree_ok_mono; [|apply ball_shape]. auto.
  - assert (H : DmcFlux.nodupb Z.eqb (map dn_addr (leaves_of (dt_root envIEEE ball))) = true) by (vm_compute; reflexivity).
    apply (DmcFlux.nodupb_ok _ Z.eqb); [apply Z.eqb_refl|exact H].
Qed.

Lemma returned : forall T U (o : outcome T) (f : T -> U) d v, match o with Ret m => f m | _ => d end = v -> v <> d -> exists m, o = Ret m /\ f m = v.
Proof. intros T U [m| | | |] f d v H N; [exists m; auto|congruence ..]. Qed.
Lemma ball_run : exists m, dmc_contour envIEEE ball = Ret m /\ (length (m_verts m), length (m_inds m)) = (33, 186)%nat.
Proof. apply (returned _ _ _ (fun m => (length (m_verts m), length (m_inds m))) (0, 0)%nat); [vm_compute; reflexivity|discriminate]. Qed.

(* C44_inside applies to it: the leaves along the sides of the root are outside, and there are triangles. *)
Example C44_ex : (exists m ts, dmc_contour envIEEE ball = Ret m /\ m_inds m = flatten ts /\ (length (m_verts m), length ts) = (33, 62)%nat) /\
  forall c a, outermost 3 (V3 (-4) (-4) (-4)) c -> leaf_at 3 (dt_root envIEEE ball) (V3 (-4) (-4) (-4)) c = Some a -> node_inside envIEEE a = false.
Proof.
  split.
  - destruct ball_run as (m & Hm & L).
    destruct (C43_mesh envIEEE 3 _ ball m ball_ok Hm) as ((ts & Hts & _) & _). exists m, ts. split; [exact Hm|]. split; [exact Hts|].
    pose proof (f_equal fst L) as L1. pose proof (f_equal snd L) as L2. cbn [fst snd] in L1, L2. rewrite L1. f_equal. rewrite Hts in L2.
    assert (G : forall l, length (flatten l) = (3 * length l)%nat) by (induction l as [|[[x y] z] l IH]; cbn [flatten length]; [reflexivity|rewrite IH; lia]).
    rewrite G in L2. lia.
  - intros c a (Hc & d & Hd) Ha.
    assert (G : forallb (fun c => match leaf_at 3 (dt_root envIEEE ball) (V3 (-4) (-4) (-4)) c with
        | Some a => negb (node_inside envIEEE a) || ((-4 <? vx c) && (vx c <? 3) && (-4 <? vy c) && (vy c <? 3) && (-4 <? vz c) && (vz c <? 3)) | None => true end)
      (OctreeFlux.box (-4, 4) (-4, 4) (-4, 4)) = true) by (vm_compute; reflexivity).
    rewrite forallb_forall in G. unfold in_cube in Hc. change (edge_len 3) with 8 in *. cbn [vx vy vz] in Hc.
    assert (Hin : In c (OctreeFlux.box (-4, 4) (-4, 4) (-4, 4))) by (apply OctreeFlux.in_box; cbn [fst snd]; lia).
    specialize (G c Hin). rewrite Ha in G. apply orb_true_iff in G as [G|G]; [apply negb_true_iff in G; exact G|].
    rewrite !andb_true_iff, !Z.ltb_lt in G. destruct d; cbn [vget vx vy vz] in Hd; lia.
Qed.
