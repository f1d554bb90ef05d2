(* C80: the normals of dual marching cubes *)
From Coq Require Import ZArith List Bool Lia Reals Lra Psatz.
From Verif Require Import Base Arith RealArith Tables MeshModel MeshSpec GridSpec FillModel EdgeSpec MCModel UdcModel CellSpec OctreeModel OctreeSpec OctreeProofs
  DcModel DcBuild QefModel QefSpec DmcModel DmcTrav DmcContour DmcSpec DmcProofs DmcMesh DmcClosed DmcBuild PropMC PropDc PropQef PropDmc PropDmcExact PropFillNum PropPlane PropDmcPlane PropNormals.
Import ListNotations.
Local Open Scope R_scope.

Section Normals.
Variables hypot copysign : R -> R -> R.
Variables msin mcos matan : R -> R.
Variables (float_min lowest highest root_three : R) (addr_of : ivec3 -> Z).
Notation build := (dmc_build envR (fun x => x) float_min lowest highest hypot copysign msin mcos matan root_three addr_of).

Lemma samples_lean : forall t args q c s, leans (ba_field envR args) c s -> forall offsets sol (avg : vec3 R) sol' avg',
  ofold (dmc_sample envR (fun x => x) float_min t args q) offsets (sol, avg) = Ret (sol', avg') -> 0 <= s * vget c avg ->
  0 <= s * vget c avg' /\ (offsets <> [] -> 0 < s * vget c avg').
Proof.
  intros t args q c s Hl. induction offsets as [|o offsets IH]; intros sol avg sol' avg' H Ha.
  - cbn in H. injection H as <- <-. split; [exact Ha|congruence].
  - cbn [ofold] in H. unfold dmc_sample in H at 1. set (p := dmc_to_global envR t _) in H.
    destruct (add_plane _ _ _ _ _ _ _) as [sol1| | | |]; try discriminate. cbn [obind] in H. pose proof (Hl p) as Hp. set (g := fl_grad (ba_field envR args) p) in *. clearbody g.
    assert (P : 0 < s * vget c (vadd3 arithR avg g)).
    { replace (vget c (vadd3 arithR avg g)) with (vget c avg + vget c g) by (destruct c; reflexivity). change (fp_D envR) with R in *. lra. }
    destruct offsets as [|o' offsets].
    + cbn in H. injection H as _ <-. split; [left; exact P|intros _; exact P].
    + destruct (IH sol1 (vadd3 arithR avg g) sol' avg' H (Rlt_le _ _ P)) as [I1 I2]. split; [exact I1|]. intros _. apply I2. discriminate.
Qed.

Lemma generated_towards : forall t args c s node q size l ok, leans (ba_field envR args) c s -> cell_samples (ba_samples envR args) q size <> [] ->
  generate_dual envR (fun x => x) float_min lowest highest hypot copysign msin mcos matan t args node q size = Ret (l, ok) ->
  exists p w N, dn_dual l = Some (p, w) /\ dn_normal l = Some N /\ unit_towards c s N.
Proof.
  intros t args c s node q size l ok Hl Hne H. unfold generate_dual in H.
  change (match ba_samples envR args with Some f => f q size | None => sample_offsets envR size end) with (cell_samples (ba_samples envR args) q size) in H.
  set (offsets := cell_samples _ q size) in *.
  destruct (ofold (dmc_sample envR (fun x => x) float_min t args q) offsets _) as [[sol avg]| | | |] eqn:Ef; try discriminate. cbn [obind] in H.
  destruct (samples_lean t args q c s Hl offsets _ _ sol avg Ef) as [_ P]; [destruct c; cbn; lra|]. specialize (P Hne).
  assert (N : unit_towards c s (narrow3 envR (normalize_d envR avg))).
  { replace (narrow3 envR (normalize_d envR avg)) with (normalize3 (E := envR) avg); [apply normalize_towards; exact P|].
    destruct avg as [x y z]. reflexivity. }
  destruct (dmc_solve _ _ _ _ _ _ _ _ _ _ _ (a_ofZ (fp_f envR) 0) (a_ofZ (fp_f envR) 0)) as [v1 sol1].
  destruct (a_lt (fp_f envR) (ba_eps envR args) (eval (fp_f envR) 4 sol1 v1)).
  - destruct (dmc_solve envR _ _ _ _ _ _ _ _ _ _ lowest highest) as [v2 sol2]. injection H as <- _. cbn [dn_dual dn_normal]. eexists _, _, _. split; [reflexivity|]. split; [reflexivity|exact N].
  - injection H as <- _. cbn [dn_dual dn_normal]. eexists _, _, _. split; [reflexivity|]. split; [reflexivity|exact N].
Qed.

(* Every field that leans to one side, every sampling with at least one sample per cell. *)
Theorem C80_dmc : forall fl c s tune eps simple samples early n t r m, leans fl c s -> (forall q size, (0 < size)%Z -> cell_samples samples q size <> []) ->
  dt_size envR t = edge_len n ->
  (forall p p', in_cube (dc_min_corner (edge_len n)) n p -> in_cube (dc_min_corner (edge_len n)) n p' -> addr_of p = addr_of p' -> p = p') ->
  build fl tune eps simple samples early t = Ret r -> dmc_contour envR r = Ret m ->
  (forall l, In l (leaves_of (dt_root envR r)) -> exists N, dn_normal l = Some N /\ unit_towards c s N) /\
  forall v, In v (m_verts m) -> unit_towards c s (mv_normal v).
Proof.
  intros fl c s tune eps simple samples early n t r m Hl Hsam Hs Hinj H Hm.
  assert (C : forall l, In l (leaves_of (dt_root envR r)) -> exists p w N, dn_dual l = Some (p, w) /\ dn_normal l = Some N /\ unit_towards c s N).
  { intros l Hin. destruct (leaf_cubes _ _ _ _ _ _ l (C69_leaves envR _ _ _ _ _ _ _ _ _ _ _ fl tune eps simple samples early n t r Hs H) Hin) as (q' & n' & (ok & Hg & _) & _).
    apply (generated_towards t (node_args envR fl tune eps simple samples early t) c s (@dmc_fresh (fp_F envR) (addr_of q')) q' (edge_len n') l ok Hl); [apply Hsam; unfold edge_len; apply Z.pow_pos_nonneg; lia|exact Hg]. }
  split; [intros l Hin; destruct (C l Hin) as (p & w & N & _ & X); exists N; exact X|]. intros v Hv.
  destruct (C67_tiles envR (fun x => x) float_min lowest highest hypot copysign msin mcos matan root_three addr_of fl tune eps simple samples early n t r Hs H) as (_ & _ & Hs' & Ht & Hd).
  assert (Kt : dmc_tree_ok envR n (dc_min_corner (edge_len n)) r).
  { constructor; [exact Hs'| |apply Hd; exact Hinj]. eapply tree_ok_mono; [|exact Ht]. auto. }
  destruct (C43_mesh envR n _ r m Kt Hm) as (_ & num & N & _). apply In_nth_error in Hv as (k & Hk).
  assert (Lk : (k < length (m_verts m))%nat) by (apply nth_error_Some; congruence).
  destruct (num_from _ _ _ _ _ _ N (Z.of_nat k)) as (e & x & y & v' & J & O & _ & Z & V); [unfold mesh_vertex_count, zlen; lia|].
  rewrite znth_nat in Z by lia. rewrite Nat2Z.id in Z. assert (v' = v) by congruence. subst v'.
  destruct J as (_ & Jx & Jy).
  destruct (C x (leaf_at_in _ _ _ _ _ _ Jx)) as (p1 & w1 & n1 & D1 & N1 & U1). destruct (C y (leaf_at_in _ _ _ _ _ _ Jy)) as (p2 & w2 & n2 & D2 & N2 & U2). clear C.
  pose proof (opposite_cases x y p1 w1 p2 w2 D1 D2 O) as C. clear - N1 N2 V D1 D2 C U1 U2.
  unfold dmc_vertex in V. change (fp_F envR) with R in *. rewrite D1, D2, N1, N2 in V. cbn [oread obind fst snd] in V.
  destruct (dn_mat x) as [m1|]; [|discriminate]. cbn [oread obind] in V. destruct (if (m1 =? Empty)%Z then _ else _) as [mt| | | |]; try discriminate. cbn [obind] in V.
  injection V as <-. cbn [mv_normal]. apply normalize_towards.
  destruct U1 as [_ U1], U2 as [_ U2]. change (a_abs (fp_f envR) w1) with (Rabs w1). change (a_abs (fp_f envR) w2) with (Rabs w2).
  assert (L : s * vget c (lerp3 envR n1 (Rabs w1) n2 (Rabs w2)) = (s * vget c n1 * Rabs w2 + s * vget c n2 * Rabs w1) * / (Rabs w1 + Rabs w2)).
  { destruct n1 as [x1 y1 z1], n2 as [x2 y2 z2]. destruct c; unfold lerp3, lerp1; cbn [vget vx vy vz envR fp_F fp_f arithR a_div a_add a_mul]; unfold Rdiv; ring. }
  refine (eq_ind_r (fun z : R => 0 < z) _ L). clear L. set (u1 := s * vget c n1) in *. set (u2 := s * vget c n2) in *. clearbody u1 u2.
  assert (B : 0 <= Rabs w1 /\ 0 <= Rabs w2 /\ (0 < Rabs w1 \/ 0 < Rabs w2)).
  { split; [apply Rabs_pos|]. split; [apply Rabs_pos|]. destruct C as [[C1 C2]|[C1 C2]]; [right|left]; unfold Rabs; destruct (Rcase_abs _); lra. }
  destruct B as (B1 & B2 & B3). set (a1 := Rabs w1) in *. set (a2 := Rabs w2) in *. clearbody a1 a2.
  apply Rmult_lt_0_compat; [destruct B3; nra|apply Rinv_0_lt_compat; lra].
Qed.
End Normals.
Print Assumptions C80_dmc.

(* The half space of C79 leans towards Y; its mesh is not empty. *)
Lemma slope_leans : leans slope AY 1.
Proof. intro p. cbn. lra. Qed.
Example C80_dmc_ex : exists r m v, dmc_build envR (fun x => x) least_normal (-100) 100 (fun x y => sqrt (x * x + y * y)) (fun x _ => x) sin cos atan (sqrt 3) place
    slope (Tuning (/ 10) (/ 100) 15 true) 0 false None false eight = Ret r /\ dmc_contour envR r = Ret m /\ In v (m_verts m) /\ unit_towards AY 1 (mv_normal v).
Proof.
  destruct C79_ex as (_ & _ & _ & _ & H4 & _ & H5 & r & m & Hr & Hm & Hne). destruct (m_verts m) as [|v l] eqn:X; [congruence|]. exists r, m, v.
  split; [exact Hr|]. split; [exact Hm|]. rewrite X. split; [left; reflexivity|].
  eapply (C80_dmc _ _ _ _ _ _ _ _ _ place slope AY 1 _ _ _ None _ 3%nat eight r m slope_leans); [|reflexivity|exact H5|exact Hr|exact Hm|rewrite X; left; reflexivity].
  intros q size _. discriminate.
Qed.
