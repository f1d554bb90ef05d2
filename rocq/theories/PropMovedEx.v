(* C82: concrete cases *)
From Coq Require Import ZArith List Bool Lia Reals Lra.
From Verif Require Import LoopLemmas Arith RealArith MeshModel GridModel GridSpec EdgeModel EdgeSpec FillModel FillSpec FillProofs ZeroModel
  CellSpec MCModel UdcModel QefModel QefSpec SolverModel PropFill PropFillNum PropZero PropMC PropUdc DcModel OctreeModel OctreeSpec DcSpec DcBuild DcQef DcContour PropDc PropQef PropDcQef PropFlat PropPlane QefPlane PlaneMerge PropDcPlane
  MdcModel MdcSpec MdcContour PropMdc DmcModel PropDmcPlane PropMoved PropMovedDmc Base.
Import ListNotations.
Local Open Scope R_scope.

Definition there : vec3 R := V3 5 6 7.

(* The half space of C74 on 4 x 4 x 4 cells, and the same with cells 3 across around (5, 6, 7): the mesh of the one is
   not empty, and the other has it as well. *)
Example C82_mc_ex : exists g g' m, filled_at 4 origin 1 half_field (regula_falsi 5) g /\ filled_at 4 there 3 (moved half_field 3 there) (regula_falsi 5) g' /\
  marching_cubes (isort entry_less) g = Ret m /\ marching_cubes (isort entry_less) g' = Ret m /\ m_verts m <> [].
Proof.
  destruct C74_mc_ex as (g & calls & m & Hf & Hm & Hn).
  assert (F : filled_at 4 origin 1 half_field (regula_falsi 5) g) by (exists calls; exact Hf).
  destruct (C82_mc half_field 3 there (regula_falsi 5) 4 g (isort entry_less) ltac:(lra) (C82_regula_falsi 5) F) as (g' & F' & Hm').
  exists g, g', m. rewrite Hm'. auto.
Qed.

(* Its octree *)
Example C82_dc_ex : forall simplify, exists g g' root sol1 t1 t2 t1' t2' m, filled_at 4 origin 1 half_field (regula_falsi 5) g /\ filled_at 4 there 3 (moved half_field 3 there) (regula_falsi 5) g' /\
  let ops : qef_ops (fp_F envR) (solver R) (qstate R) := solver3_ops arithR least_normal true_hypot true_copysign sin cos atan tuningR in
  @dc_build envR _ _ ops g 1 simplify (@DcOctree envR _ 1 4 root) (q_new arithR) = Ret (t1, sol1) /\ dc_contour t1 = Ret (t2, m) /\
  @dc_build envR _ _ ops g' (1 * (3 * 3)) simplify (@DcOctree envR _ 3 4 root) (q_new arithR) = Ret (t1', sol1) /\ dc_contour t1' = Ret (t2', m).
Proof.
  intro simplify. assert (Hv : valid_size (g_size grid4R)) by (exists 2%Z; split; [lia|reflexivity]).
  assert (Hn : nan_free grid4R half_field) by apply nan_freeR.
  assert (Hs : solid_inside grid4R half_field) by (intros p Hp Hl; discriminate).
  destruct (fill_represents envR grid4R half_field (regula_falsi 5) Hv Hn Hs) as (g & calls & Hf & Hsz & _).
  assert (HF : filled g (fun p => le0 envR (sample grid4R half_field p))) by (apply (filled_by grid4R half_field _ _ _ Hv Hn Hs Hf)).
  assert (Hle : (4 <= g_size g)%Z) by (rewrite Hsz; discriminate).
  pose (ops := solver3_ops arithR least_normal true_hypot true_copysign sin cos atan tuningR : qef_ops (fp_F envR) (solver R) (qstate R)).
  set (t0 := @DcOctree envR (qstate R) 1 4 (OLeaf (@dc_fresh envR (qstate R) 0))).
  assert (R0 : dc_reached ops 4 t0) by (apply (@reached_new envR _ _ ops 4 1); reflexivity).
  destruct (build_reached _ _ _ ops 4 t0 g _ 1 simplify (q_new arithR) R0 HF Hle) as (t1 & sol1 & Hb & _ & _ & _ & Hok).
  destruct (contour_reached _ _ _ _ _ _ _ _ _ _ _ _ _ R0 HF Hle Hb) as (_ & t2 & m & ts & Hm & _).
  assert (F : filled_at 4 origin 1 half_field (regula_falsi 5) g) by (exists calls; exact Hf).
  destruct (C82_dc ops half_field 3 there (regula_falsi 5) 4 g ltac:(lra) (C82_regula_falsi 5) F) as (g' & F' & H).
  destruct (H 4%Z (OLeaf (@dc_fresh envR (qstate R) 0)) 1 simplify (q_new arithR) t1 sol1 t2 m Hb Hm) as (t1' & t2' & Hb' & Hm').
  exists g, g', (OLeaf (@dc_fresh envR (qstate R) 0)), sol1, t1, t2, t1', t2', m. split; [exact F|]. split; [exact F'|]. split; [exact Hb|]. split; [exact Hm|]. split; [exact Hb'|exact Hm'].
Qed.

(* Dual marching cubes for the half space 2x + y < 1/2 of C79 *)
Example C82_dmc_ex : exists r r' m,
  let build := dmc_build envR (fun x => x) least_normal (-100) 100 (fun x y => sqrt (x * x + y * y)) (fun x _ => x) sin cos atan (sqrt 3) place in
  build slope (Tuning (/ 10) (/ 100) 15 true) 0 false None false (DmcOctree envR origin 1 8 (OLeaf (dmc_fresh 0))) = Ret r /\ dmc_contour envR r = Ret m /\ m_verts m <> [] /\
  build (moved slope 3 there) (Tuning (/ 10) (/ 100) 15 true) (0 * (3 * 3)) false None false (DmcOctree envR there 3 8 (OLeaf (dmc_fresh 0))) = Ret r' /\ dmc_contour envR r' = Ret m.
Proof.
  destruct C79_ex as (_ & _ & _ & _ & _ & _ & _ & r & m & Hr & Hm & Hne).
  destruct (C82_dmc_partial _ _ _ _ _ _ _ _ _ _ _ slope 3 there 8 (OLeaf (dmc_fresh 0)) (Tuning (/ 10) (/ 100) 15 true) 0 false None false ltac:(lra) (or_introl eq_refl) r m Hr Hm) as (r' & Hr' & _ & Hm').
  exists r, r', m. split; [exact Hr|]. split; [exact Hm|]. split; [exact Hne|]. split; [exact Hr'|exact Hm'].
Qed.
