(* C82 for dual marching cubes, and a case for all meshers. *)
From Coq Require Import ZArith List Bool Lia Reals Lra Psatz.
From Flocq Require Import IEEE754.BinarySingleNaN.
From Verif Require Import Base Arith RealArith GridModel EdgeModel FillModel ZeroModel MeshModel MCModel UdcModel OctreeModel DcModel MdcModel QefModel DmcModel PropMoved.
Import ListNotations.
Local Open Scope R_scope.

Lemma global_one : forall l, outwards 1 origin l = l.
Proof. intros [a b c]. unfold outwards, origin. cbn [vx vy vz]. rewrite !Rmult_1_r, !Rplus_0_r. reflexivity. Qed.

Lemma step_out : forall s p a o k, vadd3 arithR (outwards s p a) (vscale3 arithR o (k * s)) = outwards s p (vadd3 arithR a (vscale3 arithR o (k * 1))).
Proof. intros s p [a b c] [x y z] k. unfold outwards, vadd3, vscale3. cbn [vx vy vz arithR a_add a_mul]. f_equal; ring. Qed.

Lemma step_out_l : forall s p a (o : vec3 R) k, vadd3 arithR (outwards s p a) (V3 (k * s * vx o) (k * s * vy o) (k * s * vz o))
  = outwards s p (vadd3 arithR a (V3 (k * 1 * vx o) (k * 1 * vy o) (k * 1 * vz o))).
Proof. intros s p [a b c] [x y z] k. unfold outwards, vadd3. cbn [vx vy vz arithR a_add a_mul]. f_equal; ring. Qed.

Section Dmc.
Variables (widen : R -> R) (float_min lowest highest : R) (hypot copysign : R -> R -> R) (msin mcos matan : R -> R) (root_three : R).
Variable addr_of : ivec3 -> Z.
Variables (f : field envR) (s : R) (p : vec3 R).
Hypothesis Hs : 0 < s.
Variables (size : Z) (root root' : otree (dmc_leaf R) unit) (tune : tuning R) (eps : R) (simple : bool) (samples : option (ivec3 -> Z -> list (vec3 R))) (early : bool).

Let t : dmc_octree envR := DmcOctree envR origin 1 size root.
Let t' : dmc_octree envR := DmcOctree envR p s size root'.
Let args : dmc_args envR := DmcArgs envR f tune eps simple samples early.
Let args' : dmc_args envR := DmcArgs envR (moved f s p) tune eps simple samples early.

Lemma moved_value : forall l, fl_value (moved f s p) (outwards s p l) = s * fl_value f l.
Proof. intro l. cbn [moved fl_value]. rewrite in_out by assumption. reflexivity. Qed.
Lemma moved_grad : forall l, fl_grad (moved f s p) (outwards s p l) = fl_grad f l.
Proof. intro l. cbn [moved fl_grad]. rewrite in_out by assumption. reflexivity. Qed.
Lemma moved_material : forall l w, fl_material (moved f s p) (outwards s p l) (w * s) = fl_material f l w.
Proof. intros l w. cbn [moved fl_material]. rewrite in_out by assumption. f_equal. field. lra. Qed.

Lemma to_global : forall l, dmc_to_global envR t l = l.
Proof. intro l. exact (global_one l). Qed.
Lemma to_global' : forall l, dmc_to_global envR t' l = outwards s p l.
Proof. reflexivity. Qed.

Lemma sample_same : forall q st o, dmc_sample envR widen float_min t' args' q st o = dmc_sample envR widen float_min t args q st o.
Proof.
  intros q [sol avg] o. unfold dmc_sample. rewrite to_global, to_global'.
  cbn [args args' ba_field]. rewrite moved_grad.
  replace (a_div (fp_d envR) (fl_value (moved f s p) (outwards s p (widen3 envR widen (vadd3 (fp_f envR) (vofZ3 (fp_f envR) q) o)))) (dt_scale envR t'))
    with (a_div (fp_d envR) (fl_value f (widen3 envR widen (vadd3 (fp_f envR) (vofZ3 (fp_f envR) q) o))) (dt_scale envR t)).
  - reflexivity.
  - rewrite moved_value. set (v := fl_value f _). change (v / 1 = s * v / s). change (fp_D envR) with R in v. field. lra.
Qed.

Lemma dual_same : forall node q n,
  generate_dual envR widen float_min lowest highest hypot copysign msin mcos matan t' args' node q n
  = generate_dual envR widen float_min lowest highest hypot copysign msin mcos matan t args node q n.
Proof.
  intros node q n. unfold generate_dual. cbn [args args' ba_samples ba_eps ba_field].
  change (DmcArgs envR (moved f s p) tune eps simple samples early) with args'. change (DmcArgs envR f tune eps simple samples early) with args.
  rewrite (fold_same _ _ _ (dmc_sample envR widen float_min t args q)) by (intros; apply sample_same).
  destruct (ofold _ _ _) as [[sol avg]| | | |]; try reflexivity. cbn [obind].
  change (dmc_solve envR float_min hypot copysign msin mcos matan args') with (dmc_solve envR float_min hypot copysign msin mcos matan args).
  destruct (dmc_solve _ _ _ _ _ _ _ _ _ _ _ _ _) as [v1 s1].
  match goal with |- (let '(v, error) := ?x in _) = _ => destruct x as [v error] end.
  rewrite to_global, to_global'. do 4 f_equal. destruct (dmc_inside envR (v 3%nat)); [|reflexivity]. f_equal.
  refine (eq_trans (moved_material _ _) _). f_equal. symmetry. exact (Rmult_1_r _).
Qed.

Lemma stop_same : forall q n, should_stop envR root_three t' args' q n = should_stop envR root_three t args q n.
Proof.
  intros q n. unfold should_stop. rewrite to_global, to_global'. cbn [args args' ba_field]. generalize (zseq 0 8). intro l.
  induction l as [|i l IH]; [reflexivity|]. cbn [forallb]. rewrite IH. f_equal. f_equal.
  refine (eq_trans (f_equal (fun x => Rleb (Rabs (fl_value (moved f s p) x)) (IZR n * s * root_three)) (step_out_l s p (vofZ3 arithR q) (vofZ3 arithR (corner_offset i)) (IZR n))) _).
  refine (eq_trans (f_equal (fun v : R => Rleb (Rabs v) (IZR n * s * root_three)) (moved_value _)) _).
  rewrite abs_scale by assumption. replace (IZR n * s * root_three) with (s * (IZR n * 1 * root_three)) by ring.
  apply le_scale. assumption.
Qed.

Lemma split_point_out : forall c n h, split_point envR (outwards s p c) (IZR n * s) h = outwards s p (split_point envR c (IZR n * 1) h).
Proof.
  intros c n h. unfold split_point.
  set (o := fun (k : R) j => if (j mod 2 =? 0)%Z then 0 else k).
  assert (P : forall a, vadd3 arithR (outwards s p a) (V3 (o (IZR n * s * (1 / 2)) (vx h)) (o (IZR n * s * (1 / 2)) (vy h)) (o (IZR n * s * (1 / 2)) (vz h)))
    = outwards s p (vadd3 arithR a (V3 (o (IZR n * 1 * (1 / 2)) (vx h)) (o (IZR n * 1 * (1 / 2)) (vy h)) (o (IZR n * 1 * (1 / 2)) (vz h))))).
  { intros [a b d]. unfold outwards, vadd3, o. cbn [vx vy vz arithR a_add]. f_equal; destruct (_ =? 0)%Z; field. }
  destruct ((vx h <? 2)%Z && (vy h <? 2)%Z && (vz h <? 2)%Z).
  - exact (P c).
  - refine (eq_trans (f_equal (fun x => vadd3 arithR x _) (step_out s p c _ (IZR n))) _). exact (P _).
Qed.

Lemma split_same : s = 1 -> forall q n, should_split envR widen t' args' q n = should_split envR widen t args q n.
Proof.
  intros S1 q n. unfold should_split. rewrite to_global, to_global'. cbn [args args' ba_field ba_eps]. f_equal.
  set (value' := fun i => fl_value (moved f s p) _). set (value := fun i => fl_value f _).
  assert (V : forall i, value' i = value i).
  { intro i. unfold value', value. destruct (i =? 0)%Z.
    - rewrite moved_value, S1. apply Rmult_1_l.
    - refine (eq_trans (f_equal (fl_value (moved f s p)) (step_out s p (vofZ3 arithR q) (vofZ3 arithR (corner_offset i)) (IZR n))) _).
      rewrite moved_value, S1. apply Rmult_1_l. }
  generalize (false, a_ofZ (fp_d envR) 0). generalize split_points. intro l. induction l as [|e l IH]; intro st; [reflexivity|].
  cbn [fold_left]. rewrite IH. f_equal. destruct st as [stop err]. destruct stop; [reflexivity|].
  assert (P : split_point envR (outwards s p (vofZ3 (fp_d envR) q)) (a_mul (fp_d envR) (a_ofZ (fp_d envR) n) (dt_scale envR t')) (fst e)
    = outwards s p (split_point envR (vofZ3 (fp_d envR) q) (a_mul (fp_d envR) (a_ofZ (fp_d envR) n) (dt_scale envR t)) (fst e))) by apply split_point_out.
  rewrite P. rewrite moved_grad.
  replace (fl_value (moved f s p) (outwards s p (split_point envR (vofZ3 (fp_d envR) q) (a_mul (fp_d envR) (a_ofZ (fp_d envR) n) (dt_scale envR t)) (fst e))))
    with (fl_value f (split_point envR (vofZ3 (fp_d envR) q) (a_mul (fp_d envR) (a_ofZ (fp_d envR) n) (dt_scale envR t)) (fst e))).
  2:{ rewrite moved_value, S1. symmetry. apply Rmult_1_l. }
  replace (map value' (snd e)) with (map value (snd e)); [reflexivity|]. apply map_ext. intro i. symmetry. apply V.
Qed.

Lemma node_same : simple = false \/ s = 1 -> forall fuel q n,
  dmc_build_node envR widen float_min lowest highest hypot copysign msin mcos matan root_three addr_of fuel t' args' q n
  = dmc_build_node envR widen float_min lowest highest hypot copysign msin mcos matan root_three addr_of fuel t args q n.
Proof.
  intros Hc. induction fuel as [|fuel IH]; intros q n; [reflexivity|]. cbn [dmc_build_node].
  rewrite dual_same, stop_same.
  assert (M : forall l, omap (fun i => dmc_build_node envR widen float_min lowest highest hypot copysign msin mcos matan root_three addr_of fuel t' args' (vadd q (vscale (Z.quot n 2) (corner_offset i))) (Z.quot n 2)) l
    = omap (fun i => dmc_build_node envR widen float_min lowest highest hypot copysign msin mcos matan root_three addr_of fuel t args (vadd q (vscale (Z.quot n 2) (corner_offset i))) (Z.quot n 2)) l).
  { induction l as [|i l IHl]; [reflexivity|]. cbn [omap]. rewrite IH, IHl. reflexivity. }
  rewrite M. destruct Hc as [Hc|Hc].
  - cbn [args args' ba_simple ba_early]. rewrite Hc. reflexivity.
  - rewrite (split_same Hc). reflexivity.
Qed.
End Dmc.

(* C82, DMC_Octree.  With the default split policy for every scale, with the simple one for moves only. *)
Theorem C82_dmc_partial : forall widen float_min lowest highest hypot copysign msin mcos matan root_three addr_of f s p size root tune eps simple samples early,
  0 < s -> simple = false \/ s = 1 -> forall r m,
  dmc_build envR widen float_min lowest highest hypot copysign msin mcos matan root_three addr_of f tune eps simple samples early (DmcOctree envR origin 1 size root) = Ret r ->
  dmc_contour envR r = Ret m ->
  exists r', dmc_build envR widen float_min lowest highest hypot copysign msin mcos matan root_three addr_of (moved f s p) tune (eps * (s * s)) simple samples early
      (DmcOctree envR p s size root) = Ret r' /\
    dt_root envR r' = dt_root envR r /\ dmc_contour envR r' = Ret m.
Proof.
  intros widen float_min lowest highest hypot copysign msin mcos matan root_three addr_of f s p size root tune eps simple samples early Hs Hc r m H Hm.
  unfold dmc_build in *. cbn [dt_size dt_scale dt_pos] in *.
  assert (Q : a_div (fp_f envR) (eps * (s * s)) (fp_narrow envR (a_mul (fp_d envR) s s)) = a_div (fp_f envR) eps (fp_narrow envR (a_mul (fp_d envR) 1 1)))
    by (exact (eps_scaled eps s Hs)).
  rewrite Q. rewrite (node_same widen float_min lowest highest hypot copysign msin mcos matan root_three addr_of f s p Hs size root root tune _ simple samples early Hc).
  destruct (dmc_build_node _ _ _ _ _ _ _ _ _ _ _ _ _ _ _ _ _) as [rt| | | |]; try discriminate. cbn [obind] in *. injection H as <-.
  exists (DmcOctree envR p s size rt). split; [reflexivity|]. split; [reflexivity|]. exact Hm.
Qed.
Print Assumptions C82_dmc_partial.

(* With the simple split policy the octree does depend on the scale: shouldSplit compares the differences of global
   values with the tolerance for squared local distances (dmc_octree.cpp:26, 478, 513).  The solid y < 0 as a step
   from -16 to 16, an octree of 4 cells across and a tolerance of 200: in the cells of half the size below y = 0 the
   differences add up to 144, they are not split and the mesh is a square.  At scale 2, with everything doubled (which
   is exact in binary arithmetic) and 4 times the tolerance, they add up to 288, the cells are split and the mesh has
   16 vertices. *)
From Verif Require Import FloatArith PropDmc PropDmcIeee PropQefSolve.
Definition floor_step : field envIEEE :=
  @Field envIEEE (fun p : vec3 b64 => if a_lt arith64 (vy p) (f64 0 0) then f64 (-16) 0 else f64 16 0) (fun _ => V3 (f64 0 0) (f64 0 0) (f64 0 0)) (fun _ _ => 7%Z).
Definition doubled (f : field envIEEE) : field envIEEE :=
  let two := f64 2 0 in
  let half (p : vec3 b64) := V3 (a_div arith64 (vx p) two) (a_div arith64 (vy p) two) (a_div arith64 (vz p) two) in
  @Field envIEEE (fun p => a_mul arith64 two (fl_value f (half p))) (fun p => fl_grad f (half p)) (fun p v => fl_material f (half p) (a_div arith64 v two)).
Definition has_vertices (n : Z) (o : outcome (mesh (mvert b32))) : bool := match o with Ret m => (mesh_vertex_count m =? n)%Z | _ => false end.

(* buildNode again, with the branches that are not taken left alone *)
Section Strict.
Context {E : fpenv}.
Variables (widen : fp_F E -> fp_D E) (float_min lowest highest : fp_F E) (hypot copysign : fp_F E -> fp_F E -> fp_F E) (msin mcos matan : fp_F E -> fp_F E) (root_three : fp_D E) (addr_of : ivec3 -> Z).
Fixpoint node_strict (fuel : nat) (t : dmc_octree E) (args : dmc_args E) (q : ivec3) (size : Z) : outcome (otree (dmc_leaf (fp_F E)) unit) :=
  match fuel with
  | O => NoFuel
  | S fuel' =>
      let leaf (_ : unit) := '(l, ok) <- generate_dual E widen float_min lowest highest hypot copysign msin mcos matan t args (dmc_fresh (addr_of q)) q size ;; Ret (OLeaf l, ok) in
      let split (_ : unit) :=
        let child_size := Z.quot size 2 in
        cs <- omap (fun i => node_strict fuel' t args (vadd q (vscale child_size (corner_offset i))) child_size) (zseq 0 8) ;;
        Ret (ONode tt cs) in
      if (size =? 1)%Z then '(l, _) <- leaf tt ;; Ret l
      else if ba_early E args && should_stop E root_three t args q size then '(l, _) <- leaf tt ;; Ret l
      else if ba_simple E args then
        if (size =? dt_size E t)%Z || should_split E widen t args q size then split tt
        else '(l, _) <- leaf tt ;; Ret l
      else if (i32max <? size * 8)%Z then UB
      else if (size * 8 <? dt_size E t)%Z then
        '(l, ok) <- leaf tt ;;
        if ok : bool then Ret l else split tt
      else split tt
  end.
Lemma omap_same : forall X Y (k k' : X -> outcome Y) l, (forall x, k x = k' x) -> omap k l = omap k' l.
Proof. intros X Y k k' l H. induction l as [|x l IH]; [reflexivity|]. cbn [omap]. rewrite H, IH. reflexivity. Qed.
Lemma node_strict_same : forall fuel t args q size,
  dmc_build_node E widen float_min lowest highest hypot copysign msin mcos matan root_three addr_of fuel t args q size = node_strict fuel t args q size.
Proof.
  induction fuel as [|fuel IH]; intros t args q size; [reflexivity|]. cbn [dmc_build_node node_strict].
  rewrite (omap_same _ _ _ _ (zseq 0 8) (fun i => IH t args (vadd q (vscale (Z.quot size 2) (corner_offset i))) (Z.quot size 2))). reflexivity.
Qed.
Definition build_strict (fl : field E) (tune : tuning (fp_F E)) (eps : fp_F E) (simple : bool) (samples : option (ivec3 -> Z -> list (vec3 (fp_F E)))) (early : bool) (t : dmc_octree E) : outcome (dmc_octree E) :=
  let scaled := a_div (fp_f E) eps (fp_narrow E (a_mul (fp_d E) (dt_scale E t) (dt_scale E t))) in
  root <- node_strict (dc_fuel (dt_size E t)) t (DmcArgs E fl tune scaled simple samples early) (dc_min_corner (dt_size E t)) (dt_size E t) ;;
  Ret (DmcOctree E (dt_pos E t) (dt_scale E t) (dt_size E t) root).
Lemma build_strict_same : forall fl tune eps simple samples early t,
  dmc_build E widen float_min lowest highest hypot copysign msin mcos matan root_three addr_of fl tune eps simple samples early t = build_strict fl tune eps simple samples early t.
Proof. intros. unfold dmc_build, build_strict. rewrite node_strict_same. reflexivity. Qed.
End Strict.
Lemma run_same : forall X Y W start (k k' : X -> outcome Y) (c : Y -> outcome W) good, (forall t, k t = k' t) -> run_test X Y W start k' c good = true -> run_test X Y W start k c good = true.
Proof. intros X Y W start k k' c good H H'. unfold run_test in *. destruct start; try discriminate. rewrite H. exact H'. Qed.
Lemma small_run : forall hypot copysign msin mcos matan,
  run_test _ _ _ (dmc_new envIEEE place_of 4 origin64 (f64 1 0)) (build32 hypot copysign msin mcos matan floor_step default_tuning (f32 200 0) true None false)
    (dmc_contour envIEEE) (has_vertices 4) = true.
Proof. intros hypot copysign msin mcos matan. eapply run_same; [intro t; apply build_strict_same|]. vm_cast_no_check (@eq_refl bool true). Qed.
Lemma doubled_run : forall hypot copysign msin mcos matan,
  run_test _ _ _ (dmc_new envIEEE place_of 4 origin64 (f64 2 0)) (build32 hypot copysign msin mcos matan (doubled floor_step) default_tuning (f32 800 0) true None false)
    (dmc_contour envIEEE) (has_vertices 16) = true.
Proof. intros hypot copysign msin mcos matan. eapply run_same; [intro t; apply build_strict_same|]. vm_cast_no_check (@eq_refl bool true). Qed.

Theorem C82_dmc_simple_refuted : forall hypot copysign msin mcos matan, exists f t r m t' r' m',
  dmc_new envIEEE place_of 4 origin64 (f64 1 0) = Ret t /\
  build32 hypot copysign msin mcos matan f default_tuning (f32 200 0) true None false t = Ret r /\ dmc_contour envIEEE r = Ret m /\
  dmc_new envIEEE place_of 4 origin64 (f64 2 0) = Ret t' /\
  build32 hypot copysign msin mcos matan (doubled f) default_tuning (f32 800 0) true None false t' = Ret r' /\ dmc_contour envIEEE r' = Ret m' /\
  mesh_vertex_count m = 4%Z /\ mesh_vertex_count m' = 16%Z.
Proof.
  intros hypot copysign msin mcos matan.
  destruct (run_tested _ _ _ _ _ _ _ (small_run hypot copysign msin mcos matan)) as (t & r & Ht & Hr & G).
  destruct (run_tested _ _ _ _ _ _ _ (doubled_run hypot copysign msin mcos matan)) as (t' & r' & Ht' & Hr' & G').
  unfold has_vertices in G, G'. destruct (dmc_contour envIEEE r) as [m| | | |] eqn:M; try discriminate. destruct (dmc_contour envIEEE r') as [m'| | | |] eqn:M'; try discriminate.
  apply Z.eqb_eq in G. apply Z.eqb_eq in G'. exists floor_step, t, r, m, t', r', m'.
  split; [exact Ht|]. split; [exact Hr|]. split; [exact M|]. split; [exact Ht'|]. split; [exact Hr'|]. split; [exact M'|]. split; [exact G|exact G'].
Qed.
Print Assumptions C82_dmc_simple_refuted.
