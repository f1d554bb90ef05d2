(* fill and edge geometry with concrete arithmetic: C10, C12, C52 in exact
   arithmetic, C10 and C53 refuted in IEEE arithmetic, instances of C08 and C09 *)
From Coq Require Import ZArith List Bool Lia Reals Lra Psatz.
From Flocq Require Import Core BinarySingleNaN.
From Verif Require Import Base Arith RealArith FloatArith GridModel GridSpec GridProofs EdgeModel EdgeSpec EdgeProofs
  LoopLemmas FillModel FillSpec FillProofs PropFill.
Import ListNotations.

(* ---- C10 ---- *)
Section Exact.
Local Open Scope R_scope.

Lemma accumR : forall (low step : R) k, accum arithR low step k = low + IZR (Z.of_nat k) * step.
Proof.
  induction k as [|k IH]; cbn [accum].
  - change (Z.of_nat 0) with 0%Z. lra.
  - rewrite IH. cbn [arithR a_add]. rewrite Nat2Z.inj_succ, <- Z.add_1_r, plus_IZR. lra.
Qed.

Lemma sample_posR : forall (g : ugrid envR) p, valid_size (g_size g) -> vertex_in (g_size g) p ->
  sample_pos g p = local_to_global envR (g_step g) (g_pos g) (vofZ3 arithR p).
Proof.
  intros g p Hv Hp. destruct (valid_even _ Hv) as (h & Hn & Hb & E1 & E2).
  apply (vertex_in_iff _ h) in Hp; [|assumption].
  unfold sample_pos. rewrite E2. cbv zeta. cbn [fp_d envR].
  rewrite !accumR. unfold local_to_global, vadd3, vscale3, vofZ3. cbn [fp_d envR arithR vx vy vz a_add a_mul a_ofZ].
  rewrite !Z2Nat.id by lia. rewrite !plus_IZR, !opp_IZR. f_equal; lra.
Qed.

(* Exact arithmetic: every call of the solver gets the field values at the
   ends of the interval it gets, and they satisfy the documented precondition
   (one is non-positive, the other positive). *)
Theorem C10_exact : forall (g : ugrid envR) f solver g' calls c, valid_size (g_size g) ->
  fill g f solver = Ret (g', calls) -> In c calls ->
  zc_f0 c = fl_value f (zc_start c) /\
  zc_f1 c = fl_value f (vset envR (zc_axis c) (zc_start c) (zc_end c)) /\
  zc_end c = vget (zc_axis c) (zc_start c) + g_step g /\
  (zc_f0 c : R) * zc_f1 c <= 0 /\ Rabs (zc_f0 c) + Rabs (zc_f1 c) > 0.
Proof.
  intros g f solver g' calls c Hv Hf Hc.
  destruct (C10_calls _ _ _ _ _ _ _ Hv Hf Hc) as (d & p & Hin & H1 & H2 & H3 & H4 & H5 & H6).
  assert (V1 : vertex_in (g_size g) p) by (apply Hin; left; reflexivity).
  assert (V2 : vertex_in (g_size g) (vadd p (unit_vec d))) by (apply Hin; right; left; reflexivity).
  rewrite sample_posR in H4, H5 by assumption.
  assert (Hs : zc_start c = local_to_global envR (g_step g) (g_pos g) (vofZ3 arithR p)) by exact H2.
  split; [rewrite H4, Hs; reflexivity|]. split; [|split].
  - rewrite H5, H3, H1, Hs. f_equal.
    unfold local_to_global, vadd3, vscale3, vofZ3.
    destruct d; cbn [fp_d envR arithR vx vy vz a_add a_mul a_ofZ vset vget unit_vec vadd];
      rewrite ?plus_IZR; f_equal; lra.
  - rewrite H3, H1, Hs. reflexivity.
  - unfold le0 in H6. cbn [fp_d envR arithR a_le a_ofZ] in H6.
    set (u := zc_f0 c : R) in *. set (v := zc_f1 c : R) in *. change (fp_D envR) with R in *.
    destruct (Rleb u 0) eqn:A, (Rleb v 0) eqn:B; try congruence;
      rewrite ?Rleb_iff, ?Rleb_false in *; (split; [nra|]);
      unfold Rabs; destruct (Rcase_abs u), (Rcase_abs v); lra.
Qed.
Print Assumptions C10_exact.

Theorem C52_inverse : forall (step : R) (pos p : vec3 R), step <> 0 ->
  global_to_local envR step pos (local_to_global envR step pos p) = p /\
  local_to_global envR step pos (global_to_local envR step pos p) = p.
Proof.
  intros step [a b c] [x y z] Hs. unfold global_to_local, local_to_global, vadd3, vsub3, vscale3.
  cbn [fp_d envR arithR vx vy vz a_add a_sub a_mul a_div].
  split; f_equal; field; assumption.
Qed.
Print Assumptions C52_inverse.

(* ---- C12 ---- *)

Definition sqr (x : R) : R := x * x.
Definition norm2 (v : vec3 R) : R := sqr (vx v) + sqr (vy v) + sqr (vz v).

Lemma eps_pos : 0 < / 2 ^ 52.
Proof. apply Rinv_0_lt_compat. apply pow_lt. lra. Qed.

Lemma length3R : forall v, length3 arithR v = sqrt (norm2 v).
Proof. intros [x y z]. reflexivity. Qed.

Lemma make_edgeR : forall lx ly lz (grad : vec3 R) (off : R) d sol mat (e : uedge R),
  make_edge envR lx ly lz grad off (axis_num d) sol mat = Ret e ->
  ue_nx e = vx grad / (sqrt (norm2 grad) + / 2 ^ 52) /\
  ue_nz e = vz grad / (sqrt (norm2 grad) + / 2 ^ 52) /\
  ue_ysign e = Rltb (vy grad) 0 /\ ue_off e = off /\ ue_axis e = axis_num d /\
  lesser_endpoint e = V3 lx ly lz.
Proof.
  intros lx ly lz grad off d sol mat e H.
  destruct (C11_compressed envR lx ly lz grad off d sol mat) as [HA HB].
  assert (Hi : (is_i16 lx /\ is_i16 ly /\ is_i16 lz) \/ ~ (is_i16 lx /\ is_i16 ly /\ is_i16 lz))
    by (unfold is_i16; lia).
  destruct Hi as [Hi|Hi]; [|rewrite (HB Hi) in H; discriminate].
  destruct (HA Hi) as (e' & H' & Hl & _). rewrite H in H'. injection H' as <-.
  unfold make_edge in H.
  destruct (oassert ((lx <=? i16max) && (ly <=? i16max) && (lz <=? i16max))%Z); try discriminate H. cbn [obind] in H.
  destruct (oassert ((lx >=? i16min) && (ly >=? i16min) && (lz >=? i16min))%Z); try discriminate H. cbn [obind] in H.
  destruct (oassert ((axis_num d >=? 0) && (axis_num d <=? 2))%Z); try discriminate H. cbn [obind] in H.
  injection H as <-. cbn [ue_nx ue_nz ue_ysign ue_off ue_axis]. repeat split; try reflexivity. exact Hl.
Qed.

Lemma normal_xz : forall grad,
  let L := sqrt (norm2 grad) in let eps := / 2 ^ 52 in
  sqr (vx grad / (L + eps)) + sqr (vz grad / (L + eps)) < 1 /\ 0 <= L /\
  sqr L = norm2 grad.
Proof.
  intros [x y z] L eps. pose proof eps_pos as He. fold eps in He.
  assert (Hn : 0 <= norm2 (V3 x y z)) by (unfold norm2, sqr; cbn [vx vy vz]; nra).
  assert (HL : 0 <= L) by apply sqrt_pos.
  assert (HL2 : sqr L = norm2 (V3 x y z)) by (apply sqrt_sqrt; assumption).
  split; [|auto]. cbn [vx vy vz].
  replace (sqr (x / (L + eps)) + sqr (z / (L + eps))) with ((sqr x + sqr z) / sqr (L + eps))
    by (unfold sqr; field; lra).
  assert (Hd : 0 < sqr (L + eps)) by (unfold sqr; nra).
  apply Rmult_lt_reg_r with (sqr (L + eps)); [assumption|].
  unfold Rdiv. rewrite Rmult_assoc, Rinv_l, Rmult_1_r, Rmult_1_l by lra.
  unfold norm2 in HL2. cbn [vx vy vz] in HL2. unfold sqr in *. nra.
Qed.

(* The stored normal always has length one, for the zero gradient too; its
   Y component is never zero and has the sign of the gradient's (positive if
   that is zero). *)
Theorem C12_normal_unit : forall lx ly lz (grad : vec3 R) (off : R) d sol mat (e : uedge R),
  make_edge envR lx ly lz grad off (axis_num d) sol mat = Ret e ->
  let n := surface_normal envR e in
  norm2 n = 1 /\
  vx n = vx grad / (sqrt (norm2 grad) + / 2 ^ 52) /\
  vz n = vz grad / (sqrt (norm2 grad) + / 2 ^ 52) /\
  (vy grad < 0 -> vy n < 0) /\ (0 <= vy grad -> 0 < vy n).
Proof.
  intros lx ly lz grad off d sol mat e H n.
  destruct (make_edgeR _ _ _ _ _ _ _ _ _ H) as (Hx & Hz & Hy & _ & _ & _).
  destruct (normal_xz grad) as (Hlt & HL & HL2).
  unfold n, surface_normal. cbn [fp_f fp_F fp_D envR arithR a_sub a_mul a_ofZ a_sqrt a_neg vx vy vz].
  change (fp_F envR) with R. rewrite Hx, Hz, Hy. cbv zeta in Hlt.
  set (a := vx grad / (sqrt (norm2 grad) + / 2 ^ 52)) in *.
  set (b := vz grad / (sqrt (norm2 grad) + / 2 ^ 52)) in *.
  unfold glm_max. cbn [arithR a_lt].
  change (a * a + b * b < 1) in Hlt.
  assert (Hp : 0 < 1 - a * a - b * b) by lra.
  replace (Rltb 0 (1 - a * a - b * b)) with true by (symmetry; apply Rltb_iff; assumption).
  assert (Hs : 0 < sqrt (1 - a * a - b * b)) by (apply sqrt_lt_R0; assumption).
  assert (Hss : sqrt (1 - a * a - b * b) * sqrt (1 - a * a - b * b) = 1 - a * a - b * b)
    by (apply sqrt_sqrt; lra).
  split; [|split; [reflexivity|split; [reflexivity|]]].
  - unfold norm2, sqr. cbn [vx vy vz]. destruct (Rltb (vy grad) 0); nra.
  - split; intro G.
    + replace (Rltb (vy grad) 0) with true by (symmetry; apply Rltb_iff; assumption). lra.
    + replace (Rltb (vy grad) 0) with false by (symmetry; apply Rltb_false; assumption). lra.
Qed.
Print Assumptions C12_normal_unit.

(* For a non-zero gradient the stored normal is close to the normalised
   gradient: X and Z differ by at most eps/|grad|, the square of Y by at most
   2 eps/|grad|. *)
Theorem C12_normal_close : forall lx ly lz (grad : vec3 R) (off : R) d sol mat (e : uedge R),
  make_edge envR lx ly lz grad off (axis_num d) sol mat = Ret e ->
  0 < norm2 grad ->
  let n := surface_normal envR e in let L := sqrt (norm2 grad) in
  Rabs (vx n - vx grad / L) <= / 2 ^ 52 / L /\
  Rabs (vz n - vz grad / L) <= / 2 ^ 52 / L /\
  0 <= sqr (vy n) - sqr (vy grad / L) <= 2 * / 2 ^ 52 / L.
Proof.
  intros lx ly lz grad off d sol mat e H Hg n L.
  destruct (C12_normal_unit _ _ _ _ _ _ _ _ _ H) as (Hu & Hx & Hz & _).
  fold n in Hu, Hx, Hz. fold L in Hx, Hz.
  destruct (normal_xz grad) as (_ & HL & HL2). fold L in HL, HL2.
  pose proof eps_pos as He. set (eps := / 2 ^ 52) in *.
  assert (HLp : 0 < L) by (apply sqrt_lt_R0; assumption).
  assert (Hle : 0 < L + eps) by lra.
  assert (HLn : L <> 0) by lra. assert (HLe : L + eps <> 0) by lra.
  clearbody L n eps. change (fp_F envR) with R in *. destruct grad as [x y z]. unfold norm2 in HL2, Hu. cbn [vx vy vz] in *.
  assert (Bound : forall t, t * t <= L * L -> Rabs (t / (L + eps) - t / L) <= eps / L).
  { intros t Ht. replace (t / (L + eps) - t / L) with (- (eps / L) * (t / (L + eps))) by (field; lra).
    rewrite Rabs_mult, Rabs_Ropp, (Rabs_right (eps / L)).
    2: { apply Rle_ge, Rlt_le, Rdiv_lt_0_compat; assumption. }
    rewrite <- (Rmult_1_r (eps / L)) at 2. apply Rmult_le_compat_l; [apply Rlt_le, Rdiv_lt_0_compat; assumption|].
    apply Rabs_le.
    assert (Hb : - L <= t <= L) by (split; nra).
    split; apply Rmult_le_reg_r with (L + eps); try assumption; unfold Rdiv;
      rewrite ?Rmult_assoc, Rinv_l, ?Rmult_1_r by assumption; lra. }
  unfold sqr in *.
  split; [rewrite Hx; apply Bound; nra|]. split; [rewrite Hz; apply Bound; nra|].
  assert (Hy : vy n * vy n - y / L * (y / L) = (x * x + z * z) * (/ (L * L) - / ((L + eps) * (L + eps)))).
  { replace (vy n * vy n) with (1 - vx n * vx n - vz n * vz n) by lra. rewrite Hx, Hz.
    assert (Hy2 : y * y = L * L - x * x - z * z) by lra.
    replace (y / L * (y / L)) with (y * y / (L * L)) by (field; assumption). rewrite Hy2. field. split; assumption. }
  rewrite Hy.
  assert (Hd : / (L * L) - / ((L + eps) * (L + eps)) = eps * (2 * L + eps) / (L * L * ((L + eps) * (L + eps))))
    by (field; split; assumption).
  assert (Hdn : 0 <= / (L * L) - / ((L + eps) * (L + eps))).
  { rewrite Hd. apply Rlt_le, Rdiv_lt_0_compat; [nra|]. repeat apply Rmult_lt_0_compat; assumption. }
  split; [apply Rmult_le_pos; [nra|assumption]|].
  apply Rle_trans with (L * L * (/ (L * L) - / ((L + eps) * (L + eps)))).
  { apply Rmult_le_compat_r; [assumption|]. nra. }
  rewrite Hd.
  replace (L * L * (eps * (2 * L + eps) / (L * L * ((L + eps) * (L + eps)))))
    with (eps * (2 * L + eps) / ((L + eps) * (L + eps))) by (field; split; assumption).
  apply Rmult_le_reg_r with ((L + eps) * (L + eps)); [nra|].
  unfold Rdiv at 1. rewrite Rmult_assoc, Rinv_l, Rmult_1_r by nra.
  replace (2 * eps / L * ((L + eps) * (L + eps))) with (2 * eps * (L + 2 * eps + eps * eps / L)) by (field; assumption).
  assert (0 < eps * eps / L) by (apply Rdiv_lt_0_compat; nra). nra.
Qed.
Print Assumptions C12_normal_close.

(* If the zero finder answers inside its interval, the surface point lies on
   the edge. *)
Theorem C12_point_on_edge : forall lx ly lz (grad : vec3 R) (zero c0 step : R) d sol mat (e : uedge R),
  step <> 0 ->
  make_edge envR lx ly lz grad ((zero - c0) / step) (axis_num d) sol mat = Ret e ->
  Rmin c0 (c0 + step) <= zero <= Rmax c0 (c0 + step) ->
  exists t, 0 <= t <= 1 /\
    surface_point envR e =
      V3 (IZR lx + t * IZR (vx (unit_vec d))) (IZR ly + t * IZR (vy (unit_vec d))) (IZR lz + t * IZR (vz (unit_vec d))).
Proof.
  intros lx ly lz grad zero c0 step d sol mat e Hs H Hz.
  destruct (make_edgeR _ _ _ _ _ _ _ _ _ H) as (_ & _ & _ & Ho & Ha & Hl).
  exists ((zero - c0) / step). split.
  - destruct (Rlt_or_le 0 step) as [Hp|Hp].
    + rewrite Rmin_left, Rmax_right in Hz by lra.
      split; apply Rmult_le_reg_r with step; try assumption; unfold Rdiv;
        rewrite ?Rmult_assoc, Rinv_l, ?Rmult_1_r by assumption; lra.
    + rewrite Rmin_right, Rmax_left in Hz by lra.
      replace ((zero - c0) / step) with ((c0 - zero) / - step) by (field; assumption).
      assert (Hn : - step <> 0) by lra.
      split; apply Rmult_le_reg_r with (- step); try lra; unfold Rdiv;
        rewrite ?Rmult_assoc, Rinv_l, ?Rmult_1_r by assumption; lra.
  - unfold surface_point. change (fp_F envR) with R. rewrite Ha, Ho. unfold lesser_endpoint in Hl. injection Hl as -> -> ->.
    cbn [fp_f envR arithR a_add a_ofZ].
    destruct d; cbn [axis_num unit_vec vx vy vz]; f_equal; lra.
Qed.
Print Assumptions C12_point_on_edge.

Example C12_ex : exists e, make_edge envR 3 (-4) 5 (V3 1 (-2) 2) ((1 / 2 - 0) / 1) (axis_num AY) true Solid = Ret e /\
  0 < norm2 (V3 1 (-2) 2) /\ Rmin 0 (0 + 1) <= 1 / 2 <= Rmax 0 (0 + 1).
Proof.
  destruct (make_edge_ok envR 3 (-4) 5 (V3 1 (-2) 2) ((1 / 2 - 0) / 1) (axis_num AY) true Solid) as (e & He & _);
    try (unfold is_i16, i16min, i16max; lia). { cbn; lia. }
  exists e. split; [exact He|]. split; [unfold norm2, sqr; cbn [vx vy vz]; lra|].
  rewrite Rmin_left, Rmax_right by lra. lra.
Qed.

End Exact.

(* ---- IEEE arithmetic ---- *)
Local Open Scope Z_scope.

(* x - 1/2 sampled with step 1.1 from position (0.1, 0, 0) *)
Definition c10_field : field envIEEE :=
  @Field envIEEE (fun p : vec3 b64 => a_sub arith64 (vx p) (f64 1 (-1))) (fun _ => V3 (f64 1 0) (f64 0 0) (f64 0 0)) (fun _ _ => Solid).
Definition c10_solver : zero_finder envIEEE := fun c _ => vget (zc_axis c) (zc_start c).
Definition c10_grid : ugrid envIEEE :=
  @new_grid envIEEE 2 (V3 (f64 3602879701896397 (-55)) (f64 0 0) (f64 0 0)) (f64 2476979795053773 (-51)).

Definition sf_diff (a b : SpecFloat.spec_float) : bool :=
  match a, b with
  | SpecFloat.S754_finite s m e, SpecFloat.S754_finite s' m' e' => negb (eqb s s' && Pos.eqb m m' && Z.eqb e e')
  | _, _ => false
  end.
Lemma sf_diff_ok : forall a b, sf_diff a b = true -> a <> b.
Proof.
  intros [| | |s m e] b H; destruct b as [| | |s' m' e']; try discriminate H. intro Heq. injection Heq as <- <- <-.
  cbn [sf_diff] in H. rewrite eqb_reflx, Pos.eqb_refl, Z.eqb_refl in H. discriminate.
Qed.

Definition c10_check (r : outcome (ugrid envIEEE * list (zf_call envIEEE))) : bool :=
  match r with
  | Ret (_, c :: _) => sf_diff (B2SF (zc_f0 c : b64)) (B2SF (fl_value c10_field (zc_start c) : b64))
  | _ => false
  end.

(* In binary64 the value passed as f0 is not the field value at the start of
   the interval: call_pos is accumulated, the interval multiplied. *)
Theorem C10_ieee_refuted : exists (g : ugrid envIEEE) f solver g' calls c,
  valid_size (g_size g) /\ fill g f solver = Ret (g', calls) /\ In c calls /\
  zc_f0 c <> fl_value f (zc_start c).
Proof.
  exists c10_grid, c10_field, c10_solver.
  assert (T : c10_check (fill c10_grid c10_field c10_solver) = true) by (vm_compute; reflexivity).
  destruct (fill c10_grid c10_field c10_solver) as [[g' [|c calls]]| | | |]; try discriminate T.
  exists g', (c :: calls), c. split; [exists 1; split; [split; discriminate|reflexivity]|].
  split; [reflexivity|]. split; [left; reflexivity|].
  intro Heq. apply sf_diff_ok in T. congruence.
Qed.
Print Assumptions C10_ieee_refuted.

(* A NaN sample in the centre, -1 elsewhere. *)
Definition c53_field : field envIEEE :=
  @Field envIEEE (fun p : vec3 b64 => if a_eq arith64 (vx p) (f64 0 0) && a_eq arith64 (vy p) (f64 0 0) && a_eq arith64 (vz p) (f64 0 0)
                  then B754_nan else f64 (-1) 0)
        (fun _ => V3 (f64 1 0) (f64 0 0) (f64 0 0)) (fun _ _ => Solid).
Definition c53_grid : ugrid envIEEE := @new_grid envIEEE 2 (V3 (f64 0 0) (f64 0 0) (f64 0 0)) (f64 1 0).

Definition is_solid_at (g : ugrid envIEEE) (p : ivec3) : bool :=
  match grid_at (g_size g) (g_mat g) p with Ret m => m =? Solid | _ => false end.

Definition c53_check (r : outcome (ugrid envIEEE * list (zf_call envIEEE))) : bool :=
  match r with
  | Ret (g, _) => match g_ex g with
                  | e :: _ => is_solid_at g (lesser_endpoint e) && is_solid_at g (bigger_endpoint e)
                  | [] => false
                  end
  | _ => false
  end.

(* An edge is stored although both of its ends have a solid material. *)
Theorem C53_nan_refuted : exists (g : ugrid envIEEE) f solver g' calls e,
  valid_size (g_size g) /\ fill g f solver = Ret (g', calls) /\ In e (g_edges AX g') /\
  grid_at (g_size g') (g_mat g') (lesser_endpoint e) = Ret Solid /\
  grid_at (g_size g') (g_mat g') (bigger_endpoint e) = Ret Solid.
Proof.
  exists c53_grid, c53_field, c10_solver.
  assert (T : c53_check (fill c53_grid c53_field c10_solver) = true) by (vm_compute; reflexivity).
  destruct (fill c53_grid c53_field c10_solver) as [[g' calls]| | | |]; try discriminate T.
  cbn [c53_check] in T. destruct (g_ex g') as [|e l] eqn:G; [discriminate T|].
  exists g', calls, e. split; [exists 1; split; [split; discriminate|reflexivity]|]. split; [reflexivity|].
  split; [cbn [g_edges]; rewrite G; left; reflexivity|].
  apply andb_prop in T. destruct T as [T1 T2]. unfold is_solid_at in T1, T2.
  destruct (grid_at _ _ (lesser_endpoint e)); try discriminate T1.
  destruct (grid_at _ _ (bigger_endpoint e)); try discriminate T2.
  rewrite Z.eqb_eq in T1, T2. subst. auto.
Qed.
Print Assumptions C53_nan_refuted.

(* Instances of the structural theorems: a filled grid with crossing edges and
   without NaN samples. *)
Example C08_C09_ex : valid_size (g_size c10_grid) /\
  match fill c10_grid c10_field c10_solver with
  | Ret (g', _) => (zlen (g_edges AX g'), zlen (g_edges AY g'), find_edge (g_edges AX g') 0 1 (-1),
                    grid_at 2 (g_mat g') (V3 0 1 1), grid_at 2 (g_mat g') (V3 1 1 1))
                   = (9, 0, Ret 6, Ret Solid, Ret Empty)
  | _ => False
  end.
Proof. split; [exists 1; split; [split; discriminate|reflexivity]|vm_compute; reflexivity]. Qed.

Definition all_points (n : Z) : list ivec3 :=
  flat_map (fun x => flat_map (fun y => map (fun z => V3 x y z) (zrange (- (n / 2)) (n / 2 + 1)))
    (zrange (- (n / 2)) (n / 2 + 1))) (zrange (- (n / 2)) (n / 2 + 1)).

Lemma all_points_ok : forall n p, valid_size n -> vertex_in n p -> In p (all_points n).
Proof.
  intros n [x y z] Hv Hp. destruct (valid_even _ Hv) as (h & Hn & Hb & E1 & E2).
  apply (vertex_in_iff _ h) in Hp; [|assumption]. cbn [vx vy vz] in Hp. unfold all_points. rewrite E2.
  apply in_flat_map. exists x. split; [apply in_zrange; lia|].
  apply in_flat_map. exists y. split; [apply in_zrange; lia|].
  apply in_map. apply in_zrange. lia.
Qed.

Example C53_ex : nan_free c10_grid c10_field /\ solid_inside c10_grid c10_field.
Proof.
  assert (Hv : valid_size 2) by (exists 1; split; [split; discriminate|reflexivity]).
  split.
  - intros p Hp. apply (all_points_ok _ _ Hv) in Hp.
    assert (T : forallb (fun p => eqb (gt0 envIEEE (sample c10_grid c10_field p))
       (negb (le0 envIEEE (sample c10_grid c10_field p)))) (all_points 2) = true) by (vm_compute; reflexivity).
    rewrite forallb_forall in T. apply eqb_prop. apply T. assumption.
  - intros p Hp Hl. discriminate.
Qed.
