(* C46, C47: heightmaps. *)
From Coq Require Import ZArith List Bool Reals Lra Lia.
From Flocq Require Import BinarySingleNaN.
From Verif Require Import Base Arith RealArith FloatArith HeightmapModel HeightmapSpec HeightmapProofs.
Import ListNotations.
Local Open Scope Z_scope.

(* ------------------------------------------------------------------ *)
(* Lookups, in any arithmetic                                          *)
(* ------------------------------------------------------------------ *)

Lemma to_int_ok : forall z, i32min <= z <= i32max -> to_int z = Ret z.
Proof. intros z H. unfold to_int. destruct (Z.leb_spec i32min z); [|lia]. destruct (Z.leb_spec z i32max); [auto | lia]. Qed.

Lemma to_int_bad : forall z, ~ (i32min <= z <= i32max) -> to_int z = UB.
Proof. intros z H. unfold to_int. destruct (Z.leb_spec i32min z); auto. destruct (Z.leb_spec z i32max); [lia | auto]. Qed.

Lemma std_clamp_ok : forall v n, 1 <= n -> std_clamp v 0 (n - 1) = Ret (clamped n v).
Proof.
  intros v n H. unfold std_clamp, clamped. destruct (Z.ltb_spec (n - 1) 0); [lia|].
  f_equal. destruct (Z.ltb_spec v 0); [lia|]. destruct (Z.ltb_spec (n - 1) v); lia.
Qed.

Lemma clamped_range : forall n v, 1 <= n -> 0 <= clamped n v < n.
Proof. unfold clamped. lia. Qed.

Lemma pixel_exists : forall im col row, valid_image im -> 0 <= col < im_width im -> 0 <= row < im_height im ->
  exists c, pixel im col row c /\ 0 <= c <= 65535.
Proof.
  intros im col row (H1 & H2 & H3 & H4 & H5) Hc Hr.
  assert (Hi : 0 <= row * im_width im + col < zlen (im_data im)) by (rewrite H4; nia).
  destruct (znth (im_data im) (row * im_width im + col)) as [c|] eqn:E.
  - exists c. split; [split; auto|]. rewrite Forall_forall in H5. apply H5.
    unfold znth in E. destruct (_ <? 0); [discriminate|]. apply nth_error_In in E. auto.
  - exfalso. unfold znth in E. destruct (Z.ltb_spec (row * im_width im + col) 0); [lia|].
    apply nth_error_None in E. unfold zlen in Hi. lia.
Qed.

Lemma pixel_unique : forall im col row c c', pixel im col row c -> pixel im col row c' -> c = c'.
Proof. intros im col row c c' (_ & _ & H) (_ & _ & H'). congruence. Qed.

Lemma height_val_pixel : forall D (A : arith D) hm im x y, valid_image im ->
  exists c, pixel im (clamped (im_width im) y) (clamped (im_height im) x) c /\ 0 <= c <= 65535 /\
    height_val A hm im x y =
      Ret (a_add A (fst (hm_range hm)) (a_div A (a_mul A (a_ofZ A c) (a_sub A (snd (hm_range hm)) (fst (hm_range hm)))) (a_ofZ A 65536))).
Proof.
  intros D A hm im x y V.
  destruct (pixel_exists im (clamped (im_width im) y) (clamped (im_height im) x) V) as (c & P & Rc);
    try (apply clamped_range; apply V).
  exists c. split; [exact P|]. split; [exact Rc|].
  destruct V as (H1 & H2 & H3 & H4 & H5).
  pose proof (clamped_range (im_width im) y H1) as Cy. pose proof (clamped_range (im_height im) x H2) as Cx.
  unfold height_val. assert (L : i32min = -2147483648) by reflexivity. assert (U : i32max = 2147483647) by reflexivity.
  rewrite (to_int_ok (im_height im - 1)) by nia. cbn [obind].
  rewrite std_clamp_ok by lia. cbn [obind].
  rewrite to_int_ok by nia. cbn [obind].
  rewrite (to_int_ok (im_width im - 1)) by nia. cbn [obind].
  rewrite std_clamp_ok by lia. cbn [obind].
  rewrite to_int_ok by nia. cbn [obind].
  unfold im_read. destruct P as (_ & _ & P). rewrite P. cbn [oread obind].
  destruct (hm_range hm). reflexivity.
Qed.

(* The lookup of any pixel position reads a pixel of the image. *)
Theorem C46_reads : forall D (A : arith D) hm im x y, valid_image im ->
  exists col row c, pixel im col row c /\
    height_val A hm im x y =
      Ret (a_add A (fst (hm_range hm)) (a_div A (a_mul A (a_ofZ A c) (a_sub A (snd (hm_range hm)) (fst (hm_range hm)))) (a_ofZ A 65536))).
Proof.
  intros D A hm im x y V. destruct (height_val_pixel D A hm im x y V) as (c & P & _ & E).
  exists (clamped (im_width im) y), (clamped (im_height im) x), c. split; auto.
Qed.
Print Assumptions C46_reads.

(* Evaluation of the field, in any arithmetic: nothing but the conversion of the position
   to int can go wrong. *)
Theorem C46_safe : forall D (A : arith D) floorZ hm px py pz, valid_heightmap hm ->
  (forall im, hm_data hm = Some im -> exists i j,
    floorZ (a_add A (a_div A (a_sub A px (vx (hm_center hm))) (hm_pixel hm)) (a_ofZ A (im_width im / 2))) = Some i /\
    floorZ (a_add A (a_div A (a_sub A pz (vz (hm_center hm))) (hm_pixel hm)) (a_ofZ A (im_height im / 2))) = Some j /\
    i32min <= i < i32max /\ i32min <= j < i32max) ->
  exists v, hm_value A floorZ hm px py pz = Ret v.
Proof.
  intros D A floorZ hm px py pz V H. unfold hm_value. destruct (hm_data hm) as [im|] eqn:Ed.
  2: eexists; reflexivity.
  destruct (H im eq_refl) as (i & j & Ei & Ej & Hi & Hj). specialize (V im Ed).
  cbv zeta. rewrite !Z.quot_div_nonneg by (destruct V as (? & ? & _); lia).
  unfold floor_int. rewrite Ei, Ej. rewrite !to_int_ok by lia. cbn [obind].
  rewrite (to_int_ok (i + 1)), (to_int_ok (j + 1)) by lia. cbn [obind].
  destruct (height_val_pixel D A hm im i j V) as (c1 & _ & _ & ->).
  destruct (height_val_pixel D A hm im i (j + 1) V) as (c2 & _ & _ & ->).
  destruct (height_val_pixel D A hm im (i + 1) j V) as (c3 & _ & _ & ->).
  destruct (height_val_pixel D A hm im (i + 1) (j + 1) V) as (c4 & _ & _ & ->).
  cbn [obind]. eexists; reflexivity.
Qed.
Print Assumptions C46_safe.

(* ------------------------------------------------------------------ *)
(* Exact arithmetic                                                    *)
(* ------------------------------------------------------------------ *)

Notation valueR := (hm_value arithR floorR).
Notation gradR := (hm_grad arithR floorR).

(* Height of the pixel used for a position. *)
Definition hv (hm : heightmap R) (im : image) (i j : Z) : R :=
  match znth (im_data im) (clamped (im_height im) i * im_width im + clamped (im_width im) j) with
  | Some c => color_height hm c | None => 0%R end.

Lemma hv_ok : forall hm im i j, valid_image im -> height_val arithR hm im i j = Ret (hv hm im i j).
Proof.
  intros. destruct (height_val_pixel R arithR hm im i j H) as (c & (_ & _ & P) & _ & ->).
  unfold hv. rewrite P. reflexivity.
Qed.

Lemma hv_range : forall hm im i j, valid_image im ->
  (Rmin (fst (hm_range hm)) (snd (hm_range hm)) <= hv hm im i j <= Rmax (fst (hm_range hm)) (snd (hm_range hm)))%R.
Proof.
  intros. destruct (height_val_pixel R arithR hm im i j H) as (c & (_ & _ & P) & Rc & _).
  unfold hv. rewrite P. unfold color_height. destruct (hm_range hm) as [lo hi]. cbn [fst snd].
  destruct Rc as [R1 R2]. apply IZR_le in R1, R2.
  set (t := (IZR c / 65536)%R). assert (Ht : (0 <= t <= 1)%R) by (unfold t; lra).
  replace (lo + IZR c * (hi - lo) / 65536)%R with (lo + t * (hi - lo))%R by (unfold t; field).
  clearbody t. unfold Rmin, Rmax. destruct (Rle_dec lo hi); split; nra.
Qed.

Lemma value_bilin : forall hm im px py pz, hm_data hm = Some im -> valid_image im -> position_fits hm px pz ->
  valueR hm px py pz = Ret (py - (bilin (hv hm im) (image_x hm im px) (image_y hm im pz) + vy (hm_center hm)))%R.
Proof.
  intros hm im px py pz Ed V F. destruct (F im Ed) as [Fx Fy]. apply floor_int_range in Fx, Fy.
  unfold hm_value. rewrite Ed. cbv zeta. cbn [arithR a_add a_sub a_mul a_div a_ofZ].
  rewrite !Z.quot_div_nonneg by (destruct V as (? & ? & _); lia).
  fold (image_x hm im px). fold (image_y hm im pz).
  unfold floor_int, floorR. rewrite !to_int_ok by lia. cbn [obind].
  rewrite (to_int_ok (Int_part (image_x hm im px) + 1)), (to_int_ok (Int_part (image_y hm im pz) + 1)) by lia. cbn [obind].
  rewrite !hv_ok by auto. cbn [obind]. do 2 f_equal. unfold bilin, lin. ring.
Qed.

(* Where the field is defined: the pixels around the position must have coordinates of type int. *)
Theorem C46_defined : forall hm px py pz, valid_heightmap hm -> hm_pixel hm <> 0%R ->
  (position_fits hm px pz <-> exists v, valueR hm px py pz = Ret v) /\
  (~ position_fits hm px pz -> valueR hm px py pz = UB).
Proof.
  intros hm px py pz V Hp.
  assert (G : position_fits hm px pz \/ (~ position_fits hm px pz /\ valueR hm px py pz = UB)).
  { destruct (hm_data hm) as [im|] eqn:Ed.
    2:{ left. intros im E. congruence. }
    specialize (V im Ed). unfold hm_value. rewrite Ed. cbv zeta. cbn [arithR a_add a_sub a_mul a_div a_ofZ].
    rewrite !Z.quot_div_nonneg by (destruct V as (? & ? & _); lia).
    fold (image_x hm im px). fold (image_y hm im pz). unfold floor_int, floorR.
    assert (Dec : forall z, (i32min <= z < i32max) \/ ~ (i32min <= z < i32max)) by (intros; lia).
    destruct (Dec (Int_part (image_x hm im px))) as [Hx | Hx], (Dec (Int_part (image_y hm im pz))) as [Hy | Hy].
    1: left; intros im' E; replace im' with im by congruence; rewrite !floor_int_range; auto.
    all: right; (split; [intros F; destruct (F im Ed) as [F1 F2]; rewrite floor_int_range in F1, F2; contradiction|]).
    - rewrite to_int_ok by lia. cbn [obind].
      destruct (Z.eq_dec (Int_part (image_y hm im pz)) i32max) as [E | E].
      + rewrite E. rewrite (to_int_ok i32max) by (unfold i32min, i32max; lia). cbn [obind].
        rewrite to_int_ok by lia. reflexivity.
      + rewrite to_int_bad by lia. reflexivity.
    - destruct (Z.eq_dec (Int_part (image_x hm im px)) i32max) as [E | E].
      + rewrite E. rewrite (to_int_ok i32max) by (unfold i32min, i32max; lia). cbn [obind].
        rewrite to_int_ok by lia. reflexivity.
      + rewrite to_int_bad by lia. reflexivity.
    - destruct (Z.eq_dec (Int_part (image_x hm im px)) i32max) as [E | E].
      2: rewrite to_int_bad by lia; reflexivity.
      rewrite E. rewrite (to_int_ok i32max) by (unfold i32min, i32max; lia). cbn [obind].
      unfold to_int at 1. destruct (_ && _); reflexivity. }
  split.
  - split.
    + intros F. destruct (hm_data hm) as [im|] eqn:Ed.
      * rewrite (value_bilin hm im) by auto. eauto.
      * unfold hm_value. rewrite Ed. cbn [obind]. eauto.
    + intros [v E]. destruct G as [G | [_ G]]; [auto | congruence].
  - intros N. destruct G as [G | [_ G]]; [contradiction | auto].
Qed.
Print Assumptions C46_defined.

(* The height, i.e. the vertical position of the surface, lies in the height range (moved
   by the centre of the map). *)
Theorem C46_range : forall hm im px py pz v, hm_data hm = Some im -> valid_image im -> hm_pixel hm <> 0%R ->
  valueR hm px py pz = Ret v ->
  (Rmin (fst (hm_range hm)) (snd (hm_range hm)) <= py - v - vy (hm_center hm) <= Rmax (fst (hm_range hm)) (snd (hm_range hm)))%R.
Proof.
  intros hm im px py pz v Ed V Hp E.
  assert (Vh : valid_heightmap hm) by (intros im' E'; replace im' with im by congruence; auto).
  assert (F : position_fits hm px pz) by (apply (C46_defined hm px py pz Vh Hp); eauto).
  rewrite (value_bilin hm im) in E by auto. injection E as <-.
  pose proof (bilin_range (hv hm im) _ _ (image_x hm im px) (image_y hm im pz) (fun i j => hv_range hm im i j V)). lra.
Qed.
Print Assumptions C46_range.

(* Affine with slope one in the vertical coordinate. *)
Theorem C46_vertical : forall hm px py py' pz v, valid_heightmap hm -> hm_pixel hm <> 0%R ->
  valueR hm px py pz = Ret v -> valueR hm px py' pz = Ret (v + (py' - py))%R.
Proof.
  intros hm px py py' pz v V Hp E.
  assert (F : position_fits hm px pz) by (apply (C46_defined hm px py pz V Hp); eauto).
  destruct (hm_data hm) as [im|] eqn:Ed.
  - rewrite (value_bilin hm im) in E |- * by auto. injection E as <-. f_equal. ring.
  - unfold hm_value in *. rewrite Ed in *. cbn [obind arithR a_sub a_add a_ofZ] in *. injection E as <-. f_equal. ring.
Qed.
Print Assumptions C46_vertical.

(* Continuous in the horizontal coordinates, with a Lipschitz constant for each of them:
   no steps at pixel borders or at the borders of the image. *)
Theorem C46_continuous : forall hm px pz px' pz' py v v', valid_heightmap hm -> hm_pixel hm <> 0%R ->
  valueR hm px py pz = Ret v -> valueR hm px' py pz' = Ret v' ->
  (Rabs (v' - v) <= Rabs (snd (hm_range hm) - fst (hm_range hm)) / Rabs (hm_pixel hm) * (Rabs (px' - px) + Rabs (pz' - pz)))%R.
Proof.
  intros hm px pz px' pz' py v v' V Hp E E'.
  assert (F : position_fits hm px pz) by (apply (C46_defined hm px py pz V Hp); eauto).
  assert (F' : position_fits hm px' pz') by (apply (C46_defined hm px' py pz' V Hp); eauto).
  destruct (hm_data hm) as [im|] eqn:Ed.
  - specialize (V im Ed). rewrite (value_bilin hm im) in E, E' by auto. injection E as <-. injection E' as <-.
    replace (py - (bilin (hv hm im) (image_x hm im px') (image_y hm im pz') + vy (hm_center hm)) -
      (py - (bilin (hv hm im) (image_x hm im px) (image_y hm im pz) + vy (hm_center hm))))%R
      with (- (bilin (hv hm im) (image_x hm im px') (image_y hm im pz') - bilin (hv hm im) (image_x hm im px) (image_y hm im pz)))%R by ring.
    rewrite Rabs_Ropp.
    eapply Rle_trans; [apply (bilin_lip _ _ _ _ _ _ _ (fun i j => hv_range hm im i j V))|].
    replace (image_x hm im px' - image_x hm im px)%R with ((px' - px) / hm_pixel hm)%R by (unfold image_x; field; auto).
    replace (image_y hm im pz' - image_y hm im pz)%R with ((pz' - pz) / hm_pixel hm)%R by (unfold image_y; field; auto).
    unfold Rdiv. rewrite !Rabs_mult, !Rabs_inv.
    replace (Rmax (fst (hm_range hm)) (snd (hm_range hm)) - Rmin (fst (hm_range hm)) (snd (hm_range hm)))%R
      with (Rabs (snd (hm_range hm) - fst (hm_range hm)))%R.
    + apply Req_le. ring.
    + unfold Rmax, Rmin. destruct (Rle_dec _ _).
      * rewrite Rabs_right by lra. ring.
      * rewrite Rabs_left by lra. ring.
  - unfold hm_value in *. rewrite Ed in *. cbn [obind] in *. injection E as <-. injection E' as <-.
    rewrite Rminus_eq_0, Rabs_R0. apply Rmult_le_pos.
    + apply Rmult_le_pos; [apply Rabs_pos|]. apply Rlt_le, Rinv_0_lt_compat, Rabs_pos_lt; auto.
    + pose proof (Rabs_pos (px' - px)). pose proof (Rabs_pos (pz' - pz)). lra.
Qed.
Print Assumptions C46_continuous.

(* The gradient is vertical up to the slope of the map: its vertical component is one, the
   others are at most the height range per pixel size. *)
Theorem C46_gradient : forall hm x y z g, valid_heightmap hm -> hm_pixel hm <> 0%R -> gradR hm x y z = Ret g ->
  vy g = 1%R /\
  (Rabs (vx g) <= Rabs (snd (hm_range hm) - fst (hm_range hm)) / Rabs (hm_pixel hm))%R /\
  (Rabs (vz g) <= Rabs (snd (hm_range hm) - fst (hm_range hm)) / Rabs (hm_pixel hm))%R.
Proof.
  intros hm x y z g V Hp E. unfold hm_grad in E. cbv zeta in E. cbn [arithR a_add a_sub a_div a_ofZ] in E.
  set (h := (hm_pixel hm / 4)%R) in *. assert (Hh : h <> 0%R) by (unfold h; lra).
  destruct (valueR hm (x - h)%R y z) as [x1| | | |] eqn:E1; try discriminate.
  destruct (valueR hm (x + h)%R y z) as [x2| | | |] eqn:E2; try discriminate.
  destruct (valueR hm x y (z - h)%R) as [z1| | | |] eqn:E3; try discriminate.
  destruct (valueR hm x y (z + h)%R) as [z2| | | |] eqn:E4; try discriminate.
  cbn [obind] in E. injection E as <-. cbn [vx vy vz].
  pose proof (C46_continuous _ _ _ _ _ _ _ _ V Hp E1 E2) as L1.
  pose proof (C46_continuous _ _ _ _ _ _ _ _ V Hp E3 E4) as L2.
  set (K := (Rabs (snd (hm_range hm) - fst (hm_range hm)) / Rabs (hm_pixel hm))%R) in *.
  assert (Aux : forall d, (Rabs d <= K * (Rabs (2 * h)))%R -> (Rabs (d / 2 / h) <= K)%R).
  { intros d Hd. replace (d / 2 / h)%R with (d * / (2 * h))%R by (field; auto).
    rewrite Rabs_mult, Rabs_inv. assert (P : (0 < Rabs (2 * h))%R) by (apply Rabs_pos_lt; lra).
    apply (Rmult_le_reg_r (Rabs (2 * h))); auto. rewrite Rmult_assoc, Rinv_l, Rmult_1_r by lra. auto. }
  split; [reflexivity|]. split; apply Aux.
  - replace (2 * h)%R with (x + h - (x - h))%R by ring. rewrite Rminus_eq_0, Rabs_R0, Rplus_0_r in L1. auto.
  - replace (2 * h)%R with (z + h - (z - h))%R by ring. rewrite Rminus_eq_0, Rabs_R0, Rplus_0_l in L2. auto.
Qed.
Print Assumptions C46_gradient.

(* Floor of a double. *)
Definition floor64 (x : b64) : option Z :=
  match x with
  | B754_zero _ => Some 0
  | B754_finite s m e _ => Some (if 0 <=? e then SpecFloat.cond_Zopp s (Zpos m) * 2 ^ e else SpecFloat.cond_Zopp s (Zpos m) / 2 ^ (- e))
  | _ => None
  end.

(* The claim for every position fails far away from the map: there the position in pixels
   does not fit into int.  Doubles, an image of one pixel, the point (2^31, 0, 0). *)
Theorem C46_refuted : exists (hm : heightmap b64) px py pz, valid_heightmap hm /\ hm_value arith64 floor64 hm px py pz = UB.
Proof.
  exists (Heightmap (Some (Image 1 1 [7])) (f64 0 0, f64 100 0) (f64 1 0) (V3 (f64 0 0) (f64 0 0) (f64 0 0))), (f64 1 31), (f64 0 0), (f64 0 0).
  split; [|vm_compute; reflexivity].
  intros im E. injection E as <-. unfold valid_image. cbn [im_width im_height im_data].
  split; [lia|]. split; [lia|]. split; [unfold i32max; lia|]. split; [reflexivity|]. constructor; [lia | constructor].
Qed.
Print Assumptions C46_refuted.

(* A map of 3 x 2 pixels and heights from -8 to 8, evaluated between four pixels. *)
Definition hm_example : heightmap R := Heightmap (Some (Image 3 2 [0; 32768; 65535; 16384; 49152; 8192])) ((-8)%R, 8%R) 2%R (V3 1%R 5%R 1%R).

Lemma hm_example_valid : valid_heightmap hm_example.
Proof.
  intros im E. injection E as <-. unfold valid_image. cbn [im_width im_height im_data].
  split; [lia|]. split; [lia|]. split; [unfold i32max; lia|]. split; [reflexivity|]. repeat (constructor; [lia|]). constructor.
Qed.

Lemma hm_example_fits : position_fits hm_example 0%R 2%R.
Proof.
  intros im E. injection E as <-. unfold in_int_range, image_x, image_y, i32min, i32max, hm_example.
  cbn [im_width im_height hm_center hm_pixel vx vz]. change (3 / 2) with 1. change (2 / 2) with 1. lra.
Qed.

(* Loading an image: with one channel the map shows that image with the range, pixel size and
   centre it has, and the call does not throw.  Another number of channels throws and leaves a
   flat map, a file which cannot be decoded throws and leaves the map as it is. *)
Theorem C46_load : forall D (A : arith D) floorZ hm dec hm' done, hm_load hm dec = (hm', done) ->
  (done = true <-> exists im, dec = Some (1, im)) /\
  (forall im, dec = Some (1, im) -> forall px py pz,
    hm_value A floorZ hm' px py pz = hm_value A floorZ (Heightmap (Some im) (hm_range hm) (hm_pixel hm) (hm_center hm)) px py pz) /\
  (forall bpp im, dec = Some (bpp, im) -> bpp <> 1 -> forall px py pz,
    hm_value A floorZ hm' px py pz = Ret (a_sub A py (a_add A (a_ofZ A 0) (vy (hm_center hm))))) /\
  (dec = None -> forall px py pz, hm_value A floorZ hm' px py pz = hm_value A floorZ hm px py pz).
Proof.
  intros D A floorZ hm dec hm' done E. unfold hm_load in E. destruct dec as [[bpp im]|].
  - destruct (Z.eqb_spec bpp 1) as [->|Hb]; injection E as <- <-; (split; [|split; [|split]]).
    + split; [eauto|auto].
    + intros im' [= <-]. reflexivity.
    + intros b i [= <- <-]. congruence.
    + discriminate.
    + split; [discriminate|]. intros [i [= -> ->]]. congruence.
    + intros i [= -> ->]. congruence.
    + intros b i [= <- <-] _ px py pz. reflexivity.
    + discriminate.
  - injection E as <- <-. split; [split; [discriminate|intros [i [=]]]|]. split; [discriminate|]. split; [discriminate|auto].
Qed.
Print Assumptions C46_load.
Example C46_load_ex : exists im v, hm_load (hm_new (0%R, 1%R) (V3 0 5 0)%R 1%R) (Some (1, im)) = (Heightmap (Some im) (0, 1)%R 1%R (V3 0 5 0)%R, true) /\
  im_data im = [0; 65535; 0; 0; 0; 0] /\ hm_load (hm_new (0%R, 1%R) (V3 0 5 0)%R 1%R) (Some (3, im)) = (hm_new (0%R, 1%R) (V3 0 5 0)%R 1%R, false) /\
  valueR (hm_new (0%R, 1%R) (V3 0 5 0)%R 1%R) 0%R 7%R 0%R = Ret v /\ v = 2%R.
Proof.
  exists (Image 3 2 [0; 65535; 0; 0; 0; 0]). eexists. split; [reflexivity|]. split; [reflexivity|]. split; [reflexivity|]. split; [reflexivity|]. cbn. lra.
Qed.

Example C46_ex : exists v, valueR hm_example 0%R 0%R 2%R = Ret v /\ (-8 <= 0 - v - 5 <= 8)%R.
Proof.
  destruct (proj1 (proj1 (C46_defined hm_example 0%R 0%R 2%R hm_example_valid ltac:(cbn; lra))) hm_example_fits) as [v E].
  exists v. split; auto.
  pose proof (C46_range hm_example _ 0%R 0%R 2%R v eq_refl (hm_example_valid _ eq_refl) ltac:(cbn; lra) E) as H.
  cbn [hm_range hm_example fst snd hm_center vy] in H.
  rewrite Rmin_left, Rmax_right in H by lra. exact H.
Qed.

(* ------------------------------------------------------------------ *)
(* C47                                                                 *)
(* ------------------------------------------------------------------ *)

(* Position of the pixel [i] columns and [j] rows away from the central one. *)
Definition offset_x (hm : heightmap R) (i : Z) : R := (vx (hm_center hm) + IZR i * hm_pixel hm)%R.
Definition offset_z (hm : heightmap R) (j : Z) : R := (vz (hm_center hm) + IZR j * hm_pixel hm)%R.

(* What the field does at the positions of the pixels: rows and columns are interchanged,
   the horizontal offset from the middle column selects the row and is limited by the
   number of rows, and the other way round. *)
Theorem C47_partial : forall hm im i j, hm_data hm = Some im -> valid_image im -> hm_pixel hm <> 0%R ->
  i32min <= im_width im / 2 + i < i32max -> i32min <= im_height im / 2 + j < i32max ->
  exists c, pixel im (clamped (im_width im) (im_height im / 2 + j)) (clamped (im_height im) (im_width im / 2 + i)) c /\
    forall py, valueR hm (offset_x hm i) py (offset_z hm j) = Ret (py - (color_height hm c + vy (hm_center hm)))%R.
Proof.
  intros hm im i j Ed V Hp Hi Hj.
  assert (Ex : image_x hm im (offset_x hm i) = IZR (im_width im / 2 + i)).
  { unfold image_x, offset_x. rewrite plus_IZR. field. auto. }
  assert (Ey : image_y hm im (offset_z hm j) = IZR (im_height im / 2 + j)).
  { unfold image_y, offset_z. rewrite plus_IZR. field. auto. }
  destruct (height_val_pixel R arithR hm im (im_width im / 2 + i) (im_height im / 2 + j) V) as (c & P & _ & _).
  exists c. split; [exact P|]. intros py.
  rewrite (value_bilin hm im); auto.
  - rewrite Ex, Ey. unfold bilin. rewrite !lin_int. unfold hv. destruct P as (_ & _ & P). rewrite P. reflexivity.
  - intros im' E'. replace im' with im by congruence. rewrite Ex, Ey, !floor_int_range.
    rewrite !(floor_unique (IZR _) _) by (split; [apply Rle_refl | lra]). auto.
Qed.
Print Assumptions C47_partial.

(* So the claim holds for square images which are symmetric about the diagonal. *)
Theorem C47_symmetric_partial : forall hm im i j c, hm_data hm = Some im -> valid_image im -> hm_pixel hm <> 0%R ->
  im_width im = im_height im -> (forall a b d, pixel im a b d -> pixel im b a d) ->
  pixel im (im_width im / 2 + i) (im_height im / 2 + j) c ->
  forall py, valueR hm (offset_x hm i) py (offset_z hm j) = Ret (py - (color_height hm c + vy (hm_center hm)))%R.
Proof.
  intros hm im i j c Ed V Hp Sq Sy P py.
  assert (B : im_width im <= i32max) by (destruct V as (? & ? & ? & _); nia).
  destruct (P) as (P1 & P2 & _). assert (L : i32min = -2147483648) by reflexivity.
  destruct (C47_partial hm im i j Ed V Hp) as (c' & P' & E); try lia.
  replace (clamped (im_width im) (im_height im / 2 + j)) with (im_height im / 2 + j) in P' by (unfold clamped; lia).
  replace (clamped (im_height im) (im_width im / 2 + i)) with (im_width im / 2 + i) in P' by (unfold clamped; lia).
  rewrite (pixel_unique im _ _ c c' P (Sy _ _ _ P')). auto.
Qed.
Print Assumptions C47_symmetric_partial.

(* False in general, already for an image of 2 x 2 pixels. *)
Theorem C47_refuted : exists hm im i j c py, hm_data hm = Some im /\ valid_image im /\ hm_pixel hm <> 0%R /\
  pixel im (im_width im / 2 + i) (im_height im / 2 + j) c /\
  valueR hm (offset_x hm i) py (offset_z hm j) <> Ret (py - (color_height hm c + vy (hm_center hm)))%R.
Proof.
  set (im := Image 2 2 [0; 1; 2; 3]). set (hm := Heightmap (Some im) (0%R, 65536%R) 1%R (V3 0%R 0%R 0%R)).
  assert (V : valid_image im).
  { unfold valid_image, im. cbn [im_width im_height im_data].
    split; [lia|]. split; [lia|]. split; [unfold i32max; lia|]. split; [reflexivity|]. repeat (constructor; [lia|]). constructor. }
  assert (Hp : hm_pixel hm <> 0%R) by (cbn; lra).
  exists hm, im, 0, (-1), 1, 0%R. split; [reflexivity|]. split; [exact V|]. split; [exact Hp|].
  split.
  - split; [cbn; lia|]. split; [cbn; lia | reflexivity].
  - destruct (C47_partial hm im 0 (-1) eq_refl V Hp) as (c & (_ & _ & P) & E); try (cbn; unfold i32min, i32max; lia).
    rewrite E. vm_compute in P. injection P as <-. unfold color_height. cbn [hm hm_range hm_center fst snd vy].
    intros H. injection H as H. lra.
Qed.
Print Assumptions C47_refuted.
