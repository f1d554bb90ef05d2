(* The point that the QEF solvers return: C31, C32. *)
From Coq Require Import ZArith List Bool Reals Lra Lia.
From Flocq Require Import Core BinarySingleNaN.
From Verif Require Import Base Arith RealArith FloatArith XReal QefModel QefLin QefHouse QefSpec QefProofs QefJacobi QefLeast QefFinite PropQef.
Import ListNotations.
Local Open Scope R_scope.

Definition finite_vec (v : fvec xreal) : Prop := forall c, exists r, v c = Fin r.

Lemma finite_choose : forall v, finite_vec v -> exists v', fin_vec v v'.
Proof.
  intros v H. exists (fun c => match v c with Fin r => r | _ => 0 end). intros c. destruct (H c) as (r & ->). reflexivity.
Qed.

(* C31, box without rounding: division by zero gives an infinity or a NaN here, as in IEEE 754.  For
   every history of finite planes, a nonzero number of points, a pinvTolerance above zero and a box
   with lo <= hi, all coordinates of the result are finite and in the box. *)
Theorem C31_finite : forall D max_rows limit nbz free sX LX k iters fast pinv tol lo hi,
  solver_kind D max_rows limit ->
  history (arithX nbz) (Fin least_normal) x_hypot x_copysign x_sin x_cos x_atan D max_rows limit free sX LX k ->
  (forall l, In l LX -> finite_vec (fst l) /\ finite_vec (snd l)) ->
  q_count sX <> 0%Z -> 0 < pinv -> 0 <= tol -> (forall c, lo c <= hi c) ->
  exists z, (forall c, fst (solve (arithX nbz) (Fin least_normal) x_hypot x_copysign x_sin x_cos x_atan D
      (Tuning (Fin pinv) (Fin tol) iters fast) sX (fun c => Fin (lo c)) (fun c => Fin (hi c))) c = Fin (z c)) /\
    forall c, lo c <= z c <= hi c.
Proof.
  intros D max_rows limit nbz free sX LX k iters fast pinv tol lo hi K H F Hc Hp Ht Hb.
  destruct (history_fin nbz least_normal least_normal_pos D _ _ _ _ _ max_rows limit free sX LX k H) as (s & Hs).
  { intros l Hl. destruct (F l Hl) as [F1 F2]. destruct (finite_choose _ F1) as (q & Hq). destruct (finite_choose _ F2) as (n & Hn). exists q, n. auto. }
  pose proof (compress_fin nbz least_normal least_normal_pos D sX s Hs) as C.
  set (cX := compress (arithX nbz) (Fin least_normal) D sX) in *. set (c0 := compress arithR least_normal D s) in *.
  set (G := mat_mul arithR D (transpose (q_mat c0)) (q_mat c0)).
  assert (HT : fin_mat (transpose (q_mat cX)) (transpose (q_mat c0))) by (intros a b; apply C).
  pose proof (mat_mul_fin nbz D _ _ _ _ HT (f_mat _ _ C)) as HG. fold G in HG. set (GX := mat_mul (arithX nbz) D (transpose (q_mat cX)) (q_mat cX)) in *.
  assert (Sym : forall a b, (a < D)%nat -> (b < D)%nat -> G a b = G b a).
  { intros a b _ _. unfold G. rewrite !mat_mul_at. apply rsum_ext. intros; unfold transpose; ring. }
  (* the iteration depends on the matrix through its values only *)
  assert (J : exists e E, fin_vec (fst (jacobi (arithX nbz) x_hypot x_copysign x_sin x_cos x_atan D GX (Fin tol) iters fast)) e /\
    fin_mat (snd (jacobi (arithX nbz) x_hypot x_copysign x_sin x_cos x_atan D GX (Fin tol) iters fast)) E).
  { assert (F2 : fin_mat (identity (arithX nbz)) (fun c r => if Nat.eqb c r then 1 else 0)) by (intros a b; unfold identity; cbn; destruct (Nat.eqb a b); reflexivity).
    assert (Sy : forall a b, G a b = G b a) by (intros a b; unfold G; rewrite !mat_mul_at; apply rsum_ext; intros; unfold transpose; ring).
    destruct (loop_good D (kind_dim _ _ _ K) nbz G tol Ht fast iters _ _ _ _ HG F2 (good_start D (kind_dim _ _ _ K) G Sy)) as (m & h & R1 & R2 & _).
    unfold jacobi. destruct (jacobi_loop _ _ _ _ _ _ _ _ _ _ _ _) as [mX hX]. cbn [fst snd] in *. exists (fun i => m i i), h. split; [intros i; apply R1 | exact R2]. }
  destruct J as (e & E & He & HE).
  assert (Hc0 : q_count c0 <> 0%Z) by (cbn [compress q_count c0]; rewrite <- (f_count _ _ Hs); exact Hc).
  destruct (solve_with_fin nbz D (fun m => jacobi (arithX nbz) x_hypot x_copysign x_sin x_cos x_atan D m (Fin tol) iters fast) (fun _ => (e, E)) pinv cX c0 Hp Hc0 C He HE) as [W _].
  set (x := fst (solve_with arithR D (fun _ => (e, E)) pinv c0)) in *.
  exists (fun c => clampv arithR x lo hi c). split.
  - intros c. unfold solve. cbn [t_pinv t_jacobi t_iters t_fast]. fold cX. destruct (solve_with (arithX nbz) D _ (Fin pinv) cX) as [y dim]. cbn [fst] in *.
    pose proof (W c) as Wc. cbn beta in Wc. unfold clampv, glm_min, glm_max. rewrite !Wc. cbn [arithX arithR a_lt x_lt].
    destruct (Rltb (x c) (lo c)); cbn [x_lt]; [destruct (Rltb (hi c) (lo c)) | destruct (Rltb (hi c) (x c))]; reflexivity.
  - intros c. unfold clampv, glm_min, glm_max. cbn [arithR a_lt]. specialize (Hb c).
    destruct (Rltb (x c) (lo c)) eqn:E1; [apply Rltb_iff in E1 | apply Rltb_false in E1].
    + destruct (Rltb (hi c) (lo c)) eqn:E2; [apply Rltb_iff in E2; lra | apply Rltb_false in E2; lra].
    + destruct (Rltb (hi c) (x c)) eqn:E2; [apply Rltb_iff in E2; lra | apply Rltb_false in E2; lra].
Qed.
Print Assumptions C31_finite.

(* Example: the hypotheses for one plane *)
Example C31_finite_ex : exists sX, history (arithX (fun _ => false)) (Fin least_normal) x_hypot x_copysign x_sin x_cos x_atan 3 8 (2 ^ 30) (fun _ => True) sX
    ([] ++ [(fun c => Fin (zero3 c), fun c => Fin (upward c))]) 0 /\ q_count sX = 1%Z.
Proof.
  eexists. split.
  - change 0%nat with (0 + 0)%nat. eapply h_plane; [apply h_new | reflexivity | left; split; [reflexivity | trivial]].
  - reflexivity.
Qed.

(* ---- C31_least: an example ---- *)
(* three planes along the axes through q: the values and vectors of the Jacobi iteration are exact, and
   the point is q itself, clamped *)
Definition ones_tuning : tuning R := Tuning (/ 100) (/ 400) 15 true.
Lemma corner_matrix : forall q a b, (a < 3)%nat -> (b < 3)%nat -> normal_matrix 3 (corner q) a b = if Nat.eqb a b then 1 else 0.
Proof.
  intros q a b Ha Hb. unfold normal_matrix. cbn [compress q_mat]. destruct (corner_rows q) as (U & _ & V). rewrite U.
  change (householder arithR least_normal 4 (q_mat (corner q)) 3) with (after least_normal 4 (q_mat (corner q)) 3 4).
  cbn [total]. rewrite !(corner_after q 4 ltac:(lia)) by lia. rewrite !V by lia. unfold axis.
  destruct a as [|[|[|a]]]; try lia; destruct b as [|[|[|b]]]; try lia; cbn; ring.
Qed.
Example C31_least_ex : forall q lo hi, exists x, (forall c, fst (solve arithR least_normal (fun x _ => x) (fun x _ => x) sin cos atan 3 ones_tuning (corner q) lo hi) c = clampv arithR x lo hi c) /\
  (forall c, (c < 3)%nat -> x c = q c).
Proof.
  intros q lo hi. set (G := mat_mul arithR 3 (transpose (q_mat (compress arithR least_normal 3 (corner q)))) (q_mat (compress arithR least_normal 3 (corner q)))).
  assert (HG : forall a b, G a b = normal_matrix 3 (corner q) a b) by (intros a b; unfold G; rewrite mat_mul_at; reflexivity).
  assert (J : jacobi arithR (fun x _ => x) (fun x _ => x) sin cos atan 3 G (/ 400) 15 true = (fun i => G i i, identity arithR)).
  { unfold jacobi. cbn [jacobi_loop]. destruct (largest_at 3 (or_introl eq_refl) G) as (i & j & Hij & -> & _).
    rewrite HG, corner_matrix by lia. destruct (Nat.eqb_spec i j); [lia|]. cbn [arithR a_le]. rewrite Rabs_R0, (proj2 (Rleb_iff 0 (/ 400))) by lra. reflexivity. }
  assert (Id : forall a b, identity arithR a b = if Nat.eqb a b then 1 else 0) by (intros; reflexivity).
  assert (X : exact_eigen 3 (normal_matrix 3 (corner q)) (fun i => G i i) (identity arithR)).
  { split.
    - intros a b Ha Hb. cbn [total]. rewrite !Id. destruct a as [|[|[|a]]]; try lia; destruct b as [|[|[|b]]]; try lia; cbn; split; ring.
    - intros a b Ha Hb. rewrite corner_matrix by auto. cbn [total]. rewrite !Id, !HG, !corner_matrix by lia. destruct a as [|[|[|a]]]; try lia; destruct b as [|[|[|b]]]; try lia; cbn; ring. }
  assert (Kd : solver_kind 3 8 (2 ^ 30)) by (left; auto).
  destruct (C31_least _ _ _ _ _ 3 8 (2 ^ 30)%Z (corner q) _ ones_tuning lo hi _ _ Kd (corner_history q (fun x _ => x) (fun x _ => x) sin cos atan) (corner_clean q) J X) as (x & X1 & X2 & _).
  - cbn. lra.
  - intros k Hk. right. rewrite HG, corner_matrix by auto. rewrite Nat.eqb_refl, Rabs_R1. cbn. lra.
  - exists x. split; [exact X1|]. specialize (X2 q).
    assert (P : forall p, planes_error 3 [(q, axis 0); (q, axis 1); (q, axis 2)] p = (p 0%nat - q 0%nat) * (p 0%nat - q 0%nat) + (p 1%nat - q 1%nat) * (p 1%nat - q 1%nat) + (p 2%nat - q 2%nat) * (p 2%nat - q 2%nat)).
    { intros p. unfold planes_error, plane_error. cbn [fold_right total fst snd]. unfold axis. cbn [Nat.eqb]. ring. }
    rewrite !P in X2. intros c Hc.
    assert (Z : (x 0%nat - q 0%nat) = 0 /\ (x 1%nat - q 1%nat) = 0 /\ (x 2%nat - q 2%nat) = 0).
    { pose proof (Rle_0_sqr (x 0%nat - q 0%nat)). pose proof (Rle_0_sqr (x 1%nat - q 1%nat)). pose proof (Rle_0_sqr (x 2%nat - q 2%nat)). unfold Rsqr in *.
      repeat split; apply Rsqr_0_uniq; unfold Rsqr; lra. }
    destruct c as [|[|[|c]]]; try lia; lra.
Qed.

(* ---- single precision ---- *)
Local Open Scope Z_scope.
Definition vec3F (x y z : b32) : fvec b32 := fun c => match c with O => x | 1%nat => y | _ => z end.
(* 0.01f, 0.0025f *)
Definition default_tuning : tuning b32 := Tuning (f32 10737418 (-30)) (f32 10737418 (-32)) 15 true.
Definition least_normal32 : b32 := f32 1 (-126).
Definition far_plane : fvec b32 * fvec b32 := (vec3F (f32 1 127) (f32 0 0) (f32 0 0), vec3F (f32 1 0) (f32 0 0) (f32 0 0)).
Definition unit_box : fvec b32 * fvec b32 := (vec3F (f32 0 0) (f32 0 0) (f32 0 0), vec3F (f32 1 0) (f32 1 0) (f32 1 0)).

(* C31, refuted in single precision: two planes with unit normals through points with coordinate 2^127.
   The sum of the points overflows, and all coordinates of the result are NaN. *)
Theorem C31_refuted : forall hypot copysign msin mcos matan, exists s L,
  history arith32 least_normal32 hypot copysign msin mcos matan 3 8 (2 ^ 30) (fun _ => True) s L 0 /\ L <> [] /\
  (forall c, a_le arith32 (fst unit_box c) (snd unit_box c) = true) /\
  let z := fst (solve arith32 least_normal32 hypot copysign msin mcos matan 3 default_tuning s (fst unit_box) (snd unit_box)) in
  forall c, (c < 3)%nat -> a_le arith32 (fst unit_box c) (z c) = false /\ a_le arith32 (z c) (snd unit_box c) = false.
Proof.
  intros hypot copysign msin mcos matan.
  set (s1 := match add_plane arith32 least_normal32 3 8 (q_new arith32) (fst far_plane) (snd far_plane) with Ret s => s | _ => q_new arith32 end).
  set (s2 := match add_plane arith32 least_normal32 3 8 s1 (fst far_plane) (snd far_plane) with Ret s => s | _ => q_new arith32 end).
  exists s2, (([] ++ [far_plane]) ++ [far_plane]). split.
  { change 0%nat with (0 + 0 + 0)%nat. rewrite (surjective_pairing far_plane).
    apply (h_plane arith32 least_normal32 hypot copysign msin mcos matan 3 8 _ _ s1).
    1: apply (h_plane arith32 least_normal32 hypot copysign msin mcos matan 3 8 _ _ (q_new arith32)).
    - apply h_new.
    - reflexivity.
    - left. split; [reflexivity | trivial].
    - reflexivity.
    - left. split; [reflexivity | trivial]. }
  split; [discriminate|]. split; [intros c; destruct c as [|[|c]]; vm_compute; reflexivity|].
  cbv zeta. intros c Hc. destruct c as [|[|[|c]]]; try lia; split; vm_compute; reflexivity.
Qed.
Print Assumptions C31_refuted.

(* C32, refuted: for every box, all coordinates of the point that an empty solver returns are NaN, in
   single precision, whatever the functions of the mathematical library. *)
Theorem C32_refuted : forall hypot copysign msin mcos matan lo hi c, (c < 3)%nat ->
  let z := fst (solve arith32 least_normal32 hypot copysign msin mcos matan 3 default_tuning (q_new arith32) lo hi) c in
  a_le arith32 (lo c) z = false /\ a_le arith32 z (hi c) = false.
Proof.
  intros hypot copysign msin mcos matan lo hi c Hc. cbv zeta.
  assert (N : fst (solve_with arith32 3 (fun m => jacobi arith32 hypot copysign msin mcos matan 3 m (t_jacobi default_tuning) (t_iters default_tuning) (t_fast default_tuning))
     (t_pinv default_tuning) (compress arith32 least_normal32 3 (q_new arith32))) c = B754_nan).
  { assert (B : forall x : b32, a_eq arith32 x x = false -> x = B754_nan).
    { intros x. cbn. unfold Beqb, SpecFloat.SFeqb. change (SpecFloat.SFcompare (B2SF x) (B2SF x)) with (Bcompare x x).
      intros Q. destruct x as [[]|[]| |[] m e H]; try discriminate; try reflexivity; cbn in Q; unfold Bcompare in Q; cbn in Q; rewrite Z.compare_refl in Q; rewrite ?Pcompare_refl, ?Pos.compare_cont_refl in Q; discriminate. }
    apply B. destruct c as [|[|[|c]]]; try lia; vm_compute; reflexivity. }
  unfold solve. destruct (solve_with arith32 3 _ _ _) as [x dim]. cbn [fst] in *. unfold clampv, glm_min, glm_max. rewrite N.
  generalize (lo c) (hi c). intros a b. destruct a as [[]|[]| |[]], b as [[]|[]| |[]]; split; reflexivity.
Qed.
Print Assumptions C32_refuted.
