(* Piecewise linear interpolation in the real numbers. *)
From Coq Require Import ZArith List Bool Reals Lra Lia.
From Verif Require Import Base Arith RealArith HeightmapModel HeightmapSpec.
Import ListNotations.
Local Open Scope R_scope.

Lemma floor_spec : forall x, IZR (Int_part x) <= x < IZR (Int_part x) + 1.
Proof. intros. destruct (base_Int_part x). lra. Qed.

Lemma floor_unique : forall x n, IZR n <= x < IZR n + 1 -> Int_part x = n.
Proof.
  intros x n H. pose proof (floor_spec x) as H'.
  assert ((Int_part x < n + 1)%Z) by (apply lt_IZR; rewrite plus_IZR; lra).
  assert ((n < Int_part x + 1)%Z) by (apply lt_IZR; rewrite plus_IZR; lra). lia.
Qed.

Lemma floor_int_range : forall x, in_int_range x <-> (i32min <= Int_part x < i32max)%Z.
Proof.
  intros x. unfold in_int_range. pose proof (floor_spec x) as H. split; intros [H1 H2].
  - split.
    + apply Z.lt_succ_r. apply lt_IZR. rewrite succ_IZR. lra.
    + apply lt_IZR. lra.
  - apply IZR_le in H1. split; [lra|].
    assert (Int_part x + 1 <= i32max)%Z as H3 by lia. apply IZR_le in H3. rewrite plus_IZR in H3. lra.
Qed.

(* Linear interpolation between integers. *)
Definition lin (f : Z -> R) (x : R) : R :=
  f (Int_part x) * (IZR (Int_part x + 1) - x) + f (Int_part x + 1)%Z * (x - IZR (Int_part x)).

Lemma lin_between : forall f x n, IZR n <= x <= IZR n + 1 ->
  lin f x = f n * (IZR n + 1 - x) + f (n + 1)%Z * (x - IZR n).
Proof.
  intros f x n H. unfold lin. destruct (Req_dec x (IZR n + 1)) as [E | E].
  - assert (Int_part x = n + 1)%Z as -> by (apply floor_unique; rewrite plus_IZR; lra).
    rewrite !plus_IZR. replace x with (IZR n + 1) by auto. ring.
  - rewrite (floor_unique x n) by lra. rewrite plus_IZR. ring.
Qed.

Lemma lin_int : forall f n, lin f (IZR n) = f n.
Proof. intros. rewrite (lin_between f (IZR n) n) by lra. ring. Qed.

Lemma lin_range : forall f a b x, (forall n, a <= f n <= b) -> a <= lin f x <= b.
Proof.
  intros f a b x H. unfold lin. pose proof (floor_spec x). rewrite plus_IZR.
  pose proof (H (Int_part x)). pose proof (H (Int_part x + 1)%Z).
  set (u := f (Int_part x)) in *. set (v := f (Int_part x + 1)%Z) in *. set (t := x - IZR (Int_part x)).
  replace (u * (IZR (Int_part x) + 1 - x) + v * t) with (u * (1 - t) + v * t) by (unfold t; ring).
  assert (0 <= t <= 1) by (unfold t; lra). clearbody t u v. split; nra.
Qed.

Lemma lin_lip_cell : forall f M x y n, (forall n, Rabs (f (n + 1)%Z - f n) <= M) ->
  IZR n <= x -> x <= y -> y <= IZR n + 1 -> Rabs (lin f y - lin f x) <= M * (y - x).
Proof.
  intros f M x y n H H1 H2 H3. rewrite (lin_between f x n), (lin_between f y n) by lra.
  replace (f n * (IZR n + 1 - y) + f (n + 1)%Z * (y - IZR n) - (f n * (IZR n + 1 - x) + f (n + 1)%Z * (x - IZR n)))
    with ((f (n + 1)%Z - f n) * (y - x)) by ring.
  rewrite Rabs_mult, (Rabs_right (y - x)) by lra. apply Rmult_le_compat_r; [lra | auto].
Qed.

Lemma lin_lip_le : forall f M, (forall n, Rabs (f (n + 1)%Z - f n) <= M) -> forall k x y, x <= y ->
  (Int_part y - Int_part x <= Z.of_nat k)%Z -> Rabs (lin f y - lin f x) <= M * (y - x).
Proof.
  intros f M H. induction k; intros x y Hxy Hk.
  - apply (lin_lip_cell f M x y (Int_part x)); auto; pose proof (floor_spec x); pose proof (floor_spec y); try lra.
    assert (Int_part y <= Int_part x)%Z as E by lia. apply IZR_le in E. lra.
  - destruct (Z.eq_dec (Int_part y) (Int_part x)) as [E | E].
    + apply IHk; auto. lia.
    + pose proof (floor_spec x). pose proof (floor_spec y).
      assert (Int_part x <= Int_part y)%Z by (apply Z.lt_succ_r; apply lt_IZR; rewrite succ_IZR; lra).
      assert (IZR (Int_part x + 1) <= IZR (Int_part y)) as E2 by (apply IZR_le; lia).
      set (m := IZR (Int_part x + 1)) in *. assert (Em : m = IZR (Int_part x) + 1) by (unfold m; rewrite plus_IZR; auto).
      assert (E1 : Rabs (lin f m - lin f x) <= M * (m - x)).
      { apply (lin_lip_cell f M x m (Int_part x)); auto; lra. }
      assert (E3 : Rabs (lin f y - lin f m) <= M * (y - m)).
      { apply IHk; [lra|]. assert (Int_part m = Int_part x + 1)%Z as -> by (apply floor_unique; unfold m; lra). lia. }
      replace (lin f y - lin f x) with ((lin f y - lin f m) + (lin f m - lin f x)) by ring.
      eapply Rle_trans; [apply Rabs_triang|]. lra.
Qed.

Lemma lin_lip : forall f M, (forall n, Rabs (f (n + 1)%Z - f n) <= M) -> forall x y,
  Rabs (lin f y - lin f x) <= M * Rabs (y - x).
Proof.
  intros f M H x y. destruct (Rle_dec x y).
  - rewrite (Rabs_right (y - x)) by lra. apply (lin_lip_le f M H (Z.to_nat (Int_part y - Int_part x))); auto. lia.
  - rewrite Rabs_minus_sym, (Rabs_minus_sym y x), (Rabs_right (x - y)) by lra.
    apply (lin_lip_le f M H (Z.to_nat (Int_part x - Int_part y))); [lra | lia].
Qed.

Lemma lin_minus : forall f g x, lin f x - lin g x = lin (fun n => f n - g n) x.
Proof. intros. unfold lin. ring. Qed.

Lemma lin_abs : forall f M x, (forall n, Rabs (f n) <= M) -> Rabs (lin f x) <= M.
Proof.
  intros f M x H. apply Rabs_le. apply lin_range. intros n. pose proof (H n) as H'. split; [|pose proof (Rle_abs (f n)); lra].
  pose proof (Rle_abs (- f n)). rewrite Rabs_Ropp in *. lra.
Qed.

(* Bilinear interpolation. *)
Definition bilin (f : Z -> Z -> R) (x y : R) : R := lin (fun i => lin (f i) y) x.

Lemma bilin_range : forall f a b x y, (forall i j, a <= f i j <= b) -> a <= bilin f x y <= b.
Proof. intros. unfold bilin. apply lin_range. intros. apply lin_range. auto. Qed.

Lemma bilin_lip : forall f a b x y x' y', (forall i j, a <= f i j <= b) ->
  Rabs (bilin f x' y' - bilin f x y) <= (b - a) * (Rabs (x' - x) + Rabs (y' - y)).
Proof.
  intros f a b x y x' y' H.
  replace (bilin f x' y' - bilin f x y) with ((bilin f x' y' - bilin f x y') + (bilin f x y' - bilin f x y)) by ring.
  eapply Rle_trans; [apply Rabs_triang|]. rewrite Rmult_plus_distr_l. apply Rplus_le_compat.
  - unfold bilin. apply lin_lip. intros n.
    pose proof (lin_range (f n) a b y' (H n)). pose proof (lin_range (f (n + 1)%Z) a b y' (H (n + 1)%Z)).
    apply Rabs_le. lra.
  - unfold bilin. rewrite lin_minus. apply lin_abs. intros n. apply lin_lip. intros j.
    pose proof (H n j). pose proof (H n (j + 1)%Z). apply Rabs_le. lra.
Qed.
