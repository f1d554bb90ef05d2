(* The Jacobi iteration in exact arithmetic. *)
From Coq Require Import ZArith List Bool Reals Lra Lia.
From Verif Require Import Base Arith RealArith XReal QefModel QefLin QefHouse QefSpec.
Import ListNotations.
Local Open Scope R_scope.
Notation fmatR := (nat -> nat -> R).

(* ---- one rotation, in the reals ---- *)
Definition sym (m : fmatR) (a b : nat) : R := m (Nat.min a b) (Nat.max a b).
Lemma sym_comm : forall m a b, sym m a b = sym m b a.
Proof. intros. unfold sym. rewrite Nat.min_comm, Nat.max_comm. reflexivity. Qed.

(* what rotating the basis does to a matrix of products *)
Definition turned (c s : R) (i j : nat) (g : fmatR) (a b : nat) : R :=
  if Nat.eqb a i then
    if Nat.eqb b i then c * c * g i i + s * s * g j j + c * s * (g i j + g i j)
    else if Nat.eqb b j then 0 else c * g i b + s * g j b
  else if Nat.eqb a j then
    if Nat.eqb b i then 0
    else if Nat.eqb b j then s * s * g i i + c * c * g j j - c * s * (g i j + g i j)
    else - s * g i b + c * g j b
  else if Nat.eqb b i then c * g i a + s * g j a
  else if Nat.eqb b j then - s * g i a + c * g j a
  else g a b.

Definition turned_basis (c s : R) (i j : nat) (h : fmatR) (a r : nat) : R :=
  if Nat.eqb a i then c * h i r + s * h j r else if Nat.eqb a j then - s * h i r + c * h j r else h a r.

(* the rotation makes the product of the two vectors zero *)
Definition kills (c s : R) (i j : nat) (g : fmatR) : Prop := c * s * (g j j - g i i) + (c * c - s * s) * g i j = 0.

Section Form.
Variable D : nat.
Variable B : nat -> nat -> R.   (* a symmetric bilinear form, on rows *)
Definition form (x y : nat -> R) : R := rsum D (fun a => rsum D (fun b => B a b * x a * y b)).
Lemma form_ext : forall x x' y y', (forall a, (a < D)%nat -> x a = x' a) -> (forall a, (a < D)%nat -> y a = y' a) -> form x y = form x' y'.
Proof. intros x x' y y' Hx Hy. unfold form. apply rsum_ext. intros a Ha. apply rsum_ext. intros b Hb. rewrite Hx, Hy by auto. reflexivity. Qed.
Lemma form_left : forall u v x x' y, form (fun a => u * x a + v * x' a) y = u * form x y + v * form x' y.
Proof.
  intros. unfold form. rewrite <- !rsum_scal, <- rsum_plus. apply rsum_ext. intros a _. rewrite <- !rsum_scal, <- rsum_plus. apply rsum_ext. intros; ring.
Qed.
Lemma form_right : forall u v x y y', form x (fun a => u * y a + v * y' a) = u * form x y + v * form x y'.
Proof.
  intros. unfold form. rewrite <- !rsum_scal, <- rsum_plus. apply rsum_ext. intros a _. rewrite <- !rsum_scal, <- rsum_plus. apply rsum_ext. intros; ring.
Qed.

Lemma form_turned : forall c s i j h g, (i < D)%nat -> (j < D)%nat -> i <> j -> (forall a b, g a b = g b a) -> kills c s i j g ->
  (forall a b, (a < D)%nat -> (b < D)%nat -> form (h a) (h b) = g a b) ->
  forall a b, (a < D)%nat -> (b < D)%nat -> form (turned_basis c s i j h a) (turned_basis c s i j h b) = turned c s i j g a b.
Proof.
  intros c s i j h g Hi Hj Hij Hg K H a b Ha Hb.
  assert (Bi : forall a, turned_basis c s i j h a = if Nat.eqb a i then (fun r => c * h i r + s * h j r) else if Nat.eqb a j then (fun r => - s * h i r + c * h j r) else h a).
  { intros a0. unfold turned_basis. destruct (Nat.eqb a0 i); [reflexivity|]. destruct (Nat.eqb a0 j); reflexivity. }
  rewrite !Bi. unfold turned, kills in *.
  destruct (Nat.eqb_spec a i) as [Ea|Ea]; [|destruct (Nat.eqb_spec a j) as [Ea2|Ea2]];
  (destruct (Nat.eqb_spec b i) as [Eb|Eb]; [|destruct (Nat.eqb_spec b j) as [Eb2|Eb2]]);
  repeat rewrite form_left; repeat rewrite form_right; rewrite ?H by auto; rewrite ?(Hg j i), ?(Hg a i), ?(Hg a j); try ring; try lra.
Qed.
End Form.

Section Rotation.
Variable D : nat.
Variable c s : R.
Variable i j : nat.
Hypothesis Hi : (i < D)%nat.
Hypothesis Hj : (j < D)%nat.
Hypothesis Hij : (i < j)%nat.
Hypothesis one : c * c + s * s = 1.

Lemma dot_turned : forall h a b, rsum D (fun k => turned_basis c s i j h k a * turned_basis c s i j h k b) = rsum D (fun k => h k a * h k b).
Proof.
  intros h a b. apply (rsum_two D _ _ i j); auto; [lia| |].
  - unfold turned_basis. rewrite !Nat.eqb_refl. destruct (Nat.eqb_spec j i); [lia|].
    replace ((c * h i a + s * h j a) * (c * h i b + s * h j b) + (- s * h i a + c * h j a) * (- s * h i b + c * h j b))
      with ((c * c + s * s) * (h i a * h i b + h j a * h j b)) by ring. rewrite one. ring.
  - intros k H1 H2. unfold turned_basis. destruct (Nat.eqb_spec k i); [lia|]. destruct (Nat.eqb_spec k j); [lia | reflexivity].
Qed.
End Rotation.

(* ---- the code on finite values ---- *)
Section Code.
Variable nbz : R -> bool.
Notation AX := (arithX nbz).
Definition fin_mat (m : nat -> nat -> xreal) (m' : fmatR) : Prop := forall a b, m a b = Fin (m' a b).

Lemma upd_fin : forall m m' a b x, fin_mat m m' -> fin_mat (upd m a b (Fin x)) (upd m' a b x).
Proof. intros m m' a b x H p q. unfold upd. destruct (_ && _)%bool; auto. Qed.

(* The entries above the diagonal after the loop over k, for k < n. *)
Definition swept (c s : R) (i j n : nat) (m : fmatR) (a b : nat) : R :=
  (* entry (a, b) with a < b *)
  if Nat.eqb a i then (if Nat.eqb b j then m a b else if Nat.ltb b n then c * sym m i b + s * sym m j b else m a b)
  else if Nat.eqb b i then (if Nat.ltb a n then c * sym m i a + s * sym m j a else m a b)
  else if Nat.eqb a j then (if Nat.ltb b n then - s * sym m i b + c * sym m j b else m a b)
  else if Nat.eqb b j then (if Nat.ltb a n then - s * sym m i a + c * sym m j a else m a b)
  else m a b.

Lemma rotate_entry_fin : forall c s i j mX m k, fin_mat mX m ->
  fin_mat (rotate_entry AX (Fin c) (Fin s) i j mX k) (rotate_entry arithR c s i j m k).
Proof.
  intros c s i j mX m k H. unfold rotate_entry. destruct (_ || _)%bool; [exact H|].
  rewrite !(H (Nat.min _ _)). cbn [arithX a_add a_mul a_neg x_add x_mul x_neg]. apply upd_fin. apply upd_fin. exact H.
Qed.
Lemma rotate_vectors_fin : forall c s i j mX m k, fin_mat mX m ->
  fin_mat (rotate_vectors AX (Fin c) (Fin s) i j mX k) (rotate_vectors arithR c s i j m k).
Proof.
  intros c s i j mX m k H. unfold rotate_vectors. rewrite !H. cbn [arithX a_add a_mul a_neg x_add x_mul x_neg]. apply upd_fin. apply upd_fin. exact H.
Qed.
Lemma fold_fin : forall (fX : (nat -> nat -> xreal) -> nat -> nat -> nat -> xreal) (f : fmatR -> nat -> fmatR),
  (forall mX m k, fin_mat mX m -> fin_mat (fX mX k) (f m k)) -> forall l mX m, fin_mat mX m -> fin_mat (fold_left fX l mX) (fold_left f l m).
Proof. intros fX f H l. induction l as [|k l IH]; intros mX m Hm; cbn; auto. Qed.
Lemma rotate_fin : forall D c s i j mX hX m h, fin_mat mX m -> fin_mat hX h ->
  fin_mat (fst (rotate AX D mX hX (Fin c) (Fin s) i j)) (fst (rotate arithR D m h c s i j)) /\
  fin_mat (snd (rotate AX D mX hX (Fin c) (Fin s) i j)) (snd (rotate arithR D m h c s i j)).
Proof.
  intros D c s i j mX hX m h Hm Hh. unfold rotate. cbn [fst snd]. split.
  - pose proof (fold_fin (rotate_entry AX (Fin c) (Fin s) i j) (rotate_entry arithR c s i j)
      (fun mX m k => rotate_entry_fin c s i j mX m k) (seq 0 D) mX m Hm) as F.
    set (fX := fold_left _ _ mX) in *. set (f := fold_left _ _ m) in *.
    rewrite !(F i i), !(F j j), !(F i j). cbn [arithX a_add a_sub a_mul a_ofZ x_add x_sub x_mul].
    apply upd_fin. apply upd_fin. apply upd_fin. exact F.
  - apply fold_fin; auto. intros. apply rotate_vectors_fin. auto.
Qed.
End Code.

(* ---- three or four dimensions ---- *)
Ltac pick n := first [ destruct n as [|n]; [ | first [ exfalso; lia | pick n ] ] | exfalso; lia ].

Section Small.
Variable D : nat.
Hypothesis HD : D = 3%nat \/ D = 4%nat.

Lemma rotate_sym : forall c s i j m h, (i < j < D)%nat -> forall a b, (a < D)%nat -> (b < D)%nat ->
  sym (fst (rotate arithR D m h c s i j)) a b = turned c s i j (sym m) a b.
Proof.
  intros c s i j m h H a b Ha Hb. destruct HD as [-> | ->];
  (destruct i as [|[|[|[|]]]]; try lia); (destruct j as [|[|[|[|]]]]; try lia);
  (destruct a as [|[|[|[|]]]]; try lia); (destruct b as [|[|[|[|]]]]; try lia);
  cbv [rotate fst snd seq fold_left rotate_entry upd Nat.eqb orb andb Nat.min Nat.max turned sym arithR a_add a_sub a_mul a_neg a_ofZ]; ring.
Qed.
Lemma rotate_basis : forall c s i j m h, (i < j < D)%nat -> forall a r, (a < D)%nat -> (r < D)%nat ->
  snd (rotate arithR D m h c s i j) a r = turned_basis c s i j h a r.
Proof.
  intros c s i j m h H a b Ha Hb. destruct HD as [-> | ->];
  (destruct i as [|[|[|[|]]]]; try lia); (destruct j as [|[|[|[|]]]]; try lia);
  (destruct a as [|[|[|[|]]]]; try lia); (destruct b as [|[|[|[|]]]]; try lia);
  cbv [rotate fst snd seq fold_left rotate_vectors upd Nat.eqb orb andb turned_basis arithR a_add a_sub a_mul a_neg a_ofZ]; ring.
Qed.

(* Half the sum of the squares of the entries off the diagonal. *)
Definition off (g : fmatR) : R := rsum D (fun b => rsum b (fun a => g a b * g a b)).
Lemma off_ext : forall g g', (forall a b, (a < D)%nat -> (b < D)%nat -> g a b = g' a b) -> off g = off g'.
Proof. intros g g' H. unfold off. apply rsum_ext. intros b Hb. apply rsum_ext. intros a Ha. rewrite H by lia. reflexivity. Qed.
Lemma off_turned : forall c s i j g, (i < j < D)%nat -> c * c + s * s = 1 -> (forall a b, g a b = g b a) ->
  off (turned c s i j g) = off g - g i j * g i j.
Proof.
  intros c s i j g H one Hg.
  assert (K : forall x y, (c * x + s * y) * (c * x + s * y) + (- s * x + c * y) * (- s * x + c * y) = x * x + y * y).
  { intros x y. replace ((c * x + s * y) * (c * x + s * y) + (- s * x + c * y) * (- s * x + c * y)) with ((c * c + s * s) * (x * x + y * y)) by ring. rewrite one. ring. }
  pose proof (Hg 1%nat 0%nat) as G10. pose proof (Hg 2%nat 0%nat) as G20. pose proof (Hg 3%nat 0%nat) as G30.
  pose proof (Hg 2%nat 1%nat) as G21. pose proof (Hg 3%nat 1%nat) as G31. pose proof (Hg 3%nat 2%nat) as G32. unfold off.
  destruct HD as [-> | ->];
  (destruct i as [|[|[|[|]]]]; try lia); (destruct j as [|[|[|[|]]]]; try lia);
  cbv [rsum turned Nat.eqb]; rewrite ?G10, ?G20, ?G30, ?G21, ?G31, ?G32.
  - pose proof (K (g 0 2) (g 1 2))%nat. lra.
  - pose proof (K (g 0 1) (g 1 2))%nat. lra.
  - pose proof (K (g 0 1) (g 0 2))%nat. lra.
  - pose proof (K (g 0 2) (g 1 2))%nat. pose proof (K (g 0 3) (g 1 3))%nat. lra.
  - pose proof (K (g 0 1) (g 1 2))%nat. pose proof (K (g 0 3) (g 2 3))%nat. lra.
  - pose proof (K (g 0 1) (g 1 3))%nat. pose proof (K (g 0 2) (g 2 3))%nat. lra.
  - pose proof (K (g 0 1) (g 0 2))%nat. pose proof (K (g 1 3) (g 2 3))%nat. lra.
  - pose proof (K (g 0 1) (g 0 3))%nat. pose proof (K (g 1 2) (g 2 3))%nat. lra.
  - pose proof (K (g 0 2) (g 0 3))%nat. pose proof (K (g 1 2) (g 1 3))%nat. lra.
Qed.
(* number of entries above the diagonal *)
Definition pairs_above : R := INR (D * (D - 1)) / 2.
Lemma off_pivot : forall g i j, (i < j < D)%nat -> (forall a b, (a < b < D)%nat -> Rabs (g a b) <= Rabs (g i j)) ->
  off g <= pairs_above * (g i j * g i j).
Proof.
  intros g i j H M.
  assert (K : forall a b, (a < b < D)%nat -> g a b * g a b <= g i j * g i j).
  { intros a b Hab. apply Rsqr_le_abs_1. apply M. auto. }
  pose proof (fun a b => K a b) as K'. unfold off, pairs_above. destruct HD as [E | E]; rewrite E in *.
  - pose proof (K 0 1 ltac:(lia))%nat. pose proof (K 0 2 ltac:(lia))%nat. pose proof (K 1 2 ltac:(lia))%nat. cbn. lra.
  - pose proof (K 0 1 ltac:(lia))%nat. pose proof (K 0 2 ltac:(lia))%nat. pose proof (K 1 2 ltac:(lia))%nat.
    pose proof (K 0 3 ltac:(lia))%nat. pose proof (K 1 3 ltac:(lia))%nat. pose proof (K 2 3 ltac:(lia))%nat. cbn. lra.
Qed.
Lemma pairs_above_3 : 3 <= pairs_above.
Proof. unfold pairs_above. destruct HD as [-> | ->]; cbn; lra. Qed.

(* the pivot *)
Lemma largest_at : forall (m : fmatR), exists i j, (i < j < D)%nat /\ largest arithR D m = (Rabs (m i j), i, j) /\
  forall a b, (a < b < D)%nat -> Rabs (m a b) <= Rabs (m i j).
Proof.
  intros m. unfold largest. cbn [arithR a_abs a_lt].
  set (ps := flat_map _ _).
  assert (Hps : forall p, In p ps <-> (fst p < snd p < D)%nat).
  { intros [a b]. unfold ps. rewrite in_flat_map. cbn [fst snd]. split.
    - intros (x & Hx & Hy). apply in_map_iff in Hy. destruct Hy as (y & Ey & Hy). injection Ey as -> ->. apply in_seq in Hx, Hy. lia.
    - intros H. exists a. split; [apply in_seq; lia|]. apply in_map_iff. exists b. split; [reflexivity|]. apply in_seq. lia. }
  assert (G : forall l i j, (forall p, In p l -> (fst p < snd p < D)%nat) -> (i < j < D)%nat ->
    exists i' j', (i' < j' < D)%nat /\ fold_left (fun best p => let '(max_el, _, _) := best in
      let el := Rabs (m (fst p) (snd p)) in if Rltb max_el el then (el, fst p, snd p) else best) l (Rabs (m i j), i, j) = (Rabs (m i' j'), i', j') /\
      Rabs (m i j) <= Rabs (m i' j') /\ forall p, In p l -> Rabs (m (fst p) (snd p)) <= Rabs (m i' j')).
  { induction l as [|p l IH]; intros i j Hl Hij.
    - exists i, j. cbn. split; [auto|]. split; [reflexivity|]. split; [lra|]. intros p [].
    - cbn [fold_left]. cbv zeta. destruct (Rltb _ _) eqn:E.
      + apply Rltb_iff in E. destruct (IH (fst p) (snd p) ltac:(intros q Hq; apply Hl; right; auto) ltac:(apply Hl; left; auto)) as (i' & j' & H1 & H2 & H3 & H4).
        exists i', j'. split; [auto|]. split; [exact H2|]. split; [lra|]. intros q [-> | Hq]; auto.
      + apply Rltb_false in E. destruct (IH i j ltac:(intros q Hq; apply Hl; right; auto) Hij) as (i' & j' & H1 & H2 & H3 & H4).
        exists i', j'. split; [auto|]. split; [exact H2|]. split; [lra|]. intros q [-> | Hq]; [lra | auto]. }
  destruct (G ps 0%nat 1%nat (fun p => proj1 (Hps p)) ltac:(lia)) as (i & j & H1 & H2 & _ & H4).
  exists i, j. split; [auto|]. split; [exact H2|]. intros a b Hab. apply (H4 (a, b)). apply Hps. exact Hab.
Qed.
Lemma largest_fin : forall nbz mX m, fin_mat mX m -> largest (arithX nbz) D mX = let '(x, i, j) := largest arithR D m in (Fin x, i, j).
Proof.
  intros nbz mX m H. unfold largest. rewrite H. cbn [arithX arithR a_abs x_abs a_lt].
  set (ps := flat_map _ _).
  assert (G : forall l x i j, fold_left (fun (best : xreal * nat * nat) p => let '(max_el, _, _) := best in
      let el := x_abs (mX (fst p) (snd p)) in if x_lt max_el el then (el, fst p, snd p) else best) l (Fin x, i, j) =
    let '(x, i, j) := fold_left (fun (best : R * nat * nat) p => let '(max_el, _, _) := best in
      let el := Rabs (m (fst p) (snd p)) in if Rltb max_el el then (el, fst p, snd p) else best) l (x, i, j) in (Fin x, i, j)).
  { induction l as [|p l IH]; intros x i j; cbn [fold_left]; [reflexivity|].
    cbv zeta in *. rewrite !(H (fst p)). cbn [x_abs x_lt]. destruct (Rltb x (Rabs (m (fst p) (snd p)))); apply IH. }
  apply G.
Qed.
End Small.

(* ---- sine and cosine ---- *)
(* t is the tangent of twice the angle *)
Definition angle (t : xreal) (c s : R) : Prop :=
  match t with
  | Fin t => c * c + s * s = 1 /\ c * c - s * s = / sqrt (1 + t * t) /\ 2 * (c * s) = t * / sqrt (1 + t * t)
  | Inf b => c * c + s * s = 1 /\ c * c - s * s = 0 /\ 2 * (c * s) = (if b then -1 else 1)
  | Nan => False
  end.

Lemma hyp_ge1 : forall t, 1 <= sqrt (1 + t * t).
Proof. intros t. rewrite <- sqrt_1 at 1. apply sqrt_le_1_alt. pose proof (Rle_0_sqr t). unfold Rsqr in *. lra. Qed.

Lemma fast_angle : forall nbz t, t <> Nan -> exists c s, sincos_fast (arithX nbz) x_hypot x_copysign t = (Fin s, Fin c) /\ angle t c s.
Proof.
  intros nbz t Ht. unfold sincos_fast. cbn [arithX a_div a_add a_sub a_ofZ a_sqrt x_div].
  rewrite (proj2 (Reqb_false 2 0)) by lra. destruct t as [t|b|]; [| |congruence].
  - cbn [x_hypot x_div]. replace (1 * 1) with 1 by ring. pose proof (hyp_ge1 t) as H1. set (h := sqrt (1 + t * t)) in *.
    rewrite (proj2 (Reqb_false h 0)) by lra. cbn [x_add x_sub x_sqrt].
    assert (I1 : 0 < / h) by (apply Rinv_0_lt_compat; lra). assert (I2 : / h <= 1) by (rewrite <- Rinv_1; apply Rinv_le_contravar; lra).
    replace (1 / 2 / h) with (/ 2 * / h) by (field; lra).
    rewrite (proj2 (Rltb_false _ 0)) by lra. rewrite (proj2 (Rltb_false _ 0)) by lra.
    unfold x_copysign. cbn [x_abs x_negative].
    assert (S1 : sqrt (1 / 2 + / 2 * / h) * sqrt (1 / 2 + / 2 * / h) = 1 / 2 + / 2 * / h) by (apply sqrt_sqrt; lra).
    assert (S2 : sqrt (1 / 2 - / 2 * / h) * sqrt (1 / 2 - / 2 * / h) = 1 / 2 - / 2 * / h) by (apply sqrt_sqrt; lra).
    pose proof (sqrt_pos (1 / 2 - / 2 * / h)) as P2. rewrite Rabs_right by lra.
    assert (Q : 2 * (sqrt (1 / 2 + / 2 * / h) * sqrt (1 / 2 - / 2 * / h)) = Rabs t * / h).
    { rewrite <- sqrt_mult by lra. transitivity (sqrt (2 * 2) * sqrt ((1 / 2 + / 2 * / h) * (1 / 2 - / 2 * / h))); [rewrite sqrt_square by lra; reflexivity|]. rewrite <- sqrt_mult; [|lra|apply Rmult_le_pos; lra].
      replace (Rabs t * / h) with (sqrt ((Rabs t * / h) * (Rabs t * / h))) by (apply sqrt_square; apply Rmult_le_pos; [apply Rabs_pos | lra]).
      f_equal. assert (Hh : h * h = 1 + t * t) by (apply sqrt_sqrt; pose proof (Rle_0_sqr t); unfold Rsqr in *; lra).
      replace (Rabs t * / h * (Rabs t * / h)) with ((Rabs t * Rabs t) / (h * h)) by (field; lra).
      rewrite <- Rabs_mult, Rabs_right by (pose proof (Rle_0_sqr t); unfold Rsqr in *; lra).
      replace (2 * 2 * ((1 / 2 + / 2 * / h) * (1 / 2 - / 2 * / h))) with ((h * h - 1) / (h * h)) by (field; lra). rewrite Hh. f_equal. ring. }
    destruct (Rltb t 0) eqn:E; [apply Rltb_iff in E | apply Rltb_false in E]; cbn [x_neg]; eexists; eexists; (split; [reflexivity|]); cbn [angle]; fold h.
    + rewrite Rabs_left in Q by auto. split; [|split]; nra.
    + rewrite Rabs_right in Q by lra. split; [|split]; nra.
  - cbn [x_hypot x_div x_add x_sub x_sqrt]. rewrite (proj2 (Rltb_false _ 0)) by lra. rewrite (proj2 (Rltb_false _ 0)) by lra.
    unfold x_copysign. cbn [x_abs x_negative]. rewrite Rplus_0_r, Rminus_0_r.
    assert (S1 : sqrt (1 / 2) * sqrt (1 / 2) = 1 / 2) by (apply sqrt_sqrt; lra). pose proof (sqrt_pos (1 / 2)). rewrite Rabs_right by lra.
    destruct b; cbn [x_neg]; eexists; eexists; (split; [reflexivity|]); cbn [angle]; (split; [|split]); nra.
Qed.

Lemma double_atan : forall t, cos (atan t) = / sqrt (1 + t * t) /\ sin (atan t) = t * / sqrt (1 + t * t).
Proof.
  intros t. pose proof (cos_atan t) as C. pose proof (sin_atan t) as S. unfold Rsqr, Rdiv in *. rewrite C, S. split; [ring | reflexivity].
Qed.
Lemma accurate_angle : forall nbz t, t <> Nan -> exists c s, sincos_accurate (arithX nbz) x_sin x_cos x_atan t = (Fin s, Fin c) /\ angle t c s.
Proof.
  assert (N : forall u, cos (u * / 2) * cos (u * / 2) - sin (u * / 2) * sin (u * / 2) = cos u /\ 2 * (cos (u * / 2) * sin (u * / 2)) = sin u /\
     cos (u * / 2) * cos (u * / 2) + sin (u * / 2) * sin (u * / 2) = 1).
  { intros u. pose proof (cos_2a (u * / 2)) as E1. pose proof (sin_2a (u * / 2)) as E2. replace (2 * (u * / 2)) with u in * by field.
    pose proof (sin2_cos2 (u * / 2)) as E3. unfold Rsqr in E3. split; [lra|]. split; lra. }
  intros nbz t Ht. unfold sincos_accurate. cbn [arithX a_div a_mul a_ofZ x_div]. rewrite (proj2 (Reqb_false 2 0)) by lra.
  destruct t as [t|b|]; [| |congruence]; cbn [x_atan x_mul x_sin x_cos].
  - replace (1 / 2 * atan t) with (atan t * / 2) by field. eexists; eexists; split; [reflexivity|]. cbn [angle].
    destruct (N (atan t)) as (N1 & N2 & N3). destruct (double_atan t) as [<- <-]. split; [exact N3|]. split; [exact N1 | exact N2].
  - set (u := if b then - (PI / 2) else PI / 2). replace (1 / 2 * u) with (u * / 2) by field. eexists; eexists; split; [reflexivity|]. cbn [angle].
    destruct (N u) as (N1 & N2 & N3). split; [exact N3|]. unfold u in N1, N2 |- *. destruct b.
    + rewrite cos_neg, cos_PI2 in N1. rewrite sin_neg, sin_PI2 in N2. split; lra.
    + rewrite cos_PI2 in N1. rewrite sin_PI2 in N2. split; lra.
Qed.

Lemma angle_kills : forall nbz aii ajj aij c s, aij <> 0 ->
  let t := a_div (arithX nbz) (a_add (arithX nbz) (Fin aij) (Fin aij)) (a_sub (arithX nbz) (Fin aii) (Fin ajj)) in
  t <> Nan /\ (angle t c s -> c * c + s * s = 1 /\ c * s * (ajj - aii) + (c * c - s * s) * aij = 0).
Proof.
  intros nbz aii ajj aij c s H. cbn [arithX a_div a_add a_sub x_add x_sub x_div].
  destruct (Reqb (aii - ajj) 0) eqn:E; [apply Reqb_iff in E | apply Reqb_false in E].
  - rewrite (proj2 (Reqb_false (aij + aij) 0)) by lra. split; [discriminate|]. cbn [angle]. intros (H1 & H2 & H3). split; [auto|].
    replace (ajj - aii) with (- (aii - ajj)) by ring. rewrite E, H2. ring.
  - split; [discriminate|]. cbn [angle]. set (t := (aij + aij) / (aii - ajj)). intros (H1 & H2 & H3). split; [auto|]. rewrite H2.
    replace (c * s) with (t * / sqrt (1 + t * t) / 2) by lra. pose proof (hyp_ge1 t). set (h := sqrt (1 + t * t)) in *.
    unfold t. field. split; lra.
Qed.

(* ---- the loop ---- *)
Section Loop.
Variable D : nat.
Hypothesis HD : D = 3%nat \/ D = 4%nat.
Variable nbz : R -> bool.
Variable A0 : fmatR.
Variable tol : R.
Hypothesis Htol : 0 <= tol.
Variable fast : bool.
Notation loop := (jacobi_loop (arithX nbz) x_hypot x_copysign x_sin x_cos x_atan D (Fin tol) fast).

Definition delta (a b : nat) : R := if Nat.eqb a b then 1 else 0.
Record good (m h : fmatR) : Prop := Good {
  g_rows : forall a b, (a < D)%nat -> (b < D)%nat -> rsum D (fun k => h k a * h k b) = delta a b;
  g_cols : forall a b, (a < D)%nat -> (b < D)%nat -> rsum D (fun r => h a r * h b r) = delta a b;
  g_form : forall a b, (a < D)%nat -> (b < D)%nat -> form D A0 (h a) (h b) = sym m a b }.

Lemma form_delta : forall x y, form D delta x y = rsum D (fun r => x r * y r).
Proof.
  intros x y. unfold form. apply rsum_ext. intros a Ha. rewrite (rsum_ext D _ (fun b => if Nat.eqb b a then x a * y a else 0)).
  - apply rsum_delta. auto.
  - intros b _. unfold delta. rewrite (Nat.eqb_sym a b). destruct (Nat.eqb_spec b a) as [->|]; ring.
Qed.

Lemma good_step : forall m h c s i j, good m h -> (i < j < D)%nat -> c * c + s * s = 1 ->
  c * s * (m j j - m i i) + (c * c - s * s) * m i j = 0 ->
  good (fst (rotate arithR D m h c s i j)) (snd (rotate arithR D m h c s i j)).
Proof.
  intros m h c s i j [G1 G2 G3] H one K.
  assert (B : forall a r, (a < D)%nat -> (r < D)%nat -> snd (rotate arithR D m h c s i j) a r = turned_basis c s i j h a r) by (intros; apply rotate_basis; auto).
  assert (Si : sym m i i = m i i /\ sym m j j = m j j /\ sym m i j = m i j) by (unfold sym; rewrite !Nat.min_id, !Nat.max_id, Nat.min_l, Nat.max_r by lia; auto).
  destruct Si as (S1 & S2 & S3). constructor.
  - intros a b Ha Hb. rewrite <- (G1 a b Ha Hb). rewrite <- (dot_turned D c s i j ltac:(lia) ltac:(lia) ltac:(lia) one h a b).
    apply rsum_ext. intros k Hk. rewrite !B by auto. reflexivity.
  - intros a b Ha Hb.
    rewrite (rsum_ext D _ (fun r => turned_basis c s i j h a r * turned_basis c s i j h b r)) by (intros; rewrite !B by auto; reflexivity).
    rewrite <- form_delta. rewrite (form_turned D delta c s i j h delta); auto; try lia.
    + unfold turned, delta. rewrite !Nat.eqb_refl.
      replace (Nat.eqb i j) with false by (symmetry; apply Nat.eqb_neq; lia).
      destruct (Nat.eqb_spec a i) as [->|]; [|destruct (Nat.eqb_spec a j) as [->|]];
      (destruct (Nat.eqb_spec b i) as [->|]; [|destruct (Nat.eqb_spec b j) as [->|]]); rewrite ?Nat.eqb_refl;
      repeat match goal with |- context [Nat.eqb ?x ?y] => destruct (Nat.eqb_spec x y); try lia end; try lra.
    + intros x y. unfold delta. rewrite Nat.eqb_sym. reflexivity.
    + unfold kills, delta. rewrite !Nat.eqb_refl. replace (Nat.eqb i j) with false by (symmetry; apply Nat.eqb_neq; lia). ring.
    + intros x y Hx Hy. rewrite form_delta. apply G2; auto.
  - intros a b Ha Hb. rewrite (rotate_sym D HD) by auto.
    rewrite (form_ext D A0 _ (turned_basis c s i j h a) _ (turned_basis c s i j h b)) by (intros; apply B; auto).
    apply form_turned; auto; try lia.
    + intros; apply sym_comm.
    + unfold kills. rewrite S1, S2, S3. exact K.
Qed.

(* share that remains of the squares off the diagonal after a rotation *)
Definition share : R := 1 - / pairs_above D.
Lemma share_range : 0 <= share < 1.
Proof.
  unfold share. pose proof (pairs_above_3 D HD). assert (0 < / pairs_above D) by (apply Rinv_0_lt_compat; lra).
  assert (/ pairs_above D <= 1) by (rewrite <- Rinv_1; apply Rinv_le_contravar; lra). lra.
Qed.
Lemma off_nonneg : forall g, 0 <= off D g.
Proof. intros g. unfold off. apply rsum_nonneg. intros. apply rsum_nonneg. intros. pose proof (Rle_0_sqr (g k0 k)). unfold Rsqr in *. lra. Qed.

Lemma loop_good : forall iters mX hX m h, fin_mat mX m -> fin_mat hX h -> good m h ->
  exists m' h', fin_mat (fst (loop iters mX hX)) m' /\ fin_mat (snd (loop iters mX hX)) h' /\ good m' h' /\ off D (sym m') <= off D (sym m) /\
    ((forall a b, (a < b < D)%nat -> Rabs (sym m' a b) <= tol) \/ off D (sym m') <= share ^ iters * off D (sym m)).
Proof.
  induction iters as [|iters IH]; intros mX hX m h Hm Hh G.
  - exists m, h. cbn [jacobi_loop fst snd]. split; [auto|]. split; [auto|]. split; [auto|]. split; [lra|]. right. cbn. lra.
  - cbn [jacobi_loop]. rewrite (largest_fin D nbz mX m Hm). destruct (largest_at D HD m) as (i & j & Hij & E & Hmax). rewrite E.
    cbn [arithX a_le]. rewrite x_le_fin. assert (S3 : forall a b, (a < b)%nat -> sym m a b = m a b) by (intros a b Hab; unfold sym; rewrite Nat.min_l, Nat.max_r by lia; auto).
    destruct (Rleb (Rabs (m i j)) tol) eqn:T.
    + apply Rleb_iff in T. exists m, h. cbn [fst snd]. split; [auto|]. split; [auto|]. split; [auto|]. split; [lra|]. left. intros a b Hab. rewrite S3 by lia.
      eapply Rle_trans; [apply Hmax; auto | exact T].
    + apply Rleb_false in T. assert (NZ : m i j <> 0) by (intros Z; rewrite Z, Rabs_R0 in T; lra).
      rewrite (Hm i j), (Hm i i), (Hm j j). cbv zeta.
      set (t := a_div _ _ _).
      assert (Q : exists c s, (if fast then sincos_fast (arithX nbz) x_hypot x_copysign t else sincos_accurate (arithX nbz) x_sin x_cos x_atan t) = (Fin s, Fin c) /\ angle t c s).
      { assert (t <> Nan) by (apply (angle_kills nbz (m i i) (m j j) (m i j) 0 0 NZ)). destruct fast; [apply fast_angle | apply accurate_angle]; auto. }
      destruct Q as (c & s & Q & An). rewrite Q. destruct (proj2 (angle_kills nbz (m i i) (m j j) (m i j) c s NZ) An) as [one K].
      pose proof (rotate_fin nbz D c s i j mX hX m h Hm Hh) as [F1 F2].
      rewrite (surjective_pairing (rotate (arithX nbz) D mX hX (Fin c) (Fin s) i j)).
      pose proof (good_step m h c s i j G Hij one K) as G'.
      assert (O : off D (sym (fst (rotate arithR D m h c s i j))) = off D (sym m) - m i j * m i j).
      { transitivity (off D (turned c s i j (sym m))); [apply (off_ext D HD); intros; apply (rotate_sym D HD); auto|].
        pose proof (off_turned D HD c s i j (sym m) Hij one (fun a b => sym_comm m a b)) as OT. rewrite (S3 i j) in OT by lia. exact OT. }
      assert (P : off D (sym m) <= pairs_above D * (m i j * m i j)).
      { rewrite <- (S3 i j) by lia. apply (off_pivot D HD); auto. intros a b Hab. rewrite !S3 by lia. apply Hmax. auto. }
      assert (O2 : off D (sym (fst (rotate arithR D m h c s i j))) <= share * off D (sym m)).
      { rewrite O. unfold share. pose proof (pairs_above_3 D HD). assert (I0 : 0 < / pairs_above D) by (apply Rinv_0_lt_compat; lra).
        pose proof (Rmult_le_compat_l (/ pairs_above D) _ _ (Rlt_le _ _ I0) P) as P2. rewrite <- Rmult_assoc, Rinv_l in P2 by lra. lra. }
      pose proof share_range as [Sh0 Sh1]. pose proof (off_nonneg (sym m)) as On.
      destruct (IH _ _ _ _ F1 F2 G') as (m' & h' & R1 & R2 & R3 & R4 & R5). exists m', h'. split; [exact R1|]. split; [exact R2|]. split; [exact R3|].
      split; [pose proof (Rmult_le_pos _ _ Sh0 On); pose proof (Rmult_le_compat_r _ _ _ On (Rlt_le _ _ Sh1)); lra|].
      destruct R5 as [R5|R5]; [left; exact R5|]. right. eapply Rle_trans; [exact R5|]. cbn [pow].
      pose proof (Rmult_le_compat_l (share ^ iters) _ _ (pow_le share iters Sh0) O2). lra.
Qed.

Lemma good_start : (forall a b, A0 a b = A0 b a) -> good A0 (fun c r => if Nat.eqb c r then 1 else 0).
Proof.
  intros Hs. assert (E : forall f k, (k < D)%nat -> rsum D (fun r => (if Nat.eqb k r then 1 else 0) * f r) = f k).
  { intros f k Hk. rewrite (rsum_ext D _ (fun r => if Nat.eqb r k then f k else 0)); [apply rsum_delta; auto|].
    intros r _. rewrite (Nat.eqb_sym k r). destruct (Nat.eqb_spec r k) as [->|]; ring. }
  constructor.
  - intros a b Ha Hb. rewrite (rsum_ext D _ (fun k => (if Nat.eqb a k then 1 else 0) * delta k b)).
    + apply (E (fun k => delta k b)). auto.
    + intros k _. rewrite (Nat.eqb_sym a k). reflexivity.
  - intros a b Ha Hb. rewrite (E (fun r => if Nat.eqb b r then 1 else 0)) by auto. unfold delta. rewrite Nat.eqb_sym. reflexivity.
  - intros a b Ha Hb. unfold form. rewrite (rsum_ext D _ (fun a' => (if Nat.eqb a a' then 1 else 0) * A0 a' b)).
    + rewrite (E (fun a' => A0 a' b)) by auto. unfold sym. destruct (Nat.le_ge_cases a b).
      * rewrite Nat.min_l, Nat.max_r by lia. reflexivity.
      * rewrite Nat.min_r, Nat.max_l by lia. apply Hs.
    + intros a' _. rewrite (rsum_ext D _ (fun b' => (if Nat.eqb b b' then 1 else 0) * (A0 a' b' * (if Nat.eqb a a' then 1 else 0)))) by (intros; ring).
      rewrite (E (fun b' => A0 a' b' * (if Nat.eqb a a' then 1 else 0))) by auto. ring.
Qed.

(* The matrix is put together again from the products. *)
Lemma rebuild : forall m h, good m h -> forall a b, (a < D)%nat -> (b < D)%nat ->
  A0 a b = rsum D (fun k => rsum D (fun l => sym m k l * h k a * h l b)).
Proof.
  intros m h [G1 _ G3] a b Ha Hb.
  (* sum over l of form (h k) (h l) h l b = sum over a' of A0 a' b * h k a' *)
  assert (R1 : forall k, (k < D)%nat -> rsum D (fun l => form D A0 (h k) (h l) * h l b) = rsum D (fun a' => A0 a' b * h k a')).
  { intros k Hk. unfold form.
    rewrite (rsum_ext D _ (fun l => rsum D (fun a' => rsum D (fun b' => A0 a' b' * h k a' * (h l b' * h l b))))).
    - rewrite rsum_swap. apply rsum_ext. intros a' Ha'. rewrite rsum_swap.
      rewrite (rsum_ext D _ (fun b' => if Nat.eqb b' b then A0 a' b * h k a' else 0)); [apply rsum_delta; auto|].
      intros b' Hb'. rewrite rsum_scal, G1 by auto. unfold delta. destruct (Nat.eqb_spec b' b) as [->|]; ring.
    - intros l _. rewrite <- rsum_scal_r. apply rsum_ext. intros a' _. rewrite <- rsum_scal_r. apply rsum_ext. intros; ring. }
  rewrite (rsum_ext D _ (fun k => rsum D (fun a' => A0 a' b * (h k a' * h k a)))).
  - rewrite rsum_swap. rewrite (rsum_ext D _ (fun a' => if Nat.eqb a' a then A0 a b else 0)); [symmetry; apply rsum_delta; auto|].
    intros a' Ha'. rewrite rsum_scal, G1 by auto. unfold delta. destruct (Nat.eqb_spec a' a) as [->|]; ring.
  - intros k Hk. rewrite (rsum_ext D _ (fun l => (form D A0 (h k) (h l) * h l b) * h k a)) by (intros l Hl; rewrite G3 by auto; ring).
    rewrite rsum_scal_r, R1 by auto. rewrite <- rsum_scal_r. apply rsum_ext. intros; ring.
Qed.
End Loop.
