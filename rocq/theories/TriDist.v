(* The distance from a point to a triangle, in real numbers. *)
From Coq Require Import ZArith List Bool Reals Lra Lia Psatz.
From Verif Require Import Base Arith RealArith TriModel TriSpec.
Import ListNotations.
Local Open Scope R_scope.

(* ------------------------------------------------------------------ *)
(* The quadratic function on the triangle                              *)
(* ------------------------------------------------------------------ *)

(* Squared distance from P to a + y1 (b - a) + y2 (c - a), where e, f, g are the products of
   the edge vectors and al, be, q those of P - a with them and with itself. *)
Definition phi (e f g al be q y1 y2 : R) : R :=
  q - 2 * y1 * al - 2 * y2 * be + e * (y1 * y1) + 2 * f * (y1 * y2) + g * (y2 * y2).

Lemma form_pos : forall e f g u v, 0 < e -> 0 < e * g - f * f -> 0 <= e * (u * u) + 2 * f * (u * v) + g * (v * v).
Proof.
  intros e f g u v He HD.
  assert (E : e * (e * (u * u) + 2 * f * (u * v) + g * (v * v)) = (e * u + f * v) * (e * u + f * v) + (e * g - f * f) * (v * v)) by ring.
  assert (0 <= (e * u + f * v) * (e * u + f * v)) by apply Rle_0_sqr.
  assert (0 <= v * v) by apply Rle_0_sqr.
  apply (Rmult_le_reg_l e); auto. rewrite E. nra.
Qed.

(* A point at which no direction into the triangle goes downhill is the nearest one. *)
Lemma phi_min : forall e f g al be q x1 x2 y1 y2, 0 < e -> 0 < e * g - f * f ->
  0 <= (e * x1 + f * x2 - al) * (y1 - x1) + (f * x1 + g * x2 - be) * (y2 - x2) ->
  phi e f g al be q x1 x2 <= phi e f g al be q y1 y2.
Proof.
  intros e f g al be q x1 x2 y1 y2 He HD H.
  pose proof (form_pos e f g (y1 - x1) (y2 - x2) He HD) as Hp.
  assert (E : phi e f g al be q y1 y2 = phi e f g al be q x1 x2 +
    2 * ((e * x1 + f * x2 - al) * (y1 - x1) + (f * x1 + g * x2 - be) * (y2 - x2)) +
    (e * ((y1 - x1) * (y1 - x1)) + 2 * f * ((y1 - x1) * (y2 - x2)) + g * ((y2 - x2) * (y2 - x2)))) by (unfold phi; ring).
  lra.
Qed.

(* Behind a corner of an obtuse angle: in the half plane beyond the first edge and before
   its beginning means beyond the other edge, next to it or behind its end. *)
Lemma region : forall e f g al be, 0 < e -> 0 < g -> 0 < e * g - f * f ->
  e * be - f * al < 0 -> al < 0 -> (0 < al \/ 0 < be) ->
  (g < be -> be - g - (al - f) < 0) -> (0 <= be -> be <= g -> f * be - g * al < 0) -> False.
Proof.
  intros e f g al be He Hg HD N Ha [? | Hb] HC HE; [lra|].
  assert (P1 : 0 < e * be) by (apply Rmult_lt_0_compat; auto).
  assert (Hfa : 0 < f * al) by lra.
  assert (Hf : f < 0) by nra.
  destruct (Rle_dec be g) as [L | L].
  - specialize (HE (Rlt_le _ _ Hb) L).
    assert (f * al * be > e * be * be) by nra.
    assert (g * al * al < f * al * be) by nra.
    assert (e * (g * al * al) < (f * al) * (e * be)) by nra.
    assert ((f * al) * (e * be) <= (f * al) * (f * al)) by nra.
    assert (e * g * (al * al) >= f * f * (al * al)) by nra.
    lra.
  - assert (Hg' : g < be) by lra. specialize (HC Hg').
    assert (e * g < e * be) by nra.
    assert (f * f < f * al) by lra.
    nra.
Qed.

(* If none of the six tests of TriangleOctree::distance succeeds, the point lies above the triangle. *)
Lemma above : forall e f g al be, let h := e + g - 2 * f in let h1 := be - f - (al - e) in
  0 < e -> 0 < g -> 0 < h -> 0 < e * g - f * f ->
  ~ (be <= 0 /\ al <= 0) -> ~ (e <= al /\ h1 <= 0) -> ~ (h <= h1 /\ g <= be) ->
  ~ (0 <= al <= e /\ 0 <= f * al - e * be) ->
  ~ (0 <= h1 <= h /\ 0 <= (g - f) * (al - e) - (f - e) * (be - f)) ->
  ~ (0 <= be <= g /\ 0 <= f * be - g * al) ->
  0 <= g * al - f * be /\ 0 <= e * be - f * al /\ g * al - f * be + (e * be - f * al) <= e * g - f * f.
Proof.
  intros e f g al be h h1 He Hg Hh HD NA NB NC EAB EBC ECA.
  (* outside of an edge [e] and before its beginning or after its end *)
  assert (Or : forall x y : R, ~ (x <= 0 /\ y <= 0) -> 0 < y \/ 0 < x).
  { intros x y N. destruct (Rlt_dec 0 y); [auto|]. destruct (Rlt_dec 0 x); [auto|]. exfalso. apply N. lra. }
  assert (Nl : forall x y : R, ~ x <= y -> y < x) by (intros; lra).
  split; [|split].
  - (* edge CA *)
    destruct (Rle_dec 0 (g * al - f * be)) as [|N]; auto. exfalso. apply Nl in N.
    destruct (Rlt_dec be 0) as [L | L].
    + (* behind a: AC and AB *)
      refine (region g f e be al Hg He _ _ L _ _ _).
      * replace (g * e) with (e * g) by ring. exact HD.
      * exact N.
      * destruct (Or be al NA); auto.
      * intros Q. destruct (Rle_dec h1 0) as [Q'|Q']; [exfalso; apply NB; lra | unfold h1 in Q'; lra].
      * intros Q1 Q2. destruct (Rle_dec 0 (f * al - e * be)) as [Q|Q]; [exfalso; apply EAB; lra | lra].
    + destruct (Rlt_dec g be) as [L' | L'].
      * (* behind c: CA and CB *)
        refine (region g (g - f) h (g - be) (h - h1) Hg Hh _ _ _ _ _ _).
        -- replace (g * h - (g - f) * (g - f)) with (e * g - f * f) by (unfold h; ring). exact HD.
        -- replace (g * (h - h1) - (g - f) * (g - be)) with (g * al - f * be) by (unfold h, h1; ring). exact N.
        -- lra.
        -- destruct (Rlt_dec h1 h); [right; lra|]. exfalso. apply NC. lra.
        -- intros Q. destruct (Rlt_dec al e); [unfold h, h1; lra|]. exfalso. apply NB. lra.
        -- intros Q1 Q2. destruct (Rle_dec 0 ((g - f) * (al - e) - (f - e) * (be - f))) as [Q|Q].
           ++ exfalso. apply EBC. lra.
           ++ replace ((g - f) * (h - h1) - h * (g - be)) with ((g - f) * (al - e) - (f - e) * (be - f)) by (unfold h, h1; ring). lra.
      * apply ECA. lra.
  - (* edge AB *)
    destruct (Rle_dec 0 (e * be - f * al)) as [|N]; auto. exfalso. apply Nl in N.
    destruct (Rlt_dec al 0) as [L | L].
    + (* behind a: AB and AC *)
      refine (region e f g al be He Hg HD N L _ _ _).
      * destruct (Or be al NA); auto.
      * intros Q. destruct (Rlt_dec h1 h) as [Q'|Q']; [unfold h, h1 in Q'; lra|]. exfalso. apply NC. lra.
      * intros Q1 Q2. destruct (Rle_dec 0 (f * be - g * al)) as [Q|Q]; [exfalso; apply ECA; lra | lra].
    + destruct (Rlt_dec e al) as [L' | L'].
      * (* behind b: BA and BC *)
        refine (region e (e - f) h (e - al) h1 He Hh _ _ _ _ _ _).
        -- replace (e * h - (e - f) * (e - f)) with (e * g - f * f) by (unfold h; ring). exact HD.
        -- replace (e * h1 - (e - f) * (e - al)) with (e * be - f * al) by (unfold h1; ring). exact N.
        -- lra.
        -- destruct (Rlt_dec 0 h1); [auto|]. exfalso. apply NB. lra.
        -- intros Q. destruct (Rlt_dec be g); [unfold h, h1; lra|]. exfalso. apply NC. lra.
        -- intros Q1 Q2. destruct (Rle_dec 0 ((g - f) * (al - e) - (f - e) * (be - f))) as [Q|Q].
           ++ exfalso. apply EBC. lra.
           ++ replace ((e - f) * h1 - h * (e - al)) with ((g - f) * (al - e) - (f - e) * (be - f)) by (unfold h, h1; ring). lra.
      * apply EAB. lra.
  - (* edge BC *)
    destruct (Rle_dec (g * al - f * be + (e * be - f * al)) (e * g - f * f)) as [|N]; auto. exfalso. apply Nl in N.
    destruct (Rlt_dec h1 0) as [L | L].
    + (* behind b: BC and BA *)
      refine (region h (e - f) e h1 (e - al) Hh He _ _ L _ _ _).
      * replace (h * e - (e - f) * (e - f)) with (e * g - f * f) by (unfold h; ring). exact HD.
      * replace (h * (e - al) - (e - f) * h1) with ((e * g - f * f) - (g * al - f * be + (e * be - f * al))) by (unfold h, h1; ring). lra.
      * destruct (Rlt_dec al e); [right; lra|]. exfalso. apply NB. lra.
      * intros Q. destruct (Rlt_dec 0 be); [unfold h1; lra|]. exfalso. apply NA. lra.
      * intros Q1 Q2. destruct (Rle_dec 0 (f * al - e * be)) as [Q|Q]; [exfalso; apply EAB; lra|].
        replace ((e - f) * (e - al) - e * h1) with (f * al - e * be) by (unfold h1; ring). lra.
    + destruct (Rlt_dec h h1) as [L' | L'].
      * (* behind c: CB and CA *)
        refine (region h (g - f) g (h - h1) (g - be) Hh Hg _ _ _ _ _ _).
        -- replace (h * g - (g - f) * (g - f)) with (e * g - f * f) by (unfold h; ring). exact HD.
        -- replace (h * (g - be) - (g - f) * (h - h1)) with ((e * g - f * f) - (g * al - f * be + (e * be - f * al))) by (unfold h, h1; ring). lra.
        -- lra.
        -- destruct (Rlt_dec be g); [right; lra|]. exfalso. apply NC. lra.
        -- intros Q. destruct (Rlt_dec 0 al); [unfold h, h1; lra|]. exfalso. apply NA. lra.
        -- intros Q1 Q2. destruct (Rle_dec 0 (f * be - g * al)) as [Q|Q]; [exfalso; apply ECA; lra|].
           replace ((g - f) * (g - be) - g * (h - h1)) with (f * be - g * al) by (unfold h, h1; ring). lra.
      * apply EBC. split; [lra|].
        replace ((g - f) * (al - e) - (f - e) * (be - f)) with (g * al - f * be + (e * be - f * al) - (e * g - f * f)) by ring. lra.
Qed.

(* ------------------------------------------------------------------ *)
(* In coordinates                                                      *)
(* ------------------------------------------------------------------ *)

Definition vplus (a u : rvec) : rvec := V3 (vx a + vx u) (vy a + vy u) (vz a + vz u).
Definition ip (u v : rvec) : R := vx u * vx v + vy u * vy v + vz u * vz v.
Definition vol (u v p : rvec) : R :=
  vx p * (vy u * vz v - vz u * vy v) + vy p * (vz u * vx v - vx u * vz v) + vz p * (vx u * vy v - vy u * vx v).
Definition normal_of (u v : rvec) (k : R) : rvec :=
  V3 ((vy u * vz v - vz u * vy v) * k) ((vz u * vx v - vx u * vz v) * k) ((vx u * vy v - vy u * vx v) * k).

Lemma sq_dist_phi : forall a u v p y1 y2,
  sq_dist (vplus a p) (vplus a (V3 (y1 * vx u + y2 * vx v) (y1 * vy u + y2 * vy v) (y1 * vz u + y2 * vz v))) =
  phi (ip u u) (ip u v) (ip v v) (ip u p) (ip v p) (ip p p) y1 y2.
Proof. intros. unfold sq_dist, vplus, phi, ip, Rsqr. cbn [vx vy vz]. ring. Qed.

Lemma in_triangle_plus : forall a u v X, in_triangle a (vplus a u) (vplus a v) X <->
  exists y1 y2, 0 <= y1 /\ 0 <= y2 /\ y1 + y2 <= 1 /\
    X = vplus a (V3 (y1 * vx u + y2 * vx v) (y1 * vy u + y2 * vy v) (y1 * vz u + y2 * vz v)).
Proof.
  intros a u v X. split.
  - intros (x & y & z & Hx & Hy & Hz & S & E). exists y, z. split; [auto|]. split; [auto|]. split; [lra|].
    rewrite E. assert (x = 1 - y - z) as -> by lra. unfold vplus. cbn [vx vy vz]. f_equal; ring.
  - intros (y & z & Hy & Hz & S & E). exists (1 - y - z), y, z. split; [lra|]. split; [auto|]. split; [auto|]. split; [ring|].
    rewrite E. unfold vplus. cbn [vx vy vz]. f_equal; ring.
Qed.

Lemma nearest_at : forall a u v p d x1 x2, 0 < ip u u -> 0 < ip u u * ip v v - ip u v * ip u v ->
  0 <= x1 -> 0 <= x2 -> x1 + x2 <= 1 -> d = phi (ip u u) (ip u v) (ip v v) (ip u p) (ip v p) (ip p p) x1 x2 ->
  (forall y1 y2, 0 <= y1 -> 0 <= y2 -> y1 + y2 <= 1 ->
    0 <= (ip u u * x1 + ip u v * x2 - ip u p) * (y1 - x1) + (ip u v * x1 + ip v v * x2 - ip v p) * (y2 - x2)) ->
  nearest a (vplus a u) (vplus a v) (vplus a p) d.
Proof.
  intros a u v p d x1 x2 He HD H1 H2 H3 Ed Hg. split.
  - eexists. split.
    + apply in_triangle_plus. exists x1, x2. split; [auto|]. split; [auto|]. split; [auto | reflexivity].
    + rewrite sq_dist_phi. exact Ed.
  - intros Y HY. apply in_triangle_plus in HY. destruct HY as (y1 & y2 & Hy1 & Hy2 & Hy & ->).
    rewrite sq_dist_phi, Ed. apply phi_min; auto.
Qed.

Lemma ip_pos : forall u, 0 <= ip u u.
Proof.
  intros. unfold ip. pose proof (Rle_0_sqr (vx u)). pose proof (Rle_0_sqr (vy u)). pose proof (Rle_0_sqr (vz u)). unfold Rsqr in *. lra.
Qed.

Lemma gram : forall u v, ip u u * ip v v - ip u v * ip u v =
  (vy u * vz v - vz u * vy v) * (vy u * vz v - vz u * vy v) + (vz u * vx v - vx u * vz v) * (vz u * vx v - vx u * vz v) +
  (vx u * vy v - vy u * vx v) * (vx u * vy v - vy u * vx v).
Proof. intros. unfold ip. ring. Qed.

Ltac coords := unfold dot3, vsub3, vadd3, vscale3, cross3, distance2, vplus, normal_of, ip, vol; cbn [arithR a_add a_sub a_mul a_div vx vy vz]; ring.

Lemma distance_nearest : forall a u v p k, 0 < k -> k * k * (ip u u * ip v v - ip u v * ip u v) = 1 ->
  let r := tri_distance arithR (vplus a p) (Tri a (vplus a u) (vplus a v) (normal_of u v k)) in
  nearest a (vplus a u) (vplus a v) (vplus a p) (fst r) /\ snd r = (if Rlt_dec 0 (vol u v p) then 1%Z else (-1)%Z).
Proof.
  intros a u v p k Hk HkD r.
  set (D := ip u u * ip v v - ip u v * ip u v) in *.
  assert (HD : 0 < D).
  { destruct (Rle_lt_dec D 0) as [L|L]; auto. assert (0 < k * k) by (apply Rmult_lt_0_compat; auto). nra. }
  pose proof (ip_pos u) as Pu. pose proof (ip_pos v) as Pv.
  assert (He : 0 < ip u u). { destruct Pu as [Q|Q]; auto. exfalso. unfold D in HD. rewrite <- Q in HD. pose proof (Rle_0_sqr (ip u v)). unfold Rsqr in *. nra. }
  assert (Hg : 0 < ip v v). { destruct Pv as [Q|Q]; auto. exfalso. unfold D in HD. rewrite <- Q in HD. pose proof (Rle_0_sqr (ip u v)). unfold Rsqr in *. nra. }
  assert (Hh : 0 < ip u u + ip v v - 2 * ip u v).
  { assert (Q : (ip u u - ip u v) * (ip u u - ip u v) + D = ip u u * (ip u u + ip v v - 2 * ip u v)) by (unfold D; ring).
    pose proof (Rle_0_sqr (ip u u - ip u v)). unfold Rsqr in *. apply (Rmult_lt_reg_l (ip u u)); auto. lra. }
  set (b := vplus a u) in *. set (c := vplus a v) in *. set (P := vplus a p) in *. set (n := normal_of u v k) in *.
  assert (Sg' : forall w, w = vol u v p * k -> sign arithR w = (if Rlt_dec 0 (vol u v p) then 1%Z else (-1)%Z)).
  { intros w ->. unfold sign. cbn [arithR a_lt a_ofZ]. unfold Rltb.
    destruct (Rlt_dec 0 (vol u v p * k)) as [Q|Q], (Rlt_dec 0 (vol u v p)) as [Q'|Q']; auto; exfalso.
    - apply Q'. apply (Rmult_lt_reg_r k); auto. lra.
    - apply Q. apply Rmult_lt_0_compat; auto. }
  assert (E1 : dot3 arithR (vsub3 arithR b a) (vsub3 arithR P a) = ip u p) by (unfold b, P; coords).
  assert (E2 : dot3 arithR (vsub3 arithR b a) (vsub3 arithR b a) = ip u u) by (unfold b; coords).
  assert (E3 : dot3 arithR (vsub3 arithR a c) (vsub3 arithR P c) = ip v v - ip v p) by (unfold c, P; coords).
  assert (E4 : dot3 arithR (vsub3 arithR a c) (vsub3 arithR a c) = ip v v) by (unfold c; coords).
  assert (E5 : dot3 arithR (vsub3 arithR c b) (vsub3 arithR P b) = ip v p - ip u v - (ip u p - ip u u)) by (unfold b, c, P; coords).
  assert (E6 : dot3 arithR (vsub3 arithR c b) (vsub3 arithR c b) = ip u u + ip v v - 2 * ip u v) by (unfold b, c; coords).
  assert (E7 : dot3 arithR (cross3 arithR (vsub3 arithR b a) n) (vsub3 arithR P a) = (ip u v * ip u p - ip u u * ip v p) * k) by (unfold b, n, P; coords).
  assert (E8 : dot3 arithR (cross3 arithR (vsub3 arithR c b) n) (vsub3 arithR P b) =
     ((ip v v - ip u v) * (ip u p - ip u u) - (ip u v - ip u u) * (ip v p - ip u v)) * k) by (unfold b, c, n, P; coords).
  assert (E9 : dot3 arithR (cross3 arithR (vsub3 arithR a c) n) (vsub3 arithR P c) = (ip u v * ip v p - ip v v * ip u p) * k) by (unfold c, n, P; coords).
  assert (Lk : forall x, 0 <= x * k <-> 0 <= x).
  { intros x. split; intros H.
    - apply (Rmult_le_reg_r k); auto. lra.
    - apply Rmult_le_pos; lra. }
  assert (D0 : forall x y, 0 < y -> (0 <= x / y <-> 0 <= x)).
  { intros x y Hy. assert (0 < / y) by (apply Rinv_0_lt_compat; auto). unfold Rdiv. split; intros H'.
    - apply (Rmult_le_reg_r (/ y)); auto. lra.
    - apply Rmult_le_pos; lra. }
  assert (D0' : forall x y, 0 < y -> (x / y <= 0 <-> x <= 0)).
  { intros x y Hy. specialize (D0 (- x) y Hy). replace (- x / y) with (- (x / y)) in D0 by (field; lra). lra. }
  assert (D1 : forall x y, 0 < y -> (x / y <= 1 <-> x <= y)).
  { intros x y Hy. specialize (D0 (y - x) y Hy). replace ((y - x) / y) with (1 - x / y) in D0 by (field; lra). lra. }
  assert (D1' : forall x y, 0 < y -> (1 <= x / y <-> y <= x)).
  { intros x y Hy. specialize (D0 (x - y) y Hy). replace ((x - y) / y) with (x / y - 1) in D0 by (field; lra). lra. }
  unfold r, tri_distance. cbv zeta. rewrite E1, E2, E3, E4, E5, E6, E7, E8, E9. cbn [arithR a_le a_div a_ofZ].
  set (e := ip u u) in *. set (f := ip u v) in *. set (g := ip v v) in *. set (al := ip u p) in *. set (be := ip v p) in *.
  set (h := e + g - 2 * f) in *. set (h1 := be - f - (al - e)) in *.
  (* the six tests *)
  destruct (Rleb 1 ((g - be) / g) && Rleb (al / e) 0)%bool eqn:TA.
  { apply andb_prop in TA. destruct TA as [T1 T2]. apply Rleb_iff in T1, T2. rewrite D1' in T1 by auto. rewrite D0' in T2 by auto.
    cbn [fst snd]. split.
    - apply (nearest_at a u v p _ 0 0); auto; fold e f g al be; try lra.
      + unfold phi. fold (ip p p). unfold P. unfold distance2, vplus, ip. cbn [arithR a_add a_sub a_mul vx vy vz]. ring.
      + intros y1 y2 Q1 Q2 _. nra.
    - apply Sg'. unfold P, n; coords. }
  destruct (Rleb 1 (al / e) && Rleb (h1 / h) 0)%bool eqn:TB.
  { apply andb_prop in TB. destruct TB as [T1 T2]. apply Rleb_iff in T1, T2. rewrite D1' in T1 by auto. rewrite D0' in T2 by auto.
    cbn [fst snd]. split.
    - apply (nearest_at a u v p _ 1 0); auto; fold e f g al be; try lra.
      + unfold phi, e, f, g, al, be, b, P. unfold distance2, vplus, ip. cbn [arithR a_add a_sub a_mul vx vy vz]. ring.
      + intros y1 y2 Q1 Q2 Q3. unfold h1 in T2. nra.
    - apply Sg'. unfold b, P, n; coords. }
  destruct (Rleb 1 (h1 / h) && Rleb ((g - be) / g) 0)%bool eqn:TC.
  { apply andb_prop in TC. destruct TC as [T1 T2]. apply Rleb_iff in T1, T2. rewrite D1' in T1 by auto. rewrite D0' in T2 by auto.
    cbn [fst snd]. split.
    - apply (nearest_at a u v p _ 0 1); auto; fold e f g al be; try lra.
      + unfold phi, e, f, g, al, be, c, P. unfold distance2, vplus, ip. cbn [arithR a_add a_sub a_mul vx vy vz]. ring.
      + intros y1 y2 Q1 Q2 Q3. unfold h, h1 in T1. nra.
    - apply Sg'. unfold c, P, n; coords. }
  destruct ((Rleb 0 (al / e) && Rleb (al / e) 1) && Rleb 0 ((f * al - e * be) * k))%bool eqn:TAB.
  { apply andb_prop in TAB. destruct TAB as [T T3]. apply andb_prop in T. destruct T as [T1 T2]. apply Rleb_iff in T1, T2, T3.
    rewrite Lk in T3. cbn [fst snd]. split.
    - apply (nearest_at a u v p _ (al / e) 0); auto; fold e f g al be; try lra.
      + set (d := al / e). unfold phi, e, f, g, al, be, b, P. unfold distance2, vadd3, vscale3, vsub3, vplus, ip. cbn [arithR a_add a_sub a_mul vx vy vz]. ring.
      + intros y1 y2 Q1 Q2 Q3. replace (e * (al / e) + f * 0 - al) with 0 by (field; lra).
        replace (f * (al / e) + g * 0 - be) with ((f * al - e * be) / e) by (field; lra).
        apply (D0 _ e) in T3; auto. nra.
    - apply Sg'. unfold b, P, n; coords. }
  destruct ((Rleb 0 (h1 / h) && Rleb (h1 / h) 1) && Rleb 0 (((g - f) * (al - e) - (f - e) * (be - f)) * k))%bool eqn:TBC.
  { apply andb_prop in TBC. destruct TBC as [T T3]. apply andb_prop in T. destruct T as [T1 T2]. apply Rleb_iff in T1, T2, T3.
    rewrite Lk in T3. cbn [fst snd]. split.
    - apply (nearest_at a u v p _ (1 - h1 / h) (h1 / h)); auto; fold e f g al be; try lra.
      + set (d := h1 / h). unfold phi, e, f, g, al, be, b, c, P. unfold distance2, vadd3, vscale3, vsub3, vplus, ip. cbn [arithR a_add a_sub a_mul vx vy vz]. ring.
      + intros y1 y2 Q1 Q2 Q3.
        assert (G1 : e * (1 - h1 / h) + f * (h1 / h) - al = - (((g - f) * (al - e) - (f - e) * (be - f)) / h)).
        { unfold h1, h in *. field. lra. }
        assert (G2 : f * (1 - h1 / h) + g * (h1 / h) - be = - (((g - f) * (al - e) - (f - e) * (be - f)) / h)).
        { unfold h1, h in *. field. lra. }
        rewrite G1, G2. apply (D0 _ h) in T3; auto. nra.
    - apply Sg'. unfold b, c, P, n; coords. }
  destruct ((Rleb 0 ((g - be) / g) && Rleb ((g - be) / g) 1) && Rleb 0 ((f * be - g * al) * k))%bool eqn:TCA.
  { apply andb_prop in TCA. destruct TCA as [T T3]. apply andb_prop in T. destruct T as [T1 T2]. apply Rleb_iff in T1, T2, T3.
    rewrite Lk in T3. cbn [fst snd]. split.
    - apply (nearest_at a u v p _ 0 (1 - (g - be) / g)); auto; fold e f g al be; try lra.
      + set (d := (g - be) / g). unfold phi, e, f, g, al, be, c, P. unfold distance2, vadd3, vscale3, vsub3, vplus, ip. cbn [arithR a_add a_sub a_mul vx vy vz]. ring.
      + intros y1 y2 Q1 Q2 Q3.
        replace (e * 0 + f * (1 - (g - be) / g) - al) with ((f * be - g * al) / g) by (field; lra).
        replace (f * 0 + g * (1 - (g - be) / g) - be) with 0 by (field; lra).
        apply (D0 _ g) in T3; auto. nra.
    - apply Sg'. unfold c, P, n; coords. }
  (* above the triangle *)
  assert (X : 0 <= g * al - f * be /\ 0 <= e * be - f * al /\ g * al - f * be + (e * be - f * al) <= e * g - f * f).
  { apply above; auto; fold h h1.
    - intros [Q1 Q2]. apply Bool.not_true_iff_false in TA. apply TA. apply andb_true_intro. rewrite !Rleb_iff, D1', D0' by auto. lra.
    - intros [Q1 Q2]. apply Bool.not_true_iff_false in TB. apply TB. apply andb_true_intro. rewrite !Rleb_iff, D1', D0' by auto. lra.
    - intros [Q1 Q2]. apply Bool.not_true_iff_false in TC. apply TC. apply andb_true_intro. rewrite !Rleb_iff, D1', D0' by auto. lra.
    - intros [Q1 Q2]. apply Bool.not_true_iff_false in TAB. apply TAB. rewrite !andb_true_iff, !Rleb_iff, D1, D0, Lk by auto. lra.
    - intros [Q1 Q2]. apply Bool.not_true_iff_false in TBC. apply TBC. rewrite !andb_true_iff, !Rleb_iff, D1, D0, Lk by auto. lra.
    - intros [Q1 Q2]. apply Bool.not_true_iff_false in TCA. apply TCA. rewrite !andb_true_iff, !Rleb_iff, D1, D0, Lk by auto. lra. }
  destruct X as (X1 & X2 & X3). fold D in X3.
  assert (Nn : ip n n = 1).
  { rewrite <- HkD. unfold D, e, f, g, n. coords. }
  assert (Rn : dot3 arithR (vsub3 arithR P a) n = vol u v p * k) by (unfold P, n; coords).
  cbn [fst snd]. rewrite Rn. set (w := vol u v p * k) in *. split.
  - apply (nearest_at a u v p _ ((g * al - f * be) / D) ((e * be - f * al) / D)); auto.
    + apply D0; auto.
    + apply D0; auto.
    + replace ((g * al - f * be) / D + (e * be - f * al) / D) with ((g * al - f * be + (e * be - f * al)) / D) by (field; lra). apply D1; auto.
    + fold e f g al be.
      assert (L : distance2 arithR (vsub3 arithR P (vscale3 arithR n w)) P = w * w * ip n n) by coords.
      rewrite L, Nn. unfold phi.
      assert (Lag : (vol u v p) * (vol u v p) = D * ip p p - (g * al * al - 2 * f * al * be + e * be * be)).
      { unfold D, e, f, g, al, be, vol, ip. ring. }
      assert (K2 : w * w = (vol u v p) * (vol u v p) / D).
      { unfold w. apply (Rmult_eq_reg_r D); [|lra]. transitivity (vol u v p * vol u v p * (k * k * D)); [ring|]. rewrite HkD. field. lra. }
      rewrite K2, Lag. unfold D, e, f, g, al, be in *. field. lra.
    + intros y1 y2 Q1 Q2 Q3. fold e f g al be.
      replace (e * ((g * al - f * be) / D) + f * ((e * be - f * al) / D) - al) with 0 by (unfold D in *; field; lra).
      replace (f * ((g * al - f * be) / D) + g * ((e * be - f * al) / D) - be) with 0 by (unfold D in *; field; lra). lra.
  - apply Sg'. assert (L : dot3 arithR (vsub3 arithR P (vsub3 arithR P (vscale3 arithR n w))) n = w * ip n n) by coords.
    rewrite L, Nn. unfold w. ring.
Qed.
