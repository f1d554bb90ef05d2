From Coq Require Import ZArith List Bool Lia.
From Verif Require Import Base GridModel GridSpec.
Import ListNotations.
Local Open Scope Z_scope.

(* ---- sizes ---- *)

Lemma pow2_land : forall n, 0 < n -> (Z.land n (n - 1) = 0 <-> exists k, 0 <= k /\ n = 2 ^ k).
Proof.
  intros n Hn. split.
  - intro H. exists (Z.log2 n). split; [apply Z.log2_nonneg|].
    pose proof (Z.log2_spec n Hn) as [Hl Hu].
    destruct (Z.eq_dec n (2 ^ Z.log2 n)) as [|Hne]; [assumption|exfalso].
    assert (Hk : 0 <= Z.log2 n) by apply Z.log2_nonneg.
    assert (Hb : Z.testbit (Z.land n (n - 1)) (Z.log2 n) = true).
    { rewrite Z.land_spec. rewrite Z.bit_log2 by lia.
      assert (Hlog : Z.log2 (n - 1) = Z.log2 n).
      { apply Z.log2_unique; [assumption|lia]. }
      rewrite <- Hlog. rewrite Z.bit_log2; [reflexivity|].
      assert (0 < 2 ^ Z.log2 n) by (apply Z.pow_pos_nonneg; lia). lia. }
    rewrite H in Hb. rewrite Z.bits_0 in Hb. discriminate.
  - intros (k & Hk & ->).
    replace (2 ^ k - 1) with (Z.ones k) by (rewrite Z.ones_equiv; lia).
    rewrite Z.land_ones by assumption. apply Z.mod_same.
    pose proof (Z.pow_pos_nonneg 2 k). lia.
Qed.

Lemma valid_cases : forall n, valid_size n ->
  n = 2 \/ n = 4 \/ n = 8 \/ n = 16 \/ n = 32 \/ n = 64 \/ n = 128 \/ n = 256 \/ n = 512 \/ n = 1024.
Proof.
  intros n (k & Hk & ->).
  assert (k = 1 \/ k = 2 \/ k = 3 \/ k = 4 \/ k = 5 \/ k = 6 \/ k = 7 \/ k = 8 \/ k = 9 \/ k = 10) by lia.
  decompose [or] H; subst; simpl; tauto.
Qed.

Lemma valid_even : forall n, valid_size n -> exists h, n = 2 * h /\ 1 <= h <= 512 /\ half n = h /\ n / 2 = h.
Proof.
  intros n Hv. apply valid_cases in Hv. exists (n / 2).
  decompose [or] Hv; subst; vm_compute; repeat split; congruence.
Qed.

Lemma ctor_valid : forall n, valid_size n -> grid_ctor n = Ret (n, half n, (n + 1) * (n + 1) * (n + 1)).
Proof.
  intros n Hv. apply valid_cases in Hv. decompose [or] Hv; subst; vm_compute; reflexivity.
Qed.

Lemma data_size_valid : forall n, valid_size n -> data_size n = (n + 1) * (n + 1) * (n + 1).
Proof.
  intros n Hv. apply valid_cases in Hv. decompose [or] Hv; subst; vm_compute; reflexivity.
Qed.

Lemma ctor_spec : forall n, is_u32 n ->
  (valid_size n -> grid_ctor n = Ret (n, n / 2, (n + 1) * (n + 1) * (n + 1)) /\
                   (n + 1) * (n + 1) * (n + 1) < two32) /\
  (~ (2 <= n /\ power_of_two n) -> grid_ctor n = Throw InvalidArgument) /\
  (power_of_two n -> 1024 < n -> grid_ctor n = Throw LengthError).
Proof.
  intros n [Hn0 Hn]. split; [|split].
  - intro Hv. rewrite ctor_valid by assumption.
    destruct (valid_even n Hv) as (h & Hh & Hb & E1 & E2).
    rewrite E1, E2. split; [reflexivity|].
    clear - Hv. apply valid_cases in Hv. decompose [or] Hv; subst; vm_compute; reflexivity.
  - intro H. unfold grid_ctor. destruct (Z.ltb_spec n 2); [reflexivity|].
    destruct (Z.eqb_spec (Z.land n (n - 1)) 0) as [E|E]; [|reflexivity].
    exfalso. apply H. split; [lia|]. apply pow2_land; [lia|assumption].
  - intros Hp Hbig. unfold grid_ctor. destruct (Z.ltb_spec n 2); [lia|].
    apply (pow2_land n) in Hp; [|lia]. rewrite Hp. simpl.
    destruct (Z.gtb_spec n 1024); [reflexivity|lia].
Qed.

Lemma ctor_complete : forall n r, is_u32 n -> grid_ctor n = Ret r -> valid_size n.
Proof.
  intros n r [Hn0 Hn] H. unfold grid_ctor in H.
  destruct (Z.ltb_spec n 2); [discriminate|].
  destruct (Z.eqb_spec (Z.land n (n - 1)) 0) as [E|E]; [|discriminate]. simpl in H.
  destruct (Z.gtb_spec n 1024); [discriminate|].
  apply pow2_land in E; [|lia]. destruct E as (k & Hk & ->).
  exists k. split; [|reflexivity]. split.
  - destruct (Z.eq_dec k 0) as [->|]; [simpl in *; lia|lia].
  - destruct (Z.le_gt_cases k 10); [assumption|].
    assert (2 ^ 11 <= 2 ^ k) by (apply Z.pow_le_mono_r; lia). simpl in *; lia.
Qed.

(* ---- predicates ---- *)

Lemma iabs_safe : forall x, safe_i32 x -> iabs x = Ret (Z.abs x).
Proof.
  intros x Hx. unfold iabs. unfold safe_i32 in Hx.
  destruct (Z.eqb_spec x i32min); [lia|reflexivity].
Qed.

Ltac norm_out := unfold ret_if, abs_gt, abs_eq, outside_half_open; cbn [obind].

Ltac safe_abs :=
  repeat match goal with
  | H : safe_i32 ?x |- context [iabs ?x] => rewrite (iabs_safe x H); cbn [obind]
  end.

Lemma vertex_in_iff : forall n h p, n = 2 * h ->
  (vertex_in n p <-> - h <= vx p <= h /\ - h <= vy p <= h /\ - h <= vz p <= h).
Proof. intros; unfold vertex_in; lia. Qed.

Ltac bool_cases :=
  repeat match goal with
  | |- context [?a <? ?b] => destruct (Z.ltb_spec a b)
  | |- context [?a >? ?b] => destruct (Z.gtb_spec a b)
  | |- context [?a >=? ?b] => destruct (Z.geb_spec a b)
  | |- context [?a =? ?b] => destruct (Z.eqb_spec a b)
  end; cbn [obind orb andb negb].

Lemma outb_iff : forall (o : outcome bool) (P Q : Prop), (Q <-> P) ->
  (exists b, o = Ret b /\ (b = true <-> P)) -> exists b, o = Ret b /\ (b = true <-> Q).
Proof. intros o P Q H (b & Hb & Hi). exists b. split; [assumption|]. rewrite H. assumption. Qed.

Lemma V3_eta : forall p : ivec3, V3 (vx p) (vy p) (vz p) = p.
Proof. destruct p; reflexivity. Qed.

Lemma V3_eq : forall (p q : ivec3), vx p = vx q -> vy p = vy q -> vz p = vz q -> p = q.
Proof. intros [a b c] [d e f]; simpl; congruence. Qed.

(* A corner of a unit cube differs from its minimal corner by 0 or 1 per axis. *)
Lemma in_cell_corners : forall q c, In q (cell_corners c) <->
  0 <= vx q - vx c <= 1 /\ 0 <= vy q - vy c <= 1 /\ 0 <= vz q - vz c <= 1.
Proof.
  intros q c. split.
  - unfold cell_corners. intro H.
    repeat (destruct H as [<-|H]; [cbn [vadd vx vy vz]; lia|]). destruct H.
  - intros (Hx & Hy & Hz).
    assert (Cx : vx q - vx c = 0 \/ vx q - vx c = 1) by lia.
    assert (Cy : vy q - vy c = 0 \/ vy q - vy c = 1) by lia.
    assert (Cz : vz q - vz c = 0 \/ vz q - vz c = 1) by lia.
    replace q with (vadd c (V3 (vx q - vx c) (vy q - vy c) (vz q - vz c)))
      by (apply V3_eq; cbn [vadd vx vy vz]; lia).
    destruct Cx as [-> | ->], Cy as [-> | ->], Cz as [-> | ->];
      unfold cell_corners; cbn [In]; tauto.
Qed.

Lemma cell_in_iff : forall n h c, n = 2 * h ->
  (cell_in n c <-> - h <= vx c < h /\ - h <= vy c < h /\ - h <= vz c < h).
Proof.
  intros n h c Hn. unfold cell_in, element_in. split.
  - intro H.
    assert (G1 := H c). assert (G2 := H (vadd c (V3 1 1 1))).
    rewrite in_cell_corners in G1, G2. cbn [vadd vx vy vz] in G2.
    specialize (G1 ltac:(lia)). specialize (G2 ltac:(lia)).
    apply (vertex_in_iff n h) in G1; auto. apply (vertex_in_iff n h) in G2; auto.
    cbn [vadd vx vy vz] in G2. lia.
  - intros H q Hq. apply in_cell_corners in Hq. apply (vertex_in_iff n h); auto. lia.
Qed.

Lemma edge_in_iff : forall n h d p, n = 2 * h ->
  (edge_in n d p <-> - h <= vx p <= h - vx (unit_vec d) /\ - h <= vy p <= h - vy (unit_vec d)
                     /\ - h <= vz p <= h - vz (unit_vec d)).
Proof.
  intros n h d p Hn. unfold edge_in, element_in, edge_corners. split.
  - intro H. pose proof (H p (or_introl eq_refl)) as G1.
    pose proof (H _ (or_intror (or_introl eq_refl))) as G2.
    apply (vertex_in_iff n h) in G1; auto. apply (vertex_in_iff n h) in G2; auto.
    destruct d; cbn [vadd vx vy vz unit_vec] in *; lia.
  - intros H q [<-|[<-|[]]]; apply (vertex_in_iff n h); auto;
      destruct d; cbn [vadd vx vy vz unit_vec] in *; lia.
Qed.

Lemma face_in_iff : forall n h d p, n = 2 * h ->
  (face_in n d p <->
   - h <= vx p <= h - 1 + vx (unit_vec d) /\ - h <= vy p <= h - 1 + vy (unit_vec d)
   /\ - h <= vz p <= h - 1 + vz (unit_vec d)).
Proof.
  intros n h d p Hn. unfold face_in, element_in, face_corners. split.
  - intro H.
    assert (G1 : vertex_in n p) by (apply H; destruct d; cbn [In]; tauto).
    assert (G2 : vertex_in n (vadd p (match d with AX => V3 0 1 1 | AY => V3 1 0 1 | AZ => V3 1 1 0 end)))
      by (apply H; destruct d; cbn [In]; tauto).
    apply (vertex_in_iff n h) in G1; auto. apply (vertex_in_iff n h) in G2; auto.
    destruct d; cbn [vadd vx vy vz unit_vec] in *; lia.
  - intros H q Hq. apply (vertex_in_iff n h); auto.
    destruct d; cbn [In] in Hq; decompose [or] Hq; subst; try contradiction;
      cbn [vadd vx vy vz unit_vec] in *; lia.
Qed.

Lemma on_border_iff : forall n h corners, n = 2 * h ->
  (on_border n corners <-> exists c,
     (forall q, In q corners ->
       0 <= vx q - vx c <= 1 /\ 0 <= vy q - vy c <= 1 /\ 0 <= vz q - vz c <= 1) /\
     ~ (- h <= vx c < h /\ - h <= vy c < h /\ - h <= vz c < h)).
Proof.
  intros n h corners Hn. unfold on_border. split; intros (c & H1 & H2); exists c; split.
  - intros q Hq. apply in_cell_corners. apply H1; assumption.
  - rewrite <- (cell_in_iff n h); assumption.
  - intros q Hq. apply in_cell_corners. apply H1; assumption.
  - rewrite (cell_in_iff n h); assumption.
Qed.

(* The unit cube reaching towards the outside at the coordinate planes where
   the position is on the border. *)
Definition outward (h x : Z) : Z := if x =? h then x else x - 1.

Ltac finish_pred :=
  bool_cases; eexists; (split; [reflexivity|]); split; intros;
  try discriminate; try reflexivity; lia.

Lemma is_vertex_in_grid_ok : forall n p, valid_size n -> safe_pos p ->
  exists b, is_vertex_in_grid n p = Ret b /\ (b = true <-> vertex_in n p).
Proof.
  intros n [x y z] Hv (Hx & Hy & Hz). destruct (valid_even n Hv) as (h & Hn & Hb & E1 & E2).
  eapply outb_iff; [apply (vertex_in_iff n h); assumption|].
  unfold is_vertex_in_grid; cbn [vx vy vz] in *. rewrite E1. norm_out. safe_abs. finish_pred.
Qed.

Lemma is_edge_in_grid_ok : forall d n p, valid_size n -> safe_pos p ->
  exists b, is_edge_in_grid d n p = Ret b /\ (b = true <-> edge_in n d p).
Proof.
  intros d n [x y z] Hv (Hx & Hy & Hz). destruct (valid_even n Hv) as (h & Hn & Hb & E1 & E2).
  eapply outb_iff; [apply (edge_in_iff n h); assumption|].
  unfold is_edge_in_grid; cbn [vx vy vz] in *. rewrite E1. norm_out. safe_abs.
  destruct d; cbn [unit_vec vx vy vz]; finish_pred.
Qed.

Lemma is_face_in_grid_ok : forall d n p, valid_size n -> safe_pos p ->
  exists b, is_face_in_grid d n p = Ret b /\ (b = true <-> face_in n d p).
Proof.
  intros d n [x y z] Hv (Hx & Hy & Hz). destruct (valid_even n Hv) as (h & Hn & Hb & E1 & E2).
  eapply outb_iff; [apply (face_in_iff n h); assumption|].
  unfold is_face_in_grid; cbn [vx vy vz] in *. rewrite E1. norm_out. safe_abs.
  destruct d; cbn [unit_vec vx vy vz]; finish_pred.
Qed.

Lemma is_cell_in_grid_ok : forall n p, valid_size n ->
  (is_cell_in_grid n p = true <-> cell_in n p).
Proof.
  intros n [x y z] Hv. destruct (valid_even n Hv) as (h & Hn & Hb & E1 & E2).
  rewrite (cell_in_iff n h) by assumption.
  unfold is_cell_in_grid; cbn [vx vy vz]; rewrite E1.
  bool_cases; split; intros; try discriminate; try reflexivity; lia.
Qed.

Lemma vertex_border_iff : forall n h p, n = 2 * h -> 1 <= h -> vertex_in n p ->
  (on_border n [p] <-> Z.abs (vx p) = h \/ Z.abs (vy p) = h \/ Z.abs (vz p) = h).
Proof.
  intros n h p Hn Hh Hin. apply (vertex_in_iff n h) in Hin; [|assumption].
  rewrite (on_border_iff n h) by assumption. split.
  - intros (c & H1 & H2). specialize (H1 p (or_introl eq_refl)). lia.
  - intro H. exists (V3 (outward h (vx p)) (outward h (vy p)) (outward h (vz p))).
    cbn [vx vy vz]. unfold outward. split.
    + intros q [<-|[]]. bool_cases; lia.
    + bool_cases; lia.
Qed.

Lemma edge_border_iff : forall n h d p, n = 2 * h -> 1 <= h -> edge_in n d p ->
  (on_border n (edge_corners d p) <->
   Z.abs (vget (next_axis d) p) = h \/ Z.abs (vget (next_axis (next_axis d)) p) = h).
Proof.
  intros n h d p Hn Hh Hin. apply (edge_in_iff n h) in Hin; [|assumption].
  rewrite (on_border_iff n h) by assumption. split.
  - intros (c & H1 & H2). pose proof (H1 p (or_introl eq_refl)) as G1.
    pose proof (H1 _ (or_intror (or_introl eq_refl))) as G2.
    destruct d; cbn [vget next_axis unit_vec vadd vx vy vz] in *; lia.
  - intro H.
    exists (V3 (if axis_eqb d AX then vx p else outward h (vx p))
               (if axis_eqb d AY then vy p else outward h (vy p))
               (if axis_eqb d AZ then vz p else outward h (vz p))).
    destruct d; cbn [vx vy vz axis_eqb unit_vec next_axis vget] in *; unfold outward, edge_corners; split;
      try (intros q [<-|[<-|[]]]; cbn [vadd vx vy vz unit_vec]); bool_cases; lia.
Qed.

Lemma face_border_iff : forall n h d p, n = 2 * h -> 1 <= h -> face_in n d p ->
  (on_border n (face_corners d p) <-> Z.abs (vget d p) = h).
Proof.
  intros n h d p Hn Hh Hin. apply (face_in_iff n h) in Hin; [|assumption].
  rewrite (on_border_iff n h) by assumption. split.
  - intros (c & H1 & H2).
    assert (G1 := H1 p). assert (G2 := H1 (vadd p (match d with AX => V3 0 1 1 | AY => V3 1 0 1 | AZ => V3 1 1 0 end))).
    specialize (G1 ltac:(destruct d; cbn [face_corners In]; tauto)).
    specialize (G2 ltac:(destruct d; cbn [face_corners In]; tauto)).
    destruct d; cbn [vget next_axis unit_vec vadd vx vy vz] in *; lia.
  - intro H.
    exists (V3 (if axis_eqb d AX then outward h (vx p) else vx p)
               (if axis_eqb d AY then outward h (vy p) else vy p)
               (if axis_eqb d AZ then outward h (vz p) else vz p)).
    split.
    + intros q Hq. destruct d; cbn [vx vy vz axis_eqb unit_vec next_axis vget face_corners In] in *;
        decompose [or] Hq; subst; try contradiction; unfold outward; cbn [vadd vx vy vz];
        bool_cases; lia.
    + destruct d; cbn [vx vy vz axis_eqb unit_vec next_axis vget] in *; unfold outward;
        bool_cases; lia.
Qed.

Lemma is_vertex_on_border_ok : forall n p, valid_size n -> safe_pos p -> vertex_in n p ->
  exists b, is_vertex_on_border n p = Ret b /\ (b = true <-> on_border n [p]).
Proof.
  intros n [x y z] Hv (Hx & Hy & Hz) Hin. destruct (valid_even n Hv) as (h & Hn & Hb & E1 & E2).
  eapply outb_iff; [apply (vertex_border_iff n h); try assumption; lia|].
  unfold is_vertex_on_border; cbn [vx vy vz] in *. rewrite E1. norm_out. safe_abs. finish_pred.
Qed.

Lemma is_edge_on_border_ok : forall d n p, valid_size n -> safe_pos p -> edge_in n d p ->
  exists b, is_edge_on_border d n p = Ret b /\ (b = true <-> on_border n (edge_corners d p)).
Proof.
  intros d n [x y z] Hv (Hx & Hy & Hz) Hin. destruct (valid_even n Hv) as (h & Hn & Hb & E1 & E2).
  eapply outb_iff; [apply (edge_border_iff n h); try assumption; lia|].
  unfold is_edge_on_border; cbn [vx vy vz] in *. rewrite E1. norm_out. safe_abs.
  destruct d; cbn [next_axis vget vx vy vz]; finish_pred.
Qed.

Lemma is_face_on_border_ok : forall d n p, valid_size n -> safe_pos p -> face_in n d p ->
  exists b, is_face_on_border d n p = Ret b /\ (b = true <-> on_border n (face_corners d p)).
Proof.
  intros d n [x y z] Hv (Hx & Hy & Hz) Hin. destruct (valid_even n Hv) as (h & Hn & Hb & E1 & E2).
  eapply outb_iff; [apply (face_border_iff n h); try assumption; lia|].
  unfold is_face_on_border; cbn [vx vy vz] in *. rewrite E1.
  destruct d; cbn [vget vx vy vz] in *; norm_out; safe_abs; finish_pred.
Qed.

(* A cell is on the border iff some unit cube touching it is missing. *)
Lemma is_cell_on_border_ok : forall n p, valid_size n -> cell_in n p ->
  (is_cell_on_border n p = true <->
   exists q, In q (cell_corners p) /\ on_border n [q]).
Proof.
  intros n p Hv Hin. destruct (valid_even n Hv) as (h & Hn & Hb & E1 & E2).
  pose proof Hin as Hin'. apply (cell_in_iff n h) in Hin'; [|assumption].
  assert (Hiff : (exists q, In q (cell_corners p) /\ on_border n [q]) <->
     exists dx dy dz, 0 <= dx <= 1 /\ 0 <= dy <= 1 /\ 0 <= dz <= 1 /\
      (Z.abs (vx p + dx) = h \/ Z.abs (vy p + dy) = h \/ Z.abs (vz p + dz) = h)).
  { split.
    - intros (q & Hq & Hb'). pose proof (Hin q Hq) as Hqin.
      apply (vertex_border_iff n h) in Hb'; try assumption; [|lia].
      apply in_cell_corners in Hq.
      exists (vx q - vx p), (vy q - vy p), (vz q - vz p). lia.
    - intros (dx & dy & dz & Hx & Hy & Hz & Hor).
      exists (V3 (vx p + dx) (vy p + dy) (vz p + dz)).
      assert (Hq : In (V3 (vx p + dx) (vy p + dy) (vz p + dz)) (cell_corners p)).
      { apply in_cell_corners. cbn [vx vy vz]. lia. }
      split; [assumption|]. apply (vertex_border_iff n h); try assumption; [lia|].
      apply Hin; assumption. }
  rewrite Hiff. unfold is_cell_on_border. rewrite E1. split.
  - intro H.
    exists (if vx p =? h - 1 then 1 else 0), (if vy p =? h - 1 then 1 else 0), (if vz p =? h - 1 then 1 else 0).
    destruct p as [x y z]; cbn [vx vy vz] in *. revert H.
    bool_cases; intros; try discriminate; lia.
  - intros (dx & dy & dz & Hx & Hy & Hz & Hor).
    destruct p as [x y z]; cbn [vx vy vz] in *.
    bool_cases; try reflexivity; lia.
Qed.

(* ---- indices ---- *)

Lemma u32_small : forall z, 0 <= z < two32 -> u32 z = z.
Proof. intros; apply Z.mod_small; assumption. Qed.

Lemma i32_small : forall z, - 2147483648 <= z < 2147483648 -> i32 z = z.
Proof. intros z H. unfold i32, two32. rewrite Z.mod_small by lia. lia. Qed.

(* Bounds on the linear index. *)
Lemma yxz_bounds : forall N y x z, 1 <= N -> 0 <= y < N -> 0 <= x < N -> 0 <= z < N ->
  0 <= y * N + x < N * N /\ 0 <= (y * N + x) * N + z < N * N * N.
Proof.
  intros N y x z HN Hy Hx Hz.
  assert (H1 : 0 <= y * N + x < N * N) by nia.
  split; [assumption|]. nia.
Qed.

Lemma cube_bound : forall n h, n = 2 * h -> 1 <= h <= 512 ->
  (n + 1) * (n + 1) <= 1050625 /\ (n + 1) * (n + 1) * (n + 1) <= 1076890625.
Proof. intros; subst. nia. Qed.

Lemma point_to_index_ok : forall n p, valid_size n -> vertex_in n p ->
  point_to_index n p = Ret (yxz_index n p) /\ 0 <= yxz_index n p < (n + 1) * (n + 1) * (n + 1).
Proof.
  intros n p Hv Hin. destruct (valid_even n Hv) as (h & Hn & Hb & E1 & E2).
  pose proof Hin as Hin'. apply (vertex_in_iff n h) in Hin'; [|assumption].
  destruct (is_vertex_in_grid_ok n p Hv) as (b & Hb1 & Hb2).
  { unfold safe_pos, safe_i32, i32min, i32max. lia. }
  unfold point_to_index. rewrite Hb1. apply Hb2 in Hin. subst b. cbn [obind oassert].
  unfold yxz_index. rewrite E1, E2.
  destruct (cube_bound n h Hn Hb) as [B2 B3].
  destruct (yxz_bounds (n + 1) (vy p + h) (vx p + h) (vz p + h)) as [B4 B5]; try lia.
  split; [|assumption].
  set (N := n + 1) in *.
  rewrite (u32_small N) by (unfold two32; lia).
  rewrite (u32_small (vy p + h)) by (unfold two32; lia).
  rewrite (u32_small (vx p + h)) by (unfold two32; lia).
  rewrite (u32_small (vz p + h)) by (unfold two32; lia).
  rewrite (u32_small ((vy p + h) * N)) by (unfold two32; nia).
  rewrite (u32_small ((vy p + h) * N + (vx p + h))) by (unfold two32; lia).
  rewrite (u32_small (((vy p + h) * N + (vx p + h)) * N)) by (unfold two32; nia).
  rewrite (u32_small _) by (unfold two32; lia).
  reflexivity.
Qed.

Lemma index_to_point_ok : forall n i, valid_size n -> 0 <= i < (n + 1) * (n + 1) * (n + 1) ->
  exists p, index_to_point n i = Ret p /\ vertex_in n p /\ yxz_index n p = i.
Proof.
  intros n i Hv Hi. destruct (valid_even n Hv) as (h & Hn & Hb & E1 & E2).
  destruct (cube_bound n h Hn Hb) as [B2 B3].
  unfold index_to_point. rewrite data_size_valid by assumption.
  replace (i <? (n + 1) * (n + 1) * (n + 1)) with true by (symmetry; apply Z.ltb_lt; lia).
  cbn [obind oassert]. rewrite E1.
  set (N := n + 1) in *.
  rewrite (u32_small N) by (unfold two32; lia).
  assert (HN : 3 <= N) by lia.
  pose proof (Z.div_mod i N ltac:(lia)) as D1.
  pose proof (Z.mod_pos_bound i N ltac:(lia)) as M1.
  pose proof (Z.div_mod (i / N) N ltac:(lia)) as D2.
  pose proof (Z.mod_pos_bound (i / N) N ltac:(lia)) as M2.
  assert (Hq : 0 <= i / N < N * N) by (split; [apply Z.div_pos; lia|apply Z.div_lt_upper_bound; nia]).
  assert (Hq2 : 0 <= i / N / N < N) by (split; [apply Z.div_pos; lia|apply Z.div_lt_upper_bound; nia]).
  rewrite !i32_small by lia.
  eexists. split; [reflexivity|]. split.
  - apply (vertex_in_iff n h); [assumption|]. cbn [vx vy vz]. lia.
  - unfold yxz_index; cbn [vx vy vz]. rewrite E2. fold N.
    replace (i / N / N - h + h) with (i / N / N) by lia.
    replace ((i / N) mod N - h + h) with ((i / N) mod N) by lia.
    replace (i mod N - h + h) with (i mod N) by lia.
    rewrite (Z.mul_comm (i / N / N) N), <- D2, (Z.mul_comm (i / N) N), <- D1. reflexivity.
Qed.

Lemma yxz_index_lt : forall n p q, valid_size n -> vertex_in n p -> vertex_in n q ->
  (yxz_lt p q <-> yxz_index n p < yxz_index n q).
Proof.
  intros n p q Hv Hp Hq. destruct (valid_even n Hv) as (h & Hn & Hb & E1 & E2).
  apply (vertex_in_iff n h) in Hp; [|assumption]. apply (vertex_in_iff n h) in Hq; [|assumption].
  unfold yxz_lt, yxz_index. rewrite E2.
  set (N := n + 1).
  assert (HN : N = 2 * h + 1) by lia.
  remember (vy p + h) as py. remember (vx p + h) as px. remember (vz p + h) as pz.
  remember (vy q + h) as qy. remember (vx q + h) as qx. remember (vz q + h) as qz.
  assert (HP : 0 <= py < N /\ 0 <= px < N /\ 0 <= pz < N) by lia.
  assert (HQ : 0 <= qy < N /\ 0 <= qx < N /\ 0 <= qz < N) by lia.
  assert (Heq : vy p < vy q \/ (vy p = vy q /\ (vx p < vx q \/ (vx p = vx q /\ vz p < vz q)))
     <-> py < qy \/ (py = qy /\ (px < qx \/ (px = qx /\ pz < qz)))) by lia.
  rewrite Heq. clear - HP HQ.
  split.
  - intros [H|[H [H'|[H' H'']]]].
    + assert (py * N + px + 1 <= qy * N + qx) by nia. nia.
    + subst. nia.
    + subst. lia.
  - intro H.
    destruct (Z.lt_trichotomy py qy) as [|[|G]]; [tauto| |].
    + subst. right. split; [reflexivity|].
      destruct (Z.lt_trichotomy px qx) as [|[|G]]; [tauto| |].
      * subst. right. split; [reflexivity|lia].
      * exfalso. nia.
    + exfalso. assert (qy * N + qx + 1 <= py * N + px) by nia. nia.
Qed.

Lemma yxz_index_inj : forall n p q, valid_size n -> vertex_in n p -> vertex_in n q ->
  yxz_index n p = yxz_index n q -> p = q.
Proof.
  intros n p q Hv Hp Hq Heq.
  assert (H1 : ~ yxz_lt p q) by (rewrite (yxz_index_lt n) by assumption; lia).
  assert (H2 : ~ yxz_lt q p) by (rewrite (yxz_index_lt n) by assumption; lia).
  unfold yxz_lt in *. apply V3_eq; lia.
Qed.

Lemma index_point_inverse : forall n p, valid_size n -> vertex_in n p ->
  exists i, point_to_index n p = Ret i /\ index_to_point n i = Ret p.
Proof.
  intros n p Hv Hp. destruct (point_to_index_ok n p Hv Hp) as [H1 H2].
  exists (yxz_index n p). split; [assumption|].
  destruct (index_to_point_ok n _ Hv H2) as (q & Hq & Hin & He).
  rewrite Hq. f_equal. eapply yxz_index_inj; eauto.
Qed.

(* ---- cells around an edge ---- *)

(* Slot content: the index of the cell or the bad index marker. *)
Definition cell_index_or_bad (n : Z) (c : ivec3) : Z :=
  if is_cell_in_grid n c then yxz_index n c else kBadIndex.

Ltac list_eq := repeat (apply (f_equal2 (@cons Z)); [lia|]); reflexivity.

Lemma u32_sub2 : forall a b c, 0 <= a - b - c < two32 -> u32 (u32 (a - b) - c) = a - b - c.
Proof.
  intros. unfold u32. rewrite Zminus_mod_idemp_l. apply Z.mod_small. assumption.
Qed.

Lemma adjacent_cells_ok : forall d n p, valid_size n -> edge_in n d p ->
  adjacent_cells_for_edge d n p = Ret (map (cell_index_or_bad n) (cells_around d p)).
Proof.
  intros d n p Hv Hin. destruct (valid_even n Hv) as (h & Hn & Hb & E1 & E2).
  destruct (cube_bound n h Hn Hb) as [B2 B3].
  assert (Hp : vertex_in n p) by (apply Hin; left; reflexivity).
  destruct (point_to_index_ok n p Hv Hp) as [Hi Hr].
  apply (edge_in_iff n h) in Hin; [|assumption].
  assert (Hd : forall a b c, yxz_index n (V3 (vx p - a) (vy p - b) (vz p - c)) =
     yxz_index n p - b * ((n + 1) * (n + 1)) - a * (n + 1) - c).
  { intros. unfold yxz_index. cbn [vx vy vz]. ring. }
  assert (Hc : forall a b c,
     cell_index_or_bad n (V3 (vx p - a) (vy p - b) (vz p - c)) =
     if (- h <=? vx p - a) && (vx p - a <? h) && (- h <=? vy p - b) && (vy p - b <? h) &&
        (- h <=? vz p - c) && (vz p - c <? h)
     then yxz_index n p - b * ((n + 1) * (n + 1)) - a * (n + 1) - c else kBadIndex).
  { intros. unfold cell_index_or_bad. rewrite Hd.
    match goal with |- (if ?u then _ else _) = (if ?v then _ else _) => replace v with u; [reflexivity|] end.
    apply eq_true_iff_eq. rewrite is_cell_in_grid_ok, (cell_in_iff n h) by assumption. cbn [vx vy vz].
    rewrite !andb_true_iff, !Z.leb_le, !Z.ltb_lt. lia. }
  assert (Bd : forall a b c, - h <= vx p - a <= h -> - h <= vy p - b <= h -> - h <= vz p - c <= h ->
     0 <= yxz_index n p - b * ((n + 1) * (n + 1)) - a * (n + 1) - c < two32).
  { intros a b c Ha Hb' Hc'. rewrite <- Hd.
    destruct (point_to_index_ok n (V3 (vx p - a) (vy p - b) (vz p - c)) Hv) as [_ Hr'].
    { apply (vertex_in_iff n h); [assumption|]. cbn [vx vy vz]. lia. }
    unfold two32. lia. }
  unfold adjacent_cells_for_edge. rewrite Hi. cbn [obind].
  rewrite E1. rewrite (u32_small (n + 1)) by (unfold two32; lia).
  rewrite (u32_small ((n + 1) * (n + 1))) by (unfold two32; lia).
  set (i := yxz_index n p) in *. set (NN := (n + 1) * (n + 1)) in *.
  unfold cells_around. destruct p as [x y z]. cbn [vx vy vz] in *.
  clearbody i NN. clear Hi Hd E1 E2 Hp Hr.
  destruct d; cbn [unit_vec next_axis vsub vx vy vz map] in *; unfold vsub; cbn [vx vy vz]; rewrite !Z.sub_0_r.
  - pose proof (Hc 0 1 1) as C0. pose proof (Hc 0 0 1) as C1. pose proof (Hc 0 0 0) as C2. pose proof (Hc 0 1 0) as C3.
    pose proof (Bd 0 1 1) as D0. pose proof (Bd 0 0 1) as D1. pose proof (Bd 0 1 0) as D3.
    rewrite !Z.sub_0_r in *. rewrite C0, C1, C2, C3.
    clear C0 C1 C2 C3 Hc Bd.
    replace (- h <=? x) with true by (symmetry; apply Z.leb_le; lia).
    replace (x <? h) with true by (symmetry; apply Z.ltb_lt; lia).
    destruct (Z.eqb_spec y (- h)), (Z.eqb_spec y h), (Z.eqb_spec z (- h)), (Z.eqb_spec z h); try lia;
    repeat match goal with
    | |- context [?a <=? ?b] => first [replace (a <=? b) with true by (symmetry; apply Z.leb_le; lia)
                                      |replace (a <=? b) with false by (symmetry; apply Z.leb_gt; lia)]
    | |- context [?a <? ?b] => first [replace (a <? b) with true by (symmetry; apply Z.ltb_lt; lia)
                                      |replace (a <? b) with false by (symmetry; apply Z.ltb_ge; lia)]
    end; cbn [andb];
    rewrite ?(u32_sub2 i NN 1) by lia; rewrite ?(u32_small (i - 1)) by lia; rewrite ?(u32_small (i - NN)) by lia;
    apply (f_equal Ret); list_eq.
  - pose proof (Hc 1 0 1) as C0. pose proof (Hc 1 0 0) as C1. pose proof (Hc 0 0 0) as C2. pose proof (Hc 0 0 1) as C3.
    pose proof (Bd 1 0 1) as D0. pose proof (Bd 1 0 0) as D1. pose proof (Bd 0 0 1) as D3.
    rewrite !Z.sub_0_r in *. rewrite C0, C1, C2, C3.
    clear C0 C1 C2 C3 Hc Bd.
    replace (- h <=? y) with true by (symmetry; apply Z.leb_le; lia).
    replace (y <? h) with true by (symmetry; apply Z.ltb_lt; lia).
    destruct (Z.eqb_spec x (- h)), (Z.eqb_spec x h), (Z.eqb_spec z (- h)), (Z.eqb_spec z h); try lia;
    repeat match goal with
    | |- context [?a <=? ?b] => first [replace (a <=? b) with true by (symmetry; apply Z.leb_le; lia)
                                      |replace (a <=? b) with false by (symmetry; apply Z.leb_gt; lia)]
    | |- context [?a <? ?b] => first [replace (a <? b) with true by (symmetry; apply Z.ltb_lt; lia)
                                      |replace (a <? b) with false by (symmetry; apply Z.ltb_ge; lia)]
    end; cbn [andb];
    rewrite ?(u32_sub2 i (n + 1) 1) by lia; rewrite ?(u32_small (i - 1)) by lia; rewrite ?(u32_small (i - (n + 1))) by lia;
    apply (f_equal Ret); list_eq.
  - pose proof (Hc 1 1 0) as C0. pose proof (Hc 0 1 0) as C1. pose proof (Hc 0 0 0) as C2. pose proof (Hc 1 0 0) as C3.
    pose proof (Bd 1 1 0) as D0. pose proof (Bd 0 1 0) as D1. pose proof (Bd 1 0 0) as D3.
    rewrite !Z.sub_0_r in *. rewrite C0, C1, C2, C3.
    clear C0 C1 C2 C3 Hc Bd.
    replace (- h <=? z) with true by (symmetry; apply Z.leb_le; lia).
    replace (z <? h) with true by (symmetry; apply Z.ltb_lt; lia).
    destruct (Z.eqb_spec x (- h)), (Z.eqb_spec x h), (Z.eqb_spec y (- h)), (Z.eqb_spec y h); try lia;
    repeat match goal with
    | |- context [?a <=? ?b] => first [replace (a <=? b) with true by (symmetry; apply Z.leb_le; lia)
                                      |replace (a <=? b) with false by (symmetry; apply Z.leb_gt; lia)]
    | |- context [?a <? ?b] => first [replace (a <? b) with true by (symmetry; apply Z.ltb_lt; lia)
                                      |replace (a <? b) with false by (symmetry; apply Z.ltb_ge; lia)]
    end; cbn [andb];
    rewrite ?(u32_sub2 i (n + 1) NN) by lia; rewrite ?(u32_small (i - NN)) by lia; rewrite ?(u32_small (i - (n + 1))) by lia;
    apply (f_equal Ret); list_eq.
Qed.

(* ---- corners of a cell ---- *)

Lemma adjacent_vertices_ok : forall n c, valid_size n -> cell_in n c ->
  adjacent_vertices_for_cell n (yxz_index n c) = map (yxz_index n) (cell_corners c).
Proof.
  intros n c Hv Hin. destruct (valid_even n Hv) as (h & Hn & Hb & E1 & E2).
  destruct (cube_bound n h Hn Hb) as [B2 B3].
  assert (Hbound : forall q, In q (cell_corners c) -> 0 <= yxz_index n q < two32).
  { intros q Hq. destruct (point_to_index_ok n q Hv (Hin q Hq)). unfold two32. lia. }
  unfold adjacent_vertices_for_cell.
  assert (Hd : forall dx dy dz, yxz_index n (vadd c (V3 dx dy dz)) =
     yxz_index n c + dy * ((n + 1) * (n + 1)) + dx * (n + 1) + dz).
  { intros. unfold yxz_index. cbn [vadd vx vy vz]. ring. }
  assert (B : forall dx dy dz, 0 <= dx <= 1 -> 0 <= dy <= 1 -> 0 <= dz <= 1 ->
     0 <= yxz_index n c + dy * ((n + 1) * (n + 1)) + dx * (n + 1) + dz < two32).
  { intros dx dy dz Hx Hy Hz. rewrite <- Hd. apply Hbound. apply in_cell_corners.
    cbn [vadd vx vy vz]. lia. }
  unfold cell_corners; cbn [map]. rewrite !Hd.
  pose proof (B 0 0 0 ltac:(lia) ltac:(lia) ltac:(lia)).
  pose proof (B 0 0 1 ltac:(lia) ltac:(lia) ltac:(lia)).
  pose proof (B 1 0 0 ltac:(lia) ltac:(lia) ltac:(lia)).
  pose proof (B 1 0 1 ltac:(lia) ltac:(lia) ltac:(lia)).
  pose proof (B 0 1 0 ltac:(lia) ltac:(lia) ltac:(lia)).
  pose proof (B 0 1 1 ltac:(lia) ltac:(lia) ltac:(lia)).
  pose proof (B 1 1 0 ltac:(lia) ltac:(lia) ltac:(lia)).
  pose proof (B 1 1 1 ltac:(lia) ltac:(lia) ltac:(lia)).
  rewrite (u32_small (n + 1)) by (unfold two32; lia).
  rewrite (u32_small ((n + 1) * (n + 1))) by (unfold two32; lia).
  set (NN := (n + 1) * (n + 1)) in *. set (i := yxz_index n c) in *.
  clearbody NN i. clear Hd B Hbound B2 B3.
  rewrite (u32_small (i + 1)) by lia.
  rewrite (u32_small (i + (n + 1))) by lia.
  rewrite (u32_small (i + NN)) by lia.
  rewrite (u32_small (i + (n + 1) + NN)) by lia.
  rewrite (u32_small (i + (n + 1) + 1)) by lia.
  rewrite (u32_small (i + NN + 1)) by lia.
  rewrite (u32_small (i + (n + 1) + NN + 1)) by lia.
  list_eq.
Qed.

Lemma omap_ok : forall A B (f : A -> outcome B) (g : A -> B) l,
  (forall a, In a l -> f a = Ret (g a)) -> omap f l = Ret (map g l).
Proof.
  induction l as [|a l IH]; intro H; simpl; [reflexivity|].
  rewrite H by (left; reflexivity). simpl. rewrite IH by (intros; apply H; right; assumption).
  reflexivity.
Qed.

Lemma map_map_fun : forall A B C (f : A -> B) (g : B -> C) l, map g (map f l) = map (fun x => g (f x)) l.
Proof. intros; apply map_map. Qed.

(* If the material array holds m(p) for every grid point p, reading a cell gives
   the materials of its corners. *)
Lemma materials_of_cell_ok : forall n mat (m : ivec3 -> material) c,
  valid_size n -> cell_in n c ->
  (forall p, vertex_in n p -> mat (yxz_index n p) = Some (m p)) ->
  materials_of_cell n mat (yxz_index n c) = Ret (map m (cell_corners c)).
Proof.
  intros n mat m c Hv Hin Hm. unfold materials_of_cell.
  rewrite adjacent_vertices_ok by assumption.
  assert (G : forall l, (forall q, In q l -> vertex_in n q) ->
    omap (fun i => oread (mat i)) (map (yxz_index n) l) = Ret (map m l)).
  { induction l as [|q l IH]; intro Hl; simpl; [reflexivity|].
    rewrite Hm by (apply Hl; left; reflexivity). simpl.
    rewrite IH by (intros; apply Hl; right; assumption). reflexivity. }
  apply G. exact Hin.
Qed.

Lemma grid_at_ok : forall n mat (m : ivec3 -> material) p,
  valid_size n -> vertex_in n p ->
  (forall p, vertex_in n p -> mat (yxz_index n p) = Some (m p)) ->
  grid_at n mat p = Ret (m p).
Proof.
  intros n mat m p Hv Hin Hm. unfold grid_at.
  destruct (valid_even n Hv) as (h & Hn & Hb & E1 & E2).
  destruct (is_vertex_in_grid_ok n p Hv) as (b & Hb1 & Hb2).
  { apply (vertex_in_iff n h) in Hin; [|assumption]. unfold safe_pos, safe_i32, i32min, i32max. lia. }
  rewrite Hb1. apply Hb2 in Hin as Hbt. subst b. cbn [obind oassert].
  destruct (point_to_index_ok n p Hv Hin) as [Hi _]. rewrite Hi. cbn [obind].
  rewrite Hm by assumption. reflexivity.
Qed.
