(* Uniform grid indexing: C02, C03, C04, C05, C06, C07 *)
From Coq Require Import ZArith List Bool Lia.
From Verif Require Import Base Tables GridModel GridSpec GridProofs.
Import ListNotations.
Local Open Scope Z_scope.

Ltac valid_ex k := exists k; split; [split; discriminate|reflexivity].

(* ---- C02 ---- *)

Theorem C02_accepted : forall n, is_u32 n ->
  ((exists r, grid_ctor n = Ret r) <-> valid_size n).
Proof.
  intros n Hn. split.
  - intros (r & Hr). exact (ctor_complete n r Hn Hr).
  - intro Hv. destruct (ctor_spec n Hn) as [H _]. destruct (H Hv) as [E _]. eexists; exact E.
Qed.
Print Assumptions C02_accepted.

Theorem C02_result : forall n, is_u32 n ->
  (valid_size n -> grid_ctor n = Ret (n, n / 2, (n + 1) * (n + 1) * (n + 1)) /\
                   (n + 1) * (n + 1) * (n + 1) < two32) /\
  (~ (2 <= n /\ power_of_two n) -> grid_ctor n = Throw InvalidArgument) /\
  (power_of_two n -> 1024 < n -> grid_ctor n = Throw LengthError).
Proof. exact ctor_spec. Qed.
Print Assumptions C02_result.

Example C02_ex_1024 : valid_size 1024 /\ is_u32 1024.
Proof. split; [valid_ex 10|vm_compute; split; congruence]. Qed.
Example C02_ex_2048 : is_u32 2048 /\ power_of_two 2048 /\ grid_ctor 2048 = Throw LengthError.
Proof. split; [vm_compute; split; congruence|split; [exists 11; split; [discriminate|reflexivity]|reflexivity]]. Qed.
Example C02_ex_3072 : grid_ctor 3072 = Throw InvalidArgument.
Proof. reflexivity. Qed.

(* ---- C03 ---- *)

Theorem C03_point_to_index : forall n p, valid_size n -> vertex_in n p ->
  exists i, point_to_index n p = Ret i /\ 0 <= i < (n + 1) * (n + 1) * (n + 1) /\
            index_to_point n i = Ret p.
Proof.
  intros n p Hv Hp. destruct (point_to_index_ok n p Hv Hp) as [H1 H2].
  destruct (index_point_inverse n p Hv Hp) as (i & Hi & Hj).
  exists i. rewrite H1 in Hi. injection Hi as <-. auto.
Qed.
Print Assumptions C03_point_to_index.

Theorem C03_index_to_point : forall n i, valid_size n -> 0 <= i < (n + 1) * (n + 1) * (n + 1) ->
  exists p, index_to_point n i = Ret p /\ vertex_in n p /\ point_to_index n p = Ret i.
Proof.
  intros n i Hv Hi. destruct (index_to_point_ok n i Hv Hi) as (p & H1 & H2 & H3).
  exists p. split; [assumption|split; [assumption|]].
  destruct (point_to_index_ok n p Hv H2) as [H4 _]. rewrite H4, H3. reflexivity.
Qed.
Print Assumptions C03_index_to_point.

Theorem C03_order : forall n p q i j, valid_size n -> vertex_in n p -> vertex_in n q ->
  point_to_index n p = Ret i -> point_to_index n q = Ret j ->
  (i < j <-> yxz_lt p q).
Proof.
  intros n p q i j Hv Hp Hq Hi Hj.
  destruct (point_to_index_ok n p Hv Hp) as [H1 _]. destruct (point_to_index_ok n q Hv Hq) as [H2 _].
  rewrite H1 in Hi. rewrite H2 in Hj. injection Hi as <-. injection Hj as <-.
  symmetry. apply yxz_index_lt; assumption.
Qed.
Print Assumptions C03_order.

(* No 32-bit operation of pointToIndex wraps: the result is the mathematical
   value of the index expression. *)
Theorem C03_no_overflow : forall n p, valid_size n -> vertex_in n p ->
  point_to_index n p =
    Ret (((vy p + n / 2) * (n + 1) + (vx p + n / 2)) * (n + 1) + (vz p + n / 2)).
Proof. intros n p Hv Hp. exact (proj1 (point_to_index_ok n p Hv Hp)). Qed.
Print Assumptions C03_no_overflow.

(* A point outside the grid trips the assertion. *)
Theorem C03_outside : forall n p, valid_size n -> safe_pos p -> ~ vertex_in n p ->
  point_to_index n p = AssertFail.
Proof.
  intros n p Hv Hs Hp. destruct (is_vertex_in_grid_ok n p Hv Hs) as (b & H1 & H2).
  unfold point_to_index. rewrite H1. destruct b; [|reflexivity].
  exfalso. apply Hp. apply H2. reflexivity.
Qed.
Print Assumptions C03_outside.

Example C03_ex : valid_size 1024 /\ vertex_in 1024 (V3 512 512 512) /\
  point_to_index 1024 (V3 512 512 512) = Ret 1076890624 /\
  index_to_point 1024 1076890624 = Ret (V3 512 512 512).
Proof.
  split; [valid_ex 10|split; [unfold vertex_in; cbn [vx vy vz]; lia|split; vm_compute; reflexivity]].
Qed.

(* ---- C04 ---- *)

Theorem C04_vertex_in : forall n p, valid_size n -> safe_pos p ->
  exists b, is_vertex_in_grid n p = Ret b /\ (b = true <-> vertex_in n p).
Proof. exact is_vertex_in_grid_ok. Qed.
Print Assumptions C04_vertex_in.

Theorem C04_edge_in : forall d n p, valid_size n -> safe_pos p ->
  exists b, is_edge_in_grid d n p = Ret b /\ (b = true <-> edge_in n d p).
Proof. exact is_edge_in_grid_ok. Qed.
Print Assumptions C04_edge_in.

Theorem C04_face_in : forall d n p, valid_size n -> safe_pos p ->
  exists b, is_face_in_grid d n p = Ret b /\ (b = true <-> face_in n d p).
Proof. exact is_face_in_grid_ok. Qed.
Print Assumptions C04_face_in.

Theorem C04_cell_in : forall n p, valid_size n -> (is_cell_in_grid n p = true <-> cell_in n p).
Proof. exact is_cell_in_grid_ok. Qed.
Print Assumptions C04_cell_in.

Theorem C04_vertex_border : forall n p, valid_size n -> safe_pos p -> vertex_in n p ->
  exists b, is_vertex_on_border n p = Ret b /\ (b = true <-> on_border n [p]).
Proof. exact is_vertex_on_border_ok. Qed.
Print Assumptions C04_vertex_border.

Theorem C04_edge_border : forall d n p, valid_size n -> safe_pos p -> edge_in n d p ->
  exists b, is_edge_on_border d n p = Ret b /\ (b = true <-> on_border n (edge_corners d p)).
Proof. exact is_edge_on_border_ok. Qed.
Print Assumptions C04_edge_border.

Theorem C04_face_border : forall d n p, valid_size n -> safe_pos p -> face_in n d p ->
  exists b, is_face_on_border d n p = Ret b /\ (b = true <-> on_border n (face_corners d p)).
Proof. exact is_face_on_border_ok. Qed.
Print Assumptions C04_face_border.

(* A cell is on the border iff one of the 26 unit cubes touching it is missing,
   i.e. iff one of its corners is on the border. *)
Theorem C04_cell_border : forall n p, valid_size n -> cell_in n p ->
  (is_cell_on_border n p = true <-> exists q, In q (cell_corners p) /\ on_border n [q]).
Proof. exact is_cell_on_border_ok. Qed.
Print Assumptions C04_cell_border.

(* Cells containing an edge of the grid: the four of [cells_around] and no other. *)
Theorem C04_cells_of_edge : forall d p c,
  incl (edge_corners d p) (cell_corners c) <-> In c (cells_around d p).
Proof.
  intros d p c. split.
  - intro H. assert (G1 := H p (or_introl eq_refl)). assert (G2 := H _ (or_intror (or_introl eq_refl))).
    apply in_cell_corners in G1. apply in_cell_corners in G2.
    destruct c as [cx cy cz], p as [x y z].
    destruct d; cbn [unit_vec vadd vx vy vz] in *; unfold cells_around, vsub;
      cbn [unit_vec next_axis vsub vx vy vz In].
    + assert (cx = x) by lia. assert (cy = y - 1 \/ cy = y) by lia. assert (cz = z - 1 \/ cz = z) by lia.
      destruct H1 as [-> | ->], H2 as [-> | ->]; subst;
      [left|do 3 right; left|right; left|do 2 right; left]; f_equal; lia.
    + assert (cy = y) by lia. assert (cx = x - 1 \/ cx = x) by lia. assert (cz = z - 1 \/ cz = z) by lia.
      destruct H1 as [-> | ->], H2 as [-> | ->]; subst;
      [left|right; left|do 3 right; left|do 2 right; left]; f_equal; lia.
    + assert (cz = z) by lia. assert (cx = x - 1 \/ cx = x) by lia. assert (cy = y - 1 \/ cy = y) by lia.
      destruct H1 as [-> | ->], H2 as [-> | ->]; subst;
      [left|do 3 right; left|right; left|do 2 right; left]; f_equal; lia.
  - intros H q Hq. apply in_cell_corners.
    unfold cells_around in H. cbn [In] in H.
    destruct Hq as [<-|[<-|[]]]; decompose [or] H; subst; try contradiction;
      destruct d; unfold vsub; cbn [unit_vec next_axis vadd vx vy vz]; lia.
Qed.
Print Assumptions C04_cells_of_edge.

Example C04_ex : valid_size 4 /\ safe_pos (V3 2 1 (-2)) /\ vertex_in 4 (V3 2 1 (-2)) /\
  edge_in 4 AY (V3 2 1 (-2)) /\ face_in 4 AX (V3 2 1 (-2)) /\ cell_in 4 (V3 1 1 (-2)) /\
  is_edge_on_border AY 4 (V3 1 1 0) = Ret false /\ edge_in 4 AY (V3 1 1 0).
Proof.
  split; [valid_ex 2|]. split; [unfold safe_pos, safe_i32; vm_compute; intuition congruence|].
  split; [apply (vertex_in_iff 4 2); [reflexivity|cbn [vx vy vz]; lia]|].
  split; [apply (edge_in_iff 4 2); [reflexivity|cbn [vx vy vz unit_vec]; lia]|].
  split; [apply (face_in_iff 4 2); [reflexivity|cbn [vx vy vz unit_vec]; lia]|].
  split; [apply (cell_in_iff 4 2); [reflexivity|cbn [vx vy vz]; lia]|].
  split; [reflexivity|apply (edge_in_iff 4 2); [reflexivity|cbn [vx vy vz unit_vec]; lia]].
Qed.

(* ---- C05 ---- *)

(* False of the code: glm::abs negates INT_MIN. *)
Theorem C05_most_negative_refuted : exists n p,
  valid_size n /\ is_i32 (vx p) /\ is_i32 (vy p) /\ is_i32 (vz p) /\ is_vertex_in_grid n p = UB.
Proof.
  exists 2, (V3 i32min 0 0). split; [valid_ex 1|].
  repeat split; try (vm_compute; congruence).
Qed.
Print Assumptions C05_most_negative_refuted.

(* What holds: a coordinate out of range examined before the most negative one
   decides the answer, and isCellInGrid never computes an absolute value.
   Missing: positions whose first out-of-range coordinate is INT_MIN. *)
Theorem C05_most_negative_partial : forall n p, valid_size n ->
  (is_cell_in_grid n p = true <-> cell_in n p) /\
  (safe_i32 (vx p) -> n / 2 < Z.abs (vx p) -> is_vertex_in_grid n p = Ret false).
Proof.
  intros n p Hv. split; [apply is_cell_in_grid_ok; assumption|].
  intros Hs Ha. destruct (valid_even n Hv) as (h & Hn & Hb & E1 & E2).
  unfold is_vertex_in_grid, ret_if, abs_gt. rewrite E1, iabs_safe by assumption. cbn [obind].
  rewrite E2 in Ha. destruct (Z.gtb_spec (Z.abs (vx p)) h); [reflexivity|lia].
Qed.
Print Assumptions C05_most_negative_partial.

Example C05_ex : is_vertex_in_grid 2 (V3 7 i32min 0) = Ret false /\ is_cell_in_grid 2 (V3 i32min 0 0) = false.
Proof. split; reflexivity. Qed.

(* ---- C06 ---- *)

Theorem C06_cells_of_edge : forall d n p, valid_size n -> edge_in n d p ->
  exists ids, adjacent_cells_for_edge d n p = Ret ids /\
    length ids = 4%nat /\
    forall k, (k < 4)%nat ->
      let c := nth k (cells_around d p) p in
      (cell_in n c -> point_to_index n c = Ret (nth k ids 0)) /\
      (~ cell_in n c <-> nth k ids 0 = kBadIndex).
Proof.
  intros d n p Hv Hin. eexists. split; [apply adjacent_cells_ok; assumption|].
  split; [destruct d; reflexivity|].
  intros k Hk c.
  rewrite (nth_indep _ 0 (cell_index_or_bad n p)) by (destruct d; simpl; lia).
  rewrite map_nth. fold c.
  assert (Hidx : cell_in n c -> point_to_index n c = Ret (yxz_index n c) /\ yxz_index n c <> kBadIndex).
  { intro Hc. assert (Hvc : vertex_in n c) by (apply Hc; apply in_cell_corners; lia).
    destruct (point_to_index_ok n c Hv Hvc) as [H1 H2]. split; [assumption|].
    destruct (valid_even n Hv) as (h & Hn & Hb & E1 & E2).
    destruct (cube_bound n h Hn Hb) as [B2 B3]. unfold kBadIndex, u32max. lia. }
  unfold cell_index_or_bad. destruct (is_cell_in_grid n c) eqn:E.
  - apply is_cell_in_grid_ok in E; [|assumption]. destruct (Hidx E) as [H1 H2].
    split; [intros; assumption|]. split; [contradiction|intro; contradiction].
  - assert (E' : ~ cell_in n c).
    { intro G. apply is_cell_in_grid_ok in G; [|assumption]. congruence. }
    split; [contradiction|]. split; auto.
Qed.
Print Assumptions C06_cells_of_edge.

(* The quadrants are in cyclic, counter-clockwise order: with u, v the next two
   axes, the centres of the cells relative to the edge are at angles 225, 315,
   45 and 135 degrees in the (u, v) plane. *)
Theorem C06_order : forall d p k, (k < 4)%nat ->
  let c := nth k (cells_around d p) p in
  let u := next_axis d in let v := next_axis u in
  (2 * vget u c + 1 - 2 * vget u p, 2 * vget v c + 1 - 2 * vget v p) =
    nth k [(-1, -1); (1, -1); (1, 1); (-1, 1)] (0, 0) /\ vget d c = vget d p.
Proof.
  intros d [x y z] k Hk.
  destruct k as [|[|[|[|k]]]]; try lia; destruct d;
    cbn [nth cells_around next_axis unit_vec vget]; unfold vsub; cbn [vget vx vy vz];
    (split; [f_equal|]; lia).
Qed.
Print Assumptions C06_order.

Example C06_ex : edge_in 4 AX (V3 (-2) 2 0) /\
  adjacent_cells_for_edge AX 4 (V3 (-2) 2 0) = Ret [76; kBadIndex; kBadIndex; 77].
Proof.
  split; [apply (edge_in_iff 4 2); [reflexivity|cbn [vx vy vz unit_vec]; lia]|vm_compute; reflexivity].
Qed.

(* ---- C07 ---- *)

Theorem C07_corners : forall n c i, valid_size n -> cell_in n c -> point_to_index n c = Ret i ->
  length (adjacent_vertices_for_cell n i) = 8%nat /\
  forall k, (k < 8)%nat ->
    let off := nth k kCellCornerOffset [] in
    point_to_index n (vadd c (V3 (nth 0 off 0) (nth 1 off 0) (nth 2 off 0))) =
      Ret (nth k (adjacent_vertices_for_cell n i) 0).
Proof.
  intros n c i Hv Hc Hi. split; [reflexivity|]. intros k Hk off.
  assert (Hvc : vertex_in n c) by (apply Hc; apply in_cell_corners; lia).
  destruct (point_to_index_ok n c Hv Hvc) as [H1 _]. rewrite H1 in Hi. injection Hi as <-.
  rewrite adjacent_vertices_ok by assumption.
  rewrite (nth_indep (map _ (cell_corners c)) 0 (yxz_index n c)) by (simpl; lia). rewrite map_nth.
  assert (Hq : nth k (cell_corners c) c = vadd c (V3 (nth 0 off 0) (nth 1 off 0) (nth 2 off 0))).
  { unfold off. do 8 (destruct k as [|k]; [reflexivity|]). lia. }
  rewrite Hq. apply point_to_index_ok; [assumption|]. apply Hc. rewrite <- Hq.
  apply nth_In. simpl; lia.
Qed.
Print Assumptions C07_corners.

Theorem C07_materials : forall n mat (m : ivec3 -> material) c i, valid_size n -> cell_in n c ->
  point_to_index n c = Ret i ->
  (forall p, vertex_in n p -> grid_at n mat p = Ret (m p)) ->
  materials_of_cell n mat i = Ret (map m (cell_corners c)).
Proof.
  intros n mat m c i Hv Hc Hi Hm.
  assert (Hvc : vertex_in n c) by (apply Hc; apply in_cell_corners; lia).
  destruct (point_to_index_ok n c Hv Hvc) as [H1 _]. rewrite H1 in Hi. injection Hi as <-.
  apply materials_of_cell_ok; try assumption.
  intros p Hp. specialize (Hm p Hp). unfold grid_at in Hm.
  destruct (valid_even n Hv) as (h & Hn & Hb & E1 & E2).
  destruct (is_vertex_in_grid_ok n p Hv) as (b & Hb1 & Hb2).
  { apply (vertex_in_iff n h) in Hp; [|assumption]. unfold safe_pos, safe_i32, i32min, i32max. lia. }
  rewrite Hb1 in Hm. apply Hb2 in Hp as Hbt. subst b. cbn [obind oassert] in Hm.
  destruct (point_to_index_ok n p Hv Hp) as [Hi _]. rewrite Hi in Hm. cbn [obind] in Hm.
  destruct (mat (yxz_index n p)); [|discriminate]. cbn in Hm. congruence.
Qed.
Print Assumptions C07_materials.

Example C07_ex : cell_in 2 (V3 (-1) 0 0) /\ point_to_index 2 (V3 (-1) 0 0) = Ret 10 /\
  adjacent_vertices_for_cell 2 10 = [10; 11; 13; 14; 19; 20; 22; 23] /\
  materials_of_cell 2 (fun i => if i <? 27 then Some (i mod 4) else None) 10 = Ret [2; 3; 1; 2; 3; 0; 2; 3].
Proof.
  split; [apply (cell_in_iff 2 1); [reflexivity|cbn [vx vy vz]; lia]|]. repeat split.
Qed.
