(* C51, C63, C64, C65, C66: loading and storing of triangle files, the field of a mesh. *)
From Coq Require Import ZArith List Bool Reals Lra Lia.
From Verif Require Import Base Arith RealArith FloatArith MeshModel MCModel TriModel TriSpec TriProofs TriNear PropTri
  PlyModel PlySpec PlyProofs PlyReal.
Import ListNotations.

(* Positions of the vertices of a mesh, and of its vertex [i]. *)
Definition positions {F} (m : mesh (mvert F)) : list (vec3 F) := map (fun v => mv_pos v) (m_verts m).
Definition position {F} (A : arith F) (m : mesh (mvert F)) (i : Z) : vec3 F :=
  nth (Z.to_nat i) (positions m) (V3 (a_ofZ A 0) (a_ofZ A 0) (a_ofZ A 0)).

Lemma map_combine : forall {X Y Z} (g : X -> Z) (l : list X) (l' : list Y), length l' = length l ->
  map (fun '(x, y) => g x) (combine l l') = map g l.
Proof.
  induction l as [|x l IH]; intros [|y l'] H; try discriminate; [reflexivity|]. cbn. f_equal. apply IH. cbn in H. lia.
Qed.

Lemma loaded_positions : forall {F} (A : arith F) float_max float_min f r m, file_ok f -> (zlen (pf_verts f) <= two32)%Z ->
  ply2mesh A float_max float_min f r = Ret m -> positions m = map (place A float_max float_min f) (pf_verts f).
Proof.
  intros F A float_max float_min f r m Hok Hn E. rewrite ply2mesh_run in E; auto. injection E as <-.
  unfold positions. cbn [m_verts]. rewrite map_map.
  rewrite (map_ext _ (fun '(v, n) => place A float_max float_min f v)) by (intros [v n]; reflexivity).
  apply map_combine. rewrite map_length, table_len. reflexivity.
Qed.

(* ------------------------------------------------------------------ *)
(* C64, in every arithmetic                                            *)
(* ------------------------------------------------------------------ *)
Section C64.
Local Open Scope Z_scope.

(* A file with valid indices becomes a mesh with the vertices of the file in order, moved and
   divided by a common factor, and with its faces in order, apart from those with two equal
   corners; the normals are the normalised sums of the area vectors. *)
Theorem C64_mesh : forall F (A : arith F) float_max float_min f reverse, file_ok f -> zlen (pf_verts f) <= two32 ->
  exists m c k, ply2mesh A float_max float_min f reverse = Ret m /\
    positions m = map (placed A c k) (pf_verts f) /\
    m_inds m = flat_map corners (filter three_corners (map (wound reverse) (pf_faces f))) /\
    (forall i v, znth (m_verts m) i = Some v -> mv_mat v = Solid /\
       mv_normal v = unit3 A (normal_at A (position A m) (map (wound reverse) (pf_faces f)) i)).
Proof.
  intros F A float_max float_min f r Hok Hn.
  eexists. exists (centre A float_max float_min f), (mult A float_max float_min f).
  split; [apply ply2mesh_run; auto|]. split; [eapply loaded_positions; eauto using ply2mesh_run|].
  split; [reflexivity|]. intros i v Hv.
  assert (Hp : position A (Mesh (map (fun '(v, n) => MVert (place A float_max float_min f v) n Solid)
               (combine (pf_verts f) (map (unit3 A) (table (length (pf_verts f)) (normal_at A (pos_at A float_max float_min f) (map (wound r) (pf_faces f)))))))
            (flat_map corners (filter three_corners (map (wound r) (pf_faces f))))) = pos_at A float_max float_min f).
  { unfold position, pos_at. rewrite (loaded_positions A float_max float_min f r); auto. apply ply2mesh_run; auto. }
  rewrite Hp. cbn [m_verts] in Hv. rewrite znth_map' in Hv.
  destruct (znth (combine _ _) i) as [[v0 n0]|] eqn:E; [|discriminate]. injection Hv as <-. cbn [mv_mat mv_normal]. split; [reflexivity|].
  assert (E2 : znth (map (unit3 A) (table (length (pf_verts f)) (normal_at A (pos_at A float_max float_min f) (map (wound r) (pf_faces f))))) i = Some n0).
  { clear - E. unfold znth in *. destruct (i <? 0); [discriminate|]. revert E.
    generalize (map (unit3 A) (table (length (pf_verts f)) (normal_at A (pos_at A float_max float_min f) (map (wound r) (pf_faces f))))) as ns.
    generalize (pf_verts f) as vs. generalize (Z.to_nat i) as k.
    induction k as [|k IH]; intros [|x vs] [|y ns] E; try discriminate; cbn in *; [congruence | eapply IH; eauto]. }
  rewrite znth_map' in E2. pose proof (znth_bounds _ _ _ E) as B.
  assert (B2 : 0 <= i < Z.of_nat (length (pf_verts f))) by (unfold zlen in B; rewrite combine_length in B; lia).
  rewrite table_znth in E2 by auto. congruence.
Qed.

(* An index that is not one of a vertex is used to access memory outside of the arrays. *)
Theorem C64_bad_index : forall F (A : arith F) float_max float_min f reverse,
  ~ file_ok f -> ply2mesh A float_max float_min f reverse = UB.
Proof. intros. apply ply2mesh_bad. auto. Qed.

End C64.
Print Assumptions C64_mesh.
Print Assumptions C64_bad_index.

Local Open Scope R_scope.

(* In exact arithmetic the area vectors are those of triangles with counterclockwise corners:
   the volume over a triangle is positive on the side to which its area vector points. *)
Theorem C64_area : forall a b c P, let n := area2 arithR a b c in
  vx n * (vx P - vx a) + vy n * (vy P - vy a) + vz n * (vz P - vz a) = volume6 a b c P.
Proof. intros a b c P n. unfold n, area2, volume6. cbn [arithR a_sub a_mul vx vy vz]. ring. Qed.
Print Assumptions C64_area.

Theorem C64_unit_partial : forall float_max float_min f reverse m i v, file_ok f -> (zlen (pf_verts f) <= two32)%Z ->
  ply2mesh arithR float_max float_min f reverse = Ret m -> znth (m_verts m) i = Some v ->
  let n := normal_at arithR (position arithR m) (map (wound reverse) (pf_faces f)) i in
  n <> V3 0 0 0 -> vx (mv_normal v) * vx (mv_normal v) + vy (mv_normal v) * vy (mv_normal v) + vz (mv_normal v) * vz (mv_normal v) = 1 /\
    exists k, 0 < k /\ n = V3 (k * vx (mv_normal v)) (k * vy (mv_normal v)) (k * vz (mv_normal v)).
Proof.
  intros float_max float_min f r m i v Hok Hn E Hv n Nz.
  destruct (C64_mesh R arithR float_max float_min f r Hok Hn) as (m' & c & k & E' & _ & _ & H).
  rewrite E in E'. injection E' as <-. destruct (H i v Hv) as [_ ->]. fold n.
  destruct n as [n1 n2 n3]. unfold unit3, vscale3, dot3. cbn [arithR a_add a_mul a_div a_sqrt a_ofZ vx vy vz].
  set (s := n1 * n1 + n2 * n2 + n3 * n3).
  assert (Hs : 0 < s).
  { unfold s. destruct (Req_dec n1 0) as [->|H1]; [destruct (Req_dec n2 0) as [->|H2]; [destruct (Req_dec n3 0) as [->|H3]|]|].
    - exfalso. apply Nz. reflexivity.
    - pose proof (Rsqr_pos_lt n3 H3). unfold Rsqr in *. nra.
    - pose proof (Rsqr_pos_lt n2 H2). pose proof (Rle_0_sqr n3). unfold Rsqr in *. nra.
    - pose proof (Rsqr_pos_lt n1 H1). pose proof (Rle_0_sqr n3). pose proof (Rle_0_sqr n2). unfold Rsqr in *. nra. }
  pose proof (sqrt_lt_R0 s Hs). split.
  - replace (n1 * (1 / sqrt s) * (n1 * (1 / sqrt s)) + n2 * (1 / sqrt s) * (n2 * (1 / sqrt s)) + n3 * (1 / sqrt s) * (n3 * (1 / sqrt s)))
      with (s / (sqrt s * sqrt s)) by (unfold s at 1; field; lra).
    rewrite sqrt_sqrt by lra. field. lra.
  - exists (sqrt s). split; [auto|]. f_equal; field; lra.
Qed.
Print Assumptions C64_unit_partial.

(* A vertex without a face gets a normal that is not a number, in binary32. *)
Definition float_min32 : b32 := f32 1 (-126).
Definition p32 (x y z : Z) : vec3 b32 := V3 (f32 x 0) (f32 y 0) (f32 z 0).
Definition loose_file : ply_file b32 := PlyFile [p32 1 1 1; p32 5 1 1; p32 1 5 1; p32 5 5 5] [(0, 1, 2)%Z].
Theorem C64_unit_refuted : exists f : ply_file b32, file_ok f /\ exists m i v, ply2mesh arith32 float_max32 float_min32 f false = Ret m /\
  znth (m_verts m) i = Some v /\ a_eq arith32 (vx (mv_normal v)) (vx (mv_normal v)) = false.
Proof.
  exists loose_file. split.
  - intros t i [<-|[]] Hi. cbn in Hi. cbn. lia.
  - assert (C : match ply2mesh arith32 float_max32 float_min32 loose_file false with
      | Ret m => match znth (m_verts m) 3 with Some v => negb (a_eq arith32 (vx (mv_normal v)) (vx (mv_normal v))) | None => false end
      | _ => false end = true) by (clear; vm_compute; reflexivity).
    destruct (ply2mesh arith32 float_max32 float_min32 loose_file false) as [m| | | |]; try discriminate.
    exists m, 3%Z. destruct (znth (m_verts m) 3) as [v|]; [|discriminate]. exists v. split; [auto|]. split; [auto|].
    apply negb_true_iff. exact C.
Qed.
Print Assumptions C64_unit_refuted.

(* Two triangles, the second one with equal corners, and a corner in the middle of nowhere. *)
Definition file_ex : ply_file R := PlyFile [V3 1 1 1; V3 5 1 1; V3 1 5 1; V3 1 1 3] [(0, 1, 2)%Z; (0, 1, 1)%Z; (0, 2, 3)%Z].
Example file_ex_ok : file_ok file_ex /\ (zlen (pf_verts file_ex) <= two32)%Z.
Proof.
  split; [|unfold two32, zlen; cbn; lia].
  intros t i [<-|[<-|[<-|[]]]] Hi; cbn in Hi; unfold zlen; cbn; lia.
Qed.
Example C64_ex : exists m, ply2mesh arithR 1000 (/ 1000) file_ex true = Ret m /\ m_inds m = [0; 2; 1; 0; 3; 2]%Z.
Proof.
  destruct (C64_mesh R arithR 1000 (/ 1000) file_ex true (proj1 file_ex_ok) (proj2 file_ex_ok)) as (m & c & k & E & _ & I & _).
  exists m. split; [auto|]. rewrite I. reflexivity.
Qed.
Example C64_bad_ex : ~ file_ok (PlyFile [V3 1 1 1; V3 5 1 1; V3 1 5 1] [(0, 1, 3)%Z]).
Proof. intros H. specialize (H (0, 1, 3)%Z 3%Z). cbn in H. assert (0 <= 3 < 3)%Z; [apply H; tauto | lia]. Qed.

(* ------------------------------------------------------------------ *)
(* C51                                                                 *)
(* ------------------------------------------------------------------ *)

(* All positions are within a cube of side 32 around the origin. *)
Theorem C51_box : forall float_max float_min f reverse m, file_ok f -> (zlen (pf_verts f) <= two32)%Z ->
  (exists u v, In u (pf_verts f) /\ In v (pf_verts f) /\ u <> v) ->
  ply2mesh arithR float_max float_min f reverse = Ret m ->
  forall p, In p (positions m) -> -16 <= vx p <= 16 /\ -16 <= vy p <= 16 /\ -16 <= vz p <= 16.
Proof.
  intros float_max float_min f r m Hok Hn (u & v & Hu & Hv & N) E p Hp.
  rewrite (loaded_positions arithR float_max float_min f r m Hok Hn E) in Hp. apply in_map_iff in Hp. destruct Hp as (w & <- & Hw).
  pose proof (extent_pos float_max float_min (pf_verts f) u v Hu Hv N) as He.
  split; [|split]; [apply (place_box float_max float_min f w AX) | apply (place_box float_max float_min f w AY) | apply (place_box float_max float_min f w AZ)]; auto.
Qed.
Print Assumptions C51_box.

(* The shape is preserved: all distances are divided by the same positive number, and the
   vertices are not turned. *)
Theorem C51_shape : forall float_max float_min f reverse m, file_ok f -> (zlen (pf_verts f) <= two32)%Z ->
  (exists u v, In u (pf_verts f) /\ In v (pf_verts f) /\ u <> v) ->
  ply2mesh arithR float_max float_min f reverse = Ret m ->
  exists c k, 0 < k /\ positions m = map (placed arithR c k) (pf_verts f) /\
    forall u v, sq_dist (placed arithR c k u) (placed arithR c k v) = sq_dist u v / (k * k) /\
      forall d, vget d (placed arithR c k u) - vget d (placed arithR c k v) = (vget d u - vget d v) / k.
Proof.
  intros float_max float_min f r m Hok Hn (u & v & Hu & Hv & N) E.
  pose proof (extent_pos float_max float_min (pf_verts f) u v Hu Hv N) as He.
  exists (centre arithR float_max float_min f), (mult arithR float_max float_min f).
  pose proof (mult_get float_max float_min f) as Hm. rewrite Hm.
  assert (Hk : 0 < extent float_max float_min (pf_verts f) / 32) by lra.
  split; [auto|]. rewrite <- Hm in *. split; [apply (loaded_positions arithR float_max float_min f r m Hok Hn E)|].
  set (k := mult arithR float_max float_min f) in *. set (c := centre arithR float_max float_min f).
  intros [u1 u2 u3] [v1 v2 v3]. split.
  - unfold sq_dist, placed, Rsqr. cbn [arithR a_sub a_div vx vy vz]. field. lra.
  - intros d. rewrite !placed_get. field. lra.
Qed.
Print Assumptions C51_shape.

Example C51_ex : exists u v, In u (pf_verts file_ex) /\ In v (pf_verts file_ex) /\ u <> v.
Proof.
  exists (V3 1 1 1), (V3 5 1 1). split; [left; reflexivity|]. split; [right; left; reflexivity|]. intros Q. injection Q. lra.
Qed.

(* ------------------------------------------------------------------ *)
(* C63                                                                 *)
(* ------------------------------------------------------------------ *)

(* The box of the vertices is centred at the origin and has 32 as its longest side, provided
   that no axis has negative coordinates only. *)
Definition centred (ps : list (vec3 R)) : Prop :=
  (forall d, exists p q, In p ps /\ In q ps /\ vget d p = - vget d q /\ forall r, In r ps -> vget d p <= vget d r <= vget d q) /\
  (exists d p, In p ps /\ vget d p = 16).

Theorem C63_partial : forall float_max float_min f reverse m, file_ok f -> (zlen (pf_verts f) <= two32)%Z ->
  (exists u v, In u (pf_verts f) /\ In v (pf_verts f) /\ u <> v) ->
  (forall d, exists v, In v (pf_verts f) /\ float_min <= vget d v <= float_max) ->
  ply2mesh arithR float_max float_min f reverse = Ret m -> centred (positions m).
Proof.
  intros float_max float_min f r m Hok Hn (u & v & Hu & Hv & N) Hd E.
  pose proof (extent_pos float_max float_min (pf_verts f) u v Hu Hv N) as He.
  pose proof (reached_if float_max float_min f Hd) as Hr.
  rewrite (loaded_positions arithR float_max float_min f r m Hok Hn E). split.
  - intros d. destruct (Hr d) as [(a & Ha & Ea) (b & Hb & Eb)].
    exists (place arithR float_max float_min f a), (place arithR float_max float_min f b).
    split; [apply in_map; auto|]. split; [apply in_map; auto|]. split.
    + rewrite place_low, place_high by auto. reflexivity.
    + intros w Hw. apply in_map_iff in Hw. destruct Hw as (w0 & <- & Hw).
      destruct (lowest_ok float_max float_min d (pf_verts f)) as (_ & L & _). destruct (highest_ok float_max float_min d (pf_verts f)) as (_ & H & _).
      split; apply place_mono; auto; [rewrite Ea | rewrite Eb]; auto.
  - destruct (extent_ok float_max float_min (pf_verts f)) as [_ [d Ed]]. destruct (Hr d) as [_ (b & Hb & Eb)].
    exists d, (place arithR float_max float_min f b). split; [apply in_map; auto|]. rewrite place_high by auto. rewrite <- Ed. field. lra.
Qed.
Print Assumptions C63_partial.

(* Otherwise not: a small object in the negative octant becomes a mesh in the corner [-16, -14]^3.  In binary32. *)
Definition negative_file : ply_file b32 := PlyFile [p32 (-35) (-35) (-35); p32 (-33) (-35) (-35); p32 (-35) (-33) (-33)] [(0, 1, 2)%Z].
Theorem C63_refuted : exists f : ply_file b32, file_ok f /\ exists m, ply2mesh arith32 float_max32 float_min32 f false = Ret m /\
  forall p, In p (positions m) -> a_lt arith32 (vx p) (f32 (-14) 0) = true /\ a_lt arith32 (vy p) (f32 (-14) 0) = true /\ a_lt arith32 (vz p) (f32 (-14) 0) = true.
Proof.
  exists negative_file. split.
  - intros t i [<-|[]] Hi. cbn in Hi. cbn. lia.
  - assert (C : match ply2mesh arith32 float_max32 float_min32 negative_file false with
      | Ret m => forallb (fun p => a_lt arith32 (vx p) (f32 (-14) 0) && (a_lt arith32 (vy p) (f32 (-14) 0) && a_lt arith32 (vz p) (f32 (-14) 0))) (positions m)
      | _ => false end = true) by (clear; vm_compute; reflexivity).
    destruct (ply2mesh arith32 float_max32 float_min32 negative_file false) as [m| | | |]; try discriminate.
    exists m. split; [auto|]. intros p Hp. rewrite forallb_forall in C. specialize (C p Hp).
    apply andb_true_iff in C. destruct C as [C1 C2]. apply andb_true_iff in C2. tauto.
Qed.
Print Assumptions C63_refuted.

Example C63_ex : forall d, exists v, In v (pf_verts file_ex) /\ / 1000 <= vget d v <= 1000.
Proof. intros d. exists (V3 1 1 1). split; [left; reflexivity|]. destruct d; cbn; lra. Qed.

(* ------------------------------------------------------------------ *)
(* C65                                                                 *)
(* ------------------------------------------------------------------ *)

(* Export writes the positions and the indices. *)
Theorem C65_export : forall F (m : mesh (mvert F)) n, length (m_inds m) = (3 * n)%nat ->
  pf_verts (mesh2ply m) = positions m /\ flat_map corners (pf_faces (mesh2ply m)) = m_inds m /\ length (pf_faces (mesh2ply m)) = n.
Proof.
  intros F m n H. split; [reflexivity|]. unfold mesh2ply. cbn [pf_faces]. revert n H.
  assert (G : forall n (l : list Z), length l = (3 * n)%nat -> flat_map corners (triples l) = l /\ length (triples l) = n).
  { induction n as [|n IH]; intros l H.
    - destruct l; [split; reflexivity | discriminate].
    - destruct l as [|a [|b [|c l]]]; cbn [length] in H; try lia. destruct (IH l ltac:(lia)) as [I1 I2].
      cbn [triples flat_map corners app length]. rewrite I1, I2. split; reflexivity. }
  intros n H. apply G. exact H.
Qed.
Print Assumptions C65_export.

(* A mesh as the library makes it: valid indices, no triangle with equal corners. *)
Definition good_mesh {F} (m : mesh (mvert F)) : Prop :=
  (exists n, length (m_inds m) = (3 * n)%nat) /\ (forall i, In i (m_inds m) -> 0 <= i < zlen (m_verts m))%Z /\
  (forall t, In t (triples (m_inds m)) -> three_corners t = true) /\ (zlen (m_verts m) <= two32)%Z.

Lemma good_file : forall {F} (m : mesh (mvert F)), good_mesh m -> file_ok (mesh2ply m) /\ (zlen (pf_verts (mesh2ply m)) <= two32)%Z.
Proof.
  intros F m ([n Hn] & Hi & Ht & Hl). destruct (C65_export F m n Hn) as (E1 & E2 & _). rewrite E1. unfold positions. rewrite zlen_map. split; [|auto].
  intros t i Hti Hic. rewrite E1. unfold positions. rewrite zlen_map. apply Hi. rewrite <- E2. apply in_flat_map. eauto.
Qed.

(* Export and import: the same triangles, the positions moved and divided by a common number,
   in every arithmetic. *)
Theorem C65_round_trip : forall F (A : arith F) float_max float_min (m : mesh (mvert F)), good_mesh m ->
  exists m' c k, ply2mesh A float_max float_min (mesh2ply m) false = Ret m' /\
    m_inds m' = m_inds m /\ positions m' = map (placed A c k) (positions m) /\ good_mesh m'.
Proof.
  intros F A float_max float_min m Hm. destruct (good_file m Hm) as [Hok Hl].
  destruct (C64_mesh F A float_max float_min (mesh2ply m) false Hok Hl) as (m' & c & k & E & P & I & _).
  exists m', c, k. split; [auto|]. destruct Hm as ([n Hn] & Hi & Ht & Hv). destruct (C65_export F m n Hn) as (E1 & E2 & _).
  assert (I' : m_inds m' = m_inds m).
  { rewrite I. rewrite (map_ext _ (fun x => x)) by (intros [[a b] d]; reflexivity). rewrite map_id.
    rewrite <- E2. f_equal. unfold mesh2ply in *. cbn [pf_faces] in *. clear - Ht.
    induction (triples (m_inds m)) as [|t l IH]; [reflexivity|]. cbn [filter]. rewrite Ht by (left; reflexivity).
    f_equal. apply IH. intros t' H. apply Ht. right. auto. }
  split; [auto|]. split; [auto|].
  assert (Hz : zlen (m_verts m') = zlen (m_verts m)).
  { rewrite <- (zlen_map (fun v => mv_pos v) (m_verts m')), <- (zlen_map (fun v => mv_pos v) (m_verts m)).
    fold (positions m') (positions m). rewrite P, zlen_map. reflexivity. }
  unfold good_mesh. rewrite I', Hz. split; [eauto|]. auto.
Qed.
Print Assumptions C65_round_trip.

(* After one import, export and import again do not move anything, in exact arithmetic, if no
   axis is too short for the smallest float. *)
Theorem C65_again_partial : forall float_max float_min m reverse f m', 16 <= float_max ->
  file_ok f -> (zlen (pf_verts f) <= two32)%Z -> (exists u v, In u (pf_verts f) /\ In v (pf_verts f) /\ u <> v) ->
  (forall d, exists v, In v (pf_verts f) /\ float_min <= vget d v <= float_max) ->
  ply2mesh arithR float_max float_min f reverse = Ret m ->
  (forall d, exists p, In p (positions m) /\ float_min <= vget d p) ->
  ply2mesh arithR float_max float_min (mesh2ply m) false = Ret m' -> positions m' = positions m.
Proof.
  intros float_max float_min m r f m' Hmax Hok Hn Hne Hd E Hd2 E'.
  destruct (C63_partial float_max float_min f r m Hok Hn Hne Hd E) as [Hc (d16 & p16 & H16 & E16)].
  pose proof (C51_box float_max float_min f r m Hok Hn Hne E) as Hbox.
  destruct (C64_mesh R arithR float_max float_min f r Hok Hn) as (m0 & c0 & k0 & E0 & P0 & I0 & _). rewrite E in E0. injection E0 as <-.
  assert (Hz : zlen (m_verts m) = zlen (pf_verts f)).
  { rewrite <- (zlen_map (fun v => mv_pos v) (m_verts m)). fold (positions m). rewrite P0, zlen_map. reflexivity. }
  assert (Hg : good_mesh m).
  { split; [|split; [|split]].
    - rewrite I0. generalize (filter three_corners (map (wound r) (pf_faces f))). induction l as [|[[a b] c] l [n IH]].
      + exists 0%nat. reflexivity.
      + exists (S n). cbn [flat_map corners app length]. lia.
    - rewrite I0, Hz. intros i Hi. apply in_flat_map in Hi. destruct Hi as (t & Ht & Hi). apply filter_In in Ht. destruct Ht as [Ht _].
      apply in_map_iff in Ht. destruct Ht as (t0 & <- & Ht). apply wound_corners in Hi. apply (Hok t0); auto.
    - rewrite I0. intros t Ht. assert (G : forall l, triples (flat_map corners l) = l).
      { induction l as [|[[a b] c] l IH]; [reflexivity|]. cbn. rewrite IH. reflexivity. }
      rewrite G in Ht. apply filter_In in Ht. tauto.
    - rewrite Hz. auto. }
  destruct (good_file m Hg) as [Hok2 Hn2].
  rewrite (loaded_positions arithR float_max float_min (mesh2ply m) false m' Hok2 Hn2 E').
  change (pf_verts (mesh2ply m)) with (positions m).
  assert (Hlo : forall d, lowest float_max float_min d (positions m) = - highest float_max float_min d (positions m)).
  { intros d. destruct (Hc d) as (p & q & Hp & Hq & Epq & M). destruct (Hd2 d) as (w & Hw & Lw).
    rewrite (lowest_is float_max float_min d (positions m) p); auto; [|intros x Hx; apply M; auto | destruct (Hbox p Hp) as (B1 & B2 & B3); destruct d; cbn [vget]; lra].
    rewrite (highest_is float_max float_min d (positions m) q); auto; [intros x Hx; apply M; auto | pose proof (M w Hw); lra]. }
  assert (He : extent float_max float_min (positions m) = 32).
  { destruct (extent_ok float_max float_min (positions m)) as [X1 [dx X2]].
    assert (B : forall d, highest float_max float_min d (positions m) <= 16).
    { intros d. destruct (Hc d) as (p & q & Hp & Hq & Epq & M). destruct (Hd2 d) as (w & Hw & Lw).
      rewrite (highest_is float_max float_min d (positions m) q); auto; [|intros x Hx; apply M; auto | pose proof (M w Hw); lra].
      destruct (Hbox q Hq) as (B1 & B2 & B3). destruct d; cbn [vget]; lra. }
    apply Rle_antisym.
    - rewrite X2, Hlo. pose proof (B dx). lra.
    - pose proof (X1 d16). rewrite Hlo in H. destruct (highest_ok float_max float_min d16 (positions m)) as (_ & Y & _).
      pose proof (Y p16 H16). lra. }
  rewrite <- (map_id (positions m)) at 2. apply map_ext. intros w. unfold place.
  assert (G : forall d, vget d (placed arithR (centre arithR float_max float_min (mesh2ply m)) (mult arithR float_max float_min (mesh2ply m)) w) = vget d w).
  { intros d. rewrite placed_get, centre_get, mult_get. change (pf_verts (mesh2ply m)) with (positions m). rewrite He, Hlo. field. }
  pose proof (G AX) as G1. pose proof (G AY) as G2. pose proof (G AZ) as G3. cbn [vget] in *.
  destruct (placed _ _ _ w) as [a b c], w as [w1 w2 w3]. cbn [vx vy vz] in *. congruence.
Qed.
Print Assumptions C65_again_partial.

(* A flat file moves again, in binary32. *)
Definition flat_file : ply_file b32 := PlyFile [p32 (-16) (-16) 0; p32 16 (-16) 0; p32 (-16) 16 0] [(0, 1, 2)%Z].
Theorem C65_again_refuted : exists (f : ply_file b32) m m' i p p', file_ok f /\ ply2mesh arith32 float_max32 float_min32 f false = Ret m /\
  ply2mesh arith32 float_max32 float_min32 (mesh2ply m) false = Ret m' /\
  znth (positions m) i = Some p /\ znth (positions m') i = Some p' /\ a_eq arith32 (vz p) (vz p') = false.
Proof.
  assert (C : match ply2mesh arith32 float_max32 float_min32 flat_file false with
      | Ret m => match ply2mesh arith32 float_max32 float_min32 (mesh2ply m) false with
        | Ret m' => match znth (positions m) 0, znth (positions m') 0 with Some p, Some p' => negb (a_eq arith32 (vz p) (vz p')) | _, _ => false end
        | _ => false end | _ => false end = true) by (clear; vm_compute; reflexivity).
  exists flat_file. destruct (ply2mesh arith32 float_max32 float_min32 flat_file false) as [m| | | |]; try discriminate. exists m.
  destruct (ply2mesh arith32 float_max32 float_min32 (mesh2ply m) false) as [m'| | | |]; try discriminate. exists m', 0%Z.
  destruct (znth (positions m) 0) as [p|]; [|discriminate]. destruct (znth (positions m') 0) as [p'|]; [|discriminate]. exists p, p'.
  split; [|split; [auto|]; split; [auto|]; split; [auto|]; split; [auto|]; apply negb_true_iff; exact C].
  intros t i [<-|[]] Hi. cbn in Hi. cbn. lia.
Qed.
Print Assumptions C65_again_refuted.

Example C65_ex : exists m, good_mesh m /\ m_inds m = [0; 1; 2; 0; 2; 3]%Z /\ length (positions m) = 4%nat /\
  forall d, exists p, In p (positions m) /\ / 1000 <= vget d p.
Proof.
  destruct (C64_mesh R arithR 1000 (/ 1000) file_ex false (proj1 file_ex_ok) (proj2 file_ex_ok)) as (m & c & k & E & P & I & _).
  assert (L : length (positions m) = 4%nat) by (rewrite P; reflexivity).
  exists m. split; [|split; [rewrite I; reflexivity|]; split; [exact L|]].
  - unfold good_mesh. rewrite I. assert (Z : zlen (m_verts m) = 4%Z) by (unfold positions in L; rewrite map_length in L; unfold zlen; rewrite L; reflexivity).
    rewrite Z. split; [exists 2%nat; reflexivity|]. split; [intros i Hi; cbn in Hi; lia|]. split; [|unfold two32; lia].
    intros t [<-|[<-|[]]]; reflexivity.
  - rewrite (loaded_positions arithR 1000 (/ 1000) file_ex false m (proj1 file_ex_ok) (proj2 file_ex_ok) E).
    assert (L1 : forall d, lowest 1000 (/ 1000) d (pf_verts file_ex) = 1).
    { intros d. change 1 with (vget d (V3 1 1 1)) at 2 || idtac. transitivity (vget d (V3 1 1 1)); [|destruct d; reflexivity].
      apply lowest_is; [left; reflexivity | | destruct d; cbn; lra]. intros w [<-|[<-|[<-|[<-|[]]]]]; destruct d; cbn; lra. }
    assert (H1 : highest 1000 (/ 1000) AX (pf_verts file_ex) = 5).
    { transitivity (vget AX (V3 5 1 1)); [|reflexivity]. apply highest_is; [right; left; reflexivity | | cbn; lra]. intros w [<-|[<-|[<-|[<-|[]]]]]; cbn; lra. }
    assert (H2 : highest 1000 (/ 1000) AY (pf_verts file_ex) = 5).
    { transitivity (vget AY (V3 1 5 1)); [|reflexivity]. apply highest_is; [right; right; left; reflexivity | | cbn; lra]. intros w [<-|[<-|[<-|[<-|[]]]]]; cbn; lra. }
    assert (H3 : highest 1000 (/ 1000) AZ (pf_verts file_ex) = 3).
    { transitivity (vget AZ (V3 1 1 3)); [|reflexivity]. apply highest_is; [right; right; right; left; reflexivity | | cbn; lra]. intros w [<-|[<-|[<-|[<-|[]]]]]; cbn; lra. }
    assert (He : extent 1000 (/ 1000) (pf_verts file_ex) = 4).
    { destruct (extent_ok 1000 (/ 1000) (pf_verts file_ex)) as [X1 [d X2]]. pose proof (X1 AX) as X3. rewrite H1, L1 in X3.
      rewrite X2, L1 in *. destruct d; [rewrite H1 in *|rewrite H2 in *|rewrite H3 in *]; lra. }
    intros d. destruct d; eexists; (split; [apply in_map|]).
    + right. left. reflexivity.
    + unfold place. rewrite placed_get, centre_get, mult_get, L1, H1, He. cbn. lra.
    + right. right. left. reflexivity.
    + unfold place. rewrite placed_get, centre_get, mult_get, L1, H2, He. cbn. lra.
    + right. right. right. left. reflexivity.
    + unfold place. rewrite placed_get, centre_get, mult_get, L1, H3, He. cbn. lra.
Qed.
