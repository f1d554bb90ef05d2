(* Sums over the edges inside a cube, on a square, on a segment, and how they
   split when these are halved. *)
From Coq Require Import ZArith List Bool Lia Permutation.
From Verif Require Import Base GridSpec CellSpec MeshSpec DualSpec DualProofs OctreeModel OctreeSpec.
Import ListNotations.
Local Open Scope Z_scope.

(* ------------------------------------------------------------------ *)
(* Interval and box sums                                               *)
(* ------------------------------------------------------------------ *)

Definition isum (r : Z * Z) (f : Z -> Z) : Z := gsum f (zrange (fst r) (snd r)).
Definition bsum (f : ivec3 -> Z) (rx ry rz : Z * Z) : Z :=
  isum rx (fun x => isum ry (fun y => isum rz (fun z => f (V3 x y z)))).

Lemma zseq_app : forall n m a, zseq a (n + m) = zseq a n ++ zseq (a + Z.of_nat n) m.
Proof.
  induction n as [|n IH]; intros m a.
  - cbn [Nat.add zseq app]. f_equal. lia.
  - cbn [Nat.add zseq app]. rewrite IH. do 3 f_equal. lia.
Qed.
Lemma zrange_split : forall a b c, a <= b <= c -> zrange a c = zrange a b ++ zrange b c.
Proof.
  intros a b c H. unfold zrange. replace (Z.to_nat (c - a)) with (Z.to_nat (b - a) + Z.to_nat (c - b))%nat by lia.
  rewrite zseq_app. do 2 f_equal. lia.
Qed.
Lemma in_zseq : forall n a x, In x (zseq a n) <-> a <= x < a + Z.of_nat n.
Proof.
  induction n as [|n IH]; intros a x; cbn [zseq In]; [lia|]. rewrite IH. lia.
Qed.
Lemma in_zrange : forall a b x, In x (zrange a b) <-> a <= x < b.
Proof. intros. unfold zrange. rewrite in_zseq. lia. Qed.

Lemma isum_ext : forall r f h, (forall x, fst r <= x < snd r -> f x = h x) -> isum r f = isum r h.
Proof. intros r f h H. unfold isum. apply gsum_ext. intros x Hx. apply in_zrange in Hx. auto. Qed.
Lemma isum_add : forall r f h, isum r (fun x => f x + h x) = isum r f + isum r h.
Proof. intros. unfold isum. apply gsum_add. Qed.
Lemma isum_zero : forall r f, (forall x, fst r <= x < snd r -> f x = 0) -> isum r f = 0.
Proof. intros r f H. unfold isum. apply gsum_zero. intros x Hx. apply in_zrange in Hx. auto. Qed.
Lemma isum_split : forall a b c f, a <= b <= c -> isum (a, c) f = isum (a, b) f + isum (b, c) f.
Proof. intros. unfold isum. cbn [fst snd]. rewrite (zrange_split a b c) by assumption. apply gsum_app. Qed.

(* [ps] cuts the interval [r] into pieces *)
Definition pieces (r : Z * Z) (ps : list (Z * Z)) : Prop := forall f, isum r f = gsum (fun p => isum p f) ps.

Lemma pieces_one : forall r, pieces r [r].
Proof. intros r f. rewrite gsum_cons, gsum_nil. lia. Qed.
Lemma pieces_full : forall a h, 0 <= h -> pieces (a, a + 2 * h) [(a, a + h); (a + h, a + h + h)].
Proof.
  intros a h H f. rewrite (isum_split a (a + h)) by lia. rewrite !gsum_cons, gsum_nil.
  replace (a + h + h) with (a + 2 * h) by lia. lia.
Qed.
Lemma pieces_open : forall a h, 1 <= h ->
  pieces (a + 1, a + 2 * h) [(a + 1, a + h); (a + h, a + h + 1); (a + h + 1, a + h + h)].
Proof.
  intros a h H f. rewrite (isum_split (a + 1) (a + h)) by lia. rewrite (isum_split (a + h) (a + h + 1)) by lia.
  rewrite !gsum_cons, gsum_nil. replace (a + h + h) with (a + 2 * h) by lia. lia.
Qed.

Lemma isum_gsum : forall A r (F : A -> Z -> Z) l, isum r (fun x => gsum (fun a => F a x) l) = gsum (fun a => isum r (F a)) l.
Proof.
  intros A r F l. induction l as [|a l IH].
  - apply isum_zero. reflexivity.
  - rewrite gsum_cons, <- IH, <- isum_add. apply isum_ext. intros. rewrite gsum_cons. reflexivity.
Qed.

Lemma bsum_pieces : forall f rx ry rz px py pz, pieces rx px -> pieces ry py -> pieces rz pz ->
  bsum f rx ry rz = gsum (fun x => gsum (fun y => gsum (fun z => bsum f x y z) pz) py) px.
Proof.
  intros f rx ry rz px py pz Hx Hy Hz. unfold bsum. rewrite Hx. apply gsum_ext. intros x _.
  rewrite (isum_ext x _ (fun x' => gsum (fun y => isum y (fun y' => isum rz (fun z => f (V3 x' y' z)))) py)) by (intros; apply Hy).
  rewrite isum_gsum. apply gsum_ext. intros y _.
  rewrite (isum_ext x _ (fun x' => gsum (fun z => isum y (fun y' => isum z (fun z' => f (V3 x' y' z')))) pz)).
  - rewrite isum_gsum. reflexivity.
  - intros x' _. rewrite <- isum_gsum. apply isum_ext. intros. apply Hz.
Qed.

Lemma bsum_zero : forall f rx ry rz,
  (forall x y z, fst rx <= x < snd rx -> fst ry <= y < snd ry -> fst rz <= z < snd rz -> f (V3 x y z) = 0) ->
  bsum f rx ry rz = 0.
Proof. intros f rx ry rz H. unfold bsum. do 3 (apply isum_zero; intros). auto. Qed.

(* Intervals of edge positions along one coordinate: all of the cube, the inner
   positions, one position. *)
Definition full (a s : Z) : Z * Z := (a, a + s).
Definition open (a s : Z) : Z * Z := (a + 1, a + s).
Definition one (a : Z) : Z * Z := (a, a + 1).

(* Sums over the edges along [d] inside a cube, on a square, on a segment. *)
Definition cell_sum (u : gedge -> Z) (q : ivec3) (s : Z) : Z :=
  bsum (fun p => u (AX, p)) (full (vx q) s) (open (vy q) s) (open (vz q) s) +
  bsum (fun p => u (AY, p)) (open (vx q) s) (full (vy q) s) (open (vz q) s) +
  bsum (fun p => u (AZ, p)) (open (vx q) s) (open (vy q) s) (full (vz q) s).
Definition face_sum (u : gedge -> Z) (D : axis) (q : ivec3) (s : Z) : Z :=
  match D with
  | AX => bsum (fun p => u (AY, p)) (one (vx q)) (full (vy q) s) (open (vz q) s) +
          bsum (fun p => u (AZ, p)) (one (vx q)) (open (vy q) s) (full (vz q) s)
  | AY => bsum (fun p => u (AX, p)) (full (vx q) s) (one (vy q)) (open (vz q) s) +
          bsum (fun p => u (AZ, p)) (open (vx q) s) (one (vy q)) (full (vz q) s)
  | AZ => bsum (fun p => u (AX, p)) (full (vx q) s) (open (vy q) s) (one (vz q)) +
          bsum (fun p => u (AY, p)) (open (vx q) s) (full (vy q) s) (one (vz q))
  end.
Definition seg_sum (u : gedge -> Z) (d : axis) (q : ivec3) (s : Z) : Z :=
  match d with
  | AX => bsum (fun p => u (AX, p)) (full (vx q) s) (one (vy q)) (one (vz q))
  | AY => bsum (fun p => u (AY, p)) (one (vx q)) (full (vy q) s) (one (vz q))
  | AZ => bsum (fun p => u (AZ, p)) (one (vx q)) (one (vy q)) (full (vz q) s)
  end.

(* The calls made by the traversal, up to order. *)
Definition canon_edge_sub (d : axis) : list (Z * Z) :=
  match d with
  | AX => [(0, 5); (3, 4); (0, 7); (3, 6); (1, 1); (2, 0); (1, 3); (2, 2)]
  | AY => [(0, 3); (1, 2); (3, 1); (2, 0); (0, 7); (1, 6); (3, 5); (2, 4)]
  | AZ => [(0, 6); (0, 7); (1, 4); (1, 5); (3, 2); (3, 3); (2, 0); (2, 1)]
  end.
Definition canon_edge_calls (d : axis) : list (list Z) :=
  match d with
  | AX => [[0; 4; 5; 1]; [2; 6; 7; 3]]
  | AY => [[0; 1; 3; 2]; [4; 5; 7; 6]]
  | AZ => [[0; 2; 6; 4]; [1; 3; 7; 5]]
  end.
Definition canon_face_sub (d : axis) : list (Z * Z) :=
  match d with
  | AX => [(0, 2); (0, 3); (1, 0); (1, 1); (0, 6); (0, 7); (1, 4); (1, 5)]
  | AY => [(0, 4); (0, 5); (0, 6); (0, 7); (1, 0); (1, 1); (1, 2); (1, 3)]
  | AZ => [(0, 1); (1, 0); (0, 3); (1, 2); (0, 5); (1, 4); (0, 7); (1, 6)]
  end.
Definition canon_faces (d : axis) : list pcall :=
  map (PFace d) match d with
  | AX => [[0; 2]; [1; 3]; [4; 6]; [5; 7]]
  | AY => [[0; 4]; [1; 5]; [2; 6]; [3; 7]]
  | AZ => [[0; 1]; [2; 3]; [4; 5]; [6; 7]]
  end.
Definition canon_edges (d : axis) : list pcall := map (PEdge d) (canon_edge_calls d).
Definition canon_face_calls (d : axis) : list pcall :=
  canon_faces d ++ canon_edges (next_axis d) ++ canon_edges (next_axis (next_axis d)).
Definition canon_cell_calls : list pcall :=
  canon_faces AX ++ canon_faces AY ++ canon_faces AZ ++ canon_edges AX ++ canon_edges AY ++ canon_edges AZ.

Record procs_ok (P : procs) : Prop := {
  po_edge_sub : forall d, pr_edge_sub P d = canon_edge_sub d;
  po_edge_calls : forall d, Permutation (pr_edge_calls P d) (canon_edge_calls d);
  po_face_sub : forall d, pr_face_sub P d = canon_face_sub d;
  po_face_calls : forall d, Permutation (pr_face_calls P d) (canon_face_calls d);
  po_cell_calls : Permutation (pr_cell_calls P) canon_cell_calls
}.

(* Where a call is located in the block of eight cubes of edge length [s] at [b],
   and the edges it is responsible for. *)
Definition call_pos (b : ivec3) (s : Z) (c : pcall) : ivec3 :=
  match c with
  | PFace _ ix => vadd b (vscale s (corner_offset (tab 0 ix 1)))
  | PEdge _ ix => vadd b (vscale s (corner_offset (tab 0 ix 2)))
  end.
Definition call_sum (u : gedge -> Z) (b : ivec3) (s : Z) (c : pcall) : Z :=
  match c with
  | PFace d ix => face_sum u d (call_pos b s c) s
  | PEdge d ix => seg_sum u d (call_pos b s c) s
  end.

Ltac norm_sums :=
  unfold call_sum, call_pos, seg_sum, face_sum, cell_sum;
  cbn [canon_cell_calls canon_face_calls canon_faces canon_edges canon_edge_calls next_axis map app tab nth Z.to_nat Pos.to_nat Pos.iter_op Nat.add];
  rewrite ?gsum_cons, ?gsum_nil.

Definition parts_full (a s : Z) := [full a s; full (a + s) s].
Definition parts_open (a s : Z) := [open a s; one (a + s); open (a + s) s].

Lemma pf : forall a h, 0 <= h -> pieces (full a (2 * h)) (parts_full a h).
Proof. intros. apply pieces_full. assumption. Qed.
Lemma po : forall a h, 1 <= h -> pieces (open a (2 * h)) (parts_open a h).
Proof. intros. apply pieces_open. assumption. Qed.

Lemma corner_offset_values : map corner_offset (zseq 0 8) =
  [V3 0 0 0; V3 0 0 1; V3 1 0 0; V3 1 0 1; V3 0 1 0; V3 0 1 1; V3 1 1 0; V3 1 1 1].
Proof. reflexivity. Qed.

(* Splitting a cube, a square, a segment. *)
Lemma cell_split : forall u q s, 1 <= s ->
  cell_sum u q (2 * s) =
  gsum (fun i => cell_sum u (vadd q (vscale s (corner_offset i))) s) (zseq 0 8) + gsum (call_sum u q s) canon_cell_calls.
Proof.
  intros u [x y z] s Hs. unfold cell_sum at 1. cbn [vx vy vz].
  rewrite (bsum_pieces _ _ _ _ _ _ _ (pf x s ltac:(lia)) (po y s Hs) (po z s Hs)).
  rewrite (bsum_pieces _ _ _ _ _ _ _ (po x s Hs) (pf y s ltac:(lia)) (po z s Hs)).
  rewrite (bsum_pieces _ _ _ _ _ _ _ (po x s Hs) (po y s Hs) (pf z s ltac:(lia))).
  unfold parts_full, parts_open. rewrite !gsum_cons, !gsum_nil.
  cbn [zseq Z.add Pos.add Pos.succ]. norm_sums.
  unfold vadd, vscale. cbn -[bsum full open one Z.add Z.mul].
  rewrite !Z.mul_0_r, !Z.mul_1_r, !Z.add_0_r. ring.
Qed.

(* The block of cubes around the middle of a square or segment of edge length
   2 s at [p] starts here. *)
Definition face_base (d : axis) (p : ivec3) (s : Z) : ivec3 := vsub p (vscale s (unit_vec d)).
Definition seg_base (d : axis) (p : ivec3) (s : Z) : ivec3 :=
  vsub (vsub p (vscale s (unit_vec (next_axis d)))) (vscale s (unit_vec (next_axis (next_axis d)))).

Lemma face_split : forall u d p s, 1 <= s ->
  face_sum u d p (2 * s) = gsum (call_sum u (face_base d p s) s) (canon_face_calls d).
Proof.
  intros u d p s Hs. set (b := face_base d p s).
  assert (Hp : p = vadd b (vscale s (unit_vec d))).
  { destruct p as [x y z]. unfold b, face_base, vadd, vsub, vscale. destruct d; cbn [unit_vec vx vy vz]; f_equal; lia. }
  clearbody b. subst p. destruct b as [x y z].
  destruct d; unfold face_sum at 1; unfold vadd, vscale; cbn [vx vy vz unit_vec];
    rewrite ?Z.mul_0_r, ?Z.mul_1_r, ?Z.add_0_r;
    [ rewrite (bsum_pieces _ _ _ _ _ _ _ (pieces_one (one (x + s))) (pf y s ltac:(lia)) (po z s Hs));
      rewrite (bsum_pieces _ _ _ _ _ _ _ (pieces_one (one (x + s))) (po y s Hs) (pf z s ltac:(lia)))
    | rewrite (bsum_pieces _ _ _ _ _ _ _ (pf x s ltac:(lia)) (pieces_one (one (y + s))) (po z s Hs));
      rewrite (bsum_pieces _ _ _ _ _ _ _ (po x s Hs) (pieces_one (one (y + s))) (pf z s ltac:(lia)))
    | rewrite (bsum_pieces _ _ _ _ _ _ _ (pf x s ltac:(lia)) (po y s Hs) (pieces_one (one (z + s))));
      rewrite (bsum_pieces _ _ _ _ _ _ _ (po x s Hs) (pf y s ltac:(lia)) (pieces_one (one (z + s)))) ];
    unfold parts_full, parts_open; rewrite !gsum_cons, !gsum_nil; norm_sums;
    unfold vadd, vscale; cbn -[bsum full open one Z.add Z.mul];
    rewrite !Z.mul_0_r, !Z.mul_1_r, !Z.add_0_r; ring.
Qed.

Lemma seg_split : forall u d p s, 1 <= s ->
  seg_sum u d p (2 * s) = gsum (call_sum u (seg_base d p s) s) (canon_edges d).
Proof.
  intros u d p s Hs. set (b := seg_base d p s).
  assert (Hp : p = vadd (vadd b (vscale s (unit_vec (next_axis d)))) (vscale s (unit_vec (next_axis (next_axis d))))).
  { destruct p as [x y z]. unfold b, seg_base, vadd, vsub, vscale. destruct d; cbn [next_axis unit_vec vx vy vz]; f_equal; lia. }
  clearbody b. subst p. destruct b as [x y z].
  destruct d; unfold seg_sum at 1; unfold vadd, vscale; cbn [vx vy vz unit_vec next_axis];
    rewrite ?Z.mul_0_r, ?Z.mul_1_r, ?Z.add_0_r;
    [ rewrite (bsum_pieces _ _ _ _ _ _ _ (pf x s ltac:(lia)) (pieces_one (one (y + s))) (pieces_one (one (z + s))))
    | rewrite (bsum_pieces _ _ _ _ _ _ _ (pieces_one (one (x + s))) (pf y s ltac:(lia)) (pieces_one (one (z + s))))
    | rewrite (bsum_pieces _ _ _ _ _ _ _ (pieces_one (one (x + s))) (pieces_one (one (y + s))) (pf z s ltac:(lia))) ];
    unfold parts_full, parts_open; rewrite !gsum_cons, !gsum_nil; norm_sums;
    unfold vadd, vscale; cbn -[bsum full open one Z.add Z.mul];
    rewrite !Z.mul_0_r, !Z.mul_1_r, !Z.add_0_r; ring.
Qed.

