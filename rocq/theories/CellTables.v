(* Facts about the lookup tables, decided by going through all sign
   configurations of a cell. *)
From Coq Require Import ZArith List Bool Lia.
From Verif Require Import Base Tables GridSpec MeshSpec MCModel CellSpec LoopLemmas.
Import ListNotations.
Local Open Scope Z_scope.

Fixpoint bool_lists (n : nat) : list (list bool) :=
  match n with
  | O => [[]]
  | S n' => flat_map (fun l => [false :: l; true :: l]) (bool_lists n')
  end.

Lemma bool_lists_ok : forall l, In l (bool_lists (length l)).
Proof.
  induction l as [|b l IH]; simpl; [left; reflexivity|].
  apply in_flat_map. exists l. split; [assumption|]. destruct b; simpl; auto.
Qed.

Definition configs := bool_lists 8.

Lemma in_configs : forall bs, length bs = 8%nat -> In bs configs.
Proof. intros bs H. unfold configs. rewrite <- H. apply bool_lists_ok. Qed.

Definition mask_of (bs : list bool) : Z := mask_from (fun b => b) 0 bs.

(* The triangles of a table row *)
Fixpoint parse_row (row : list Z) : option (list triangle) :=
  match row with
  | [] => None
  | i :: row1 =>
      if i =? -1 then Some []
      else match row1 with
           | j :: k :: row' => match parse_row row' with Some ts => Some ((i, j, k) :: ts) | None => None end
           | _ => None
           end
  end.

Definition mc_row (bs : list bool) : list Z := tab [] kMcTriangleTable (mask_of bs).
Definition mc_tris (bs : list bool) : list triangle :=
  match parse_row (mc_row bs) with Some ts => ts | None => [] end.

Definition slots : list Z := zrange 0 12.

Lemma in_slots : forall i, In i slots <-> 0 <= i < 12.
Proof. intros. unfold slots. apply in_zrange. Qed.

(* ------------------------------------------------------------------ *)

Definition check_masks (bs : list bool) : bool :=
  match znth kMcVertexMaskToEdgeMask (mask_of bs) with
  | Some m => m =? mask_from (crossing bs) 0 slots
  | None => false
  end.
Lemma masks_checked : forallb check_masks configs = true.
Proof. vm_compute. reflexivity. Qed.

Lemma edge_mask_ok : forall bs, length bs = 8%nat ->
  znth kMcVertexMaskToEdgeMask (mask_of bs) = Some (mask_from (crossing bs) 0 slots).
Proof.
  intros bs H. apply in_configs in H. pose proof masks_checked as G. rewrite forallb_forall in G.
  specialize (G bs H). unfold check_masks in G. destruct (znth kMcVertexMaskToEdgeMask (mask_of bs)); [|discriminate].
  apply Z.eqb_eq in G. congruence.
Qed.

Definition good_local (bs : list bool) (t : triangle) : bool :=
  let '(i, j, k) := t in
  let ok := fun i => (0 <=? i) && (i <? 12) && crossing bs i in
  ok i && ok j && ok k && negb ((i =? j) || (j =? k) || (i =? k)).

Definition check_rows (bs : list bool) : bool :=
  match znth kMcTriangleTable (mask_of bs) with
  | Some row => match parse_row row with
                | Some ts => forallb (good_local bs) ts
                             && forallb (fun i => implb (crossing bs i)
                                  (existsb (fun t => let '(a, b, c) := t in (a =? i) || (b =? i) || (c =? i)) ts)) slots
                | None => false
                end
  | None => false
  end.
Lemma rows_checked : forallb check_rows configs = true.
Proof. vm_compute. reflexivity. Qed.

Lemma tab_znth : forall A (d : A) l i a, znth l i = Some a -> tab d l i = a.
Proof.
  intros A d l i a H. unfold znth in H. unfold tab. destruct (i <? 0); [discriminate|].
  apply nth_error_nth. assumption.
Qed.

Lemma row_ok : forall bs, length bs = 8%nat ->
  znth kMcTriangleTable (mask_of bs) = Some (mc_row bs) /\
  parse_row (mc_row bs) = Some (mc_tris bs) /\
  forallb (good_local bs) (mc_tris bs) = true /\
  (forall i, 0 <= i < 12 -> crossing bs i = true ->
     exists a b c, In (a, b, c) (mc_tris bs) /\ (a = i \/ b = i \/ c = i)).
Proof.
  intros bs H. apply in_configs in H. pose proof rows_checked as G. rewrite forallb_forall in G.
  specialize (G bs H). unfold check_rows in G.
  destruct (znth kMcTriangleTable (mask_of bs)) as [row|] eqn:Er; [|discriminate].
  assert (Hr : mc_row bs = row) by (apply tab_znth; assumption).
  unfold mc_tris. rewrite Hr. destruct (parse_row row) as [ts|] eqn:Ep; [|discriminate].
  apply andb_prop in G. destruct G as [G1 G2].
  split; [reflexivity|]. split; [reflexivity|]. split; [assumption|].
  intros i Hi Hc. rewrite forallb_forall in G2. apply in_slots in Hi. specialize (G2 i Hi).
  rewrite Hc in G2. cbn [implb] in G2. apply existsb_exists in G2. destruct G2 as ([[a b] c] & Hin & He).
  exists a, b, c. split; [assumption|]. rewrite !orb_true_iff, !Z.eqb_eq in He. tauto.
Qed.

(* ------------------------------------------------------------------ *)
(* Sides of the triangles inside one cell                              *)
(* ------------------------------------------------------------------ *)

Definition local_sides (bs : list bool) (i j : Z) : Z := side_count (mc_tris bs) i j.

(* The other cell containing both edges i and j of the unit cell at the origin:
   (offset, number of i there, number of j there). *)
Definition same_place (i i' : Z) (o : ivec3) : bool :=
  gedge_eqb (local_edge i) (cell_edge o i').

Definition partner (i j : Z) : option (ivec3 * Z * Z) :=
  match filter (fun p => let '(i', j') := p in
           let o := vsub (snd (local_edge i)) (snd (local_edge i')) in
           negb (veqb o (V3 0 0 0)) && same_place i i' o && same_place j j' o)
         (list_prod slots slots) with
  | (i', j') :: _ => Some (vsub (snd (local_edge i)) (snd (local_edge i')), i', j')
  | [] => None
  end.

(* Two different edges are both contained in no cell but the given one and its partner. *)
Definition check_partner (i j : Z) : bool :=
  let pr := partner i j in
  forallb (fun i' => forallb (fun j' =>
     implb (axis_eqb (fst (local_edge i)) (fst (local_edge i')) && axis_eqb (fst (local_edge j)) (fst (local_edge j'))
            && veqb (vsub (snd (local_edge i)) (snd (local_edge i'))) (vsub (snd (local_edge j)) (snd (local_edge j'))))
       (((i =? i') && (j =? j')) ||
        match pr with
        | Some (o, i1, j1) => (i' =? i1) && (j' =? j1) && veqb o (vsub (snd (local_edge i)) (snd (local_edge i')))
        | None => false
        end)) slots) slots.

Definition all_pairs : list (Z * Z) := filter (fun p => negb (fst p =? snd p)) (list_prod slots slots).

Lemma partners_checked : forallb (fun p => check_partner (fst p) (snd p)) all_pairs = true.
Proof. vm_compute. reflexivity. Qed.

Lemma in_all_pairs : forall i j, 0 <= i < 12 -> 0 <= j < 12 -> i <> j -> In (i, j) all_pairs.
Proof.
  intros i j Hi Hj Hn. unfold all_pairs. apply filter_In. split.
  - apply in_prod; apply in_slots; assumption.
  - cbn [fst snd]. destruct (Z.eqb_spec i j); [contradiction|reflexivity].
Qed.

(* Offsets of partners are unit steps along an axis; both edges lie in the
   shared face. *)
Definition face_of (o : ivec3) : option (axis * Z) :=
  if veqb o (V3 1 0 0) then Some (AX, 1) else if veqb o (V3 (-1) 0 0) then Some (AX, 0)
  else if veqb o (V3 0 1 0) then Some (AY, 1) else if veqb o (V3 0 (-1) 0) then Some (AY, 0)
  else if veqb o (V3 0 0 1) then Some (AZ, 1) else if veqb o (V3 0 0 (-1)) then Some (AZ, 0)
  else None.

Definition check_partner_face (i j : Z) : bool :=
  match partner i j with
  | Some (o, i1, j1) =>
      (0 <=? i1) && (i1 <? 12) && (0 <=? j1) && (j1 <? 12) &&
      gedge_eqb (local_edge i) (cell_edge o i1) && gedge_eqb (local_edge j) (cell_edge o j1) &&
      match face_of o with
      | Some (d, s) => negb (axis_eqb (fst (local_edge i)) d) && (vget d (snd (local_edge i)) =? s)
                       && negb (axis_eqb (fst (local_edge j)) d) && (vget d (snd (local_edge j)) =? s)
      | None => false
      end
  | None => true
  end.
Lemma partner_faces_checked : forallb (fun p => check_partner_face (fst p) (snd p)) all_pairs = true.
Proof. vm_compute. reflexivity. Qed.

Definition unit_corners : list ivec3 := cell_corners (V3 0 0 0).

(* Configuration with the corners shared with the cell at [o] as in [bs] and
   the others empty, seen from the cell itself and from its neighbour. *)
Definition restrict_here (o : ivec3) (bs : list bool) : list bool :=
  map (fun c => if existsb (veqb (vsub c o)) unit_corners then tab false bs (corner_number c) else false)
    unit_corners.
Definition restrict_there (o : ivec3) (bs : list bool) : list bool :=
  map (fun c => if existsb (veqb (vadd c o)) unit_corners then tab false bs (corner_number (vadd c o)) else false)
    unit_corners.

Definition net (bs : list bool) (i j : Z) : Z := local_sides bs i j - local_sides bs j i.

Definition cofacial : list (Z * Z * ivec3 * Z * Z) :=
  flat_map (fun p => match partner (fst p) (snd p) with
                     | Some (o, i1, j1) => [(fst p, snd p, o, i1, j1)]
                     | None => []
                     end) all_pairs.
Definition lone_pairs : list (Z * Z) :=
  filter (fun p => match partner (fst p) (snd p) with Some _ => false | None => true end) all_pairs.

(* computed once and for all *)
Definition cofacial_list : list (Z * Z * ivec3 * Z * Z) := Eval vm_compute in cofacial.
Definition lone_list : list (Z * Z) := Eval vm_compute in lone_pairs.
Lemma cofacial_list_ok : cofacial_list = cofacial.
Proof. vm_compute. reflexivity. Qed.
Lemma lone_list_ok : lone_list = lone_pairs.
Proof. vm_compute. reflexivity. Qed.

(* all six face directions *)
Definition directions : list ivec3 :=
  [V3 1 0 0; V3 (-1) 0 0; V3 0 1 0; V3 0 (-1) 0; V3 0 0 1; V3 0 0 (-1)].

Definition cofacial_at (o : ivec3) : list (Z * Z * Z * Z) :=
  flat_map (fun q => let '(i, j, o', i1, j1) := q in if veqb o o' then [(i, j, i1, j1)] else []) cofacial_list.

Definition check_lone (bs : list bool) : bool :=
  let ts := flat_map sides (mc_tris bs) in
  let cnt := fun i j => countZ (pair_eqb (i, j)) ts in
  forallb (fun p => let '(i, j) := p in (cnt i j =? cnt j i) && (cnt i j <=? 1)) lone_list.
Lemma lone_checked : forallb check_lone configs = true.
Proof. vm_compute. reflexivity. Qed.

(* On a face: a side is never balanced inside the cell, the net number of
   sides depends on the corners of the face only and is opposite in the
   neighbouring cell. *)
Definition check_face (o : ivec3) (qs : list (Z * Z * Z * Z)) (bs : list bool) : bool :=
  let ts := flat_map sides (mc_tris bs) in
  let rs := flat_map sides (mc_tris (restrict_here o bs)) in
  let ns := flat_map sides (mc_tris (restrict_there o bs)) in
  let cnt := fun ts i j => countZ (pair_eqb (i, j)) ts in
  forallb (fun q => let '(i, j, i1, j1) := q in
     let k := cnt ts i j - cnt ts j i in
     (k =? cnt rs i j - cnt rs j i) && (cnt ts i j =? Z.max 0 k) && (cnt ts i j <=? 1)
     && (k + (cnt ns i1 j1 - cnt ns j1 i1) =? 0)) qs.
Definition check_faces (o : ivec3) : bool :=
  let qs := cofacial_at o in forallb (check_face o qs) configs.
Lemma faces_checked : forallb check_faces directions = true.
Proof. vm_compute. reflexivity. Qed.

(* ------------------------------------------------------------------ *)
(* The facts in usable form                                            *)
(* ------------------------------------------------------------------ *)

Lemma axis_eqb_eq : forall a b, axis_eqb a b = true <-> a = b.
Proof. intros [] []; split; intro H; (reflexivity || discriminate). Qed.
Lemma veqb_eq : forall p q, veqb p q = true <-> p = q.
Proof.
  intros [x y z] [x' y' z']. unfold veqb. cbn [vx vy vz]. rewrite !andb_true_iff, !Z.eqb_eq. split.
  - intros [[-> ->] ->]. reflexivity.
  - intro H. injection H as -> -> ->. auto.
Qed.
Lemma gedge_eqb_eq : forall a b, gedge_eqb a b = true <-> a = b.
Proof.
  intros [d p] [d' p']. unfold gedge_eqb. cbn [fst snd]. rewrite andb_true_iff, axis_eqb_eq, veqb_eq. split.
  - intros [-> ->]. reflexivity.
  - intro H. injection H as -> ->. auto.
Qed.

Lemma vec_shift : forall p q o o' : ivec3, vadd p o = vadd q o' -> vsub o o' = vsub q p.
Proof.
  intros [x y z] [x' y' z'] [a b c] [a' b' c'] H. unfold vadd in H. cbn [vx vy vz] in H. injection H as H1 H2 H3.
  unfold vsub. cbn [vx vy vz]. f_equal; lia.
Qed.
Lemma vsub_zero : forall p q : ivec3, vsub p q = V3 0 0 0 -> p = q.
Proof.
  intros [x y z] [x' y' z'] H. unfold vsub in H. cbn [vx vy vz] in H. injection H as H1 H2 H3. f_equal; lia.
Qed.

Lemma partner_unique : forall q q' i j i' j', 0 <= i < 12 -> 0 <= j < 12 -> i <> j -> 0 <= i' < 12 -> 0 <= j' < 12 ->
  cell_edge q i = cell_edge q' i' -> cell_edge q j = cell_edge q' j' ->
  (q' = q /\ i' = i /\ j' = j) \/ partner i j = Some (vsub q' q, i', j').
Proof.
  intros q q' i j i' j' Hi Hj Hn Hi' Hj' E1 E2.
  pose proof partners_checked as G. rewrite forallb_forall in G.
  specialize (G (i, j) (in_all_pairs _ _ Hi Hj Hn)). cbn [fst snd] in G. unfold check_partner in G.
  rewrite forallb_forall in G. specialize (G i' (proj2 (in_slots i') Hi')).
  rewrite forallb_forall in G. specialize (G j' (proj2 (in_slots j') Hj')).
  assert (D1 := f_equal fst E1). assert (P1 := f_equal snd E1). assert (D2 := f_equal fst E2). assert (P2 := f_equal snd E2).
  cbn [fst snd cell_edge] in D1, P1, D2, P2.
  apply vec_shift in P1. apply vec_shift in P2.
  rewrite D1, D2, P1, P2 in G.
  rewrite !(proj2 (axis_eqb_eq _ _)) in G by reflexivity. rewrite (proj2 (veqb_eq _ _)) in G by reflexivity.
  cbn [andb implb] in G. apply orb_true_iff in G. destruct G as [G|G].
  - apply andb_true_iff in G. rewrite !Z.eqb_eq in G. destruct G as [-> ->]. left.
    split; [|auto]. apply vsub_zero. rewrite <- P1. unfold vsub. rewrite !Z.sub_diag. reflexivity.
  - right. destruct (partner i j) as [[[o i1] j1]|]; [|discriminate].
    apply andb_true_iff in G. destruct G as [G G3]. apply andb_true_iff in G. rewrite !Z.eqb_eq in G.
    destruct G as [-> ->]. apply veqb_eq in G3. congruence.
Qed.

Lemma partner_props : forall i j o i1 j1, 0 <= i < 12 -> 0 <= j < 12 -> i <> j ->
  partner i j = Some (o, i1, j1) ->
  0 <= i1 < 12 /\ 0 <= j1 < 12 /\ i1 <> j1 /\ local_edge i = cell_edge o i1 /\ local_edge j = cell_edge o j1 /\
  In o directions /\ In (i, j, i1, j1) (cofacial_at o) /\
  exists d s, face_of o = Some (d, s) /\ edge_in_plane d s (local_edge i) /\ edge_in_plane d s (local_edge j).
Proof.
  intros i j o i1 j1 Hi Hj Hn Hp.
  pose proof partner_faces_checked as G. rewrite forallb_forall in G.
  specialize (G (i, j) (in_all_pairs _ _ Hi Hj Hn)). cbn [fst snd] in G. unfold check_partner_face in G.
  rewrite Hp in G. rewrite !andb_true_iff in G. destruct G as [[[[[[G1 G2] G3] G4] G5] G6] G7].
  rewrite Z.leb_le in G1, G3. rewrite Z.ltb_lt in G2, G4. rewrite gedge_eqb_eq in G5, G6.
  split; [lia|]. split; [lia|]. split.
  { intros ->. rewrite <- G6 in G5.
    assert (Hinj : forallb (fun p => negb (gedge_eqb (local_edge (fst p)) (local_edge (snd p)))) all_pairs = true)
      by (vm_compute; reflexivity).
    rewrite forallb_forall in Hinj. specialize (Hinj (i, j) (in_all_pairs _ _ Hi Hj Hn)). cbn [fst snd] in Hinj.
    rewrite (proj2 (gedge_eqb_eq _ _) G5) in Hinj. discriminate. }
  split; [assumption|]. split; [assumption|]. split.
  { unfold face_of in G7. unfold directions. clear -G7.
    repeat match type of G7 with context [veqb o ?v] =>
      destruct (veqb o v) eqn:?; [match goal with H : veqb _ _ = true |- _ => apply veqb_eq in H; subst; simpl; tauto end|] end.
    discriminate. }
  split.
  { unfold cofacial_at. apply in_flat_map. exists (i, j, o, i1, j1). split.
    - rewrite cofacial_list_ok. unfold cofacial. apply in_flat_map. exists (i, j).
      split; [apply in_all_pairs; assumption|]. cbn [fst snd]. rewrite Hp. left. reflexivity.
    - rewrite (proj2 (veqb_eq o o) eq_refl). left. reflexivity. }
  destruct (face_of o) as [[d s]|]; [|discriminate]. exists d, s.
  rewrite !andb_true_iff, !negb_true_iff, !Z.eqb_eq in G7. destruct G7 as [[[A B] C] D].
  split; [reflexivity|].
  split; (split; [intro X; apply axis_eqb_eq in X; congruence|assumption]).
Qed.

Lemma lone_ok : forall bs i j, length bs = 8%nat -> 0 <= i < 12 -> 0 <= j < 12 -> i <> j -> partner i j = None ->
  local_sides bs i j = local_sides bs j i /\ local_sides bs i j <= 1.
Proof.
  intros bs i j Hl Hi Hj Hn Hp. pose proof lone_checked as G. rewrite forallb_forall in G.
  specialize (G bs (in_configs _ Hl)). unfold check_lone in G. rewrite forallb_forall in G.
  assert (Hin : In (i, j) lone_list).
  { rewrite lone_list_ok. unfold lone_pairs. apply filter_In. split; [apply in_all_pairs; assumption|].
    cbn [fst snd]. rewrite Hp. reflexivity. }
  specialize (G _ Hin). cbv beta iota in G. apply andb_true_iff in G. rewrite Z.eqb_eq, Z.leb_le in G. exact G.
Qed.

Definition vneg (o : ivec3) : ivec3 := V3 (- vx o) (- vy o) (- vz o).

Lemma restrict_agree : forall o bs bs',
  (forall c, In c unit_corners -> In (vsub c o) unit_corners ->
     tab false bs (corner_number c) = tab false bs' (corner_number (vsub c o))) ->
  restrict_here (vneg o) bs' = restrict_there o bs.
Proof.
  intros o bs bs' H. unfold restrict_here, restrict_there. apply map_ext_in. intros c Hc.
  assert (E : vsub c (vneg o) = vadd c o) by (unfold vsub, vneg, vadd; cbn [vx vy vz]; f_equal; lia).
  rewrite E. destruct (existsb (veqb (vadd c o)) unit_corners) eqn:X; [|reflexivity].
  apply existsb_exists in X. destruct X as (c' & Hc' & Heq). apply veqb_eq in Heq.
  assert (E2 : vsub (vadd c o) o = c)
    by (destruct c as [cx cy cz]; unfold vsub, vadd; cbn [vx vy vz]; f_equal; lia).
  rewrite (H (vadd c o)); [rewrite E2; reflexivity|rewrite Heq; assumption|rewrite E2; assumption].
Qed.

Lemma face_ok : forall bs o i j i1 j1, length bs = 8%nat -> In o directions -> In (i, j, i1, j1) (cofacial_at o) ->
  net bs i j = net (restrict_here o bs) i j /\ local_sides bs i j = Z.max 0 (net bs i j) /\ local_sides bs i j <= 1 /\
  net bs i j + net (restrict_there o bs) i1 j1 = 0.
Proof.
  intros bs o i j i1 j1 Hl Ho Hin. pose proof faces_checked as G. rewrite forallb_forall in G.
  specialize (G o Ho). unfold check_faces in G. rewrite forallb_forall in G. specialize (G bs (in_configs _ Hl)).
  unfold check_face in G. rewrite forallb_forall in G. specialize (G _ Hin). cbv beta iota zeta in G.
  rewrite !andb_true_iff, !Z.eqb_eq, Z.leb_le in G. unfold net, local_sides, side_count. tauto.
Qed.

(* Neighbouring cells run along the sides in their common face in opposite
   directions, and at most once. *)
Lemma balance : forall bs bs' i j o i1 j1, length bs = 8%nat -> length bs' = 8%nat ->
  0 <= i < 12 -> 0 <= j < 12 -> i <> j -> partner i j = Some (o, i1, j1) ->
  (forall c, In c unit_corners -> In (vsub c o) unit_corners ->
     tab false bs (corner_number c) = tab false bs' (corner_number (vsub c o))) ->
  local_sides bs i j + local_sides bs' i1 j1 = local_sides bs j i + local_sides bs' j1 i1 /\
  local_sides bs i j + local_sides bs' i1 j1 <= 1.
Proof.
  intros bs bs' i j o i1 j1 Hl Hl' Hi Hj Hn Hp Hag.
  destruct (partner_props _ _ _ _ _ Hi Hj Hn Hp) as (Hi1 & Hj1 & Hn1 & E1 & E2 & Ho & Hin & _).
  assert (Ho' : In (vneg o) directions).
  { unfold directions in Ho. repeat (destruct Ho as [<-|Ho]; [cbn; tauto|]). destruct Ho. }
  assert (Hp1 : partner i1 j1 = Some (vneg o, i, j)).
  { assert (Z0 : forall k, cell_edge (V3 0 0 0) k = local_edge k).
    { intro k. unfold cell_edge. destruct (local_edge k) as [d [x y z]]. reflexivity. }
    assert (F1 : cell_edge o i1 = cell_edge (V3 0 0 0) i) by (rewrite Z0; congruence).
    assert (F2 : cell_edge o j1 = cell_edge (V3 0 0 0) j) by (rewrite Z0; congruence).
    destruct (partner_unique o (V3 0 0 0) i1 j1 i j Hi1 Hj1 Hn1 Hi Hj F1 F2) as [(A & B & C)|A].
    - exfalso. clear -Ho A. subst o. unfold directions in Ho.
      repeat (destruct Ho as [H|Ho]; [discriminate|]). destruct Ho.
    - rewrite A. f_equal. }
  destruct (partner_props _ _ _ _ _ Hi1 Hj1 Hn1 Hp1) as (_ & _ & _ & _ & _ & _ & Hin1 & _).
  assert (Hn' : j <> i) by congruence.
  destruct (face_ok bs o _ _ _ _ Hl Ho Hin) as (A1 & A2 & A3 & A4).
  destruct (face_ok bs' (vneg o) _ _ _ _ Hl' Ho' Hin1) as (B1 & B2 & B3 & B4).
  rewrite (restrict_agree o bs bs' Hag) in B1. unfold net in *. lia.
Qed.

(* Number of the corner at offset c in a cell's configuration. *)
Lemma config_corner : forall solid q c, In c unit_corners ->
  tab false (config solid q) (corner_number c) = solid (vadd q c).
Proof.
  intros solid q c Hc. unfold unit_corners, cell_corners in Hc. cbn [map] in Hc.
  repeat (destruct Hc as [<-|Hc]; [reflexivity|]). destruct Hc.
Qed.

Lemma config_agree : forall solid q o c, In c unit_corners -> In (vsub c o) unit_corners ->
  tab false (config solid q) (corner_number c) = tab false (config solid (vadd q o)) (corner_number (vsub c o)).
Proof.
  intros. rewrite !config_corner by assumption. f_equal.
  destruct q as [a1 a2 a3], o as [b1 b2 b3], c as [c1 c2 c3]. unfold vadd, vsub. cbn [vx vy vz]. f_equal; lia.
Qed.

Lemma config_length : forall solid q, length (config solid q) = 8%nat.
Proof. reflexivity. Qed.

Definition check_ends (i : Z) : bool :=
  existsb (veqb (snd (local_edge i))) unit_corners
  && existsb (veqb (vadd (snd (local_edge i)) (unit_vec (fst (local_edge i))))) unit_corners.
Lemma ends_checked : forallb check_ends slots = true.
Proof. vm_compute. reflexivity. Qed.

Lemma local_edge_ends : forall i, 0 <= i < 12 -> In (snd (local_edge i)) unit_corners /\
  In (vadd (snd (local_edge i)) (unit_vec (fst (local_edge i)))) unit_corners.
Proof.
  intros i Hi. pose proof ends_checked as G. rewrite forallb_forall in G.
  specialize (G i (proj2 (in_slots i) Hi)). unfold check_ends in G. apply andb_true_iff in G.
  rewrite !existsb_exists in G. destruct G as [(a & Ha & Ea) (b & Hb & Eb)].
  apply veqb_eq in Ea. apply veqb_eq in Eb. rewrite Ea, Eb in *. auto.
Qed.

Lemma crossing_edge : forall solid q i, 0 <= i < 12 ->
  crossing (config solid q) i = edge_crosses solid (cell_edge q i).
Proof.
  intros solid q i Hi. destruct (local_edge_ends i Hi) as [H1 H2].
  unfold crossing, edge_crosses, edge_start, edge_end. rewrite !config_corner by assumption.
  cbn [fst snd cell_edge]. f_equal. f_equal. unfold vadd. cbn [vx vy vz]. f_equal; lia.
Qed.
