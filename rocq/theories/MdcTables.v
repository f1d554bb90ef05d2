(* Facts about kMdcEdgeSetIndex and kEdgeProcSharedEdge, decided by going through
   all sign configurations of a cell. *)
From Coq Require Import ZArith List Bool Lia.
From Verif Require Import Base Arith Tables GridSpec MeshSpec MCModel CellSpec LoopLemmas CellTables DualSpec DualProofs
  OctreeModel OctreeSums DcModel MdcModel MdcSpec.
Import ListNotations.
Local Open Scope Z_scope.

Definition set_index (bs : list bool) (i : Z) : Z := tab (-1) (tab [] kMdcEdgeSetIndex (mask_of bs)) i.
Definition set_count (bs : list bool) : Z := fold_left (fun k i => Z.max k (set_index bs i + 1)) (zseq 0 12) 0.

(* ---- edge numbers ---- *)

Lemma edge_slots : forallb (fun i => edge_number (V3 0 0 0) (local_edge i) =? i) (zseq 0 12) = true.
Proof. vm_compute. reflexivity. Qed.

Definition shift (c : ivec3) (e : gedge) : gedge := (fst e, vadd c (snd e)).

Lemma shift_eqb : forall c e e', gedge_eqb (shift c e) (shift c e') = gedge_eqb e e'.
Proof.
  intros c e e'. apply eq_true_iff_eq. rewrite !gedge_eqb_eq. split; [|intros ->; reflexivity].
  destruct e as [d [x y z]], e' as [d' [x' y' z']], c as [a b h]. unfold shift, vadd. cbn [fst snd vx vy vz].
  intro H. injection H as -> H1 H2 H3. repeat f_equal; lia.
Qed.

Lemma cell_edge_shift : forall c i, cell_edge c i = shift c (local_edge i).
Proof. reflexivity. Qed.
Lemma shift_zero : forall e, shift (V3 0 0 0) e = e.
Proof. intros [d [x y z]]. unfold shift, vadd. cbn [fst snd vx vy vz]. repeat f_equal; lia. Qed.

Lemma find_ext : forall T (f h : T -> bool) l, (forall a, f a = h a) -> find f l = find h l.
Proof. intros T f h l H. induction l as [|a l IH]; [reflexivity|]. cbn [find]. rewrite H, IH. reflexivity. Qed.

Lemma edge_number_shift : forall c e, edge_number c (shift c e) = edge_number (V3 0 0 0) e.
Proof.
  intros c e. unfold edge_number. rewrite (find_ext _ _ (fun i => gedge_eqb (cell_edge (V3 0 0 0) i) e)); [reflexivity|].
  intro i. rewrite !cell_edge_shift, shift_eqb, shift_zero. reflexivity.
Qed.

Lemma edge_number_cell : forall c i, 0 <= i < 12 -> edge_number c (cell_edge c i) = i.
Proof.
  intros c i Hi. rewrite cell_edge_shift, edge_number_shift. pose proof edge_slots as G. rewrite forallb_forall in G.
  apply Z.eqb_eq, G, in_zseq. lia.
Qed.

Lemma sheet_cell : forall solid c i, 0 <= i < 12 -> sheet solid c (cell_edge c i) = set_index (config solid c) i.
Proof. intros solid c i Hi. unfold sheet. rewrite edge_number_cell by assumption. reflexivity. Qed.

(* ---- the edge shared by four cells ---- *)

Ltac edges := unfold cell_edge; repeat match goal with |- context [local_edge ?k] =>
  let e := eval vm_compute in (local_edge k) in change (local_edge k) with e end.

Lemma shared_edge : forall d p i c, znth (cells_around d p) i = Some c ->
  exists row s, znth kEdgeProcSharedEdge (axis_index d) = Some row /\ znth row i = Some s /\ 0 <= s < 12 /\ cell_edge c s = (d, p).
Proof.
  intros d [x y z] i c H. unfold cells_around in H. unfold znth at 1 in H. destruct (Z.ltb_spec i 0); [discriminate|].
  destruct (Z.to_nat i) as [|[|[|[|k]]]] eqn:K; cbn [nth_error] in H; try (destruct k; discriminate);
    [replace i with 0 in * by lia|replace i with 1 in * by lia|replace i with 2 in * by lia|replace i with 3 in * by lia];
    injection H as <-; destruct d; (eexists _, _; split; [vm_compute; reflexivity|]; split; [vm_compute; reflexivity|]; split; [lia|]);
    edges; (apply injective_projections; [reflexivity|apply vec_eq; cbn; lia]).
Qed.

(* edges of a cell and cells around an edge *)
Lemma cell_edge_around : forall c i, 0 <= i < 12 -> In c (cells_around (fst (cell_edge c i)) (snd (cell_edge c i))).
Proof.
  intros [x y z] i Hi. apply in_zrange in Hi. cbn in Hi.
  repeat (destruct Hi as [<-|Hi]; [edges; unfold cells_around, vadd, vsub; cbn [fst snd vx vy vz next_axis unit_vec In]; first [left; f_equal; lia|right; left; f_equal; lia|right; right; left; f_equal; lia|right; right; right; left; f_equal; lia]|]); destruct Hi.
Qed.

Lemma around_cell_edge : forall c e, In c (cells_around (fst e) (snd e)) -> exists i, 0 <= i < 12 /\ cell_edge c i = e.
Proof.
  intros c [d p] H. cbn [fst snd] in H. apply In_nth_error in H as (k & Hk).
  destruct (shared_edge d p (Z.of_nat k) c) as (row & s & _ & _ & Hs & He).
  { unfold znth. destruct (Z.ltb_spec (Z.of_nat k) 0); [lia|]. rewrite Nat2Z.id. exact Hk. }
  eauto.
Qed.

(* ---- rows of the table ---- *)

Definition check_sets (bs : list bool) : bool :=
  match znth kMdcEdgeSetIndex (mask_of bs) with
  | Some row => (zlen row =? 12) && (set_count bs <=? 4) &&
      forallb (fun i => match znth row i with
                        | Some s => Bool.eqb (0 <=? s) (crossing bs i) && (s <? set_count bs) && (-1 <=? s)
                        | None => false
                        end) (zseq 0 12)
  | None => false
  end.
Lemma sets_checked : forallb check_sets configs = true.
Proof. vm_compute. reflexivity. Qed.

Lemma edge_set_ok : forall bs i, length bs = 8%nat -> 0 <= i < 12 ->
  edge_set (mask_of bs) i = Ret (set_index bs i) /\ (0 <= set_index bs i <-> crossing bs i = true) /\
  -1 <= set_index bs i < set_count bs.
Proof.
  intros bs i Hb Hi. pose proof sets_checked as G. rewrite forallb_forall in G. specialize (G bs (in_configs bs Hb)).
  unfold check_sets in G. unfold edge_set, set_index.
  destruct (znth kMdcEdgeSetIndex (mask_of bs)) as [row|] eqn:R; [|discriminate].
  rewrite (tab_znth _ [] _ _ _ R). apply andb_true_iff in G as [_ G]. rewrite forallb_forall in G.
  specialize (G i (proj2 (in_zseq 12 0 i) ltac:(lia))). cbn [oread obind].
  destruct (znth row i) as [s|] eqn:S; [|discriminate]. rewrite (tab_znth _ (-1) _ _ _ S). cbn [oread].
  rewrite !andb_true_iff, Z.ltb_lt, Z.leb_le, eqb_true_iff in G. destruct G as [[G1 G2] G3].
  split; [reflexivity|]. split; [|lia]. rewrite <- G1. symmetry. apply Z.leb_le.
Qed.

Lemma set_count_bound : forall bs, length bs = 8%nat -> 0 <= set_count bs <= 4.
Proof.
  intros bs Hb. pose proof sets_checked as G. rewrite forallb_forall in G. specialize (G bs (in_configs bs Hb)).
  unfold check_sets in G. destruct (znth kMdcEdgeSetIndex (mask_of bs)) as [row|]; [|discriminate].
  rewrite !andb_true_iff, Z.leb_le in G. split; [|tauto]. unfold set_count.
  assert (H : forall l k, 0 <= k -> 0 <= fold_left (fun k i => Z.max k (set_index bs i + 1)) l k).
  { induction l as [|a l IH]; intros k Hk; [assumption|]. cbn [fold_left]. apply IH. lia. }
  apply H. lia.
Qed.

Lemma sheet_range : forall solid c e, In c (cells_around (fst e) (snd e)) ->
  (0 <= sheet solid c e <-> edge_crosses solid e = true) /\ -1 <= sheet solid c e < set_count (config solid c).
Proof.
  intros solid c e H. destruct (around_cell_edge c e H) as (i & Hi & <-). rewrite sheet_cell by assumption.
  rewrite <- crossing_edge by assumption. destruct (edge_set_ok (config solid c) i (config_length solid c) Hi) as (_ & H1 & H2). tauto.
Qed.

(* ---- curves in the faces ---- *)

Definition local_solid (bs : list bool) (p : ivec3) : bool := tab false bs (corner_number p).
Definition origin : ivec3 := V3 0 0 0.
Definition cell_faces : list gedge := flat_map (fun d => [(d, origin); (d, unit_vec d)]) [AX; AY; AZ].

Definition check_curves (bs : list bool) : bool :=
  forallb (fun f => forallb (fun kl =>
      match znth (face_edges f) (fst kl), znth (face_edges f) (snd kl) with
      | Some e, Some e' => set_index bs (edge_number origin e) =? set_index bs (edge_number origin e')
      | _, _ => false
      end) (face_pairs (map (local_solid bs) (face_corners f)))) cell_faces.
Lemma curves_checked : forallb check_curves configs = true.
Proof. vm_compute. reflexivity. Qed.

Lemma cell_face_local : forall c f, face_low f = c \/ face_high f = c -> exists f0, In f0 cell_faces /\ f = shift c f0.
Proof.
  intros c [d p] [<-|<-]; unfold face_low, face_high; cbn [fst snd].
  - exists (d, unit_vec d). split; [destruct d; cbn; auto 10|]. unfold shift. cbn [fst snd]. rewrite vsub_vadd. reflexivity.
  - exists (d, origin). split; [destruct d; cbn; auto 10|]. unfold shift. cbn [fst snd]. f_equal.
    destruct p as [x y z]. unfold vadd, origin. cbn [vx vy vz]. f_equal; lia.
Qed.

Lemma vadd_assoc : forall a b c : ivec3, vadd (vadd a b) c = vadd a (vadd b c).
Proof. intros. unfold vadd. cbn [vx vy vz]. f_equal; lia. Qed.

Lemma face_edges_shift : forall c f, face_edges (shift c f) = map (shift c) (face_edges f).
Proof. intros c [d p]. unfold face_edges, shift. cbn [fst snd map]. rewrite !vadd_assoc. reflexivity. Qed.
Lemma face_corners_shift : forall c f, face_corners (shift c f) = map (vadd c) (face_corners f).
Proof. intros c [d p]. unfold face_corners, shift. cbn [fst snd map]. rewrite !vadd_assoc. reflexivity. Qed.

Lemma face_corners_unit : forall f, In f cell_faces -> forall p, In p (face_corners f) -> In p unit_corners.
Proof.
  intros f Hf p Hp. cbn in Hf.
  decompose [or] Hf; try contradiction; subst f; cbn in Hp; decompose [or] Hp; try contradiction; subst p; cbn; auto 10.
Qed.

Lemma local_corners : forall solid c f, In f cell_faces ->
  map solid (face_corners (shift c f)) = map (local_solid (config solid c)) (face_corners f).
Proof.
  intros solid c f Hf. rewrite face_corners_shift, map_map. apply map_ext_in. intros p Hp. unfold local_solid.
  rewrite config_corner; [reflexivity|]. eapply face_corners_unit; eassumption.
Qed.

Lemma znth_map : forall A B (f : A -> B) l i, znth (map f l) i = match znth l i with Some a => Some (f a) | None => None end.
Proof.
  intros A B f l i. unfold znth. destruct (i <? 0); [reflexivity|]. generalize (Z.to_nat i) as k. clear.
  induction l as [|a l IH]; intros [|k]; cbn; auto.
Qed.

Lemma sheet_shift : forall solid c e, sheet solid c (shift c e) = set_index (config solid c) (edge_number origin e).
Proof. intros. unfold sheet. rewrite edge_number_shift. reflexivity. Qed.

(* A curve in a face stays in one set. *)
Lemma curve_sheet : forall solid c f e e', face_low f = c \/ face_high f = c -> on_one_curve solid f e e' ->
  sheet solid c e = sheet solid c e'.
Proof.
  intros solid c f e e' Hc (k & l & Hin & Hk & Hl). destruct (cell_face_local c f Hc) as (f0 & Hf0 & ->).
  rewrite local_corners in Hin by assumption. rewrite face_edges_shift, znth_map in Hk, Hl.
  pose proof curves_checked as G. rewrite forallb_forall in G. specialize (G _ (in_configs _ (config_length solid c))).
  unfold check_curves in G. rewrite forallb_forall in G. specialize (G f0 Hf0). rewrite forallb_forall in G. specialize (G _ Hin).
  cbn [fst snd] in G. destruct (znth (face_edges f0) k) as [e0|]; [|discriminate]. destruct (znth (face_edges f0) l) as [e1|]; [|discriminate].
  injection Hk as <-. injection Hl as <-. rewrite !sheet_shift. apply Z.eqb_eq. exact G.
Qed.

Lemma piece_sheet : forall solid c e e', one_piece solid c e e' -> sheet solid c e = sheet solid c e'.
Proof.
  intros solid c e e' H. induction H as [e|e e' e'' f H IH Hf Hc|e e' e'' f H IH Hf Hc]; [reflexivity| |].
  - rewrite IH. eapply curve_sheet; eassumption.
  - rewrite IH. symmetry. eapply curve_sheet; eassumption.
Qed.

(* ---- the sets are pieces ---- *)

Definition local_curves (bs : list bool) : list (Z * Z) :=
  flat_map (fun f => flat_map (fun kl =>
    match znth (face_edges f) (fst kl), znth (face_edges f) (snd kl) with
    | Some e, Some e' => [(edge_number origin e, edge_number origin e')]
    | _, _ => []
    end) (face_pairs (map (local_solid bs) (face_corners f)))) cell_faces.
Fixpoint reach (cs : list (Z * Z)) (k : nat) (l : list Z) : list Z :=
  match k with
  | O => l
  | S k' => reach cs k' (fold_left (fun l c => 
      if existsb (Z.eqb (fst c)) l then if existsb (Z.eqb (snd c)) l then l else snd c :: l
      else if existsb (Z.eqb (snd c)) l then fst c :: l else l) cs l)
  end.
Definition local_holes (bs : list bool) : bool :=
  existsb (fun k => forallb (fun i => eqb (tab false bs i) (negb ((i =? k) || (i =? 7 - k)))) (zseq 0 8)) (zseq 0 4).
Definition check_pieces (bs : list bool) : bool :=
  local_holes bs ||
  let cs := local_curves bs in
  forallb (fun i => implb (crossing bs i) (let r := reach cs 3 [i] in
    forallb (fun j => implb (crossing bs j && (set_index bs i =? set_index bs j)) (existsb (Z.eqb j) r)) (zseq 0 12))) (zseq 0 12).
Lemma pieces_checked : forallb check_pieces configs = true.
Proof. vm_compute. reflexivity. Qed.

Lemma local_curve_ok : forall solid c i j, In (i, j) (local_curves (config solid c)) ->
  exists f, (face_low f = c \/ face_high f = c) /\ on_one_curve solid f (cell_edge c i) (cell_edge c j).
Proof.
  intros solid c i j H. unfold local_curves in H. apply in_flat_map in H as (f0 & Hf & H). apply in_flat_map in H as ([k l] & Hkl & H).
  cbn [fst snd] in H. destruct (znth (face_edges f0) k) as [e0|] eqn:K; [|destruct H]. destruct (znth (face_edges f0) l) as [e1|] eqn:L; [|destruct H].
  destruct H as [H|[]]. injection H as <- <-. exists (shift c f0).
  assert (HE : forall e, In e (face_edges f0) -> local_edge (edge_number origin e) = e).
  { clear - Hf. intros e He. cbn in Hf. decompose [or] Hf; try contradiction; subst f0; cbn in He;
      decompose [or] He; try contradiction; subst e; reflexivity. }
  split.
  - clear - Hf. cbn in Hf. unfold face_low, face_high, shift. destruct c as [x y z].
    decompose [or] Hf; try contradiction; subst f0; cbn; unfold vsub, vadd; cbn; (left; f_equal; lia) || (right; f_equal; lia).
  - exists k, l. rewrite local_corners by assumption. split; [assumption|]. rewrite face_edges_shift, !znth_map, K, L.
    rewrite !cell_edge_shift, !HE; [split; reflexivity| |].
    + unfold znth in L. destruct (l <? 0); [discriminate|]. apply nth_error_In in L. assumption.
    + unfold znth in K. destruct (k <? 0); [discriminate|]. apply nth_error_In in K. assumption.
Qed.

Lemma reach_piece : forall solid c k l, (forall cs, incl cs (local_curves (config solid c)) -> forall P : Z -> Prop,
   P = (fun j => exists i, In i l /\ one_piece solid c (cell_edge c i) (cell_edge c j)) -> forall j, In j (reach cs k l) -> P j).
Proof.
  intros solid c k l cs Hcs P ->. revert l. induction k as [|k IH]; intros l j Hj; cbn [reach] in Hj.
  - exists j. split; [assumption|constructor].
  - apply IH in Hj as (i & Hi & Hp). revert Hi Hp.
    assert (G : forall cs' l0, incl cs' cs -> forall i, In i (fold_left (fun l c0 =>
        if existsb (Z.eqb (fst c0)) l then if existsb (Z.eqb (snd c0)) l then l else snd c0 :: l
        else if existsb (Z.eqb (snd c0)) l then fst c0 :: l else l) cs' l0) ->
      exists i0, In i0 l0 /\ one_piece solid c (cell_edge c i0) (cell_edge c i)).
    { induction cs' as [|[a b] cs' IHc]; intros l0 Hi0 i' H'; cbn [fold_left fst snd] in H'.
      - exists i'. split; [assumption|constructor].
      - apply IHc in H' as (i1 & Hi1 & Hp1); [|intros z Hz; apply Hi0; right; assumption].
        assert (Hab : In (a, b) (local_curves (config solid c))) by (apply Hcs, Hi0; left; reflexivity).
        destruct (local_curve_ok solid c a b Hab) as (f & Hf & Hcv).
        assert (Trans : forall x y z, one_piece solid c x y -> one_piece solid c y z -> one_piece solid c x z).
        { intros x y z Hxy Hyz. induction Hyz as [y|y y' y'' f' H1 IH1 H2 H3|y y' y'' f' H1 IH1 H2 H3]; [assumption| |].
          - eapply piece_forth; [exact (IH1 Hxy)|eassumption|eassumption].
          - eapply piece_back; [exact (IH1 Hxy)|eassumption|eassumption]. }
        destruct (existsb (Z.eqb a) l0) eqn:Ea; [destruct (existsb (Z.eqb b) l0) eqn:Eb|destruct (existsb (Z.eqb b) l0) eqn:Eb]; try (exists i1; auto; fail).
        + destruct Hi1 as [<-|Hi1]; [|exists i1; auto]. apply existsb_exists in Ea as (a' & Ha & Ea). apply Z.eqb_eq in Ea. subst a'.
          exists a. split; [assumption|]. eapply Trans; [|exact Hp1]. eapply piece_forth; [constructor|eassumption|eassumption].
        + destruct Hi1 as [<-|Hi1]; [|exists i1; auto]. apply existsb_exists in Eb as (b' & Hb & Eb). apply Z.eqb_eq in Eb. subst b'.
          exists b. split; [assumption|]. eapply Trans; [|exact Hp1]. eapply piece_back; [constructor|eassumption|eassumption]. }
    intros Hi Hp. destruct (G cs l (incl_refl cs) i Hi) as (i0 & Hi0 & Hp0). exists i0. split; [assumption|].
    clear - Hp Hp0. induction Hp as [y|y y' y'' f' H1 IH1 H2 H3|y y' y'' f' H1 IH1 H2 H3]; [assumption| |].
    + eapply piece_forth; [exact (IH1 Hp0)|eassumption|eassumption].
    + eapply piece_back; [exact (IH1 Hp0)|eassumption|eassumption].
Qed.

Lemma sheet_piece : forall solid c e e', In c (cells_around (fst e) (snd e)) -> In c (cells_around (fst e') (snd e')) ->
  edge_crosses solid e = true -> edge_crosses solid e' = true -> two_holes solid c = false -> sheet solid c e = sheet solid c e' ->
  one_piece solid c e e'.
Proof.
  intros solid c e e' He He' Hc Hc' Hh Hs. destruct (around_cell_edge c e He) as (i & Hi & <-). destruct (around_cell_edge c e' He') as (j & Hj & <-).
  rewrite !sheet_cell in Hs by assumption. rewrite <- crossing_edge in Hc, Hc' by assumption.
  pose proof pieces_checked as G. rewrite forallb_forall in G. specialize (G _ (in_configs _ (config_length solid c))).
  unfold check_pieces in G. change (two_holes solid c) with (local_holes (config solid c)) in Hh. rewrite Hh in G. cbn [orb] in G.
  rewrite forallb_forall in G. specialize (G i (proj2 (in_zseq 12 0 i) ltac:(lia))). rewrite Hc in G. cbn [implb] in G.
  rewrite forallb_forall in G. specialize (G j (proj2 (in_zseq 12 0 j) ltac:(lia))). rewrite Hc' in G. rewrite Hs, Z.eqb_refl in G. cbn [andb implb] in G.
  apply existsb_exists in G as (j' & Hj' & Ej). apply Z.eqb_eq in Ej. subst j'.
  destruct (reach_piece solid c 3 [i] _ (incl_refl _) _ eq_refl j Hj') as (i' & [<-|[]] & Hp). exact Hp.
Qed.

(* ---- curves and signs ---- *)

Definition pairs_balanced (vs : list bool) (d0 d1 d2 d3 : Z) : Prop :=
  match vs with
  | [v0; v1; v2; v3] => (b2z v0 - b2z v1) * d0 + (b2z v1 - b2z v2) * d1 - (b2z v3 - b2z v2) * d2 - (b2z v0 - b2z v3) * d3 = 0
  | _ => True
  end.
Lemma pairs_ok : forall vs d0 d1 d2 d3, length vs = 4%nat ->
  (forall k l x y, In (k, l) (face_pairs vs) -> znth [d0; d1; d2; d3] k = Some x -> znth [d0; d1; d2; d3] l = Some y -> x = y) ->
  pairs_balanced vs d0 d1 d2 d3.
Proof.
  intros vs d0 d1 d2 d3 Hl H. do 4 (destruct vs as [|? vs]; [discriminate|]). destruct vs; [|discriminate].
  assert (P01 := H 0 1 d0 d1). assert (P02 := H 0 2 d0 d2). assert (P03 := H 0 3 d0 d3). assert (P12 := H 1 2 d1 d2).
  assert (P13 := H 1 3 d1 d3). assert (P23 := H 2 3 d2 d3). assert (P30 := H 3 0 d3 d0).
  clear H Hl. unfold pairs_balanced.
  destruct b, b0, b1, b2; cbn [face_pairs xorb filter snd] in *; cbn [b2z]; try lia;
    repeat match goal with
    | Hp : In ?p [?p'] -> _ |- _ => first [specialize (Hp (or_introl eq_refl) eq_refl eq_refl) | clear Hp]
    | Hp : In ?p [?p'; ?p''] -> _ |- _ => first [specialize (Hp (or_introl eq_refl) eq_refl eq_refl) | specialize (Hp (or_intror (or_introl eq_refl)) eq_refl eq_refl) | clear Hp]
    end; lia.
Qed.
