(* Loading of files of triangles, in any arithmetic. *)
From Coq Require Import ZArith List Bool Lia.
From Verif Require Import Base Arith MeshModel MCModel TriModel TriProofs PlyModel PlySpec.
Import ListNotations.
Local Open Scope Z_scope.

Lemma znth_app_r : forall {X} (l l' : list X) i, 0 <= i -> znth (l ++ l') (zlen l + i) = znth l' i.
Proof.
  intros X l l' i H. unfold znth, zlen. destruct (Z.ltb_spec (Z.of_nat (length l) + i) 0); [lia|].
  destruct (Z.ltb_spec i 0); [lia|]. rewrite nth_error_app2; [|lia]. f_equal. lia.
Qed.

Lemma ofold_seq : forall {X S} (f : S -> Z -> outcome S) (g : S -> X -> outcome S) l' l s,
  (forall i x s, znth (l ++ l') i = Some x -> f s i = g s x) ->
  ofold f (zseq (zlen l) (length l')) s = ofold g l' s.
Proof.
  intros X S f g. induction l' as [|x l' IH]; intros l s H; [reflexivity|].
  cbn [length zseq ofold]. rewrite (H (zlen l) x s).
  - destruct (g s x) as [s'| | | |]; cbn [obind]; auto.
    replace (zlen l + 1) with (zlen (l ++ [x])) by (rewrite zlen_app; reflexivity).
    apply IH. intros i y s0 Hy. apply H. rewrite <- app_assoc in Hy. exact Hy.
  - pose proof (znth_app_r l (x :: l') 0 ltac:(lia)) as Q. rewrite Z.add_0_r in Q. exact Q.
Qed.
Lemma ofold_range : forall {X S} (f : S -> Z -> outcome S) (g : S -> X -> outcome S) l s,
  (forall i x s, znth l i = Some x -> f s i = g s x) -> ofold f (zrange 0 (zlen l)) s = ofold g l s.
Proof.
  intros X S f g l s H. unfold zrange, zlen. rewrite Z.sub_0_r, Nat2Z.id. apply (ofold_seq f g l []). exact H.
Qed.
Lemma omap_seq : forall {X Y} (f : Z -> outcome Y) (g : X -> Y) l' l,
  (forall i x, znth (l ++ l') i = Some x -> f i = Ret (g x)) ->
  omap f (zseq (zlen l) (length l')) = Ret (map g l').
Proof.
  intros X Y f g. induction l' as [|x l' IH]; intros l H; [reflexivity|].
  cbn [length zseq omap map]. rewrite (H (zlen l) x).
  - cbn [obind]. replace (zlen l + 1) with (zlen (l ++ [x])) by (rewrite zlen_app; reflexivity).
    rewrite IH; [reflexivity|]. intros i y Hy. apply H. rewrite <- app_assoc in Hy. exact Hy.
  - pose proof (znth_app_r l (x :: l') 0 ltac:(lia)) as Q. rewrite Z.add_0_r in Q. exact Q.
Qed.
Lemma omap_range : forall {X Y} (f : Z -> outcome Y) (g : X -> Y) l,
  (forall i x, znth l i = Some x -> f i = Ret (g x)) -> omap f (zrange 0 (zlen l)) = Ret (map g l).
Proof.
  intros X Y f g l H. unfold zrange, zlen. rewrite Z.sub_0_r, Nat2Z.id. apply (omap_seq f g l []). exact H.
Qed.
Lemma znth_none : forall {X} (l : list X) i, ~ 0 <= i < zlen l -> znth l i = None.
Proof.
  intros X l i H. unfold znth, zlen in *. destruct (Z.ltb_spec i 0); auto. apply nth_error_None. lia.
Qed.
Lemma znth_bounds : forall {X} (l : list X) i x, znth l i = Some x -> 0 <= i < zlen l.
Proof.
  intros X l i x H. destruct (Z_lt_dec i 0), (Z_lt_dec i (zlen l)); try lia; rewrite znth_none in H; try discriminate; lia.
Qed.
Lemma znth_map' : forall {X Y} (f : X -> Y) l i, znth (map f l) i = match znth l i with Some x => Some (f x) | None => None end.
Proof. intros. unfold znth. destruct (i <? 0); auto. rewrite nth_error_map. destruct nth_error; reflexivity. Qed.
Lemma zlen_map : forall {X Y} (f : X -> Y) l, zlen (map f l) = zlen l.
Proof. intros. unfold zlen. rewrite map_length. reflexivity. Qed.

Section Any.
Context {F : Type}.
Variable A : arith F.
Variable float_max float_min : F.
Notation zero := (V3 (a_ofZ A 0) (a_ofZ A 0) (a_ofZ A 0)).

(* A loaded file, with the centre and the multiplier. *)
Definition loaded (f : ply_file F) (reverse : bool) : ply_data F :=
  let d := ply_load A float_max float_min f in if reverse then set_winding d false else d.
Definition centre (f : ply_file F) : vec3 F := pd_center (ply_load A float_max float_min f).
Definition mult (f : ply_file F) : F := pd_mult (ply_load A float_max float_min f).
Definition place (f : ply_file F) : vec3 F -> vec3 F := placed A (centre f) (mult f).
(* Position of vertex [i]. *)
Definition pos_at (f : ply_file F) (i : Z) : vec3 F := nth (Z.to_nat i) (map (place f) (pf_verts f)) zero.

Lemma loaded_file : forall f r, pd_file (loaded f r) = f.
Proof.
  intros f r. unfold loaded, ply_load. destruct (bounds A float_max float_min (pf_verts f)) as [lo hi]. destruct r; reflexivity.
Qed.
Lemma loaded_center : forall f r, pd_center (loaded f r) = centre f.
Proof. intros f r. unfold loaded, centre. destruct r; reflexivity. Qed.
Lemma loaded_mult : forall f r, pd_mult (loaded f r) = mult f.
Proof. intros f r. unfold loaded, mult. destruct r; reflexivity. Qed.
Lemma loaded_direct : forall f r, pd_direct (loaded f r) = negb r.
Proof. intros f r. unfold loaded, ply_load. destruct (bounds A float_max float_min (pf_verts f)) as [lo hi]. destruct r; reflexivity. Qed.

Lemma vertex_run : forall f r i v, znth (pf_verts f) i = Some v -> ply_vertex A (loaded f r) i = Ret (place f v).
Proof.
  intros f r i v H. unfold ply_vertex. rewrite loaded_file, H. cbn [oread obind].
  rewrite loaded_center, loaded_mult. reflexivity.
Qed.
Lemma vertex_at : forall f r i, 0 <= i < zlen (pf_verts f) -> ply_vertex A (loaded f r) i = Ret (pos_at f i).
Proof.
  intros f r i H. destruct (znth_some (pf_verts f) i H) as [v Hv]. rewrite (vertex_run f r i v Hv). f_equal.
  unfold pos_at. symmetry. apply nth_error_nth. rewrite nth_error_map.
  unfold znth in Hv. destruct (i <? 0); [discriminate|]. rewrite Hv. reflexivity.
Qed.
Lemma vertex_bad : forall f r i, ~ 0 <= i < zlen (pf_verts f) -> ply_vertex A (loaded f r) i = UB.
Proof. intros f r i H. unfold ply_vertex. rewrite loaded_file, znth_none; auto. Qed.
Lemma indices_run : forall f r i t, znth (pf_faces f) i = Some t -> ply_indices (loaded f r) i = Ret (wound r t).
Proof.
  intros f r i [[a b] c] H. unfold ply_indices. rewrite loaded_file, H. cbn [oread obind]. rewrite loaded_direct. destruct r; reflexivity.
Qed.

(* ---- the normals ---- *)
Definition face_step (f : ply_file F) (ns : list (vec3 F)) (t : face) : outcome (list (vec3 F)) :=
  let '(a, b, c) := t in
  let n := cross3 A (vsub3 A (pos_at f b) (pos_at f c)) (vsub3 A (pos_at f b) (pos_at f a)) in
  ns <- add_normal A ns a n ;; ns <- add_normal A ns b n ;; add_normal A ns c n.

Lemma cross_area : forall a b c, cross3 A (vsub3 A b c) (vsub3 A b a) = area2 A a b c.
Proof. reflexivity. Qed.

Lemma set_nth_ext : forall {X} (l : list X) k x (l2 : list X), (k < length l)%nat -> length l2 = length l ->
  (forall i, nth_error l2 i = if Nat.eqb i k then Some x else nth_error l i) -> set_nth l k x = l2.
Proof.
  intros X. induction l as [|y l IH]; intros k x l2 Hk Hl H; cbn [length] in *; [lia|].
  destruct l2 as [|z l2]; [discriminate|]. destruct k as [|k]; cbn [set_nth].
  - pose proof (H 0%nat) as H0. cbn in H0. injection H0 as ->. f_equal.
    clear - H Hl. assert (forall i, nth_error l i = nth_error l2 i) by (intros i; symmetry; apply (H (S i))).
    cbn in Hl. clear H. revert l2 Hl H0. induction l as [|a l IH]; intros [|b l2] Hl H; try discriminate; auto.
    pose proof (H 0%nat) as H0. cbn in H0. injection H0 as ->. f_equal. apply IH; [cbn in Hl; lia|]. intros i. apply (H (S i)).
  - pose proof (H 0%nat) as H0. cbn in H0. injection H0 as ->. f_equal. apply IH; [lia | cbn in Hl; lia|].
    intros i. exact (H (S i)).
Qed.

(* A table of the values of a function of the vertex number. *)
Definition table (n : nat) (g : Z -> vec3 F) : list (vec3 F) := map (fun i => g (Z.of_nat i)) (seq 0 n).
Lemma table_nth : forall n g i, (i < n)%nat -> nth_error (table n g) i = Some (g (Z.of_nat i)).
Proof.
  intros n g i H. unfold table. rewrite nth_error_map. rewrite (nth_error_nth' _ 0%nat) by (rewrite seq_length; lia).
  rewrite seq_nth by lia. reflexivity.
Qed.
Lemma table_len : forall n g, length (table n g) = n.
Proof. intros. unfold table. rewrite map_length, seq_length. reflexivity. Qed.
Lemma table_znth : forall n g i, 0 <= i < Z.of_nat n -> znth (table n g) i = Some (g i).
Proof.
  intros n g i H. unfold znth. destruct (Z.ltb_spec i 0); [lia|]. rewrite table_nth by lia. rewrite Z2Nat.id by lia. reflexivity.
Qed.
Lemma table_ext : forall n g h, (forall i, 0 <= i < Z.of_nat n -> g i = h i) -> table n g = table n h.
Proof. intros n g h H. apply map_ext_in. intros i Hi. apply in_seq in Hi. apply H. lia. Qed.

Lemma add_normal_table : forall n g j w, 0 <= j < Z.of_nat n ->
  add_normal A (table n g) j w = Ret (table n (fun i => if i =? j then vplus A (g i) w else g i)).
Proof.
  intros n g j w H. unfold add_normal. rewrite table_znth by lia. cbn [oread obind]. f_equal.
  apply set_nth_ext.
  - rewrite table_len. lia.
  - rewrite !table_len. reflexivity.
  - intros i. destruct (Nat.lt_ge_cases i n) as [Hi|Hi].
    + rewrite !table_nth by lia. destruct (Nat.eqb_spec i (Z.to_nat j)) as [->|N].
      * rewrite Z2Nat.id by lia. rewrite Z.eqb_refl. reflexivity.
      * destruct (Z.eqb_spec (Z.of_nat i) j); [lia | reflexivity].
    + rewrite !(proj2 (nth_error_None _ _)) by (rewrite table_len; lia). destruct (Nat.eqb_spec i (Z.to_nat j)); [lia|reflexivity].
Qed.

Definition face_add (f : ply_file F) (i : Z) (n : vec3 F) (t : face) : vec3 F :=
  let '(a, b, c) := t in
  fold_left (fun n j => if i =? j then vplus A n (area2 A (pos_at f a) (pos_at f b) (pos_at f c)) else n) [a; b; c] n.

Lemma face_step_table : forall f n g t, n = length (pf_verts f) -> (forall i, In i (corners t) -> 0 <= i < zlen (pf_verts f)) ->
  face_step f (table n g) t = Ret (table n (fun i => face_add f i (g i) t)).
Proof.
  intros f n g [[a b] c] Hn H. unfold face_step. unfold zlen in H. rewrite <- Hn in H.
  rewrite add_normal_table by (apply H; left; reflexivity). cbn [obind].
  rewrite add_normal_table by (apply H; right; left; reflexivity). cbn [obind].
  rewrite add_normal_table by (apply H; right; right; left; reflexivity). reflexivity.
Qed.

Lemma faces_table : forall f n fs g, n = length (pf_verts f) ->
  (forall t i, In t fs -> In i (corners t) -> 0 <= i < zlen (pf_verts f)) ->
  ofold (face_step f) fs (table n g) = Ret (table n (fun i => fold_left (face_add f i) fs (g i))).
Proof.
  intros f n fs. induction fs as [|t fs IH]; intros g Hn H; [reflexivity|].
  cbn [ofold fold_left]. rewrite face_step_table; auto.
  - cbn [obind]. rewrite IH; auto. intros t' i Ht. apply H. right. auto.
  - intros i. apply H. left. reflexivity.
Qed.

Lemma normal_step_run : forall f r ns i t, znth (pf_faces f) i = Some t ->
  (forall j, In j (corners t) -> 0 <= j < zlen (pf_verts f)) ->
  normal_step A (loaded f r) ns i = face_step f ns (wound r t).
Proof.
  intros f r ns i [[a b] c] H Hc. unfold normal_step. rewrite (indices_run f r i _ H).
  assert (Ha : 0 <= a < zlen (pf_verts f)) by (apply Hc; left; reflexivity).
  assert (Hb : 0 <= b < zlen (pf_verts f)) by (apply Hc; right; left; reflexivity).
  assert (Hd : 0 <= c < zlen (pf_verts f)) by (apply Hc; right; right; left; reflexivity).
  destruct r; cbn [wound obind]; rewrite !vertex_at by auto; reflexivity.
Qed.

Lemma ofold_map : forall {X Y S} (g : X -> Y) (f : S -> Y -> outcome S) l s, ofold f (map g l) s = ofold (fun s x => f s (g x)) l s.
Proof. induction l as [|x l IH]; intros s; [reflexivity|]. cbn. destruct (f s (g x)); cbn; auto. Qed.

Lemma wound_corners : forall r t i, In i (corners (wound r t)) <-> In i (corners t).
Proof. intros r [[a b] c] i. destruct r; cbn; tauto. Qed.

Lemma repeat_table : forall n, repeat zero n = table n (fun _ => zero).
Proof.
  intros n. unfold table. generalize 0%nat. induction n as [|n IH]; intros s; [reflexivity|]. cbn [repeat seq map]. f_equal. apply IH.
Qed.

Lemma normals_run : forall f r, file_ok f ->
  ofold (normal_step A (loaded f r)) (zrange 0 (ply_fcount (loaded f r))) (repeat zero (Z.to_nat (ply_vcount (loaded f r)))) =
  Ret (table (length (pf_verts f)) (normal_at A (pos_at f) (map (wound r) (pf_faces f)))).
Proof.
  intros f r Hok. unfold ply_fcount, ply_vcount. rewrite loaded_file. unfold zlen at 2. rewrite Nat2Z.id, repeat_table.
  assert (Hz : forall i t, znth (pf_faces f) i = Some t -> forall j, In j (corners t) -> 0 <= j < zlen (pf_verts f)).
  { intros i t Ht j. apply Hok. apply (znth_In _ _ _ Ht). }
  rewrite (ofold_range _ (fun ns t => face_step f ns (wound r t))).
  - rewrite <- ofold_map. rewrite faces_table; auto.
    intros t i Ht Hi. apply in_map_iff in Ht. destruct Ht as (t0 & <- & Ht). apply wound_corners in Hi. apply (Hok t0); auto.
  - intros i t s Ht. apply normal_step_run; auto. eapply Hz; eauto.
Qed.

(* ---- the mesh ---- *)
Lemma vertices_run : forall f r ns, zlen (pf_verts f) <= two32 -> length ns = length (pf_verts f) ->
  ofold (fun m i =>
        v <- ply_vertex A (loaded f r) i ;;
        n <- oread (znth ns i) ;;
        '(m, _) <- mesh_add_vertex m (MVert v n Solid) ;; Ret m)
        (zrange 0 (ply_vcount (loaded f r))) mesh_new =
  Ret (Mesh (map (fun '(v, n) => MVert (place f v) n Solid) (combine (pf_verts f) ns)) []).
Proof.
  intros f r ns Hn Hl. unfold ply_vcount. rewrite loaded_file.
  assert (Hc : zlen (pf_verts f) = zlen (combine (pf_verts f) ns)) by (unfold zlen; rewrite combine_length; lia).
  rewrite Hc in *.
  rewrite (ofold_range _ (fun m '(v, n) => '(m, _) <- mesh_add_vertex m (MVert (place f v) n Solid) ;; Ret m)).
  - set (cs := combine (pf_verts f) ns) in *. unfold mesh_new. clearbody cs. clear Hc Hl ns.
    assert (G : forall cs vs, zlen vs + zlen cs <= two32 ->
      ofold (fun m '(v, n) => '(m, _) <- mesh_add_vertex m (MVert (place f v) n Solid) ;; Ret m) cs (Mesh vs []) =
      Ret (Mesh (vs ++ map (fun '(v, n) => MVert (place f v) n Solid) cs) [])).
    { clear. induction cs as [|[v n] cs IH]; intros vs H; cbn [ofold map].
      - rewrite app_nil_r. reflexivity.
      - unfold mesh_add_vertex. cbn [m_verts m_inds]. assert (E : zlen ((v, n) :: cs) = 1 + zlen cs) by (unfold zlen; cbn [length]; lia).
        rewrite E in H. assert (0 <= zlen cs) by (unfold zlen; lia).
        destruct (Z.leb_spec (zlen vs) u32max) as [_|Q]; [|unfold u32max, two32 in *; lia].
        cbn [oassert obind]. rewrite IH; [|rewrite zlen_app; unfold zlen at 2; cbn [length]; lia].
        rewrite <- app_assoc. reflexivity. }
    apply (G cs []). exact Hn.
  - intros i [v n] m Hi. unfold znth in Hi. destruct (i <? 0) eqn:Ei; [discriminate|].
    assert (Hv : znth (pf_verts f) i = Some v /\ znth ns i = Some n).
    { unfold znth. rewrite Ei. clear - Hi Hl. revert ns Hl Hi. generalize (pf_verts f) as vs. generalize (Z.to_nat i) as k.
      induction k as [|k IH]; intros [|v0 vs] [|n0 ns] Hl Hi; try discriminate; cbn in *.
      - injection Hi as -> ->. auto.
      - apply (IH vs ns); auto. }
    destruct Hv as [Hv Hm]. rewrite (vertex_run f r i v Hv), Hm. reflexivity.
Qed.

Lemma u32_small : forall i, 0 <= i < two32 -> u32 i = i.
Proof. intros i H. apply Z.mod_small. exact H. Qed.

Lemma triangles_run : forall f r (vs : list (mvert F)), file_ok f -> zlen vs = zlen (pf_verts f) -> zlen vs <= two32 ->
  ofold (fun m i => '(a, b, c) <- ply_indices (loaded f r) i ;; mesh_add_triangle m (u32 a) (u32 b) (u32 c))
        (zrange 0 (ply_fcount (loaded f r))) (Mesh vs []) =
  Ret (Mesh vs (flat_map corners (filter three_corners (map (wound r) (pf_faces f))))).
Proof.
  intros f r vs Hok Hl Hn. unfold ply_fcount. rewrite loaded_file.
  rewrite (ofold_range _ (fun m t => let '(a, b, c) := wound r t in mesh_add_triangle m (u32 a) (u32 b) (u32 c))).
  - rewrite <- (ofold_map (wound r) (fun m t => let '(a, b, c) := t in mesh_add_triangle m (u32 a) (u32 b) (u32 c))).
    assert (Hw : forall t i, In t (map (wound r) (pf_faces f)) -> In i (corners t) -> 0 <= i < zlen vs).
    { intros t i Ht Hi. apply in_map_iff in Ht. destruct Ht as (t0 & <- & Ht). apply wound_corners in Hi. rewrite Hl. apply (Hok t0); auto. }
    generalize dependent (map (wound r) (pf_faces f)). intros fs Hw.
    assert (G : forall fs is, (forall t i, In t fs -> In i (corners t) -> 0 <= i < zlen vs) ->
      ofold (fun m t => let '(a, b, c) := t in mesh_add_triangle m (u32 a) (u32 b) (u32 c)) fs (Mesh vs is) =
      Ret (Mesh vs (is ++ flat_map corners (filter three_corners fs)))).
    { clear - Hn. induction fs as [|[[a b] c] fs IH]; intros is H; cbn [ofold filter].
      - cbn. rewrite app_nil_r. reflexivity.
      - assert (Ha : 0 <= a < zlen vs) by (eapply H; [left; reflexivity | left; reflexivity]).
        assert (Hb : 0 <= b < zlen vs) by (eapply H; [left; reflexivity | right; left; reflexivity]).
        assert (Hc : 0 <= c < zlen vs) by (eapply H; [left; reflexivity | right; right; left; reflexivity]).
        rewrite !u32_small by lia. unfold mesh_add_triangle. cbn [m_verts m_inds].
        destruct (Z.ltb_spec a (zlen vs)); [|lia]. destruct (Z.ltb_spec b (zlen vs)); [|lia]. destruct (Z.ltb_spec c (zlen vs)); [|lia].
        cbn [andb oassert obind]. unfold three_corners at 1.
        assert (H' : forall t i, In t fs -> In i (corners t) -> 0 <= i < zlen vs) by (intros t i Ht; apply H; right; auto).
        destruct ((a =? b) || (b =? c) || (a =? c)); cbn [negb obind]; rewrite IH by auto; auto.
        cbn [flat_map corners]. rewrite <- app_assoc. reflexivity. }
    apply (G fs []). auto.
  - intros i t m Ht. rewrite (indices_run f r i t Ht). reflexivity.
Qed.

Lemma ply2mesh_run : forall f r, file_ok f -> zlen (pf_verts f) <= two32 ->
  ply2mesh A float_max float_min f r =
  Ret (Mesh (map (fun '(v, n) => MVert (place f v) n Solid)
               (combine (pf_verts f) (map (unit3 A) (table (length (pf_verts f)) (normal_at A (pos_at f) (map (wound r) (pf_faces f)))))))
            (flat_map corners (filter three_corners (map (wound r) (pf_faces f))))).
Proof.
  intros f r Hok Hn. unfold ply2mesh. fold (loaded f r). rewrite normals_run by auto. cbn [obind].
  rewrite vertices_run; [|auto | rewrite map_length, table_len; reflexivity]. cbn [obind].
  apply triangles_run; auto.
  - unfold zlen. rewrite map_length, combine_length, map_length, table_len. lia.
  - unfold zlen in *. rewrite map_length, combine_length, map_length, table_len. lia.
Qed.

(* A face with a bad index is used to read a vertex. *)
Lemma ply2mesh_bad : forall f r, ~ file_ok f -> ply2mesh A float_max float_min f r = UB.
Proof.
  intros f r Hbad. unfold ply2mesh. fold (loaded f r).
  assert (Q : ofold (normal_step A (loaded f r)) (zrange 0 (ply_fcount (loaded f r))) (repeat zero (Z.to_nat (ply_vcount (loaded f r)))) = UB);
    [|rewrite Q; reflexivity].
  unfold ply_fcount, ply_vcount. rewrite loaded_file. unfold zlen at 2. rewrite Nat2Z.id, repeat_table.
  set (ok := fun t : face => forallb (fun i => (0 <=? i) && (i <? zlen (pf_verts f))) (corners t)).
  assert (Hk : forall t, ok t = true <-> forall i, In i (corners t) -> 0 <= i < zlen (pf_verts f)).
  { intros t. unfold ok. rewrite forallb_forall. split; intros H i Hi; specialize (H i Hi).
    - apply andb_true_iff in H. destruct H as [H1 H2]. apply Z.leb_le in H1. apply Z.ltb_lt in H2. lia.
    - apply andb_true_iff. split; [apply Z.leb_le | apply Z.ltb_lt]; lia. }
  rewrite (ofold_range _ (fun ns t => if ok t then face_step f ns (wound r t) else UB)).
  - assert (E : exists t, In t (pf_faces f) /\ ok t = false).
    { destruct (forallb ok (pf_faces f)) eqn:Ef.
      - exfalso. apply Hbad. intros t i Ht. apply Hk. rewrite forallb_forall in Ef. auto.
      - clear - Ef. induction (pf_faces f) as [|t l IH]; [discriminate|]. cbn in Ef. destruct (ok t) eqn:Et.
        + destruct (IH Ef) as (t' & H1 & H2). exists t'. split; [right|]; auto.
        + exists t. split; [left|]; auto. }
    assert (G : forall fs g, (exists t, In t fs /\ ok t = false) ->
      ofold (fun ns t => if ok t then face_step f ns (wound r t) else UB) fs (table (length (pf_verts f)) g) = UB).
    { induction fs as [|t fs IH]; intros g (t0 & H1 & H2); [contradiction|]. cbn [ofold]. destruct (ok t) eqn:Et.
      - rewrite face_step_table; [|reflexivity | intros i Hi; apply wound_corners in Hi; apply (proj1 (Hk t) Et); auto].
        cbn [obind]. apply IH. destruct H1 as [->|H1]; [congruence|]. exists t0. auto.
      - reflexivity. }
    apply G. exact E.
  - intros i t ns Ht. destruct (ok t) eqn:Et.
    + apply normal_step_run; auto. apply Hk. exact Et.
    + unfold normal_step. rewrite (indices_run f r i t Ht).
      assert (B : exists j, In j (corners (wound r t)) /\ ~ 0 <= j < zlen (pf_verts f)).
      { destruct t as [[a b] c]. unfold ok in Et. cbn in Et.
        assert (B : ~ 0 <= a < zlen (pf_verts f) \/ ~ 0 <= b < zlen (pf_verts f) \/ ~ 0 <= c < zlen (pf_verts f)).
        { destruct (Z.leb_spec 0 a), (Z.ltb_spec a (zlen (pf_verts f))), (Z.leb_spec 0 b), (Z.ltb_spec b (zlen (pf_verts f))),
            (Z.leb_spec 0 c), (Z.ltb_spec c (zlen (pf_verts f))); cbn in Et; try discriminate; lia. }
        destruct B as [B|[B|B]]; [exists a | exists b | exists c]; (split; [apply wound_corners; cbn; tauto | exact B]). }
      destruct (wound r t) as [[a b] c]. cbn [obind]. destruct B as (j & Hj & Bj). cbn in Hj.
      destruct (Z_lt_dec a 0), (Z_lt_dec a (zlen (pf_verts f))), (Z_lt_dec b 0), (Z_lt_dec b (zlen (pf_verts f))),
            (Z_lt_dec c 0), (Z_lt_dec c (zlen (pf_verts f))); try lia;
      repeat (first [rewrite vertex_bad by lia; reflexivity | rewrite vertex_at by lia; cbn [obind]]).
Qed.

(* ---- the field ---- *)
Definition file_triangle (f : ply_file F) (t : face) : triangle F :=
  let '(a, b, c) := t in mk_triangle A (pos_at f a) (pos_at f b) (pos_at f c).

Lemma field_load_run : forall f r, file_ok f ->
  let b := bounds A float_max float_min (map (place f) (pf_verts f)) in
  field_load A float_max float_min f r =
  insert_all A (tt_new (a_div A (max_extent A b) (a_ofZ A 2)) 0 (fst b)) (map (file_triangle f) (map (wound r) (pf_faces f))).
Proof.
  intros f r Hok b. unfold field_load. fold (loaded f r).
  assert (E : omap (ply_vertex A (loaded f r)) (zrange 0 (ply_vcount (loaded f r))) = Ret (map (place f) (pf_verts f))).
  { unfold ply_vcount. rewrite loaded_file. apply omap_range. intros i v Hv. apply vertex_run. auto. }
  rewrite E. cbn [obind]. fold b. unfold insert_all. rewrite map_map, ofold_map.
  unfold ply_fcount. rewrite loaded_file. apply ofold_range.
  intros i t tr Ht. unfold ply_triangle. rewrite (indices_run f r i t Ht).
  assert (Hc : forall j, In j (corners (wound r t)) -> 0 <= j < zlen (pf_verts f)).
  { intros j Hj. apply wound_corners in Hj. apply (Hok t); auto. apply (znth_In _ _ _ Ht). }
  destruct (wound r t) as [[a b'] c]. cbn [obind].
  assert (Ha : 0 <= a < zlen (pf_verts f)) by (apply Hc; left; reflexivity).
  assert (Hb : 0 <= b' < zlen (pf_verts f)) by (apply Hc; right; left; reflexivity).
  assert (Hd : 0 <= c < zlen (pf_verts f)) by (apply Hc; right; right; left; reflexivity).
  rewrite !vertex_at by auto. reflexivity.
Qed.
End Any.
