(* What contour of dual marching cubes does with the points it visits. *)
From Coq Require Import ZArith List Bool Lia.
From Verif Require Import Base Arith Tables MeshModel MeshSpec MeshProofs GridSpec MCModel CellSpec CellTables MCProofs
  DualProofs OctreeModel OctreeSpec OctreeSums DmcModel DmcTrav DmcFlux.
Import ListNotations.
Local Open Scope Z_scope.

Lemma endpoints_ok : forall i, 0 <= i < 12 -> znth kCellEdgeEndpoint i = Some [edge_start i; edge_end i].
Proof. intros i Hi. apply in_slots in Hi. vm_compute in Hi. repeat (destruct Hi as [<-|Hi]; [reflexivity|]). destruct Hi. Qed.

Definition check_bits (bs : list bool) : bool := forallb (fun i => Bool.eqb (Z.testbit (mask_from (crossing bs) 0 slots) i) (crossing bs i)) slots.
Lemma bits_checked : forallb check_bits configs = true.
Proof. vm_compute. reflexivity. Qed.
Lemma crossing_bit : forall bs i, length bs = 8%nat -> 0 <= i < 12 -> Z.testbit (mask_from (crossing bs) 0 slots) i = crossing bs i.
Proof.
  intros bs i Hl Hi. pose proof (proj1 (forallb_forall _ _) bits_checked bs (in_configs bs Hl)) as C. unfold check_bits in C.
  rewrite forallb_forall in C. apply Bool.eqb_prop. apply C. apply in_slots. assumption.
Qed.

Definition below (p : ivec3) : ivec3 := vsub p (V3 1 1 1).
Lemma cells8_corners : forall p, cells8 p = cell_corners (below p).
Proof.
  intros [x y z]. unfold cells8. change (place KVert) with [V3 (-1) (-1) (-1); V3 (-1) (-1) 0; V3 0 (-1) (-1); V3 0 (-1) 0; V3 (-1) 0 (-1); V3 (-1) 0 0; V3 0 0 (-1); V3 0 0 0].
  unfold cell_corners, below, vsub, vadd. cbn [map vx vy vz].
  repeat (apply f_equal2; [apply vec_eq; cbn [vx vy vz]; lia|]). reflexivity.
Qed.
Lemma corner_edge : forall q i, 0 <= i < 12 ->
  znth (cell_corners q) (edge_start i) = Some (snd (cell_edge q i)) /\
  znth (cell_corners q) (edge_end i) = Some (vadd (snd (cell_edge q i)) (unit_vec (fst (cell_edge q i)))).
Proof.
  intros [x y z] i Hi. apply in_slots in Hi. vm_compute in Hi.
  repeat (destruct Hi as [<-|Hi]; [split; [reflexivity|]; cbv -[Z.add]; apply f_equal, vec_eq; cbn [vx vy vz]; lia|]). destruct Hi.
Qed.

Section Contour.
Variable E : fpenv.
Notation F := (fp_F E).
Notation leaf := (dmc_leaf F).
Variable L : ivec3 -> option leaf.

Definition sign_of (a : leaf) : bool := match dn_dual a with Some d => dmc_inside E (snd d) | None => false end.
Definition solid (c : ivec3) : bool := match L c with Some a => sign_of a | None => false end.
Definition far_end (e : gedge) : ivec3 := vadd (snd e) (unit_vec (fst e)).
Definition key_of (e : gedge) : Z * Z :=
  match L (snd e), L (far_end e) with Some a, Some b => node_key (dn_addr a) (dn_addr b) | _, _ => (0, 0) end.

Notation find_key vm e := (vm_find vm (key_of e)).
Definition vid (vm : vertex_map) (e : gedge) : Z := match find_key vm e with Some k => k | None => 0 end.
Definition has_key (vm : vertex_map) (e : gedge) : Prop := find_key vm e <> None.

Variable region : gedge -> Prop.
Record inv (vm : vertex_map) (m : mesh (mvert F)) : Prop := {
  inv_numbers : map snd vm = zseq 0 (length vm);
  inv_nodup : NoDup (map fst vm);
  inv_count : length (m_verts m) = length vm;
  inv_bound : zlen vm <= two32;
  inv_from : forall k x, nth_error (map fst vm) k = Some x ->
    exists e a b v, region e /\ edge_crosses solid e = true /\ key_of e = x /\ L (snd e) = Some a /\ L (far_end e) = Some b /\
      dmc_vertex E a b = Ret v /\ nth_error (m_verts m) k = Some v }.

Lemma inv_start : inv [] mesh_new.
Proof.
  constructor; try reflexivity.
  - constructor.
  - unfold zlen, two32. cbn. lia.
  - intros [|k] x H; discriminate.
Qed.

Lemma key_eqb_eq : forall a b, key_eqb a b = true <-> a = b.
Proof.
  intros [a b] [c d]. unfold key_eqb. cbn [fst snd]. rewrite andb_true_iff, !Z.eqb_eq. split; [intros [-> ->]; reflexivity|].
  intro H. injection H as -> ->. auto.
Qed.
Lemma vm_find_app : forall vm ext k i, vm_find vm k = Some i -> vm_find (vm ++ ext) k = Some i.
Proof.
  intros vm ext k i. unfold vm_find. induction vm as [|a vm IH]; cbn [app find]; [discriminate|].
  destruct (key_eqb (fst a) k); auto.
Qed.
Lemma vm_find_in : forall vm k i, vm_find vm k = Some i -> In (k, i) vm.
Proof.
  intros vm k i H. unfold vm_find in H. destruct (find _ vm) as [[k' i']|] eqn:Q; [|discriminate]. injection H as <-.
  apply find_some in Q as [Q1 Q2]. cbn [fst] in Q2. apply key_eqb_eq in Q2. subst. exact Q1.
Qed.
Lemma vm_find_none : forall vm k, vm_find vm k = None -> ~ In k (map fst vm).
Proof.
  intros vm k H Hin. apply in_map_iff in Hin as ([k' i] & <- & Hin). unfold vm_find in H.
  destruct (find _ vm) as [y|] eqn:Q; [discriminate|]. pose proof (find_none _ _ Q _ Hin) as N. cbn [fst] in N.
  rewrite (proj2 (key_eqb_eq k' k') eq_refl) in N. discriminate.
Qed.
Lemma vm_find_new : forall vm k i, ~ In k (map fst vm) -> vm_find (vm ++ [(k, i)]) k = Some i.
Proof.
  intros vm k i H. unfold vm_find. induction vm as [|[k' i'] vm IH]; cbn [app find fst].
  - rewrite (proj2 (key_eqb_eq k k) eq_refl). reflexivity.
  - destruct (key_eqb k' k) eqn:Q; [apply key_eqb_eq in Q; subst; destruct H; left; reflexivity|]. apply IH. intro Hin. apply H. right. exact Hin.
Qed.
Lemma vid_app : forall vm ext e, has_key vm e -> vid (vm ++ ext) e = vid vm e /\ has_key (vm ++ ext) e.
Proof.
  intros vm ext e H. unfold has_key, vid in *. destruct (find_key vm e) as [k|] eqn:Q; [|congruence].
  rewrite (vm_find_app vm ext _ k Q). split; [reflexivity|discriminate].
Qed.
Lemma combine_parts : forall T U (l : list (T * U)), combine (map fst l) (map snd l) = l.
Proof. induction l as [|[a b] l IH]; cbn; [reflexivity|]. rewrite IH. reflexivity. Qed.
Lemma zseq_in_nth : forall n a k i, nth_error (zseq a n) k = Some i -> i = a + Z.of_nat k /\ (k < n)%nat.
Proof.
  induction n as [|n IH]; intros a k i H; [destruct k; discriminate|]. destruct k as [|k]; cbn [zseq nth_error] in H.
  - injection H as <-. lia.
  - apply IH in H. lia.
Qed.
(* the number found is the position of the key *)
Lemma found_position : forall vm m k i, inv vm m -> vm_find vm k = Some i -> 0 <= i < zlen vm /\ nth_error (map fst vm) (Z.to_nat i) = Some k.
Proof.
  intros vm m k i I H. apply vm_find_in in H. apply In_nth_error in H as (j & Hj).
  assert (S : nth_error (map snd vm) j = Some i) by (rewrite nth_error_map, Hj; reflexivity).
  rewrite (inv_numbers _ _ I) in S. apply zseq_in_nth in S as [-> Hlt]. unfold zlen. split; [lia|].
  replace (Z.to_nat (0 + Z.of_nat j)) with j by lia. rewrite nth_error_map, Hj. reflexivity.
Qed.

Lemma zseq_snoc : forall n a, zseq a (S n) = zseq a n ++ [a + Z.of_nat n].
Proof.
  induction n as [|n IH]; intro a; [cbn; f_equal; lia|]. change (zseq a (S (S n))) with (a :: zseq (a + 1) (S n)). rewrite IH. cbn [zseq app].
  f_equal. f_equal. f_equal. lia.
Qed.

Lemma inv_add : forall vm m e a b v, inv vm m -> region e -> edge_crosses solid e = true -> L (snd e) = Some a -> L (far_end e) = Some b ->
  dmc_vertex E a b = Ret v -> find_key vm e = None -> zlen vm + 1 <= two32 ->
  inv (vm ++ [(key_of e, zlen vm)]) (Mesh (m_verts m ++ [v]) (m_inds m)).
Proof.
  intros vm m e a b v I He Hc Ha Hb Hv Hn Hz. destruct I as [I1 I2 I3 I4 I5]. constructor.
  - rewrite map_app, I1, app_length. cbn [map length snd]. replace (length vm + 1)%nat with (S (length vm)) by lia. rewrite zseq_snoc. reflexivity.
  - rewrite map_app. cbn [map fst]. apply vm_find_none in Hn. clear -I2 Hn. revert Hn I2. generalize (map fst vm). intros l.
    induction l as [|x l IH]; intros Hn Hd; cbn [app]; [constructor; [intros []|constructor]|]. inversion Hd; subst. constructor.
    + intro Hin. apply in_app_iff in Hin as [Hin|[Hin|[]]]; [contradiction|]. apply Hn. left. auto.
    + apply IH; [|assumption]. intro Hin. apply Hn. right. assumption.
  - cbn [m_verts]. rewrite !app_length, I3. reflexivity.
  - unfold zlen in *. rewrite app_length. cbn [length]. lia.
  - intros k x Hk. cbn [m_verts]. rewrite map_app in Hk. cbn [map fst] in Hk.
    destruct (Nat.lt_ge_cases k (length vm)) as [Hlt|Hge].
    + rewrite nth_error_app1 in Hk by (rewrite map_length; exact Hlt). destruct (I5 k x Hk) as (e' & a' & b' & v' & H1 & H2 & H3 & H4 & H5 & H6 & H7).
      exists e', a', b', v'. rewrite nth_error_app1 by (rewrite I3; exact Hlt). auto 10.
    + rewrite nth_error_app2 in Hk by (rewrite map_length; exact Hge). rewrite map_length in Hk.
      destruct (k - length vm)%nat as [|r] eqn:Q; [|destruct r; discriminate]. injection Hk as <-.
      exists e, a, b, v. rewrite nth_error_app2 by (rewrite I3; exact Hge). rewrite I3, Q. cbn [nth_error]. auto 10.
Qed.

(* ---- one point ---- *)
Lemma omap_ret : forall T U (f : T -> outcome U) l rs, omap f l = Ret rs -> Forall2 (fun t r => f t = Ret r) l rs.
Proof.
  intros T U f l. induction l as [|t l IH]; intros rs H; cbn [omap] in H.
  - injection H as <-. constructor.
  - destruct (f t) as [r| | | |] eqn:Q; try discriminate. cbn [obind] in H. destruct (omap f l) as [rs'| | | |] eqn:Q2; try discriminate.
    injection H as <-. constructor; auto.
Qed.
Lemma oread_ret : forall T (o : option T) r, oread o = Ret r -> o = Some r.
Proof. intros T [x|] r H; [injection H as ->; reflexivity|discriminate]. Qed.

Lemma forall2_znth : forall T U (R : T -> U -> Prop) l l' i a, Forall2 R l l' -> znth l i = Some a -> exists b, znth l' i = Some b /\ R a b.
Proof.
  intros T U R l l' i a H Hz. unfold znth in *. destruct (i <? 0); [discriminate|]. revert Hz. generalize (Z.to_nat i). clear i. induction H as [|x y l l' Hxy H IH]; intros k Hk.
  - destruct k; discriminate.
  - destruct k as [|k]; [injection Hk as <-; exists y; auto|]. apply IH. exact Hk.
Qed.

Notation dmc_state := (dmc_state E).
(* the leaves around the point with cell [q] *)
Definition leaves_at (q : ivec3) (ls : list leaf) : Prop := Forall2 (fun c a => L c = Some a) (cell_corners q) ls.

Lemma leaves_edge : forall q ls i, leaves_at q ls -> 0 <= i < 12 ->
  exists a b, znth ls (edge_start i) = Some a /\ znth ls (edge_end i) = Some b /\ L (snd (cell_edge q i)) = Some a /\ L (far_end (cell_edge q i)) = Some b.
Proof.
  intros q ls i H Hi. destruct (corner_edge q i Hi) as [H1 H2].
  destruct (forall2_znth _ _ _ _ _ _ _ H H1) as (a & Ha & La). destruct (forall2_znth _ _ _ _ _ _ _ H H2) as (b & Hb & Lb).
  exists a, b. auto.
Qed.
Lemma key_edge : forall q ls i a b, leaves_at q ls -> 0 <= i < 12 -> znth ls (edge_start i) = Some a -> znth ls (edge_end i) = Some b ->
  key_of (cell_edge q i) = node_key (dn_addr a) (dn_addr b).
Proof.
  intros q ls i a b H Hi Ha Hb. destruct (leaves_edge q ls i H Hi) as (a' & b' & H1 & H2 & H3 & H4). unfold key_of. rewrite H3, H4.
  congruence.
Qed.

Definition slot_value (q : ivec3) (vm : vertex_map) (i : Z) : Z := if crossing (config solid q) i then vid vm (cell_edge q i) else kBadIndex.

Lemma edge_loop : forall q ls l vm m ev vm' m' ev', leaves_at q ls -> (forall i, In i l -> 0 <= i < 12) -> (forall i, 0 <= i < 12 -> region (cell_edge q i)) -> inv vm m ->
  ofold (dmc_edge_step E ls (mask_from (crossing (config solid q)) 0 slots)) l ((vm, m), ev) = Ret ((vm', m'), ev') ->
  inv vm' m' /\ (exists ext, vm' = vm ++ ext) /\ m_inds m' = m_inds m /\ ev' = ev ++ map (slot_value q vm') l /\
  (forall i, In i l -> crossing (config solid q) i = true -> has_key vm' (cell_edge q i)).
Proof.
  intros q ls l. induction l as [|i l IH]; intros vm m ev vm' m' ev' HL Hl Hreg I H.
  - cbn [ofold] in H. injection H as <- <- <-. split; [assumption|]. split; [exists []; rewrite app_nil_r; reflexivity|]. split; [reflexivity|].
    split; [rewrite app_nil_r; reflexivity|]. intros i [].
  - assert (Hi : 0 <= i < 12) by (apply Hl; left; reflexivity). assert (Hl' : forall j, In j l -> 0 <= j < 12) by (intros; apply Hl; right; assumption).
    cbn [ofold] in H. unfold dmc_edge_step in H at 1. rewrite crossing_bit in H by (assumption || reflexivity).
    destruct (crossing (config solid q) i) eqn:Hc.
    + rewrite (endpoints_ok i Hi) in H. cbn [oread obind] in H.
      destruct (leaves_edge q ls i HL Hi) as (a & b & Ha & Hb & La & Lb). rewrite Ha, Hb in H. cbn [oread obind] in H.
      rewrite <- (key_edge q ls i a b HL Hi Ha Hb) in H.
      destruct (find_key vm (cell_edge q i)) as [idx|] eqn:Hf.
      * cbn [obind] in H. destruct (IH _ _ _ _ _ _ HL Hl' Hreg I H) as (I' & (ext & ->) & Hm & -> & Hall). split; [assumption|]. split; [eauto|]. split; [assumption|].
        assert (Hin : has_key vm (cell_edge q i)) by (unfold has_key; congruence). destruct (vid_app vm ext _ Hin) as [V1 V2].
        split.
        -- rewrite <- app_assoc. cbn [app map]. f_equal. f_equal. unfold slot_value. rewrite Hc, V1. unfold vid. rewrite Hf. reflexivity.
        -- intros j [<-|Hj] Hcj; [exact V2|]. auto.
      * destruct (dmc_vertex E a b) as [v| | | |] eqn:Hv; try discriminate. cbn [obind] in H. unfold mesh_add_vertex in H.
        destruct (zlen (m_verts m) <=? u32max) eqn:Hu; [|discriminate]. cbn [oassert obind] in H. apply Z.leb_le in Hu.
        assert (Hz : zlen (m_verts m) = zlen vm) by (unfold zlen; rewrite (inv_count _ _ I); reflexivity).
        assert (Hi2 : u32 (zlen (m_verts m ++ [v]) - 1) = zlen vm).
        { unfold zlen. rewrite app_length. cbn [length]. unfold zlen in Hz, Hu. unfold u32max, u32, two32 in *. rewrite Z.mod_small; lia. }
        rewrite Hi2 in H.
        assert (I2 : inv (vm ++ [(key_of (cell_edge q i), zlen vm)]) (Mesh (m_verts m ++ [v]) (m_inds m))).
        { apply (inv_add vm m (cell_edge q i) a b v); try assumption; [apply Hreg; assumption|rewrite <- crossing_edge by assumption; exact Hc|unfold u32max, two32 in *; lia]. }
        destruct (IH _ _ _ _ _ _ HL Hl' Hreg I2 H) as (I' & (ext & ->) & Hm & -> & Hall). split; [assumption|]. split; [rewrite <- app_assoc; eauto|]. split; [assumption|].
        assert (Hnew : find_key (vm ++ [(key_of (cell_edge q i), zlen vm)]) (cell_edge q i) = Some (zlen vm)) by (apply vm_find_new, vm_find_none; assumption).
        assert (Hin : has_key (vm ++ [(key_of (cell_edge q i), zlen vm)]) (cell_edge q i)) by (unfold has_key; congruence). destruct (vid_app _ ext _ Hin) as [V1 V2].
        split.
        -- rewrite <- app_assoc. cbn [app map]. f_equal. f_equal. unfold slot_value. rewrite Hc. rewrite V1. unfold vid. rewrite Hnew. reflexivity.
        -- intros j [<-|Hj] Hcj; [exact V2|]. auto.
    + cbn [obind] in H. destruct (IH _ _ _ _ _ _ HL Hl' Hreg I H) as (I' & Hext & Hm & -> & Hall). split; [assumption|]. split; [assumption|]. split; [assumption|].
      split.
      * rewrite <- app_assoc. cbn [app map]. f_equal. f_equal. unfold slot_value. rewrite Hc. reflexivity.
      * intros j [<-|Hj] Hcj; [congruence|]. auto.
Qed.

Definition gtri (q : ivec3) (vm : vertex_map) (t : triangle) : triangle :=
  let '(i, j, k) := t in (vid vm (cell_edge q i), vid vm (cell_edge q j), vid vm (cell_edge q k)).

Lemma flatten_app : forall a b, flatten (a ++ b) = flatten a ++ flatten b.
Proof. induction a as [|[[x y] z] a IH]; intro b; cbn [flatten app]; [reflexivity|]. rewrite IH. reflexivity. Qed.

Lemma triangles_step : forall q vm row ts (m : mesh (mvert F)), inv vm m ->
  (forall i, 0 <= i < 12 -> crossing (config solid q) i = true -> has_key vm (cell_edge q i)) ->
  parse_row row = Some ts -> forallb (good_local (config solid q)) ts = true ->
  mc_triangles row (map Some (map (slot_value q vm) slots)) m =
  Ret (Mesh (m_verts m) (m_inds m ++ flatten (filter nondegenerate (map (gtri q vm) ts)))).
Proof.
  intros q vm row ts m I Hin. assert (Hb : forall i, 0 <= i < 12 -> crossing (config solid q) i = true -> vid vm (cell_edge q i) < zlen (m_verts m)).
  { intros i Hi Hc. specialize (Hin i Hi Hc). unfold has_key in Hin. unfold vid. destruct (find_key vm (cell_edge q i)) as [k|] eqn:Q; [|congruence].
    destruct (found_position vm m _ _ I Q) as [Hk _]. unfold zlen in *. rewrite (inv_count _ _ I). lia. }
  clear I. revert m Hb.
  assert (W : forall len row ts (m : mesh (mvert F)), (length row <= len)%nat ->
    (forall i, 0 <= i < 12 -> crossing (config solid q) i = true -> vid vm (cell_edge q i) < zlen (m_verts m)) ->
    parse_row row = Some ts -> forallb (good_local (config solid q)) ts = true ->
    mc_triangles row (map Some (map (slot_value q vm) slots)) m =
    Ret (Mesh (m_verts m) (m_inds m ++ flatten (filter nondegenerate (map (gtri q vm) ts))))).
  2: { intros m Hb. apply (W (length row)); auto. }
  clear row ts. induction len as [|len IH]; intros row ts m Hlen Hb Hp Hg.
  - destruct row; [discriminate Hp|]. cbn [length] in Hlen. lia.
  - destruct row as [|i row1]; [discriminate Hp|]. cbn [parse_row] in Hp. cbn [mc_triangles]. destruct (i =? -1).
    + injection Hp as <-. cbn [map filter flatten]. rewrite app_nil_r. destruct m; reflexivity.
    + destruct row1 as [|j [|k row']]; try discriminate Hp.
      destruct (parse_row row') as [ts'|] eqn:Ep; [|discriminate]. injection Hp as <-.
      cbn [forallb] in Hg. apply andb_true_iff in Hg as [Hg Hg'].
      apply good_local_spec in Hg as ((Hi & Ci) & (Hj & Cj) & (Hk & Ck) & N1 & N2 & N3).
      assert (R : forall s, 0 <= s < 12 -> crossing (config solid q) s = true -> read_vertex (map Some (map (slot_value q vm) slots)) s = Ret (vid vm (cell_edge q s))).
      { intros s Hs Cs. unfold read_vertex. rewrite map_map, znth_slots_map by assumption. cbn [oread obind]. unfold slot_value. rewrite Cs. reflexivity. }
      rewrite !R by assumption. cbn [obind]. rewrite add_triangle_ok by auto. cbn [obind].
      rewrite (IH row' ts'); [|cbn [length] in Hlen; lia|exact Hb|assumption|assumption].
      cbn [m_verts m_inds map]. f_equal. f_equal. rewrite <- app_assoc. f_equal. rewrite <- flatten_app. f_equal.
      cbn [gtri filter]. destruct (nondegenerate _); reflexivity.
Qed.

Definition cell_tris (q : ivec3) (vm : vertex_map) : list triangle := map (gtri q vm) (mc_tris (config solid q)).

Lemma act_step : forall q ls vm m vm' m', leaves_at q ls -> (forall i, 0 <= i < 12 -> region (cell_edge q i)) -> inv vm m -> dmc_act E ls (vm, m) = Ret (vm', m') ->
  inv vm' m' /\ (exists ext, vm' = vm ++ ext) /\ m_inds m' = m_inds m ++ flatten (filter nondegenerate (cell_tris q vm')) /\
  (forall i, 0 <= i < 12 -> crossing (config solid q) i = true -> has_key vm' (cell_edge q i)).
Proof.
  intros q ls vm m vm' m' HL Hreg I H. unfold dmc_act in H.
  destruct (omap _ ls) as [ws| | | |] eqn:Hws; try discriminate. cbn [obind] in H.
  assert (Hm : mask_from (dmc_inside E) 0 ws = mask_of (config solid q)).
  { unfold mask_of, config. rewrite mask_from_map. apply omap_ret in Hws. unfold leaves_at in HL. clear -HL Hws. revert HL Hws. generalize (cell_corners q). intros cs HL. generalize 0.
    revert ws. induction HL as [|c a cs ls Hca HL IH]; intros ws z Hws; inversion Hws as [|? w ? ws' Hw Hws']; subst; [reflexivity|].
    cbn [mask_from]. rewrite (IH ws') by assumption. f_equal. unfold solid. rewrite Hca. unfold sign_of.
    destruct (dn_dual a) as [dd|]; [|discriminate]. cbn [oread obind] in Hw. injection Hw as ->. reflexivity. }
  rewrite Hm in H. rewrite (edge_mask_ok _ (config_length solid q)) in H. cbn [oread obind] in H.
  destruct (ofold _ (zseq 0 12) _) as [[[vm1 m1] ev]| | | |] eqn:Hf; try discriminate. cbn [obind] in H.
  assert (Hr : forall i, In i (zseq 0 12) -> 0 <= i < 12) by (intros i Hi; apply in_zseq in Hi; lia).
  destruct (edge_loop q ls (zseq 0 12) _ _ _ _ _ _ HL Hr Hreg I Hf) as (I1 & Hext & Hi1 & -> & Hall). cbn [app] in H.
  destruct (row_ok _ (config_length solid q)) as (R1 & R2 & R3 & _). rewrite R1 in H. cbn [oread obind] in H.
  assert (Hall' : forall i, 0 <= i < 12 -> crossing (config solid q) i = true -> has_key vm1 (cell_edge q i)) by (intros i Hi; apply Hall; apply in_zseq; lia).
  change (zseq 0 12) with slots in H.
  rewrite (triangles_step q vm1 _ _ m1 I1 Hall' R2 R3) in H. cbn [obind] in H. injection H as <- <-.
  split; [|split; [assumption|split; [cbn [m_inds]; rewrite Hi1; reflexivity|assumption]]].
  destruct I1 as [J1 J2 J3 J4 J5]. constructor; cbn [m_verts]; assumption.
Qed.

(* ---- all points ---- *)
Definition reg (p : ivec3) : Prop := forall i, 0 <= i < 12 -> region (cell_edge (below p) i).
Lemma gtri_app : forall q vm ext, (forall i, 0 <= i < 12 -> crossing (config solid q) i = true -> has_key vm (cell_edge q i)) ->
  cell_tris q (vm ++ ext) = cell_tris q vm.
Proof.
  intros q vm ext H. unfold cell_tris. apply map_ext_in. intros [[i j] k] Ht.
  destruct (row_ok _ (config_length solid q)) as (_ & _ & R3 & _). rewrite forallb_forall in R3. specialize (R3 _ Ht).
  apply good_local_spec in R3 as ((Hi & Ci) & (Hj & Cj) & (Hk & Ck) & _). cbn [gtri].
  rewrite !(fun e H => proj1 (vid_app vm ext e H)) by auto. reflexivity.
Qed.

Lemma points_step : forall ps vm m vm' m', inv vm m -> Forall reg ps ->
  ofold (fun st p => visit leaf L dmc_state (dmc_act E) p st) ps (vm, m) = Ret (vm', m') ->
  inv vm' m' /\ (exists ext, vm' = vm ++ ext) /\
  m_inds m' = m_inds m ++ flatten (filter nondegenerate (flat_map (fun p => cell_tris (below p) vm') ps)) /\
  (forall p i, In p ps -> 0 <= i < 12 -> crossing (config solid (below p)) i = true -> has_key vm' (cell_edge (below p) i)).
Proof.
  induction ps as [|p ps IH]; intros vm m vm' m' I Hreg H.
  - cbn [ofold] in H. injection H as <- <-. split; [assumption|]. split; [exists []; rewrite app_nil_r; reflexivity|].
    cbn. rewrite app_nil_r. split; [reflexivity|]. intros p i [].
  - inversion Hreg as [|? ? Hp Hps]; subst. cbn [ofold] in H. destruct (visit leaf L dmc_state (dmc_act E) p (vm, m)) as [[vm1 m1]| | | |] eqn:Hv; try discriminate. cbn [obind] in H.
    unfold visit in Hv. destruct (omap _ (cells8 p)) as [ls| | | |] eqn:Hls; try discriminate. cbn [obind] in Hv.
    assert (HL : leaves_at (below p) ls).
    { unfold leaves_at. rewrite <- cells8_corners. apply omap_ret in Hls. clear -Hls. induction Hls; constructor; [apply oread_ret; assumption|assumption]. }
    destruct (act_step (below p) ls vm m vm1 m1 HL Hp I Hv) as (I1 & (ext1 & ->) & Hi1 & Hall1).
    destruct (IH _ _ _ _ I1 Hps H) as (I2 & (ext2 & ->) & Hi2 & Hall2). split; [assumption|]. split; [rewrite <- app_assoc; eauto|]. split.
    + rewrite Hi2, Hi1, <- app_assoc. f_equal. cbn [flat_map]. rewrite filter_app, flatten_app. f_equal. rewrite (gtri_app _ (vm ++ ext1) ext2 Hall1). reflexivity.
    + intros p' i [<-|Hp'] Hi Hc; [|eauto]. apply vid_app. auto.
Qed.

(* ---- contouring does not fail ---- *)
Definition leaf_ready (a : leaf) : Prop := dn_dual a <> None /\ dn_normal a <> None /\ dn_mat a <> None.
Lemma vertex_ready : forall a b, leaf_ready a -> leaf_ready b -> exists v, dmc_vertex E a b = Ret v.
Proof.
  intros a b (A1 & A2 & A3) (B1 & B2 & B3). unfold dmc_vertex.
  destruct (dn_dual a); [|congruence]. destruct (dn_dual b); [|congruence]. cbn [oread obind].
  destruct (dn_normal a); [|congruence]. destruct (dn_normal b); [|congruence]. cbn [oread obind].
  destruct (dn_mat a) as [m1|]; [|congruence]. destruct (dn_mat b) as [m2|]; [|congruence]. cbn [oread obind]. destruct (m1 =? Empty); eexists; reflexivity.
Qed.

Variable few : forall vm m, inv vm m -> zlen vm < two32.
Variable ready : forall e a b, region e -> edge_crosses solid e = true -> L (snd e) = Some a -> L (far_end e) = Some b -> exists v, dmc_vertex E a b = Ret v.
Definition has_dual (a : leaf) : Prop := dn_dual a <> None.

Lemma edge_loop_total : forall q ls l vm m ev, leaves_at q ls -> (forall i, In i l -> 0 <= i < 12) ->
  (forall i, 0 <= i < 12 -> region (cell_edge q i)) -> inv vm m ->
  exists r, ofold (dmc_edge_step E ls (mask_from (crossing (config solid q)) 0 slots)) l ((vm, m), ev) = Ret r.
Proof.
  intros q ls l. induction l as [|i l IH]; intros vm m ev HL Hl Hreg I; [eexists; reflexivity|].
  assert (Hi : 0 <= i < 12) by (apply Hl; left; reflexivity). assert (Hl' : forall j, In j l -> 0 <= j < 12) by (intros; apply Hl; right; assumption).
  assert (Step : exists vm1 m1 ev1, dmc_edge_step E ls (mask_from (crossing (config solid q)) 0 slots) ((vm, m), ev) i = Ret ((vm1, m1), ev1)).
  { unfold dmc_edge_step. rewrite crossing_bit by (assumption || reflexivity). destruct (crossing (config solid q) i) eqn:Hc; [|do 3 eexists; reflexivity].
    rewrite (endpoints_ok i Hi). cbn [oread obind]. destruct (leaves_edge q ls i HL Hi) as (a & b & Ha & Hb & La & Lb). rewrite Ha, Hb. cbn [oread obind].
    destruct (vm_find vm _); [do 3 eexists; reflexivity|].
    rewrite crossing_edge in Hc by assumption. destruct (ready _ a b (Hreg i Hi) Hc La Lb) as [v ->]. cbn [obind]. rewrite add_vertex_ok.
    - do 3 eexists; reflexivity.
    - pose proof (few vm m I). unfold zlen in *. rewrite (inv_count _ _ I). lia. }
  destruct Step as (vm1 & m1 & ev1 & Hs). cbn [ofold]. rewrite Hs. cbn [obind]. apply IH; try assumption.
  assert (Hone : ofold (dmc_edge_step E ls (mask_from (crossing (config solid q)) 0 slots)) [i] ((vm, m), ev) = Ret ((vm1, m1), ev1)) by (cbn [ofold]; rewrite Hs; reflexivity).
  apply (edge_loop q ls [i] vm m ev vm1 m1 ev1 HL) in Hone; try assumption; [apply Hone|]. intros j [<-|[]]. assumption.
Qed.

Lemma act_total : forall q ls vm m, leaves_at q ls -> Forall has_dual ls -> (forall i, 0 <= i < 12 -> region (cell_edge q i)) -> inv vm m ->
  exists r, dmc_act E ls (vm, m) = Ret r.
Proof.
  intros q ls vm m HL HR Hreg I. unfold dmc_act.
  assert (W : exists ws, omap (fun n => d <- oread (dn_dual n) ;; Ret (snd d)) ls = Ret ws /\ mask_from (dmc_inside E) 0 ws = mask_of (config solid q)).
  { unfold mask_of, config. rewrite mask_from_map. unfold leaves_at in HL. clear -HL HR. revert HL HR. generalize (cell_corners q). intros cs HL HR. generalize 0.
    induction HL as [|c a cs ls Hca HL IH]; intros z; [exists []; split; reflexivity|]. inversion HR as [|? ? R1 HR']; subst.
    destruct (IH HR' (z + 1)) as (ws & W1 & W2). unfold has_dual in R1. destruct (dn_dual a) as [dd|] eqn:Hd; [|congruence].
    exists (snd dd :: ws). cbn [omap]. rewrite Hd. cbn [oread obind]. rewrite W1. split; [reflexivity|]. cbn [mask_from]. rewrite W2. f_equal.
    unfold solid. rewrite Hca. unfold sign_of. rewrite Hd. reflexivity. }
  destruct W as (ws & -> & Hm). cbn [obind]. rewrite Hm. rewrite (edge_mask_ok _ (config_length solid q)). cbn [oread obind].
  assert (Hr : forall i, In i (zseq 0 12) -> 0 <= i < 12) by (intros i Hi; apply in_zseq in Hi; lia).
  destruct (edge_loop_total q ls (zseq 0 12) vm m [] HL Hr Hreg I) as ([[vm1 m1] ev] & Hf). unfold DmcModel.dmc_state in *. rewrite Hf. cbn [obind].
  destruct (edge_loop q ls (zseq 0 12) _ _ _ _ _ _ HL Hr Hreg I Hf) as (I1 & Hext & Hi1 & -> & Hall). cbn [app].
  destruct (row_ok _ (config_length solid q)) as (R1 & R2 & R3 & _). rewrite R1. cbn [oread obind].
  assert (Hall' : forall i, 0 <= i < 12 -> crossing (config solid q) i = true -> has_key vm1 (cell_edge q i)) by (intros i Hi; apply Hall; apply in_zseq; lia).
  change (zseq 0 12) with slots.
  rewrite (triangles_step q vm1 _ _ m1 I1 Hall' R2 R3). cbn [obind]. eexists. reflexivity.
Qed.

Lemma points_total : forall ps vm m, inv vm m -> Forall reg ps -> (forall p c, In p ps -> In c (cells8 p) -> exists a, L c = Some a /\ has_dual a) ->
  exists r, ofold (fun st p => visit leaf L dmc_state (dmc_act E) p st) ps (vm, m) = Ret r.
Proof.
  induction ps as [|p ps IH]; intros vm m I Hreg HR; [eexists; reflexivity|]. inversion Hreg as [|? ? Hp Hps]; subst.
  assert (V : exists vm1 m1, visit leaf L dmc_state (dmc_act E) p (vm, m) = Ret (vm1, m1)).
  { unfold visit. assert (G : exists ls, omap (fun c => oread (L c)) (cells8 p) = Ret ls /\ leaves_at (below p) ls /\ Forall has_dual ls).
    { unfold leaves_at. rewrite <- cells8_corners. assert (HR' : forall c, In c (cells8 p) -> exists a, L c = Some a /\ has_dual a) by (intros; apply (HR p); [left; reflexivity|assumption]).
      clear -HR'. induction (cells8 p) as [|c cs IH]; [exists []; split; [reflexivity|split; constructor]|].
      destruct IH as (ls & H1 & H2 & H3); [intros c' Hc'; apply HR'; right; assumption|]. destruct (HR' c (or_introl eq_refl)) as (a & Ha & Ra).
      exists (a :: ls). cbn [omap]. rewrite Ha. cbn [oread obind]. rewrite H1. split; [reflexivity|]. split; constructor; assumption. }
    destruct G as (ls & -> & HL & Hr). cbn [obind]. destruct (act_total (below p) ls vm m HL Hr Hp I) as [[vm1 m1] ->]. eauto. }
  destruct V as (vm1 & m1 & Hv). cbn [ofold]. rewrite Hv. cbn [obind]. apply IH; [|assumption|intros p' c Hp'; apply HR; right; assumption].
  assert (Hone : ofold (fun st p => visit leaf L dmc_state (dmc_act E) p st) [p] (vm, m) = Ret (vm1, m1)) by (cbn [ofold]; rewrite Hv; reflexivity).
  apply points_step in Hone; [apply Hone|assumption|constructor; [assumption|constructor]].
Qed.
End Contour.
