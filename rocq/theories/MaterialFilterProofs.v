From Coq Require Import ZArith List Bool Lia.
From Verif Require Import Base MaterialFilterModel MaterialFilterSpec.
Import ListNotations.
Local Open Scope Z_scope.

Lemma occurrences_app : forall m l1 l2,
  occurrences m (l1 ++ l2) = occurrences m l1 + occurrences m l2.
Proof. intros; unfold occurrences; rewrite count_occ_app, Nat2Z.inj_add; reflexivity. Qed.

Lemma occurrences_one : forall m a, occurrences m [a] = if a =? m then 1 else 0.
Proof.
  intros; unfold occurrences; simpl.
  destruct (Z.eq_dec a m); destruct (Z.eqb_spec a m); lia || contradiction.
Qed.

Lemma nonempty_app : forall l1 l2,
  nonempty_count (l1 ++ l2) = nonempty_count l1 + nonempty_count l2.
Proof. intros; unfold nonempty_count, zlen; rewrite filter_app, app_length; lia. Qed.

Lemma nonempty_one : forall a, nonempty_count [a] = if a =? Empty then 0 else 1.
Proof.
  intros; unfold nonempty_count, zlen, is_solid; simpl.
  destruct (a =? Empty); reflexivity.
Qed.

Lemma nonempty_nonneg : forall l, 0 <= nonempty_count l.
Proof. intros; unfold nonempty_count, zlen; lia. Qed.

Lemma occ_nonneg : forall m l, 0 <= occurrences m l.
Proof. intros; unfold occurrences; lia. Qed.

Lemma occ_le_nonempty : forall m l, m <> Empty -> occurrences m l <= nonempty_count l.
Proof.
  intros m l Hm. induction l as [|a l IH].
  - unfold occurrences, nonempty_count, zlen; simpl; lia.
  - change (a :: l) with ([a] ++ l).
    rewrite occurrences_app, nonempty_app, occurrences_one, nonempty_one.
    destruct (Z.eqb_spec a m), (Z.eqb_spec a Empty); subst; try lia; contradiction.
Qed.

Lemma occ_pos_in : forall m l, 0 < occurrences m l <-> In m l.
Proof.
  intros. unfold occurrences. rewrite (count_occ_In Z.eq_dec). lia.
Qed.

Lemma merges_nonneg : forall h, 0 <= merges_of h.
Proof. induction h; simpl; lia. Qed.

Lemma u32_id : forall z, 0 <= z < two32 -> u32 z = z.
Proof. intros; unfold u32; apply Z.mod_small; assumption. Qed.

(* The invariant tying a filter to the materials it has seen: [k] is the
   number of merges. *)
Definition finv (f : fast_filter) (l : list material) (k : Z) : Prop :=
  0 <= ff_count f <= nonempty_count l /\
  (ff_cand f = Empty -> nonempty_count l = 0) /\
  (ff_cand f <> Empty -> 1 <= ff_count f /\ In (ff_cand f) l) /\
  (forall A, A <> Empty ->
     2 * occurrences A l - nonempty_count l <=
       if ff_cand f =? Empty then 0
       else if ff_cand f =? A then ff_count f + k else 1 - ff_count f + k).

Lemma finv_new : finv fast_new [] 0.
Proof.
  unfold finv, fast_new, nonempty_count, zlen, occurrences; simpl.
  repeat split; try lia; intros; simpl; try lia; contradiction.
Qed.

Lemma finv_add : forall f l k m, 0 <= k -> nonempty_count (l ++ [m]) < two32 ->
  finv f l k -> finv (fast_add f m) (l ++ [m]) k.
Proof.
  intros f l k m Hk Hlen (Hc & He & Hs & HA).
  rewrite nonempty_app, nonempty_one in Hlen.
  pose proof (nonempty_nonneg l) as Hn.
  unfold fast_add.
  destruct (Z.eqb_spec m Empty) as [->|Hm].
  - (* Empty is ignored *)
    unfold finv. rewrite nonempty_app, nonempty_one, Z.eqb_refl, Z.add_0_r.
    repeat split; try lia; try (apply Hs; assumption).
    + apply in_or_app; left; apply Hs; assumption.
    + intros A HAne. rewrite occurrences_app, occurrences_one.
      destruct (Z.eqb_spec Empty A); [congruence|].
      specialize (HA A HAne). lia.
  - destruct (Z.eqb_spec m (ff_cand f)) as [Heq|Hne].
    + assert (Hcne : ff_cand f <> Empty) by congruence.
      destruct (Hs Hcne) as [Hc1 HIn].
      rewrite u32_id by lia.
      unfold finv; cbn [ff_cand ff_count]. rewrite nonempty_app, nonempty_one.
      destruct (Z.eqb_spec m Empty); [contradiction|].
      repeat split; try lia; try congruence.
      * apply in_or_app; left; assumption.
      * intros A HAne. rewrite occurrences_app, occurrences_one.
        specialize (HA A HAne).
        destruct (Z.eqb_spec (ff_cand f) Empty); [contradiction|].
        destruct (Z.eqb_spec (ff_cand f) A), (Z.eqb_spec m A); try congruence; lia.
    + destruct (Z.gtb_spec (ff_count f) 1).
      * assert (Hcne : ff_cand f <> Empty) by (intro HE; specialize (He HE); lia).
        rewrite u32_id by lia.
        unfold finv; cbn [ff_cand ff_count]. rewrite nonempty_app, nonempty_one.
        destruct (Z.eqb_spec m Empty); [contradiction|].
        destruct (Hs Hcne) as [Hc1 HIn].
        repeat split; try lia; try congruence.
        -- apply in_or_app; left; assumption.
        -- intros A HAne. rewrite occurrences_app, occurrences_one.
           specialize (HA A HAne).
           destruct (Z.eqb_spec (ff_cand f) Empty); [contradiction|].
           destruct (Z.eqb_spec (ff_cand f) A), (Z.eqb_spec m A); try congruence; lia.
      * unfold finv; cbn [ff_cand ff_count]. rewrite nonempty_app, nonempty_one.
        destruct (Z.eqb_spec m Empty); [contradiction|].
        repeat split; try lia; try congruence.
        -- apply in_or_app; right; left; reflexivity.
        -- intros A HAne. rewrite occurrences_app, occurrences_one.
           specialize (HA A HAne).
           destruct (Z.eqb_spec (ff_cand f) Empty) as [HE|HNE].
           ++ specialize (He HE).
              destruct (Z.eqb_spec m A); lia.
           ++ destruct (Hs HNE) as [Hc1 HIn].
              destruct (Z.eqb_spec (ff_cand f) A), (Z.eqb_spec m A); try congruence; lia.
Qed.

Lemma finv_merge : forall f g l1 l2 k1 k2, 0 <= k1 -> 0 <= k2 ->
  nonempty_count (l1 ++ l2) < two32 ->
  finv f l1 k1 -> finv g l2 k2 -> finv (fast_merge f g) (l1 ++ l2) (k1 + k2 + 1).
Proof.
  intros f g l1 l2 k1 k2 Hk1 Hk2 Hlen (Hc & He & Hs & HA) (Hc' & He' & Hs' & HA').
  rewrite nonempty_app in Hlen.
  pose proof (nonempty_nonneg l1) as Hn1. pose proof (nonempty_nonneg l2) as Hn2.
  assert (Hocc : forall A l, A <> Empty -> occurrences A l <= nonempty_count l)
    by (intros; apply occ_le_nonempty; assumption).
  unfold fast_merge.
  destruct (Z.eqb_spec (ff_cand f) (ff_cand g)) as [Heq|Hne].
  - rewrite u32_id by lia. unfold finv; cbn [ff_cand ff_count]. rewrite nonempty_app.
    split; [lia|]. split; [|split].
    + intro HE. rewrite (He HE), He' by congruence. reflexivity.
    + intro Hc0. destruct (Hs Hc0). split; [lia|].
      apply in_or_app; left; assumption.
    + intros A HAne. rewrite occurrences_app.
      specialize (HA A HAne). specialize (HA' A HAne). rewrite <- Heq in HA'.
      destruct (Z.eqb_spec (ff_cand f) Empty); [lia|].
      assert (Hg : ff_cand g <> Empty) by congruence.
      destruct (Hs n), (Hs' Hg).
      destruct (Z.eqb_spec (ff_cand f) A); lia.
  - destruct (Z.gtb_spec (ff_count f) (ff_count g)).
    + assert (Hcne : ff_cand f <> Empty) by (intro HE; specialize (He HE); lia).
      rewrite u32_id by lia. unfold finv; cbn [ff_cand ff_count]. rewrite nonempty_app.
      repeat split; try lia; try congruence.
      * apply in_or_app; left; apply Hs; assumption.
      * intros A HAne. rewrite occurrences_app.
        specialize (HA A HAne). specialize (HA' A HAne).
        destruct (Hs Hcne) as [Hc1 HIn].
        destruct (Z.eqb_spec (ff_cand f) Empty); [contradiction|].
        destruct (Z.eqb_spec (ff_cand g) Empty) as [HgE|HgNE].
        -- specialize (He' HgE). destruct (Z.eqb_spec (ff_cand f) A); lia.
        -- destruct (Hs' HgNE).
           destruct (Z.eqb_spec (ff_cand f) A), (Z.eqb_spec (ff_cand g) A); try congruence; lia.
    + rewrite u32_id by lia. unfold finv; cbn [ff_cand ff_count]. rewrite nonempty_app.
      assert (Hgne : ff_cand g <> Empty).
      { intro HE. specialize (He' HE).
        destruct (Z.eq_dec (ff_cand f) Empty) as [Hf|Hf]; [congruence|].
        destruct (Hs Hf). lia. }
      destruct (Hs' Hgne) as [Hc1 HIn].
      repeat split; try lia; try congruence.
      * apply in_or_app; right; assumption.
      * intros A HAne. rewrite occurrences_app.
        specialize (HA A HAne). specialize (HA' A HAne).
        destruct (Z.eqb_spec (ff_cand g) Empty); [contradiction|].
        destruct (Z.eqb_spec (ff_cand f) Empty) as [HfE|HfNE].
        -- specialize (He HfE).
           pose proof (Hocc A l1 HAne). pose proof (occ_nonneg A l1).
           destruct (Z.eqb_spec (ff_cand g) A); lia.
        -- destruct (Hs HfNE).
           destruct (Z.eqb_spec (ff_cand f) A), (Z.eqb_spec (ff_cand g) A); try congruence; lia.
Qed.

Lemma run_fast_inv : forall h,
  nonempty_count (materials_of h) < two32 ->
  finv (run_fast h) (materials_of h) (merges_of h).
Proof.
  induction h as [|h IH m|h IHh g IHg]; simpl; intro Hlen.
  - apply finv_new.
  - apply finv_add; [apply merges_nonneg|assumption|].
    apply IH. rewrite nonempty_app in Hlen.
    pose proof (nonempty_nonneg [m]). lia.
  - apply finv_merge; try apply merges_nonneg; try assumption.
    + apply IHh. rewrite nonempty_app in Hlen.
      pose proof (nonempty_nonneg (materials_of g)). lia.
    + apply IHg. rewrite nonempty_app in Hlen.
      pose proof (nonempty_nonneg (materials_of h)). lia.
Qed.

Lemma run_fast_select : forall h A,
  nonempty_count (materials_of h) < two32 ->
  A <> Empty ->
  2 * occurrences A (materials_of h) > nonempty_count (materials_of h) + merges_of h ->
  fast_select (run_fast h) = A.
Proof.
  intros h A Hlen HA Hmaj.
  destruct (run_fast_inv h Hlen) as (Hc & He & Hs & Hall).
  specialize (Hall A HA). pose proof (merges_nonneg h).
  unfold fast_select.
  destruct (Z.eqb_spec (ff_cand (run_fast h)) Empty); [lia|].
  destruct (Z.eqb_spec (ff_cand (run_fast h)) A); [assumption|].
  destruct (Hs n). lia.
Qed.

Lemma run_fast_member : forall h,
  nonempty_count (materials_of h) < two32 ->
  (fast_select (run_fast h) = Empty <-> forall m, In m (materials_of h) -> m = Empty) /\
  (fast_select (run_fast h) <> Empty -> In (fast_select (run_fast h)) (materials_of h)).
Proof.
  intros h Hlen. destruct (run_fast_inv h Hlen) as (Hc & He & Hs & Hall).
  unfold fast_select. split; [split|].
  - intros HE m Hin. specialize (He HE).
    destruct (Z.eq_dec m Empty) as [|Hne]; [assumption|].
    pose proof (occ_le_nonempty m (materials_of h) Hne).
    apply occ_pos_in in Hin. lia.
  - intro Hall'. destruct (Z.eq_dec (ff_cand (run_fast h)) Empty) as [|Hne]; [assumption|].
    apply Hall'. apply Hs; assumption.
  - intro Hne. apply Hs; assumption.
Qed.

(* Adding a list one by one as a history. *)
Definition adds (l : list material) : fast_history := fold_left FAdd l FNew.

Lemma adds_gen : forall l h, materials_of (fold_left FAdd l h) = materials_of h ++ l
  /\ merges_of (fold_left FAdd l h) = merges_of h
  /\ run_fast (fold_left FAdd l h) = fast_add_all (run_fast h) l.
Proof.
  induction l as [|a l IH]; intro h; simpl.
  - rewrite app_nil_r; auto.
  - destruct (IH (FAdd h a)) as (H1 & H2 & H3). rewrite H1, H2, H3. simpl.
    rewrite <- app_assoc. simpl. auto.
Qed.

Lemma nonempty_le_len : forall l, nonempty_count l <= zlen l.
Proof.
  intro l. unfold nonempty_count, zlen.
  induction l as [|a l IH]; simpl; [lia|]. destruct (is_solid a); simpl; lia.
Qed.

Lemma fast_majority : forall l m, zlen l < two32 -> strict_majority m l ->
  fast_select (fast_add_all fast_new l) = m.
Proof.
  intros l m Hlen (Hm & Hmaj).
  destruct (adds_gen l FNew) as (H1 & H2 & H3). simpl in H1, H2, H3.
  rewrite <- H3. pose proof (nonempty_le_len l).
  apply run_fast_select; rewrite ?H1, ?H2; lia || assumption.
Qed.

Lemma fast_member : forall l, zlen l < two32 ->
  (fast_select (fast_add_all fast_new l) = Empty <-> forall m, In m l -> m = Empty) /\
  (fast_select (fast_add_all fast_new l) <> Empty ->
   In (fast_select (fast_add_all fast_new l)) l).
Proof.
  intros l Hlen.
  destruct (adds_gen l FNew) as (H1 & H2 & H3). simpl in H1, H2, H3.
  pose proof (nonempty_le_len l).
  pose proof (run_fast_member (fold_left FAdd l FNew)) as HM.
  rewrite H1, H3 in HM. apply HM. lia.
Qed.

(* ---- Precise filter ---- *)

Definition pcounts (l : list material) : list Z :=
  [occurrences 0 l; occurrences 1 l; occurrences 2 l; occurrences 3 l].

Lemma occ_le_len : forall m l, occurrences m l <= zlen l.
Proof.
  intros. unfold occurrences, zlen. apply Nat2Z.inj_le, (count_occ_bound Z.eq_dec m l).
Qed.

Lemma precise_add_counts : forall l m, 0 <= m < material_count ->
  zlen (l ++ [m]) < two32 ->
  precise_add (pcounts l) m = Ret (pcounts (l ++ [m])).
Proof.
  intros l m Hm Hlen. unfold material_count in Hm.
  assert (Hb : forall a, occurrences a l + 1 < two32).
  { intro a. pose proof (occ_le_len a l). unfold zlen in *.
    rewrite app_length in Hlen. simpl in Hlen. lia. }
  assert (Hn : forall a, 0 <= occurrences a l) by (intro; apply occ_nonneg).
  assert (Hc : m = 0 \/ m = 1 \/ m = 2 \/ m = 3) by lia.
  unfold pcounts; rewrite !occurrences_app, !occurrences_one.
  destruct Hc as [->|[->|[->| ->]]]; unfold precise_add; simpl;
    rewrite u32_id by (split; [specialize (Hn 0) || idtac; pose proof (occ_nonneg 0 l);
      pose proof (occ_nonneg 1 l); pose proof (occ_nonneg 2 l); pose proof (occ_nonneg 3 l); lia|apply Hb]);
    rewrite ?Z.add_0_r; reflexivity.
Qed.

Lemma precise_add_all_counts : forall l l0,
  (forall m, In m l -> 0 <= m < material_count) ->
  zlen (l0 ++ l) < two32 ->
  precise_add_all (pcounts l0) l = Ret (pcounts (l0 ++ l)).
Proof.
  induction l as [|a l IH]; intros l0 Hm Hlen; unfold precise_add_all; simpl.
  - rewrite app_nil_r; reflexivity.
  - rewrite precise_add_counts.
    + simpl. fold (precise_add_all (pcounts (l0 ++ [a])) l).
      rewrite IH.
      * rewrite <- app_assoc; reflexivity.
      * intros; apply Hm; right; assumption.
      * rewrite <- app_assoc; simpl; assumption.
    + apply Hm; left; reflexivity.
    + unfold zlen in *. rewrite app_length in *. simpl in *. lia.
Qed.

Lemma precise_new_counts : precise_new = pcounts [].
Proof. reflexivity. Qed.

Lemma precise_select_counts : forall l,
  (forall m, In m l -> 0 <= m < material_count) ->
  exists s, precise_select (pcounts l) = Ret s /\
    (s = Empty <-> forall m, In m l -> m = Empty) /\
    (s <> Empty -> forall m, m <> Empty -> occurrences m l <= occurrences s l
                             /\ (occurrences m l = occurrences s l -> s <= m)).
Proof.
  intros l Hl. unfold precise_select, pcounts.
  pose proof (occ_nonneg 1 l) as H1. pose proof (occ_nonneg 2 l) as H2.
  pose proof (occ_nonneg 3 l) as H3.
  assert (Hout : forall m, m <> Empty -> m <> 1 -> m <> 2 -> m <> 3 -> occurrences m l = 0).
  { intros m Ha Hb Hc Hd. pose proof (occ_nonneg m l).
    destruct (Z.eq_dec (occurrences m l) 0); [assumption|].
    assert (Hin : In m l) by (apply occ_pos_in; lia).
    specialize (Hl m Hin). unfold material_count, Empty in *. lia. }
  assert (Hempty : (forall m, In m l -> m = Empty) <->
     occurrences 1 l = 0 /\ occurrences 2 l = 0 /\ occurrences 3 l = 0).
  { split.
    - intro Hall. repeat split;
        match goal with |- occurrences ?k l = 0 =>
          destruct (Z.eq_dec (occurrences k l) 0); [assumption|];
          assert (Hin : In k l) by (apply occ_pos_in; lia);
          specialize (Hall _ Hin); discriminate end.
    - intros (Ha & Hb & Hc) m Hin. specialize (Hl m Hin). unfold material_count in Hl.
      apply occ_pos_in in Hin.
      assert (Hcase : m = 0 \/ m = 1 \/ m = 2 \/ m = 3) by lia.
      destruct Hcase as [->|[->|[->| ->]]]; try reflexivity; lia. }
  unfold max_element.
  destruct (Z.ltb_spec (occurrences 1 l) (occurrences 2 l));
  [destruct (Z.ltb_spec (occurrences 2 l) (occurrences 3 l))
  |destruct (Z.ltb_spec (occurrences 1 l) (occurrences 3 l))];
  (match goal with |- context [?c =? 0] => destruct (Z.eqb_spec c 0) end);
  eexists; (split; [reflexivity|]); (split; [rewrite Hempty; unfold Empty; lia|]);
  intros Hs m Hm; change (2 + 1) with 3 in *; try (unfold Empty in *; lia);
  (destruct (Z.eq_dec m 1) as [->|N1];
   [split; lia|destruct (Z.eq_dec m 2) as [->|N2];
   [split; lia|destruct (Z.eq_dec m 3) as [->|N3];
   [split; lia|rewrite (Hout m Hm N1 N2 N3); split; lia]]]).
Qed.

Lemma precise_correct : forall l,
  (forall m, In m l -> 0 <= m < material_count) -> zlen l < two32 ->
  exists f s, precise_add_all precise_new l = Ret f /\ precise_select f = Ret s /\
    (s = Empty <-> forall m, In m l -> m = Empty) /\
    (s <> Empty -> forall m, m <> Empty -> occurrences m l <= occurrences s l
                             /\ (occurrences m l = occurrences s l -> s <= m)).
Proof.
  intros l Hl Hlen.
  destruct (precise_select_counts l Hl) as (s & Hs).
  exists (pcounts l), s. split; [|assumption].
  rewrite precise_new_counts, precise_add_all_counts; auto.
Qed.

Lemma precise_merge_correct : forall l1 l2,
  (forall m, In m (l1 ++ l2) -> 0 <= m < material_count) -> zlen (l1 ++ l2) < two32 ->
  exists f g h, precise_add_all precise_new l1 = Ret f /\
    precise_add_all precise_new l2 = Ret g /\
    precise_add_all precise_new (l1 ++ l2) = Ret h /\ precise_merge f g = h.
Proof.
  intros l1 l2 Hl Hlen.
  exists (pcounts l1), (pcounts l2), (pcounts (l1 ++ l2)).
  rewrite precise_new_counts.
  assert (Hlen' : zlen l1 < two32 /\ zlen l2 < two32).
  { unfold zlen in *. rewrite app_length in Hlen. lia. }
  rewrite !precise_add_all_counts; try (simpl; tauto);
    try (intros; apply Hl; apply in_or_app; auto).
  repeat split.
  unfold pcounts. rewrite !occurrences_app. simpl.
  assert (Hb : forall a, 0 <= occurrences a l1 + occurrences a l2 < two32).
  { intro a. pose proof (occ_le_len a (l1 ++ l2)). rewrite occurrences_app in H.
    pose proof (occ_nonneg a l1). pose proof (occ_nonneg a l2). lia. }
  rewrite !u32_id by apply Hb. reflexivity.
Qed.
