From Coq Require Import ZArith List Bool Lia Permutation Sorted.
From Verif Require Import Base Arith MeshProofs GridSpec GridProofs EdgeModel EdgeSpec.
Import ListNotations.
Local Open Scope Z_scope.

Lemma i16_small : forall z, is_i16 z -> i16 z = z.
Proof.
  intros z H. unfold is_i16, i16min, i16max in H. unfold i16. rewrite Z.mod_small by lia. lia.
Qed.

Lemma key_less_iff : forall ay ax az b_y bx bz,
  key_less ay ax az b_y bx bz = true <-> yxz_lt (V3 ax ay az) (V3 bx b_y bz).
Proof.
  intros. unfold key_less, yxz_lt. cbn [vx vy vz].
  bool_cases; split; intros; try discriminate; try reflexivity; lia.
Qed.

Lemma edge_less_iff : forall F (a b : uedge F),
  edge_less a b = true <-> yxz_lt (lesser_endpoint a) (lesser_endpoint b).
Proof. intros. unfold edge_less. rewrite key_less_iff. reflexivity. Qed.

Lemma edge_less_sorted : forall F (l l' : list (uedge F)),
  sort_result edge_less l l' -> edges_sorted l'.
Proof.
  intros F l l' [_ Hs]. unfold edges_sorted.
  induction Hs as [|a l0 Hs IH Ha]; constructor; [assumption|].
  rewrite Forall_forall in *. intros b Hb G. apply Ha in Hb.
  apply edge_less_iff in G. congruence.
Qed.

(* ---- znth ---- *)

Lemma znth_in : forall A (l : list A) i a, znth l i = Some a -> In a l /\ 0 <= i < zlen l.
Proof.
  intros A l i a H. unfold znth in H. destruct (Z.ltb_spec i 0); [discriminate|].
  split; [eapply nth_error_In; eassumption|].
  assert (nth_error l (Z.to_nat i) <> None) by congruence.
  apply nth_error_Some in H1. unfold zlen. lia.
Qed.

Lemma znth_some : forall A (l : list A) i, 0 <= i < zlen l -> exists a, znth l i = Some a.
Proof.
  intros A l i H. unfold znth, zlen in *. destruct (Z.ltb_spec i 0); [lia|].
  destruct (nth_error l (Z.to_nat i)) eqn:E; [eauto|].
  apply nth_error_None in E. lia.
Qed.

Lemma in_znth : forall A (l : list A) a, In a l -> exists i, znth l i = Some a.
Proof.
  intros A l a H. apply In_nth_error in H as (k & Hk).
  exists (Z.of_nat k). unfold znth. destruct (Z.ltb_spec (Z.of_nat k) 0); [lia|].
  rewrite Nat2Z.id. assumption.
Qed.

Lemma znth_cons : forall A (l : list A) a i, 0 < i -> znth (a :: l) i = znth l (i - 1).
Proof.
  intros. unfold znth. destruct (Z.ltb_spec i 0); [lia|]. destruct (Z.ltb_spec (i - 1) 0); [lia|].
  replace (Z.to_nat i) with (S (Z.to_nat (i - 1))) by lia. reflexivity.
Qed.

Lemma sorted_znth : forall A (R : A -> A -> Prop) l i j a b,
  StronglySorted R l -> 0 <= i < j -> znth l i = Some a -> znth l j = Some b -> R a b.
Proof.
  intros A R l. induction l as [|c l IH]; intros i j a b Hs Hij Ha Hb.
  - unfold znth in Ha. destruct (i <? 0); [discriminate|]. destruct (Z.to_nat i); discriminate.
  - apply StronglySorted_inv in Hs as [Hs Hc].
    rewrite znth_cons in Hb by lia.
    destruct (Z.eq_dec i 0) as [->|Hi].
    + unfold znth in Ha. simpl in Ha. injection Ha as <-.
      rewrite Forall_forall in Hc. apply Hc. eapply znth_in; eassumption.
    + rewrite znth_cons in Ha by lia. eapply (IH (i - 1) (j - 1)); eauto; lia.
Qed.

(* ---- lower_bound ---- *)

(* [less] is true on a prefix of [l]: the list is partitioned. *)
Definition partitioned {A} (less : A -> bool) (l : list A) : Prop :=
  forall i j a b, 0 <= i < j -> znth l i = Some a -> znth l j = Some b -> less b = true -> less a = true.

Lemma lower_bound_loop_ok : forall A (less : A -> bool) l, partitioned less l ->
  forall fuel first len,
  len <= Z.of_nat fuel -> 0 <= first -> 0 <= len -> first + len <= zlen l ->
  (forall i a, i < first -> znth l i = Some a -> less a = true) ->
  (forall i a, first + len <= i -> znth l i = Some a -> less a = false) ->
  exists r, lower_bound_loop less l fuel first len = Ret r /\
    0 <= r <= zlen l /\
    (forall i a, i < r -> znth l i = Some a -> less a = true) /\
    (forall i a, r <= i -> znth l i = Some a -> less a = false).
Proof.
  intros A less l Hp. induction fuel as [|fuel IH]; intros first len Hf H0 Hl Hb Hlo Hhi.
  - simpl. destruct (Z.leb_spec len 0); [|lia].
    exists first. replace len with 0 in * by lia. rewrite Z.add_0_r in *.
    split; [reflexivity|split; [lia|split; assumption]].
  - cbn [lower_bound_loop]. destruct (Z.leb_spec len 0).
    { exists first. replace len with 0 in * by lia. rewrite Z.add_0_r in *.
      split; [reflexivity|split; [lia|split; assumption]]. }
    cbv zeta. assert (Hh : 0 <= len / 2 < len) by (split; [apply Z.div_pos; lia|apply Z.div_lt; lia]).
    destruct (znth_some _ l (first + len / 2)) as [e He]; [lia|].
    rewrite He. cbn [oread obind]. destruct (less e) eqn:El.
    + apply IH; try lia.
      * intros i a Hi Ha. destruct (Z.eq_dec i (first + len / 2)) as [->|].
        { rewrite He in Ha. congruence. }
        destruct (znth_in _ _ _ _ Ha).
        eapply Hp; [|exact Ha|exact He|exact El]. lia.
      * intros i a Hi. apply Hhi. lia.
    + apply IH; try lia; [assumption|].
      intros i a Hi Ha. destruct (Z.eq_dec i (first + len / 2)) as [->|].
      { rewrite He in Ha. congruence. }
      destruct (less a) eqn:Ea; [|reflexivity]. exfalso.
      assert (less e = true); [|congruence].
      eapply Hp; [|exact He|exact Ha|exact Ea]. lia.
Qed.

Lemma lower_bound_ok : forall A (less : A -> bool) l, partitioned less l ->
  exists r, lower_bound less l = Ret r /\ 0 <= r <= zlen l /\
    (forall i a, i < r -> znth l i = Some a -> less a = true) /\
    (forall i a, r <= i -> znth l i = Some a -> less a = false).
Proof.
  intros A less l Hp. unfold lower_bound. pose proof (zlen_nonneg _ l).
  apply lower_bound_loop_ok; try assumption; try lia.
  - unfold zlen; lia.
  - intros i a Hi Ha. apply znth_in in Ha. lia.
  - intros i a Hi Ha. apply znth_in in Ha. lia.
Qed.

(* ---- findEdge ---- *)

Lemma yxz_lt_trans : forall p q r, yxz_lt p q -> yxz_lt q r -> yxz_lt p r.
Proof. unfold yxz_lt; intros; lia. Qed.

Lemma yxz_trichotomy : forall p q, yxz_lt p q \/ p = q \/ yxz_lt q p.
Proof.
  intros [a b c] [d e f]. unfold yxz_lt; cbn [vx vy vz].
  assert ((a = d /\ b = e /\ c = f) \/ ~ (a = d /\ b = e /\ c = f)) by lia.
  destruct H as [(-> & -> & ->)|H]; [tauto|]. lia.
Qed.

Lemma find_edge_ok : forall F (l : list (uedge F)) x y z,
  edges_sorted l ->
  (forall e, In e l -> is_i16 (ue_x e) /\ is_i16 (ue_y e) /\ is_i16 (ue_z e)) ->
  exists it, find_edge l x y z = Ret it /\
   ((it = zlen l /\ forall e, In e l -> lesser_endpoint e <> V3 x y z) \/
    (exists e, znth l it = Some e /\ lesser_endpoint e = V3 x y z)).
Proof.
  intros F l x y z Hs H16. unfold find_edge.
  destruct ((x >? i16max) || (y >? i16max) || (z >? i16max)) eqn:E1.
  { exists (zlen l). split; [reflexivity|left]. split; [reflexivity|].
    intros e He Heq. destruct (H16 e He) as (A & B & C). unfold lesser_endpoint in Heq.
    injection Heq as <- <- <-. unfold is_i16 in *.
    apply orb_true_iff in E1 as [E1|E1]; [apply orb_true_iff in E1 as [E1|E1]|];
      rewrite Z.gtb_ltb in E1; apply Z.ltb_lt in E1; lia. }
  destruct ((x <? i16min) || (y <? i16min) || (z <? i16min)) eqn:E2.
  { exists (zlen l). split; [reflexivity|left]. split; [reflexivity|].
    intros e He Heq. destruct (H16 e He) as (A & B & C). unfold lesser_endpoint in Heq.
    injection Heq as <- <- <-. unfold is_i16 in *.
    apply orb_true_iff in E2 as [E2|E2]; [apply orb_true_iff in E2 as [E2|E2]|];
      apply Z.ltb_lt in E2; lia. }
  assert (R : is_i16 x /\ is_i16 y /\ is_i16 z).
  { apply orb_false_iff in E1 as [E1 G3]. apply orb_false_iff in E1 as [G1 G2].
    apply orb_false_iff in E2 as [E2 K3]. apply orb_false_iff in E2 as [K1 K2].
    rewrite Z.gtb_ltb in G1, G2, G3. apply Z.ltb_ge in G1, G2, G3, K1, K2, K3.
    unfold is_i16; lia. }
  destruct R as (Rx & Ry & Rz). clear E1 E2.
  rewrite !i16_small by assumption. cbv zeta.
  set (less := fun e : uedge F => key_less (ue_y e) (ue_x e) (ue_z e) y x z).
  assert (Hl : forall e, less e = true <-> yxz_lt (lesser_endpoint e) (V3 x y z)).
  { intro e. unfold less. rewrite key_less_iff. reflexivity. }
  assert (Hp : partitioned less l).
  { intros i j a b Hij Ha Hb Hless. apply Hl in Hless. apply Hl.
    pose proof (sorted_znth _ _ _ _ _ _ _ Hs Hij Ha Hb) as Hab.
    destruct (yxz_trichotomy (lesser_endpoint a) (lesser_endpoint b)) as [G|[G|G]].
    - eapply yxz_lt_trans; eassumption.
    - rewrite G. assumption.
    - contradiction. }
  destruct (lower_bound_ok _ less l Hp) as (r & Hr & Hb & Hlo & Hhi).
  rewrite Hr. cbn [obind].
  destruct (Z.eqb_spec r (zlen l)) as [->|Hne].
  { exists (zlen l). split; [reflexivity|left]. split; [reflexivity|].
    intros e He Heq. apply in_znth in He as (i & Hi).
    assert (Hlt : less e = true) by (eapply Hlo; [|exact Hi]; apply znth_in in Hi; lia).
    apply Hl in Hlt. rewrite Heq in Hlt. unfold yxz_lt in Hlt. lia. }
  destruct (znth_some _ l r) as [e He]; [lia|]. rewrite He. cbn [oread obind].
  destruct (negb (ue_x e =? x) || negb (ue_y e =? y) || negb (ue_z e =? z)) eqn:En.
  - exists (zlen l). split; [reflexivity|left]. split; [reflexivity|].
    intros e' He' Heq.
    assert (Hnlt : less e' = false).
    { destruct (less e') eqn:G; [|reflexivity]. apply Hl in G. rewrite Heq in G. unfold yxz_lt in G; lia. }
    apply in_znth in He' as (i & Hi).
    assert (Hri : r <= i).
    { destruct (Z.le_gt_cases r i); [assumption|]. rewrite (Hlo i e') in Hnlt; [discriminate|lia|assumption]. }
    assert (Hne' : lesser_endpoint e <> V3 x y z).
    { unfold lesser_endpoint. intro G. injection G as Gx Gy Gz.
      rewrite Gx, Gy, Gz, !Z.eqb_refl in En. discriminate. }
    assert (Hei : r < i).
    { destruct (Z.eq_dec r i) as [->|]; [|lia]. rewrite Hi in He. congruence. }
    pose proof (sorted_znth _ _ _ _ _ _ _ Hs (conj (proj1 Hb) Hei) He Hi) as Hord. cbn beta in Hord.
    assert (Hge : less e = false) by (eapply Hhi; [|exact He]; lia).
    destruct (yxz_trichotomy (lesser_endpoint e) (V3 x y z)) as [G|[G|G]].
    + apply Hl in G. congruence.
    + contradiction.
    + rewrite <- Heq in G. contradiction.
  - exists r. split; [reflexivity|right]. exists e. split; [assumption|].
    apply orb_false_iff in En as [En G3]. apply orb_false_iff in En as [G1 G2].
    apply negb_false_iff in G1, G2, G3. apply Z.eqb_eq in G1, G2, G3.
    unfold lesser_endpoint. congruence.
Qed.

(* ---- the constructor ---- *)

Lemma make_edge_ok : forall E lx ly lz grad off ax sol mat,
  is_i16 lx -> is_i16 ly -> is_i16 lz -> 0 <= ax <= 2 ->
  exists e, make_edge E lx ly lz grad off ax sol mat = Ret e /\
    lesser_endpoint e = V3 lx ly lz /\ ue_axis e = ax /\ is_lesser_solid e = sol /\
    solid_material e = mat.
Proof.
  intros E lx ly lz grad off ax sol mat Hx Hy Hz Ha.
  unfold make_edge. unfold is_i16 in *.
  replace ((lx <=? i16max) && (ly <=? i16max) && (lz <=? i16max)) with true.
  2: { symmetry. rewrite !andb_true_iff, !Z.leb_le. lia. }
  replace ((lx >=? i16min) && (ly >=? i16min) && (lz >=? i16min)) with true.
  2: { symmetry. rewrite !andb_true_iff, !Z.geb_leb, !Z.leb_le. lia. }
  replace ((ax >=? 0) && (ax <=? 2)) with true.
  2: { symmetry. rewrite !andb_true_iff, !Z.geb_leb, !Z.leb_le. lia. }
  cbn [oassert obind]. eexists. split; [reflexivity|].
  unfold lesser_endpoint, is_lesser_solid, solid_material. cbn.
  rewrite !i16_small by assumption. rewrite negb_involutive. auto.
Qed.

Lemma bigger_endpoint_ok : forall F (e : uedge F) d, ue_axis e = axis_num d ->
  bigger_endpoint e = vadd (lesser_endpoint e) (unit_vec d).
Proof.
  intros F e d H. unfold bigger_endpoint, lesser_endpoint. rewrite H.
  destruct d; cbn [axis_num unit_vec]; apply V3_eq; cbn [vadd vx vy vz]; lia.
Qed.
