(* C81: DisjointSetUnion<T> with an integer type of [w] bits. *)
From Coq Require Import List Lia Arith Relations.
From Verif Require Import Base DsuModel DsuWidthModel DsuSpec DsuProofs.
Import ListNotations.

Lemma to_T_id : forall w x, x < 2 ^ w -> to_T w x = x.
Proof. intros. apply Nat.mod_small. assumption. Qed.

(* A parent list whose entries are items. *)
Definition closed (p : list nat) : Prop := forall i q, nth_error p i = Some q -> q < length p.

Lemma wfind_root_eq : forall fuel p i, closed p -> i < length p ->
  wfind_root fuel (length p) p i = find_root fuel p i.
Proof.
  induction fuel as [|fuel IH]; intros p i Hc Hi; [reflexivity|].
  cbn [wfind_root find_root].
  destruct (Nat.ltb_spec i (length p)) as [_|]; [|lia].
  destruct (nth_error p i) as [q|] eqn:Eq.
  - destruct (Nat.eqb_spec q i); [reflexivity|]. rewrite IH; eauto.
  - apply nth_error_None in Eq. lia.
Qed.

Lemma dinv_closed : forall d n E, dinv d n E -> closed (d_parent d).
Proof.
  intros d n E (H1 & H2 & H3 & _) i q Hq.
  destruct (H3 i) as (k & r & s & Hp & _); [apply nth_some_lt in Hq; lia|].
  inversion Hp as [j Hj|j q' k' r' Hj Hne Hp']; subst.
  - rewrite Hj in Hq. injection Hq as <-. eapply nth_some_lt; eauto.
  - rewrite Hj in Hq. injection Hq as <-. apply path_mem in Hp'. lia.
Qed.

Lemma dinv_size : forall d n E r s, dinv d n E ->
  nth_error (d_parent d) r = Some r -> nth_error (d_size d) r = Some s -> s <= n.
Proof.
  intros d n E r s (H1 & H2 & H3 & H4 & _) Hr Hs.
  destruct (H4 r s Hr Hs) as (l & Hnd & Hlen & Hl). rewrite <- Hlen, <- (seq_length n 0).
  apply NoDup_incl_length; auto. intros j Hj. apply Hl in Hj as [k Hk].
  apply path_mem in Hk. apply in_seq. lia.
Qed.

(* Two different sets have together at most all the items. *)
Lemma dinv_two : forall d n E a b sa sb, dinv d n E -> a <> b ->
  nth_error (d_parent d) a = Some a -> nth_error (d_size d) a = Some sa ->
  nth_error (d_parent d) b = Some b -> nth_error (d_size d) b = Some sb -> sa + sb <= n.
Proof.
  intros d n E a b sa sb (H1 & H2 & H3 & H4 & _) Hab Ha Hsa Hb Hsb.
  destruct (H4 a sa Ha Hsa) as (la & Na & La & Ma).
  destruct (H4 b sb Hb Hsb) as (lb & Nb & Lb & Mb).
  rewrite <- La, <- Lb, <- app_length, <- (seq_length n 0).
  apply NoDup_incl_length.
  - clear -Na Nb Ma Mb Hab. induction la as [|x la IH] in Na, Ma |- *.
    + exact Nb.
    + assert (Hd : forall x, In x (la) -> exists k, path (d_parent d) x k a).
      { intros y Hy. apply Ma. right. exact Hy. }
      inversion Na as [|? ? Hx Hn]; subst. cbn [app]. constructor.
      * rewrite in_app_iff. intros [Hi|Hi]; [contradiction|].
        apply Mb in Hi as [k Hk]. destruct (proj1 (Ma x)) as [k' Hk']; [left; reflexivity|].
        destruct (path_det _ _ _ _ Hk _ _ Hk') as [_ ?]. congruence.
      * clear IH. revert Hn Hd. clear Na Ma Hx. induction la as [|y la IH]; intros; [exact Nb|].
        inversion Hn as [|? ? Hy Hn']; subst. cbn [app]. constructor.
        -- rewrite in_app_iff. intros [Hi|Hi]; [contradiction|].
           apply Mb in Hi as [k Hk]. destruct (Hd y) as [k' Hk']; [left; reflexivity|].
           destruct (path_det _ _ _ _ Hk _ _ Hk') as [_ ?]. congruence.
        -- apply IH; auto. intros z Hz. apply Hd. right. exact Hz.
  - intros j Hj. apply in_app_iff in Hj as [Hj|Hj].
    + apply Ma in Hj as [k Hk]. apply path_mem in Hk. apply in_seq. lia.
    + apply Mb in Hj as [k Hk]. apply path_mem in Hk. apply in_seq. lia.
Qed.

Section Fits.
Variables (w n : nat) (E : list (nat * nat)).
Hypothesis Hn : n < 2 ^ w.

Lemma count_eq : forall d, dinv d n E -> wdsu_count w d = dsu_count d.
Proof. intros d (H1 & _). unfold wdsu_count, dsu_count. apply to_T_id. lia. Qed.

Lemma expand_eq : forall d m, dinv d n E -> m < 2 ^ w -> wdsu_expand w d m = dsu_expand d m.
Proof.
  intros d m Hd Hm. unfold wdsu_expand, dsu_expand. rewrite (count_eq d Hd), (to_T_id w m Hm).
  destruct Hd as (H1 & H2 & _). unfold dsu_count.
  rewrite (firstn_all (d_parent d)). replace (length (d_parent d)) with (length (d_size d)) at 4 by lia.
  rewrite firstn_all. reflexivity.
Qed.

Lemma leader_eq : forall d i, dinv d n E -> i < n -> wdsu_leader w d i = dsu_leader d i.
Proof.
  intros d i Hd Hi. unfold wdsu_leader, dsu_leader. rewrite (count_eq d Hd), (to_T_id w i) by lia.
  pose proof (dinv_closed _ _ _ Hd) as Hc. destruct Hd as (H1 & _). unfold dsu_count.
  rewrite wfind_root_eq; auto. lia.
Qed.

Lemma merge_eq : forall d a b, dinv d n E -> a < n -> b < n ->
  wdsu_merge w d a b = dsu_merge d a b.
Proof.
  intros d a b Hd Ha Hb. unfold wdsu_merge, dsu_merge. rewrite (leader_eq d a Hd Ha).
  destruct (dsu_leader_ok d n E a Hd Ha) as (d1 & ra & k1 & k1' & L1 & D1 & P1 & P1' & _).
  rewrite L1. cbn [obind]. rewrite (leader_eq d1 b D1 Hb).
  destruct (dsu_leader_ok d1 n E b D1 Hb) as (d2 & rb & k2 & k2' & L2 & D2 & P2 & P2' & _ & K2).
  rewrite L2. cbn [obind]. destruct (Nat.eqb_spec ra rb) as [|Hne]; [reflexivity|].
  destruct (nth_error (d_size d2) ra) as [sa|] eqn:Ea; [|reflexivity].
  destruct (nth_error (d_size d2) rb) as [sb|] eqn:Eb; [|reflexivity].
  cbn [oread obind]. destruct (K2 _ _ _ P1') as [k P].
  pose proof (dinv_two d2 n E ra rb sa sb D2 Hne (path_end _ _ _ _ P) Ea
                (path_end _ _ _ _ P2') Eb) as Hs.
  rewrite !to_T_id by lia. reflexivity.
Qed.

Lemma same_eq : forall d a b, dinv d n E -> a < n -> b < n ->
  wdsu_same w d a b = dsu_same d a b.
Proof.
  intros d a b Hd Ha Hb. unfold wdsu_same, dsu_same. rewrite (leader_eq d a Hd Ha).
  destruct (dsu_leader_ok d n E a Hd Ha) as (d1 & ra & k1 & k1' & L1 & D1 & _).
  rewrite L1. cbn [obind]. rewrite (leader_eq d1 b D1 Hb). reflexivity.
Qed.
End Fits.

Lemma items_ge : forall cs n, n <= items n cs.
Proof.
  induction cs as [|c cs IH]; intro n; [simpl; lia|].
  destruct c; simpl; try apply IH; eapply Nat.le_trans; [|apply IH| |apply IH]; lia.
Qed.

Lemma step_eq : forall w d n E c, dinv d n E -> in_range n [c] -> items n [c] < 2 ^ w ->
  wdsu_step w d c = dsu_step d c.
Proof.
  intros w d n E c Hd HR Hw.
  assert (Hn : n < 2 ^ w) by (pose proof (items_ge [c] n); lia).
  destruct c as [m| |i|a b|a b]; simpl in HR, Hw |- *.
  - rewrite (expand_eq w n E Hn d m Hd); [reflexivity|lia].
  - unfold wdsu_add_set, dsu_add_set. cbn [fst]. rewrite (count_eq w n E Hn d Hd).
    rewrite (expand_eq w n E Hn); auto. destruct Hd as (H1 & _). unfold dsu_count. lia.
  - rewrite (leader_eq w n E Hn d i Hd); [reflexivity|tauto].
  - apply (merge_eq w n E Hn); tauto.
  - rewrite (same_eq w n E Hn d a b Hd); [reflexivity|tauto|tauto].
Qed.

Lemma run_gen : forall w cs d n E, dinv d n E -> in_range n cs -> items n cs < 2 ^ w ->
  ofold (wdsu_step w) cs d = ofold dsu_step cs d.
Proof.
  intros w. induction cs as [|c cs IH]; intros d n E Hd HR Hw; [reflexivity|].
  assert (HR' : in_range n [c] /\ in_range (items n [c]) cs) by (destruct c; simpl in *; tauto).
  destruct HR' as [HR1 HR2].
  assert (Hi : items n (c :: cs) = items (items n [c]) cs) by (destruct c; reflexivity).
  rewrite Hi in Hw.
  assert (Hw1 : items n [c] < 2 ^ w) by (pose proof (items_ge cs (items n [c])); lia).
  cbn [ofold]. rewrite (step_eq w d n E c Hd HR1 Hw1).
  destruct (dsu_step_ok d n E c Hd HR1) as (d1 & Hs & Hd1). rewrite Hs. cbn [obind].
  eapply IH; eauto.
Qed.

Lemma run_eq : forall w n cs, in_range n cs -> items n cs < 2 ^ w ->
  wdsu_run w n cs = dsu_run n cs.
Proof.
  intros w n cs HR Hw. unfold wdsu_run, dsu_run, wdsu_new.
  rewrite to_T_id by (pose proof (items_ge cs n); lia).
  apply (run_gen w cs _ n []); auto. apply dsu_new_ok.
Qed.

(* C81: while the number of items fits the integer type, every history runs to
   completion and areInSameSet decides connectivity by the merges. *)
Theorem C81_same_set : forall w n cs a b, in_range n cs -> items n cs < 2 ^ w ->
  a < items n cs -> b < items n cs ->
  exists d d' r, wdsu_run w n cs = Ret d /\ wdsu_same w d a b = Ret (d', r) /\
    (r = true <-> connected (merged cs) a b).
Proof.
  intros w n cs a b HR Hw Ha Hb.
  destruct (dsu_run_ok n cs HR) as (d0 & Hd0 & Hinv).
  destruct (dsu_same_correct n cs a b HR Ha Hb) as (d & d' & r & Hr & Hs & Hc).
  assert (d0 = d) by congruence. subst d0.
  exists d, d', r. rewrite (run_eq w n cs HR Hw). split; [exact Hr|]. split; [|exact Hc].
  rewrite (same_eq w _ _ Hw d a b Hinv Ha Hb). exact Hs.
Qed.
Print Assumptions C81_same_set.

(* C81: the leader is a member of the set, the same for all members. *)
Theorem C81_leader : forall w n cs a, in_range n cs -> items n cs < 2 ^ w -> a < items n cs ->
  exists d d' r, wdsu_run w n cs = Ret d /\ wdsu_leader w d a = Ret (d', r) /\
    r < items n cs /\ connected (merged cs) a r /\
    (forall b, connected (merged cs) a b -> b < items n cs ->
       exists d'', wdsu_leader w d b = Ret (d'', r)).
Proof.
  intros w n cs a HR Hw Ha.
  destruct (dsu_run_ok n cs HR) as (d0 & Hd0 & Hinv).
  destruct (dsu_leader_correct n cs a HR Ha) as (d & d' & r & Hr & Hl & Hlt & Hc & Hall).
  assert (d0 = d) by congruence. subst d0.
  exists d, d', r. rewrite (run_eq w n cs HR Hw). split; [exact Hr|].
  rewrite (leader_eq w _ _ Hw d a Hinv Ha). split; [exact Hl|]. split; [exact Hlt|].
  split; [exact Hc|]. intros b Hb Hbn. rewrite (leader_eq w _ _ Hw d b Hinv Hbn). auto.
Qed.
Print Assumptions C81_leader.

(* C81: while there is room, addSet returns the number of items so far, the
   new item is alone in its set and size () counts it. *)
Theorem C81_add_set : forall w n cs, in_range n cs -> S (items n cs) < 2 ^ w ->
  exists d d', wdsu_run w n cs = Ret d /\ wdsu_add_set w d = (d', items n cs) /\
    wdsu_count w d' = S (items n cs) /\
    (forall b d'' r, b < items n cs -> wdsu_same w d' (items n cs) b = Ret (d'', r) -> r = false).
Proof.
  intros w n cs HR Hw.
  destruct (dsu_run_ok n cs HR) as (d & Hd & Hinv).
  assert (Hn : items n cs < 2 ^ w) by lia.
  assert (Hc : dsu_count d = items n cs) by (destruct Hinv as (H1 & _); exact H1).
  pose proof (dsu_expand_ok d _ _ (S (items n cs)) Hinv) as Hinv'.
  rewrite Nat.max_r in Hinv' by lia.
  exists d, (dsu_expand d (S (items n cs))).
  rewrite (run_eq w n cs HR Hn). split; [exact Hd|].
  assert (Hcount : wdsu_count w (dsu_expand d (S (items n cs))) = S (items n cs)).
  { rewrite (count_eq w _ _ Hw _ Hinv'). destruct Hinv' as (H1 & _). exact H1. }
  split; [|split; [exact Hcount|]].
  - unfold wdsu_add_set. rewrite (count_eq w _ _ Hn d Hinv), Hc.
    rewrite (expand_eq w _ _ Hn d (items n cs + 1) Hinv) by lia.
    replace (items n cs + 1) with (S (items n cs)) by lia. rewrite Hcount. f_equal.
    unfold to_T. replace (S (items n cs) + (2 ^ w - 1)) with (items n cs + 1 * 2 ^ w) by lia.
    rewrite Nat.mod_add by lia. apply Nat.mod_small. lia.
  - intros b d'' r Hb Hs. rewrite (same_eq w _ _ Hw _ _ _ Hinv') in Hs by lia.
    destruct (dsu_leader_ok _ _ _ (items n cs) Hinv') as (d1 & ra & k1 & k1' & L1 & D1 & P1 & P1' & S1 & K1);
      [lia|].
    destruct (dsu_leader_ok d1 _ _ b D1) as (d2 & rb & k2 & k2' & L2 & D2 & P2 & P2' & S2 & K2);
      [lia|].
    unfold dsu_same in Hs. rewrite L1 in Hs. cbn [obind] in Hs. rewrite L2 in Hs.
    cbn [obind] in Hs. injection Hs as _ Hr. subst r.
    apply Nat.eqb_neq. intros ->.
    destruct D1 as (_ & _ & _ & _ & H5 & _).
    assert (Hcon : connected (merged cs) (items n cs) b) by (eapply H5; eauto).
    destruct Hinv as (_ & _ & _ & _ & _ & H6).
    destruct (conn_out _ (items n cs) _ _ H6 Hcon); lia.
Qed.
Print Assumptions C81_add_set.

(* C81: at 2 ^ w - 1 items addSet adds nothing and returns the last existing
   item as if it were a new set. *)
Theorem C81_full : forall w n cs, in_range n cs -> S (items n cs) = 2 ^ w -> 2 <= 2 ^ w ->
  exists d, wdsu_run w n cs = Ret d /\ wdsu_add_set w d = (d, items n cs - 1).
Proof.
  intros w n cs HR Hw H2.
  destruct (dsu_run_ok n cs HR) as (d & Hd & Hinv).
  assert (Hn : items n cs < 2 ^ w) by lia.
  exists d. rewrite (run_eq w n cs HR Hn). split; [exact Hd|].
  assert (Hc : dsu_count d = items n cs) by (destruct Hinv as (H1 & _); exact H1).
  assert (HE : wdsu_expand w d (wdsu_count w d + 1) = d).
  { unfold wdsu_expand. rewrite (count_eq w _ _ Hn d Hinv), Hc.
    replace (to_T w (items n cs + 1)) with 0.
    - reflexivity.
    - unfold to_T. replace (items n cs + 1) with (1 * 2 ^ w) by lia.
      symmetry. apply Nat.mod_mul. lia. }
  unfold wdsu_add_set. rewrite HE. rewrite (count_eq w _ _ Hn d Hinv), Hc. f_equal.
  unfold to_T. replace (items n cs + (2 ^ w - 1)) with ((items n cs - 1) + 1 * 2 ^ w) by lia.
  rewrite Nat.mod_add by lia. apply Nat.mod_small. lia.
Qed.
Print Assumptions C81_full.

(* C81 without the room is false: a full structure (here of 3-bit integers; C81_full gives every width) gives two
   callers of addSet the same item. *)
Theorem C81_room_refuted : exists w n cs d d1 d2 x y z d3,
  in_range n cs /\ wdsu_run w n cs = Ret d /\
  wdsu_add_set w d = (d1, x) /\ wdsu_add_set w d1 = (d2, y) /\ wdsu_add_set w d2 = (d3, z) /\
  x <> y /\ y = z /\ wdsu_count w d3 = wdsu_count w d2.
Proof.
  exists 3, 5, [DMerge 0 1]. vm_compute. do 7 eexists.
  repeat split; try reflexivity; try lia; discriminate.
Qed.
Print Assumptions C81_room_refuted.

(* The hypotheses hold, e.g. for 4-bit integers and a history that merges,
   grows and merges again. *)
Example c81_instance :
  let cs := [DMerge 0 1; DMerge 2 3; DMerge 1 3; DAddSet; DExpand 7; DMerge 6 4] in
  in_range 4 cs /\ items 4 cs = 7 /\ items 4 cs < 2 ^ 4 /\ S (items 4 cs) < 2 ^ 4 /\
  S (items 4 cs) = 2 ^ 3 /\
  (exists d d', wdsu_run 4 4 cs = Ret d /\ wdsu_same 4 d 0 3 = Ret (d', true)) /\
  (exists d d', wdsu_run 4 4 cs = Ret d /\ wdsu_same 4 d 0 6 = Ret (d', false)).
Proof. vm_compute. repeat split; try lia; do 2 eexists; split; reflexivity. Qed.
