(* C90: disjoint set union when memory runs out. *)
From Coq Require Import List Bool Arith Lia.
From Verif Require Import Base DsuModel DsuSpec DsuProofs PropDsu MeshThrowModel DsuThrowModel.
Import ListNotations.

(* The loop makes the appended entries single sets. *)
Lemma set_nth_app : forall (a b : list nat) x v, set_nth (a ++ x :: b) (length a) v = a ++ v :: b.
Proof. induction a as [|y a IH]; intros b x v; cbn; [reflexivity|]. now rewrite IH. Qed.
Lemma init_items_ok : forall n p s, length p = length s ->
  init_items (Dsu (p ++ repeat 0 n) (s ++ repeat 0 n)) (length p) n = Dsu (p ++ seq (length p) n) (s ++ repeat 1 n).
Proof.
  unfold init_items. induction n as [|n IH]; intros p s L; cbn [repeat seq fold_left]; [reflexivity|]. cbn [d_parent d_size].
  assert (Q : set_nth (s ++ 0 :: repeat 0 n) (length p) 1 = s ++ 1 :: repeat 0 n) by (rewrite L; apply set_nth_app).
  rewrite set_nth_app, Q.
  specialize (IH (p ++ [length p]) (s ++ [1])). rewrite !app_length in IH. cbn [length] in IH. rewrite <- !app_assoc in IH. cbn [app] in IH.
  rewrite (Nat.add_comm (length p) 1) in IH. cbn [Nat.add] in IH. apply IH. rewrite L. lia.
Qed.

Lemma expand_split : forall fails extra s n k, length (d_parent (cd_dsu s)) = length (d_size (cd_dsu s)) ->
  match cexpand fails extra s n k with
  | CDone s' _ => cd_dsu s' = dsu_expand (cd_dsu s) n
  | CThrow s' _ => cd_dsu s' = cd_dsu s
  | CErr => False
  end.
Proof.
  intros fails extra s n k L. unfold cexpand, dsu_expand. cbv zeta. destruct (n <=? dsu_count (cd_dsu s)) eqn:Q; [reflexivity|]. apply Nat.leb_gt in Q.
  assert (P : forall s k, match reserve_parent fails extra s n k with CDone s' _ => cd_dsu s' = cd_dsu s /\ n <= cd_pcap s' /\ cd_scap s' = cd_scap s | CThrow s' _ => cd_dsu s' = cd_dsu s | CErr => False end).
  { intros t j. unfold reserve_parent. destruct (n <=? cd_pcap t) eqn:C; [apply Nat.leb_le in C; auto|]. destruct (fails j); cbn; [reflexivity|]. repeat split; lia. }
  assert (R : forall s k, match reserve_size fails extra s n k with CDone s' _ => cd_dsu s' = cd_dsu s /\ n <= cd_scap s' /\ cd_pcap s' = cd_pcap s | CThrow s' _ => cd_dsu s' = cd_dsu s | CErr => False end).
  { intros t j. unfold reserve_size. destruct (n <=? cd_scap t) eqn:C; [apply Nat.leb_le in C; auto|]. destruct (fails j); cbn; [reflexivity|]. repeat split; lia. }
  pose proof (P s k) as P1. destruct (reserve_parent fails extra s n k) as [s1 k1|s1 k1|]; cbn [cbind]; auto. destruct P1 as (P1 & P2 & _).
  pose proof (R s1 k1) as R1. destruct (reserve_size fails extra s1 n k1) as [s2 k2|s2 k2|]; cbn [cbind]; [|now rewrite R1|auto]. destruct R1 as (R1 & R2 & R3).
  unfold resize_parent, reserve_parent. rewrite R3. apply Nat.leb_le in P2, R2. rewrite P2. cbn [cbind].
  unfold resize_size, reserve_size. cbn [cd_scap]. rewrite R2. cbn [cbind cd_dsu d_parent d_size cd_pcap cd_scap].
  rewrite R1, P1. unfold resize_to, dsu_count in *. rewrite <- L. apply init_items_ok. exact L.
Qed.

(* expand either does its work or changes nothing: the guarantee its comment promises (:28-29). *)
Theorem C90_expand : forall fails extra s n k, length (d_parent (cd_dsu s)) = length (d_size (cd_dsu s)) ->
  (exists s' k', cexpand fails extra s n k = CDone s' k' /\ cd_dsu s' = dsu_expand (cd_dsu s) n) \/
  (exists s' k', cexpand fails extra s n k = CThrow s' k' /\ cd_dsu s' = cd_dsu s).
Proof.
  intros fails extra s n k L. pose proof (expand_split fails extra s n k L) as H.
  destruct (cexpand fails extra s n k) as [s' k'|s' k'|]; [left | right | tauto]; eauto.
Qed.

(* A structure after any calls, and those of them which returned; the others were left by std::bad_alloc. *)
Inductive used_dsu (n : nat) : cdsu -> list dsu_call -> Prop :=
| used_new : forall pcap scap, n <= pcap -> n <= scap -> used_dsu n (CDsu (dsu_new n) pcap scap) []
| used_done : forall fails extra s cs c k s' k', used_dsu n s cs -> cdsu_step fails extra s c k = CDone s' k' -> used_dsu n s' (cs ++ [c])
| used_thrown : forall fails extra s cs c k s' k', used_dsu n s cs -> cdsu_step fails extra s c k = CThrow s' k' -> used_dsu n s' cs.

Lemma ofold_app : forall A S (f : S -> A -> outcome S) l1 l2 s, ofold f (l1 ++ l2) s = (s' <- ofold f l1 s ;; ofold f l2 s').
Proof. induction l1 as [|a l1 IH]; intros l2 s; cbn [app ofold obind]; [reflexivity|]. destruct (f s a); cbn [obind]; auto. Qed.

Lemma find_root_length : forall fuel p i p' r, find_root fuel p i = Ret (p', r) -> length p' = length p.
Proof.
  induction fuel as [|fuel IH]; intros p i p' r H; cbn [find_root] in H; [discriminate|]. destruct (nth_error p i) as [q|]; [|discriminate].
  destruct (q =? i); [now injection H as <- _|]. destruct (find_root fuel p q) as [[p1 r1]| | | |] eqn:F; cbn [obind] in H; try discriminate.
  injection H as <- _. rewrite set_nth_length. now apply IH in F.
Qed.
Lemma leader_length : forall d i d' r, dsu_leader d i = Ret (d', r) -> length (d_parent d') = length (d_parent d) /\ d_size d' = d_size d.
Proof.
  intros d i d' r H. unfold dsu_leader in H. destruct (find_root _ _ _) as [[p q]| | | |] eqn:F; cbn [obind] in H; try discriminate. injection H as <- _.
  split; [|reflexivity]. now apply find_root_length in F.
Qed.
Lemma step_length : forall d c d', length (d_parent d) = length (d_size d) -> dsu_step d c = Ret d' -> length (d_parent d') = length (d_size d').
Proof.
  assert (X : forall d n, length (d_parent d) = length (d_size d) -> length (d_parent (dsu_expand d n)) = length (d_size (dsu_expand d n))).
  { intros d n L. unfold dsu_expand. destruct (_ <=? _); [exact L|]. cbn [d_parent d_size]. rewrite !app_length, seq_length, repeat_length. lia. }
  intros d c d' L H. destruct c as [n| |i|a b|a b]; cbn [dsu_step] in H.
  - injection H as <-. now apply X.
  - injection H as <-. now apply X.
  - destruct (dsu_leader d i) as [[d1 r]| | | |] eqn:F; cbn [obind] in H; try discriminate. injection H as <-. apply leader_length in F. destruct F as (F1 & F2). congruence.
  - unfold dsu_merge in H. destruct (dsu_leader d a) as [[d1 r]| | | |] eqn:F; cbn [obind] in H; try discriminate. apply leader_length in F. destruct F as (F1 & F2).
    destruct (dsu_leader d1 b) as [[d2 r2]| | | |] eqn:G; cbn [obind] in H; try discriminate. apply leader_length in G. destruct G as (G1 & G2).
    assert (K : length (d_parent d2) = length (d_size d2)) by congruence.
    destruct (r =? r2); [now injection H as <-|]. destruct (nth_error (d_size d2) r); cbn [oread obind] in H; try discriminate.
    destruct (nth_error (d_size d2) r2); cbn [oread obind] in H; try discriminate.
    destruct (_ <? _); injection H as <-; cbn [d_parent d_size]; now rewrite !set_nth_length.
  - unfold dsu_same in H. destruct (dsu_leader d a) as [[d1 r]| | | |] eqn:F; cbn [obind] in H; try discriminate. apply leader_length in F. destruct F as (F1 & F2).
    destruct (dsu_leader d1 b) as [[d2 r2]| | | |] eqn:G; cbn [obind] in H; try discriminate. apply leader_length in G. destruct G as (G1 & G2).
    injection H as <-. congruence.
Qed.

Lemma cstep_split : forall fails extra s c k, length (d_parent (cd_dsu s)) = length (d_size (cd_dsu s)) ->
  match cdsu_step fails extra s c k with CDone s' _ => dsu_step (cd_dsu s) c = Ret (cd_dsu s') | CThrow s' _ => cd_dsu s' = cd_dsu s | CErr => True end.
Proof.
  intros fails extra s c k L. destruct c as [n| |i|a b|a b]; cbn [cdsu_step]; try (destruct (dsu_step (cd_dsu s) _); cbn [cd_dsu]; auto; fail).
  - pose proof (expand_split fails extra s n k L) as H. cbn [dsu_step]. destruct (cexpand _ _ _ _ _) as [s' k'|s' k'|]; auto. now rewrite H.
  - pose proof (expand_split fails extra s (dsu_count (cd_dsu s) + 1) k L) as H. cbn [dsu_step]. unfold dsu_add_set. cbn [fst].
    destruct (cexpand _ _ _ _ _) as [s' k'|s' k'|]; auto. now rewrite H.
Qed.

(* Whatever failed, the structure is that of the calls which returned. *)
Theorem C90_history : forall n s cs, used_dsu n s cs -> dsu_run n cs = Ret (cd_dsu s).
Proof.
  intros n s cs U.
  enough (dsu_run n cs = Ret (cd_dsu s) /\ length (d_parent (cd_dsu s)) = length (d_size (cd_dsu s))) by tauto.
  induction U as [pcap scap _ _|fails extra s cs c k s' k' U (I1 & I2) T|fails extra s cs c k s' k' U (I1 & I2) T].
  - split; [reflexivity|]. cbn. now rewrite seq_length, repeat_length.
  - pose proof (cstep_split fails extra s c k I2) as H. rewrite T in H. split; [|now apply (step_length _ _ _ I2 H)].
    unfold dsu_run in *. rewrite ofold_app, I1. cbn [obind ofold]. now rewrite H.
  - pose proof (cstep_split fails extra s c k I2) as H. rewrite T in H. rewrite H. auto.
Qed.

(* So it still decides connectivity (C22), and it has the items of the calls which returned. *)
Theorem C90_same_set : forall n s cs a b, used_dsu n s cs -> in_range n cs -> a < items n cs -> b < items n cs ->
  exists d r, dsu_same (cd_dsu s) a b = Ret (d, r) /\ (r = true <-> connected (merged cs) a b).
Proof.
  intros n s cs a b U R Ha Hb. apply C90_history in U. destruct (C22_same_set n cs a b R Ha Hb) as (d & d' & r & H1 & H2 & H3).
  rewrite U in H1. injection H1 as <-. eauto.
Qed.
Print Assumptions C90_expand.
Print Assumptions C90_history.
Print Assumptions C90_same_set.

(* Two items are merged; an expand fails at its second request, after the first vector has got its room; a third item is
   then added. *)
Definition c90_start : cdsu := CDsu (dsu_new 2) 2 2.
Example C90_ex : exists s1 s2 s3,
  cdsu_step (fun _ => false) (fun _ => 0) c90_start (DMerge 0 1) 0 = CDone s1 0 /\
  cdsu_step (Nat.eqb 1) (fun _ => 0) s1 (DExpand 5) 0 = CThrow s2 2 /\ cd_pcap s2 = 5 /\ cd_scap s2 = 2 /\
  cdsu_step (fun _ => false) (fun _ => 0) s2 DAddSet 0 = CDone s3 1 /\
  used_dsu 2 s3 [DMerge 0 1; DAddSet] /\ in_range 2 [DMerge 0 1; DAddSet] /\ items 2 [DMerge 0 1; DAddSet] = 3.
Proof.
  do 3 eexists. split; [reflexivity|]. split; [reflexivity|]. split; [reflexivity|]. split; [reflexivity|]. split; [reflexivity|].
  split; [|split; [cbn; lia | reflexivity]].
  apply (used_done 2 (fun _ => false) (fun _ => 0) (CDsu (Dsu [0; 0] [2; 1]) 5 2) [DMerge 0 1] DAddSet 0 _ 1); [|reflexivity].
  apply (used_thrown 2 (Nat.eqb 1) (fun _ => 0) (CDsu (Dsu [0; 0] [2; 1]) 2 2) [DMerge 0 1] (DExpand 5) 0 _ 2); [|reflexivity].
  apply (used_done 2 (fun _ => false) (fun _ => 0) c90_start [] (DMerge 0 1) 0 _ 0); [|reflexivity]. apply used_new; lia.
Qed.
