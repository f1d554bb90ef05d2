(* Loops over integer ranges. *)
From Coq Require Import ZArith List Bool Lia Sorted.
From Verif Require Import Base MeshProofs.
Import ListNotations.
Local Open Scope Z_scope.

Lemma zseq_app : forall k1 k2 a, zseq a (k1 + k2) = zseq a k1 ++ zseq (a + Z.of_nat k1) k2.
Proof.
  induction k1 as [|k1 IH]; intros k2 a; simpl.
  - f_equal. lia.
  - rewrite IH. do 3 f_equal. lia.
Qed.

Lemma zrange_nil : forall a b, b <= a -> zrange a b = [].
Proof. intros. unfold zrange. replace (Z.to_nat (b - a)) with O by lia. reflexivity. Qed.

Lemma zrange_snoc : forall a b, a <= b -> zrange a (b + 1) = zrange a b ++ [b].
Proof.
  intros a b H. unfold zrange. replace (Z.to_nat (b + 1 - a)) with (Z.to_nat (b - a) + 1)%nat by lia.
  rewrite zseq_app. simpl. do 2 f_equal. lia.
Qed.

Lemma zrange_cons : forall a b, a < b -> zrange a b = a :: zrange (a + 1) b.
Proof.
  intros a b H. unfold zrange. replace (Z.to_nat (b - a)) with (S (Z.to_nat (b - (a + 1)))) by lia.
  reflexivity.
Qed.

Lemma in_zseq : forall k a i, In i (zseq a k) <-> a <= i < a + Z.of_nat k.
Proof.
  induction k as [|k IH]; intros a i; simpl.
  - split; [tauto|lia].
  - rewrite IH. lia.
Qed.

Lemma in_zrange : forall a b i, In i (zrange a b) <-> a <= i < b.
Proof. intros. unfold zrange. rewrite in_zseq. lia. Qed.

Lemma zrange_sorted : forall a b, StronglySorted Z.lt (zrange a b).
Proof.
  intros a b. unfold zrange. generalize (Z.to_nat (b - a)) as k. intro k. revert a.
  induction k as [|k IH]; intro a; simpl; constructor; [apply IH|].
  apply Forall_forall. intros i Hi. apply in_zseq in Hi. lia.
Qed.

Lemma zlen_zrange : forall a b, a <= b -> zlen (zrange a b) = b - a.
Proof.
  intros a b H. unfold zlen, zrange.
  assert (G : forall k c, length (zseq c k) = k) by (induction k; intros; simpl; congruence).
  rewrite G. lia.
Qed.

Lemma ofold_app : forall A S (f : S -> A -> outcome S) l1 l2 s,
  ofold f (l1 ++ l2) s = (s' <- ofold f l1 s ;; ofold f l2 s').
Proof.
  induction l1 as [|a l1 IH]; intros; simpl; [reflexivity|].
  destruct (f s a); simpl; auto.
Qed.

(* Invariant rule for for (i = a; i < b; i++). *)
Lemma ofold_range : forall S (P : Z -> S -> Prop) (f : S -> Z -> outcome S) a b s,
  a <= b -> P a s ->
  (forall i s, a <= i < b -> P i s -> exists s', f s i = Ret s' /\ P (i + 1) s') ->
  exists s', ofold f (zrange a b) s = Ret s' /\ P b s'.
Proof.
  intros S P f a b s Hab H0 Hstep.
  assert (G : forall k s a', P a' s -> a <= a' -> a' + Z.of_nat k = b ->
    exists s', ofold f (zseq a' k) s = Ret s' /\ P b s').
  { induction k as [|k IH]; intros s0 a' HP Ha Hk.
    - exists s0. split; [reflexivity|]. replace b with a' by lia. assumption.
    - simpl. destruct (Hstep a' s0) as (s1 & Hf & HP1); [lia|assumption|].
      rewrite Hf. cbn [obind]. apply IH; [assumption|lia|lia]. }
  unfold zrange. apply G; [assumption|lia|lia].
Qed.

(* Invariant rule for a range-based for loop: the invariant mentions the
   elements processed and those to come. *)
Lemma ofold_inv : forall A S (P : list A -> S -> Prop) (f : S -> A -> outcome S) l s,
  P [] s ->
  (forall done a rest s, l = done ++ a :: rest -> P done s ->
     exists s', f s a = Ret s' /\ P (done ++ [a]) s') ->
  exists s', ofold f l s = Ret s' /\ P l s'.
Proof.
  intros A S P f l s H0 Hstep.
  assert (G : forall rest done s, l = done ++ rest -> P done s ->
    exists s', ofold f rest s = Ret s' /\ P l s').
  { induction rest as [|a rest IH]; intros done s0 Hl HP.
    - exists s0. split; [reflexivity|]. rewrite app_nil_r in Hl. congruence.
    - simpl. destruct (Hstep done a rest s0 Hl HP) as (s1 & Hf & HP1).
      rewrite Hf. cbn [obind]. apply (IH (done ++ [a])); [|assumption].
      rewrite <- app_assoc. assumption. }
  apply (G l [] s); [reflexivity|assumption].
Qed.
