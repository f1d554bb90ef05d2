(* C83: copies of an MDC octree. *)
From Coq Require Import ZArith List Bool Lia Permutation.
From Verif Require Import Base MdcHeap CopyModel MdcHeapProofs PropMdcHeap.
Import ListNotations.
Local Open Scope Z_scope.

Definition mdc_one_node (h : bheap) : Prop := exists n, bh_nodes h 0 = Some n /\ bn_leaf n = true.
Definition mdc_subdivided (h : bheap) : Prop := exists n, bh_nodes h 0 = Some n /\ bn_leaf n = false.

(* C83, for MDC octrees that have not been built, or whose build failed, or which are one leaf: copy and original can
   both be destroyed; no block is deleted in addition. *)
Theorem C83_mdc_partial : forall levels h, mdc_heap_reached levels h -> mdc_one_node h ->
  exists h', mdc_copied levels h = BDone h' /\ bh_freed h' = bh_freed h /\ NoDup (bh_freed h').
Proof.
  intros levels h H (n & N & C). destruct (reached_ok _ _ H) as (t & O).
  exists (bwrite h copy_addr n). split; [|split; [reflexivity|apply (NoDup_app_parts _ _ (ho_nodup _ _ _ O))]].
  unfold mdc_copied, mdc_copy, bread. rewrite N. cbn [bbind]. unfold mdc_destroy_copy, mdc_destroy, copy_addr. cbn [bcollapse]. unfold bread.
  cbn [bwrite bh_nodes bbind]. rewrite Z.eqb_refl. rewrite C. cbn [bbind bwrite bh_nodes].
  change (0 =? -1) with false. cbn iota. rewrite N, C. reflexivity.
Qed.
Print Assumptions C83_mdc_partial.

(* Whenever the root is split, the two destructors are undefined behaviour: the second one visits deleted nodes. *)
Theorem C83_mdc_double_delete : forall levels h, mdc_heap_reached levels h -> mdc_subdivided h -> mdc_copied levels h = BUB.
Proof.
  intros levels h H (n & N & C). destruct (reached_ok _ _ H) as (t & O).
  pose proof (ho_addr _ _ _ O) as Ea. pose proof (ho_owns _ _ _ O) as Eo. pose proof (ho_height _ _ _ O) as Eh. pose proof (ok_separate _ _ _ O) as Es.
  destruct t as [a|a q cs]; cbn [baddr] in Ea; subst a.
  { destruct Eo as (n' & E1 & E2). rewrite N in E1. injection E1 as <-. congruence. }
  pose proof Eo as ((v & E1) & E2 & E3). rewrite N in E1. injection E1 as E1. subst n. clear C.
  unfold mdc_copied, mdc_copy, bread. rewrite N. cbn [bbind]. set (h1 := bwrite h copy_addr (BNode false (BPtr q) v)).
  assert (Hin : forall b, In b (blocks (TN 0 q cs)) -> 1 <= b) by (intros b Hb; assert (X : In b (bh_freed h ++ blocks (TN 0 q cs))) by (apply in_or_app; auto); apply (ho_in _ _ _ O) in X; lia).
  assert (G : exists h2, bcollapse (S levels) (baddr (TN copy_addr q cs)) h1 = BDone h2 /\ gone (TN copy_addr q cs) h1 h2 /\
    (forall a p cs', TN copy_addr q cs = TN a p cs' -> exists v, bh_nodes h2 (baddr (TN copy_addr q cs)) = Some (BNode true BNull v))).
  { apply collapse_gone.
    - split; [exists v; unfold h1, bwrite; cbn [bh_nodes]; rewrite Z.eqb_refl; reflexivity|]. split; [exact E2|].
      apply bowns_all. apply bowns_all in E3. rewrite Forall_forall in *. intros c Hc. apply (bowns_frame c (bh_nodes h)); [|apply E3; exact Hc].
      intros b Hb. unfold h1, bwrite. cbn [bh_nodes]. destruct (Z.eqb_spec b copy_addr) as [->|]; [exfalso|reflexivity].
      unfold copy_addr in Hb. destruct Hb as [Hb|Hb].
      + pose proof (kid_block _ _ _ _ c Eo Hc) as K. rewrite <- Hb in K. change (-1 / 8) with (-1) in K. specialize (Hin q (or_introl eq_refl)). lia.
      + assert (X : In (-1 / 8) (blocks (TN 0 q cs))) by (cbn [blocks]; right; apply in_flat_map; eauto). apply Hin in X. change (-1 / 8) with (-1) in X. lia.
    - destruct Es as [Es _]. split; [exact Es|]. intros X. cbn [baddr] in X. unfold copy_addr in X. apply Hin in X. change (-1 / 8) with (-1) in X. lia.
    - exact Eh. }
  destruct G as (h2 & G & (G1 & G2 & _) & _). cbn [baddr] in G, G1. unfold mdc_destroy_copy. rewrite G. cbn [bbind].
  assert (N2 : bh_nodes h2 0 = Some (BNode false (BPtr q) v)).
  { rewrite G1; [|discriminate|]. { unfold h1, bwrite. cbn [bh_nodes]. unfold copy_addr. change (0 =? -1) with false. cbn iota. exact N. }
    intros X. change (0 / 8) with 0 in X. apply Hin in X. lia. }
  unfold mdc_destroy. cbn [bcollapse]. unfold bread at 1. rewrite N2. cbn [bn_leaf bn_word].
  destruct levels as [|levels].
  { exfalso. cbn [bheight] in Eh. destruct cs as [|c cs]; [cbn in E2; discriminate|]. cbn [fold_right] in Eh. destruct c; cbn [bheight] in Eh; lia. }
  assert (Dead : bh_nodes h2 (8 * q + 7) = None).
  { apply G2. cbn [blocks]. left. symmetry. rewrite Z.mul_comm, Z.div_add_l by lia. rewrite Z.div_small by lia. lia. }
  assert (R : rev (nodes_of q) = 8 * q + 7 :: rev (map (fun i => 8 * q + i) (zseq 0 7))) by reflexivity.
  rewrite R. cbn [bfold]. match goal with |- context [bcollapse (S levels) (8 * q + 7) h2] => assert (U : bcollapse (S levels) (8 * q + 7) h2 = BUB) by (cbn [bcollapse]; unfold bread; rewrite Dead; reflexivity) end.
  rewrite U. reflexivity.
Qed.
Print Assumptions C83_mdc_double_delete.

(* C83 is false for MDC octrees: one with a split root. *)
Theorem C83_mdc_refuted : exists levels h, mdc_heap_reached levels h /\ mdc_subdivided h /\ mdc_copied levels h = BUB.
Proof.
  exists 1%nat, (heap_of first_build). pose proof first_reached as R.
  assert (S : mdc_subdivided (heap_of first_build)).
  { assert (X : option_map bn_leaf (bh_nodes (heap_of first_build) 0) = Some false) by (vm_compute; reflexivity).
    destruct (bh_nodes (heap_of first_build) 0) as [n|] eqn:E; [|discriminate]. cbn in X. injection X as X. exists n. auto. }
  split; [exact R|]. split; [exact S|]. apply C83_mdc_double_delete; assumption.
Qed.
Print Assumptions C83_mdc_refuted.
Example C83_mdc_ex : mdc_heap_reached 3 bheap_new /\ mdc_one_node bheap_new.
Proof. split; [constructor|]. exists bfresh. split; reflexivity. Qed.
