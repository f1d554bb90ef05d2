(* C83: copies of a DMC octree. *)
From Coq Require Import ZArith List Bool Lia Permutation.
From Verif Require Import Base DmcHeap CopyModel DmcHeapProofs PropDmcHeap.
Import ListNotations.
Local Open Scope Z_scope.

Definition dmc_subdivided (h : dheap) : Prop := exists n p, dh_nodes h 0 = Some n /\ dn_children n = Some p.
Definition dmc_one_node (h : dheap) : Prop := exists n, dh_nodes h 0 = Some n /\ dn_children n = None.

(* C83, for DMC octrees that have not been built, or whose build failed, or which are not split: copy and original
   can both be destroyed; no block is deleted in addition. *)
Theorem C83_dmc_partial : forall levels h, dmc_heap_reached levels h -> dmc_one_node h ->
  exists h', dmc_copied levels h = DDone h' /\ dh_freed h' = dh_freed h /\ NoDup (dh_freed h').
Proof.
  intros levels h H (n & N & C). destruct (reached_ok _ _ H) as (W & t & O).
  unfold dmc_copied, dmc_copy, dread. rewrite N. cbn [dbind]. unfold dmc_destroy_copy, dmc_destroy, copy_addr. cbn [dcollapse]. unfold dread.
  cbn [dwrite dh_nodes dbind]. rewrite Z.eqb_refl. rewrite C. cbn [dbind dwrite dh_nodes]. rewrite Z.eqb_refl. cbn [dbind dwrite dh_nodes].
  change (0 =? -1) with false. cbn iota. rewrite N, C. cbn [dbind dwrite dh_nodes]. change (0 =? -1) with false. cbn iota. rewrite N.
  eexists. split; [reflexivity|]. cbn [dwrite dh_freed]. split; [reflexivity|].
  apply (NoDup_app_parts _ _ (ho_nodup _ _ _ _ O)).
Qed.
Print Assumptions C83_dmc_partial.

(* Whenever the root is split, the two destructors are undefined behaviour: the second one visits deleted nodes. *)
Theorem C83_dmc_double_delete : forall levels h, dmc_heap_reached levels h -> dmc_subdivided h -> dmc_copied levels h = DUB.
Proof.
  intros levels h H (n & p & N & C). destruct (reached_ok _ _ H) as (W & t & O).
  pose proof (ho_addr _ _ _ _ O) as Ea. pose proof (ho_owns _ _ _ _ O) as Eo. pose proof (ho_height _ _ _ _ O) as Eh. pose proof (ok_separate _ _ _ _ O) as Es.
  destruct t as [a|a q cs]; cbn [daddr] in Ea; subst a.
  { destruct Eo as (n' & E1 & E2 & _). rewrite N in E1. injection E1 as <-. congruence. }
  pose proof Eo as ((v & E1) & E2 & E3). rewrite N in E1. injection E1 as E1. subst n. cbn [dn_children] in C. injection C as <-.
  unfold dmc_copied, dmc_copy, dread. rewrite N. cbn [dbind]. set (h1 := dwrite h copy_addr (DNode (Some q) v)).
  assert (Hin : forall b, In b (dblocks (DN 0 q cs)) -> 1 <= b) by (intros b Hb; assert (X : In b (dh_freed h ++ dblocks (DN 0 q cs))) by (apply in_or_app; auto); apply (ho_in _ _ _ _ O) in X; lia).
  assert (G : exists h2, dcollapse (S levels) (daddr (DN copy_addr q cs)) h1 = DDone h2 /\ gone (DN copy_addr q cs) h1 h2).
  { apply (collapse_gone W).
    - split; [exists v; unfold h1, dwrite; cbn [dh_nodes]; rewrite Z.eqb_refl; reflexivity|]. split; [exact E2|].
      apply downs_all. apply downs_all in E3. rewrite Forall_forall in *. intros c Hc. apply (downs_frame W c (dh_nodes h)); [|apply E3; exact Hc].
      intros b Hb. unfold h1, dwrite. cbn [dh_nodes]. destruct (Z.eqb_spec b copy_addr) as [->|]; [exfalso|reflexivity].
      unfold copy_addr in Hb. destruct Hb as [Hb|Hb].
      + pose proof (kid_block W _ _ _ _ c Eo Hc) as K. rewrite <- Hb in K. change (-1 / 8) with (-1) in K. specialize (Hin q (or_introl eq_refl)). lia.
      + assert (X : In (-1 / 8) (dblocks (DN 0 q cs))) by (cbn [dblocks]; right; apply in_flat_map; eauto). apply Hin in X. change (-1 / 8) with (-1) in X. lia.
    - destruct Es as [Es _]. split; [exact Es|]. intros X. cbn [daddr] in X. unfold copy_addr in X. apply Hin in X. change (-1 / 8) with (-1) in X. lia.
    - exact Eh. }
  destruct G as (h2 & G & G1 & G2 & _). cbn [daddr] in G, G1. unfold dmc_destroy_copy. rewrite G. cbn [dbind].
  assert (N2 : dh_nodes h2 0 = Some (DNode (Some q) v)).
  { rewrite G1; [|discriminate|]. { unfold h1, dwrite. cbn [dh_nodes]. unfold copy_addr. change (0 =? -1) with false. cbn iota. exact N. }
    intros X. change (0 / 8) with 0 in X. apply Hin in X. lia. }
  unfold dmc_destroy. cbn [dcollapse]. unfold dread at 1. rewrite N2. cbn [dn_children].
  destruct levels as [|levels].
  { exfalso. cbn [dheight] in Eh. destruct cs as [|c cs]; [cbn in E2; discriminate|]. cbn [fold_right] in Eh. destruct c; cbn [dheight] in Eh; lia. }
  assert (Dead : dh_nodes h2 (8 * q + 7) = None).
  { apply G2. cbn [dblocks]. left. symmetry. rewrite Z.mul_comm, Z.div_add_l by lia. rewrite Z.div_small by lia. lia. }
  assert (R : rev (dnodes_of q) = 8 * q + 7 :: rev (map (fun i => 8 * q + i) (zseq 0 7))) by reflexivity.
  rewrite R. cbn [dfold]. match goal with |- context [dcollapse (S levels) (8 * q + 7) h2] => assert (U : dcollapse (S levels) (8 * q + 7) h2 = DUB) by (cbn [dcollapse]; unfold dread; rewrite Dead; reflexivity) end.
  rewrite U. reflexivity.
Qed.
Print Assumptions C83_dmc_double_delete.

(* C83 is false for DMC octrees: one with a split root. *)
Definition dmc_split_once : dheap := dheap_of (dmc_rebuild (fun _ => true) (fun _ => None) all all 1 dheap_new).
Theorem C83_dmc_refuted : exists levels h, dmc_heap_reached levels h /\ dmc_subdivided h /\ dmc_copied levels h = DUB.
Proof.
  exists 1%nat, dmc_split_once.
  assert (R : dmc_heap_reached 1 dmc_split_once).
  { apply (dmc_heap_build 1 dheap_new (fun _ => true) (fun _ => None) all all); [constructor|]. left.
    destruct (C78_returns 1 dheap_new (fun _ => true) (fun _ => None) all all (dmc_heap_new 1) (fun _ => eq_refl) (fun _ => eq_refl)) as (h & E).
    unfold dmc_split_once. rewrite E. reflexivity. }
  assert (S : dmc_subdivided dmc_split_once).
  { assert (X : option_map dn_children (dh_nodes dmc_split_once 0) = Some (Some 1)) by (vm_compute; reflexivity).
    destruct (dh_nodes dmc_split_once 0) as [n|] eqn:E; [|discriminate]. cbn in X. injection X as X. exists n, 1. auto. }
  split; [exact R|]. split; [exact S|]. apply C83_dmc_double_delete; assumption.
Qed.
Print Assumptions C83_dmc_refuted.

(* After construction a copy does no harm. *)
Example C83_dmc_ex : dmc_heap_reached 3 dheap_new /\ dmc_one_node dheap_new.
Proof. split; [constructor|]. exists dfresh. split; reflexivity. Qed.
