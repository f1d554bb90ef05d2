(* C83: copies of a DC octree. *)
From Coq Require Import ZArith List Bool Lia Permutation.
From Verif Require Import Base LoopLemmas DcHeap CopyModel DcHeapProofs PropDcHeap.
Import ListNotations.
Local Open Scope Z_scope.

Definition dc_one_node (h : heap) : Prop := exists ws, hp_nodes h 0 = Some (HNode true ws).
Definition dc_subdivided (h : heap) : Prop := exists p ws, hp_nodes h 0 = Some (HNode false (WPtr p :: ws)).

(* C83, for DC octrees that have not been built, or whose build failed, or which are one leaf: copy and original can
   both be destroyed; nothing is deleted in addition. *)
Theorem C83_dc_partial : forall levels h, heap_reached levels h -> dc_one_node h ->
  exists h', dc_copied levels h = Done h' /\ hp_freed h' = hp_freed h /\ NoDup (hp_freed h').
Proof.
  intros levels h H (ws & N). destruct (reached_effect _ _ H) as (t & He & _). destruct (effect_accounts _ _ He) as (Hd & _).
  exists (hwrite h copy_addr (HNode true ws)). split; [|split; [reflexivity|exact Hd]].
  unfold dc_copied, dc_copy, hread at 1. rewrite N. cbn [hbind]. unfold dc_destroy_copy, hread at 1. rewrite hwrite_same. cbn [hn_leaf hbind].
  unfold destroy, hread. rewrite hwrite_other by discriminate. rewrite N. reflexivity.
Qed.
Print Assumptions C83_dc_partial.

(* Whenever the root has children, the two destructors are undefined behaviour. *)
Theorem C83_dc_double_delete : forall levels h, heap_reached levels h -> dc_subdivided h -> dc_copied levels h = HUB.
Proof.
  intros levels h H (p & ws & N). destruct (reached_effect _ _ H) as (t & He & Hh).
  pose proof (e_addr _ _ _ _ He) as Ea. pose proof (e_owns _ _ _ _ He) as Eo. pose proof (effect_nodup _ _ _ _ He) as En. pose proof (effect_range _ _ _ _ He) as Er.
  destruct t as [a|a cs]; cbn [addr] in Ea; subst a.
  { destruct Eo as (ws' & E & _). rewrite N in E. discriminate. }
  pose proof Eo as (E1 & E2 & E3). rewrite N in E2. injection E2 as E2.
  assert (Hp : In p (below (GNode 0 cs))).
  { destruct cs as [|c cs]; [discriminate|]. cbn [words_of map app] in E2. injection E2 as -> _. rewrite below_node. cbn [flat_map addrs app]. left. reflexivity. }
  assert (Rg : forall b, In b (below (GNode 0 cs)) -> 1 <= b) by (intros b Hb; apply Er in Hb; cbn in Hb; lia).
  set (n := HNode false (WPtr p :: ws)) in *. set (h1 := hwrite h copy_addr n).
  assert (G : exists h2, collapse (S levels) copy_addr h1 = Done h2 /\ cleared copy_addr (below (GNode copy_addr cs)) h1 h2).
  { apply collapse_ok.
    - split; [exact E1|]. split; [unfold h1; rewrite hwrite_same; unfold n; rewrite E2; reflexivity|]. rewrite owns_all in *. rewrite Forall_forall in *.
      intros c Hc. apply (owns_frame c (hp_nodes h)); [|apply E3; exact Hc]. intros b Hb. unfold h1. apply hwrite_other.
      intros ->. assert (X : In copy_addr (below (GNode 0 cs))) by (rewrite below_node; apply in_flat_map; eauto). apply Rg in X. unfold copy_addr in X. lia.
    - unfold addrs in *. cbn [addr] in *. inversion En as [|? ? _ En']; subst. constructor; [|exact En'].
      intros X. apply Rg in X. unfold copy_addr in X. lia.
    - change (height (GNode copy_addr cs)) with (height (GNode 0 cs)). lia. }
  destruct G as (h2 & G & _ & G2 & G3 & _).
  unfold dc_copied, dc_copy, hread at 1. rewrite N. cbn [hbind]. fold h1. unfold dc_destroy_copy, hread at 1.
  assert (X1 : hp_nodes h1 copy_addr = Some n) by apply hwrite_same. rewrite X1. unfold n at 1. cbn [hn_leaf]. rewrite G. cbn [hbind].
  assert (X2 : hp_nodes h2 0 = Some n).
  { rewrite G3; [unfold h1; rewrite hwrite_other by discriminate; exact N|discriminate|]. intros X. apply Rg in X. lia. }
  assert (X3 : hp_nodes h2 p = None) by (apply G2; [specialize (Rg p Hp); unfold copy_addr; lia|exact Hp]).
  unfold destroy, hread at 1. rewrite X2. unfold n at 1. cbn [hn_leaf collapse]. unfold hread at 1. rewrite X2. unfold n at 1. cbn [hn_leaf].
  unfold set_leaf, hread at 1. rewrite X2. cbn [hbind]. change (zseq 0 8) with (0 :: zseq 1 7). cbn [hfold]. unfold hread at 1. rewrite hwrite_same.
  unfold n at 1. cbn [hn_words]. change (znth (WPtr p :: ws) 0) with (Some (WPtr p)). cbn iota. unfold hread at 1.
  rewrite hwrite_other by (specialize (Rg p Hp); lia). rewrite X3. reflexivity.
Qed.
Print Assumptions C83_dc_double_delete.

(* C83 is false for DC octrees: one with a split root. *)
Definition dc_split_once : heap := match build (fun _ => true) (fun _ => false) 1 heap_new with Done h => h | _ => heap_new end.
Theorem C83_dc_refuted : exists levels h, heap_reached levels h /\ dc_subdivided h /\ dc_copied levels h = HUB.
Proof.
  exists 1%nat, dc_split_once.
  assert (R : heap_reached 1 dc_split_once).
  { apply (heap_reached_build 1 heap_new (fun _ => true) (fun _ => false)); [constructor|left; left; reflexivity|].
    destruct (C38_partial 1 heap_new (fun _ => true) (fun _ => false) (heap_reached_new 1) ltac:(left; left; reflexivity)) as (h & [(E & _)|(_ & E & _)] & _); [|discriminate].
    left. unfold dc_split_once. rewrite E. reflexivity. }
  assert (S : dc_subdivided dc_split_once) by (eexists; eexists; vm_compute; reflexivity).
  split; [exact R|]. split; [exact S|]. apply C83_dc_double_delete; assumption.
Qed.
Print Assumptions C83_dc_refuted.
Example C83_dc_ex : heap_reached 3 heap_new /\ dc_one_node heap_new.
Proof. split; [constructor|]. eexists. reflexivity. Qed.
