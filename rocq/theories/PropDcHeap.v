(* C38: failing allocations in DC_Octree::build. *)
From Coq Require Import ZArith List Bool Lia Permutation.
From Verif Require Import Base LoopLemmas DcHeap DcHeapProofs.
Import ListNotations.
Local Open Scope Z_scope.

(* The root is as the constructor or collapse leaves it, or it is subdivided: it
   is not a leaf with data. *)
Definition root_clean (h : heap) : Prop :=
  hp_nodes h 0 = Some fresh_node \/ exists ws, hp_nodes h 0 = Some (HNode false ws).

(* The allocations of the children of the root succeed. *)
Definition first_eight (works : Z -> bool) (h : heap) : Prop := forall i, 0 <= i < 8 -> works (hp_next h + i) = true.

(* Memory after any number of builds, failed or not, of an octree whose root has
   the given number of levels below it; each of them starts with a clean root or
   is able to subdivide the root. *)
Inductive heap_reached (levels : nat) : heap -> Prop :=
| heap_reached_new : heap_reached levels heap_new
| heap_reached_build : forall h works merges h', heap_reached levels h -> root_clean h \/ first_eight works h ->
    build works merges levels h = Done h' \/ build works merges levels h = BadAlloc h' -> heap_reached levels h'.

(* Every node ever allocated is either alive or has been deleted, exactly once;
   nothing else has been deleted. *)
Definition accounts (h : heap) : Prop :=
  NoDup (hp_freed h) /\ (forall b, In b (hp_freed h) -> 0 < b < hp_next h) /\
  (forall b, 0 < b < hp_next h -> In b (hp_freed h) <-> hp_nodes h b = None) /\
  (forall b, hp_nodes h b <> None -> 0 <= b < hp_next h).

Definition build_outcome (works : Z -> bool) (merges : list Z -> bool) (levels : nat) (h : heap) : Prop :=
  exists h',
    (build works merges levels h = Done h' /\ (forall b, hp_next h <= b < hp_next h' -> works b = true) \/
     build works merges levels h = BadAlloc h' /\ works (hp_next h') = false /\
       (forall b, hp_next h <= b < hp_next h' -> works b = true) /\
       (forall b, b <> 0 -> hp_nodes h' b = None) /\ hp_nodes h' 0 = Some fresh_node) /\
    hp_next h <= hp_next h' /\ accounts h'.

Lemma new_effect : effect 0 heap_new heap_new (GLeaf 0).
Proof.
  apply effect_refl.
  - eexists. split; reflexivity.
  - reflexivity.
  - intros b Hb. cbn in *. destruct (Z.eqb_spec b 0); [lia|reflexivity].
Qed.

Lemma effect_accounts : forall h t, effect 0 heap_new h t -> accounts h.
Proof.
  intros h t He. destruct (e_freed _ _ _ _ He) as (f & F & P). cbn [heap_new hp_freed hp_next app] in F, P.
  pose proof (e_next _ _ _ _ He) as Hn. cbn [heap_new hp_next] in Hn.
  assert (Hin : forall b, In b (f ++ below t) <-> 1 <= b < hp_next h).
  { intro b. split; intro H.
    - apply (Permutation_in _ P) in H. apply in_zseq in H. lia.
    - apply (Permutation_in _ (Permutation_sym P)). apply in_zseq. lia. }
  pose proof (Permutation_NoDup (Permutation_sym P) (zseq_nodup _ _)) as Nd. apply NoDup_app_inv in Nd as (N1 & N2 & N3).
  assert (Hneg : forall b, b < 0 -> hp_nodes h b = None).
  { intros b Hb. rewrite (e_frame _ _ _ _ He) by (cbn; lia). cbn. destruct (Z.eqb_spec b 0); [lia|reflexivity]. }
  rewrite <- F in *. split; [exact N1|]. split; [|split].
  - intros b Hb. assert (X : In b (hp_freed h ++ below t)) by (apply in_or_app; auto). apply Hin in X. lia.
  - intros b Hb. split; intro H.
    + destruct (hp_nodes h b) eqn:Y; [|reflexivity]. exfalso. apply (N3 b H). apply (e_live _ _ _ _ He); [cbn; lia|congruence].
    + assert (X : In b (hp_freed h ++ below t)) by (apply Hin; lia). apply in_app_or in X as [X|X]; [exact X|]. exfalso.
      pose proof (e_owns _ _ _ _ He) as Ho. revert Ho X H. clear. intros Ho X H.
      assert (G : forall t, owns (hp_nodes h) t -> forall b, In b (addrs t) -> hp_nodes h b <> None).
      { clear. induction t as [a|a cs IH] using gtree_ind'; intros Ho b Hb; cbn [owns] in Ho.
        - destruct Ho as (ws & Ha & _). destruct Hb as [<-|[]]. cbn [addr]. congruence.
        - destruct Ho as (_ & Ha & Hc). destruct Hb as [<-|Hb]; [cbn [addr]; congruence|].
          rewrite owns_all in Hc. rewrite below_node in Hb. apply in_flat_map in Hb as (c & Hc1 & Hc2).
          rewrite Forall_forall in *. apply (IH c Hc1 (Hc c Hc1) b Hc2). }
      apply (G t Ho b); [right; exact X|exact H].
  - intros b Hb. destruct (Z_lt_le_dec b 0) as [Hlt|Hge]; [exfalso; apply Hb, Hneg; exact Hlt|].
    destruct (Z.eq_dec b 0) as [->|Hne]; [lia|].
    assert (X : In b (below t)) by (apply (e_live _ _ _ _ He); [cbn; lia|exact Hb]).
    assert (Y : In b (hp_freed h ++ below t)) by (apply in_or_app; auto). apply Hin in Y. lia.
Qed.

Lemma build_effect : forall works merges levels h t, effect 0 heap_new h t -> (height t <= levels)%nat ->
  root_clean h \/ first_eight works h ->
  exists h' t', effect 0 heap_new h' t' /\ (height t' <= levels)%nat /\ hp_next h <= hp_next h' /\
    (build works merges levels h = Done h' /\ (forall b, hp_next h <= b < hp_next h' -> works b = true) \/
     build works merges levels h = BadAlloc h' /\ works (hp_next h') = false /\
       (forall b, hp_next h <= b < hp_next h' -> works b = true) /\ t' = GLeaf 0 /\ hp_nodes h' 0 = Some fresh_node).
Proof.
  intros works merges levels h t He Hh Hc.
  set (tidy := fun h => hread h 0 (fun n => if hn_leaf n then Done h else collapse (S levels) 0 h)).
  change (build works merges levels h) with (match hbind (tidy h) (build_node works merges levels 0 []) with
    | BadAlloc h => hbind (tidy h) BadAlloc | LogicErr h => hbind (tidy h) LogicErr | r => r end).
  assert (Tidy : exists h1, tidy h = Done h1 /\ effect 0 heap_new h1 (GLeaf 0) /\ hp_next h1 = hp_next h /\
    exists ws, hp_nodes h1 0 = Some (HNode true ws) /\ (ws = nulls 8 \/ first_eight works h1)).
  { unfold tidy, hread. destruct t as [a|a cs]; pose proof (e_addr _ _ _ _ He) as Ea; cbn in Ea; subst a.
    - pose proof (e_owns _ _ _ _ He) as (ws & Ha & _). rewrite Ha. cbn [hn_leaf]. exists h. split; [reflexivity|]. split; [exact He|].
      split; [reflexivity|]. exists ws. split; [exact Ha|]. destruct Hc as [[X|(ws' & X)]|X]; [|congruence|right; exact X].
      left. rewrite Ha in X. injection X as ->. reflexivity.
    - pose proof (e_owns _ _ _ _ He) as (_ & Ha & _). rewrite Ha. cbn [hn_leaf].
      destruct (effect_collapse _ _ _ _ (S levels) He ltac:(lia)) as (h1 & -> & He1 & Hn1 & Hx). exists h1. split; [reflexivity|].
      split; [exact He1|]. split; [exact Hx|]. exists (nulls 8). split; [exact Hn1|]. left. reflexivity. }
  destruct Tidy as (h1 & -> & He1 & Hn1 & ws & Hws & Hcase). cbn [hbind].
  destruct (build_node_ok works merges levels 0 [] heap_new h1 He1) as (h2 & t2 & Hres & He2 & Hh2 & Hn2 & Hw2).
  { exists ws. split; [exact Hws|]. destruct Hcase; auto. }
  rewrite Hn1 in Hn2, Hw2. destruct Hres as [-> |(-> & Hfail & cs & ->)].
  - exists h2, t2. split; [exact He2|]. split; [exact Hh2|]. split; [exact Hn2|]. left. auto.
  - assert (T2 : exists h3, tidy h2 = Done h3 /\ effect 0 heap_new h3 (GLeaf 0) /\ hp_nodes h3 0 = Some (HNode true (nulls 8)) /\ hp_next h3 = hp_next h2).
    { unfold tidy, hread. pose proof (e_owns _ _ _ _ He2) as (_ & Ha & _). rewrite Ha. cbn [hn_leaf].
      apply (effect_collapse _ _ _ _ (S levels) He2). lia. }
    destruct T2 as (h3 & -> & He3 & Hn3 & Hx). cbn [hbind].
    exists h3, (GLeaf 0). split; [exact He3|]. split; [cbn; lia|]. rewrite Hx. split; [exact Hn2|]. right. auto.
Qed.

Lemma reached_effect : forall levels h, heap_reached levels h -> exists t, effect 0 heap_new h t /\ (height t <= levels)%nat.
Proof.
  intros levels h H. induction H as [|h works merges h' H [t [He Hh]] Hc Hb].
  - exists (GLeaf 0). split; [exact new_effect|cbn; lia].
  - destruct (build_effect works merges levels h t He Hh Hc) as (h2 & t2 & He2 & Hh2 & _ & Hres).
    exists t2. split; [|exact Hh2]. destruct Hb as [Hb|Hb], Hres as [[Hr _]|[Hr _]]; rewrite Hb in Hr; try discriminate; injection Hr as ->; exact He2.
Qed.

(* C38 except for builds of an octree that is a single leaf with data and whose
   root cannot be subdivided. *)
Theorem C38_partial : forall levels h works merges, heap_reached levels h ->
  root_clean h \/ first_eight works h -> build_outcome works merges levels h.
Proof.
  intros levels h works merges Hr Hc. destruct (reached_effect _ _ Hr) as (t & He & Hh).
  destruct (build_effect works merges levels h t He Hh Hc) as (h' & t' & He' & Hh' & Hn & Hres).
  exists h'. split; [|split; [exact Hn|exact (effect_accounts _ _ He')]].
  destruct Hres as [[-> Hw]|(-> & Hf & Hw & -> & Hroot)]; [left; auto|]. right. split; [reflexivity|]. split; [exact Hf|]. split; [exact Hw|].
  split; [|exact Hroot]. intros b Hb. destruct (hp_nodes h' b) eqn:X; [|reflexivity]. exfalso.
  destruct (effect_accounts _ _ He') as (_ & _ & _ & Hacc). destruct (Hacc b ltac:(congruence)).
  apply (e_live _ _ _ _ He' b); [cbn; lia|congruence].
Qed.
Print Assumptions C38_partial.

(* Destroying the octree deletes the rest. *)
Theorem C38_destroy : forall levels h, heap_reached levels h ->
  exists h', destroy levels h = Done h' /\ (forall b, b <> 0 -> hp_nodes h' b = None) /\
    Permutation (hp_freed h') (zseq 1 (Z.to_nat (hp_next h' - 1))) /\ hp_next h' = hp_next h.
Proof.
  intros levels h Hr. destruct (reached_effect _ _ Hr) as (t & He & Hh).
  assert (G : exists h', destroy levels h = Done h' /\ effect 0 heap_new h' (GLeaf 0) /\ hp_next h' = hp_next h).
  { unfold destroy, hread. destruct t as [a|a cs]; pose proof (e_addr _ _ _ _ He) as Ea; cbn in Ea; subst a.
    - pose proof (e_owns _ _ _ _ He) as (ws & Ha & _). rewrite Ha. cbn [hn_leaf]. exists h. auto.
    - pose proof (e_owns _ _ _ _ He) as (_ & Ha & _). rewrite Ha. cbn [hn_leaf].
      destruct (effect_collapse _ _ _ _ (S levels) He ltac:(lia)) as (h1 & -> & He1 & _ & Hx). eauto. }
  destruct G as (h' & Hd & He' & Hn). exists h'. split; [exact Hd|]. split; [|split; [|exact Hn]].
  - intros b Hb. destruct (hp_nodes h' b) eqn:X; [|reflexivity]. exfalso.
    destruct (effect_accounts _ _ He') as (_ & _ & _ & Hacc). destruct (Hacc b ltac:(congruence)).
    apply (e_live _ _ _ _ He' b); [cbn; lia|congruence].
  - destruct (e_freed _ _ _ _ He') as (f & F & P). cbn [below heap_new hp_freed hp_next app] in *. rewrite app_nil_r in P. rewrite F. exact P.
Qed.
Print Assumptions C38_destroy.

(* A second build of an octree that was merged into one leaf deletes whatever the
   data of the leaf look like when read as pointers, if the first allocation fails. *)
Definition after_merge : heap :=
  match build (fun _ => true) (fun _ => true) 1 heap_new with Done h => h | _ => heap_new end.
Theorem C38_refuted : exists h works merges,
  build works merges 1 heap_new = Done h /\ exists works', build works' merges 1 h = HUB.
Proof.
  exists after_merge, (fun _ => true), (fun _ => true). split; [vm_compute; reflexivity|].
  exists (fun _ => false). vm_compute. reflexivity.
Qed.
Print Assumptions C38_refuted.

(* Two levels, no merging: the 31st allocation fails.  Then a build succeeds. *)
Example C38_ex :
  match build (fun a => a <? 31) (fun _ => false) 2 heap_new with
  | BadAlloc h => (hp_next h, length (hp_freed h),
      match build (fun _ => true) (fun p => match p with [3] => true | _ => false end) 2 h with
      | Done h' => (hp_next h', length (hp_freed h'), match destroy 2 h' with Done h'' => length (hp_freed h'') | _ => O end)
      | _ => (0, O, O)
      end)
  | _ => (0, O, (0, O, O))
  end = (31, 30%nat, (103, 38%nat, 102%nat)).
Proof. vm_compute. reflexivity. Qed.
Example C38_ex_reached : heap_reached 1 after_merge /\ ~ root_clean after_merge /\ first_eight (fun a => a <? 40) after_merge.
Proof.
  split; [|split].
  - apply (heap_reached_build 1 heap_new (fun _ => true) (fun _ => true)); [constructor|left; left; reflexivity|left; vm_compute; reflexivity].
  - intros [H|(ws & H)]; vm_compute in H; discriminate.
  - intros i Hi. change (hp_next after_merge) with 9. apply Z.ltb_lt. lia.
Qed.
