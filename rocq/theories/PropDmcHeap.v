(* C78: failing allocations and throwing fields in DMC_Octree::build. *)
From Coq Require Import ZArith List Bool Lia Permutation.
From Verif Require Import Base Arith Tables MeshModel GridModel EdgeModel FillModel OctreeModel DcModel DmcModel DmcHeap DmcHeapProofs.
Import ListNotations.
Local Open Scope Z_scope.

(* Memory after any number of builds, with or without exceptions, of an octree whose root
   has the given number of levels below it. *)
Inductive dmc_heap_reached (levels : nat) : dheap -> Prop :=
| dmc_heap_new : dmc_heap_reached levels dheap_new
| dmc_heap_build : forall h works probe splits tried h', dmc_heap_reached levels h ->
    dmc_rebuild works probe splits tried levels h = DDone h' \/ (exists x, dmc_rebuild works probe splits tried levels h = DThrown x h') ->
    dmc_heap_reached levels h'.

(* The block is alive: all its nodes exist. *)
Definition dalive (h : dheap) (p : Z) : Prop := forall i, 0 <= i < 8 -> dh_nodes h (8 * p + i) <> None.
(* Nothing of the block exists. *)
Definition ddead (h : dheap) (p : Z) : Prop := forall i, 0 <= i < 8 -> dh_nodes h (8 * p + i) = None.

(* Every block ever allocated is either alive or has been deleted, exactly once;
   nothing else has been deleted. *)
Definition dmc_accounts (h : dheap) : Prop :=
  NoDup (dh_freed h) /\ (forall p, In p (dh_freed h) -> 1 <= p < dh_next h) /\
  (forall p, 1 <= p < dh_next h -> In p (dh_freed h) /\ ddead h p \/ ~ In p (dh_freed h) /\ dalive h p) /\
  (forall b, dh_nodes h b <> None -> b = 0 \/ 1 <= b / 8 < dh_next h).

(* Only the root exists, it has no children and every block has been deleted exactly once. *)
Definition dmc_only_root (h : dheap) : Prop :=
  (exists n, dh_nodes h 0 = Some n /\ dn_children n = None) /\ (forall b, b <> 0 -> dh_nodes h b = None) /\
  NoDup (dh_freed h) /\ (forall p, In p (dh_freed h) <-> 1 <= p < dh_next h).

(* The data of every leaf has been written. *)
Definition all_written (h : dheap) : Prop := forall b n, dh_nodes h b = Some n -> dn_children n = None -> dn_written n = true.

(* What may be thrown: bad_alloc if the allocation of a block of this build fails, or
   what the field threw.  In particular logic_error of subdivide is not. *)
Definition dmc_cause (works : Z -> bool) (probe : list Z -> option dexn) (h : dheap) (x : dexn) : Prop :=
  x = DBadAlloc /\ (exists q, dh_next h <= q /\ works q = false) \/ exists path, probe path = Some x.

Record heap_ok (W : bool) (levels : nat) (h : dheap) (t : dtree) : Prop := {
  ho_addr : daddr t = 0;
  ho_owns : downs W (dh_nodes h) t;
  ho_height : (dheight t <= S levels)%nat;
  ho_nodup : NoDup (dh_freed h ++ dblocks t);
  ho_in : forall p, In p (dh_freed h ++ dblocks t) <-> 1 <= p < dh_next h;
  ho_next : 1 <= dh_next h;
  ho_live : forall b, dh_nodes h b <> None -> b = 0 \/ In (b / 8) (dblocks t)
}.

Lemma ok_new : forall levels, heap_ok false levels dheap_new (DL 0).
Proof.
  intros levels. constructor; cbn.
  - reflexivity.
  - exists dfresh. split; [reflexivity|]. split; [reflexivity|discriminate].
  - lia.
  - constructor.
  - intros p. lia.
  - lia.
  - intros b H. destruct (Z.eqb_spec b 0); auto.
Qed.

Lemma ok_separate : forall W levels h t, heap_ok W levels h t -> separate t.
Proof.
  intros W levels h t H. destruct (NoDup_app_parts _ _ (ho_nodup _ _ _ _ H)) as (_ & Hd & _). split; [exact Hd|].
  rewrite (ho_addr _ _ _ _ H). intros Q. assert (X : In (0 / 8) (dh_freed h ++ dblocks t)) by (apply in_or_app; auto). apply (ho_in _ _ _ _ H) in X. change (0 / 8) with 0 in X. lia.
Qed.

Lemma ok_collapse : forall W levels h t, heap_ok W levels h t ->
  exists h', dcollapse (S levels) 0 h = DDone h' /\ heap_ok false levels h' (DL 0) /\ dh_next h' = dh_next h.
Proof.
  intros W levels h t H. destruct (collapse_gone W (S levels) t h (ho_owns _ _ _ _ H) (ok_separate _ _ _ _ H) (ho_height _ _ _ _ H)) as (h' & E & (G1 & G2 & (n & n' & G3 & G4 & G5 & G6) & G7 & G8)).
  rewrite (ho_addr _ _ _ _ H) in *. exists h'. split; [exact E|]. split; [|exact G7]. constructor.
  - reflexivity.
  - exists n'. split; [exact G4|]. split; [exact G5|discriminate].
  - cbn. lia.
  - cbn [dblocks]. rewrite app_nil_r. eapply Permutation_NoDup; [apply Permutation_sym; exact G8|apply (ho_nodup _ _ _ _ H)].
  - intros p. cbn [dblocks]. rewrite app_nil_r, G7. rewrite <- (ho_in _ _ _ _ H). split; apply Permutation_in; [exact G8|apply Permutation_sym; exact G8].
  - rewrite G7. apply (ho_next _ _ _ _ H).
  - intros b Hb. destruct (Z.eq_dec b 0) as [->|Hb0]; [auto|]. exfalso. destruct (in_dec Z.eq_dec (b / 8) (dblocks t)) as [Q|Q]; [apply Hb, G2; exact Q|].
    rewrite G1 in Hb by assumption. apply (ho_live _ _ _ _ H) in Hb as [Hb|Hb]; contradiction.
Qed.

Lemma ok_built : forall W levels h h' t, heap_ok false levels h (DL 0) -> built W 0 levels h h' t -> heap_ok W levels h' t.
Proof.
  intros W levels h h' t H (B1 & B2 & B3 & B4 & B5 & B6 & B7 & B8 & B9). pose proof (ho_nodup _ _ _ _ H) as Hn. pose proof (ho_in _ _ _ _ H) as Hi.
  pose proof (ho_next _ _ _ _ H) as Hx. cbn [dblocks] in Hn, Hi. rewrite app_nil_r in Hn.
  assert (Hi' : forall p, In p (dh_freed h) <-> 1 <= p < dh_next h) by (intros p; rewrite <- Hi, app_nil_r; reflexivity).
  constructor; auto.
  - rewrite B7. apply NoDup_app_join; auto. intros x X Y. apply Hi' in X. apply B5 in Y. lia.
  - intros p. rewrite B7, in_app_iff, Hi', B5. lia.
  - lia.
  - intros b Hb. destruct (Z.eq_dec b 0) as [|Hb0]; [auto|]. right. destruct (Z_lt_le_dec (b / 8) (dh_next h)) as [L|L].
    + rewrite B8 in Hb by assumption. apply (ho_live _ _ _ _ H) in Hb as [Hb|[]]. contradiction.
    + apply B5. destruct (Z_lt_le_dec (b / 8) (dh_next h')) as [L'|L']; [lia|]. exfalso. apply Hb, B9. exact L'.
Qed.

Lemma rebuild_ok : forall works probe splits tried W levels h t, heap_ok W levels h t ->
  dpost (dmc_rebuild works probe splits tried levels h) (fun h' => exists t', heap_ok true levels h' t')
    (fun x h' => heap_ok false levels h' (DL 0) /\ dmc_cause works probe h x).
Proof.
  intros works probe splits tried W levels h t H. unfold dmc_rebuild. destruct (ok_collapse _ _ _ _ H) as (h1 & -> & O1 & N1'). cbn [dbind].
  pose proof (ho_owns _ _ _ _ O1) as (n & N1 & N2 & _).
  assert (Free : forall b, dh_next h1 <= b / 8 -> dh_nodes h1 b = None).
  { intros b Hb. destruct (dh_nodes h1 b) eqn:E; [|reflexivity]. exfalso. assert (X : dh_nodes h1 b <> None) by congruence.
    apply (ho_live _ _ _ _ O1) in X as [->|[]]. pose proof (ho_next _ _ _ _ O1). change (0 / 8) with 0 in Hb. lia. }
  pose proof (build_ok works probe splits tried levels 0 [] h1 n N1 N2 ltac:(pose proof (ho_next _ _ _ _ O1); change (0 / 8) with 0; lia) Free) as B.
  destruct (dbuild_node works probe splits tried levels 0 [] h1) as [h2|x h2| |]; cbn [dpost] in *; try contradiction.
  - destruct B as (t2 & B). exists t2. eapply ok_built; eassumption.
  - destruct B as ((t2 & B) & C). pose proof (ok_built _ _ _ _ _ O1 B) as O2. destruct (ok_collapse _ _ _ _ O2) as (h4 & -> & O4 & _). cbn [dbind].
    split; [exact O4|]. unfold cause in C. rewrite N1' in C. exact C.
Qed.

Lemma reached_ok : forall levels h, dmc_heap_reached levels h -> exists W t, heap_ok W levels h t.
Proof.
  intros levels h H. induction H as [|h works probe splits tried h' H (W & t & IH) [E|(x & E)]].
  - exists false, (DL 0). apply ok_new.
  - pose proof (rebuild_ok works probe splits tried W levels h t IH) as B. rewrite E in B. cbn in B. destruct B as (t' & B). eauto.
  - pose proof (rebuild_ok works probe splits tried W levels h t IH) as B. rewrite E in B. cbn in B. exists false, (DL 0). tauto.
Qed.

Lemma ok_accounts : forall W levels h t, heap_ok W levels h t -> dmc_accounts h.
Proof.
  intros W levels h t H. destruct (NoDup_app_parts _ _ (ho_nodup _ _ _ _ H)) as (N1 & N2 & N3). pose proof (ho_in _ _ _ _ H) as Hi.
  assert (Q8 : forall p i, 0 <= i < 8 -> (8 * p + i) / 8 = p) by (intros p i Hi8; rewrite Z.mul_comm, Z.div_add_l by lia; rewrite Z.div_small by lia; lia).
  split; [exact N1|]. split; [|split].
  - intros p Hp. apply Hi, in_or_app. auto.
  - intros p Hp. apply Hi in Hp as Hp'. apply in_app_or in Hp' as [Q|Q].
    + left. split; [exact Q|]. intros i I. destruct (dh_nodes h (8 * p + i)) eqn:E; [|reflexivity]. exfalso. assert (X : dh_nodes h (8 * p + i) <> None) by congruence.
      apply (ho_live _ _ _ _ H) in X as [X|X]; [lia|]. rewrite Q8 in X by exact I. apply (N3 p Q X).
    + right. split; [intros X; apply (N3 p X Q)|]. intros i I. apply (downs_live W t); [apply (ho_owns _ _ _ _ H)|]. right. rewrite Q8 by exact I. exact Q.
  - intros b Hb. apply (ho_live _ _ _ _ H) in Hb as [Hb|Hb]; [auto|]. right. apply Hi, in_or_app. auto.
Qed.

Lemma ok_only_root : forall W levels h, heap_ok W levels h (DL 0) -> dmc_only_root h.
Proof.
  intros W levels h H. split; [destruct (ho_owns _ _ _ _ H) as (n & A & B & _); eauto|]. split; [|split].
  - intros b Hb. destruct (dh_nodes h b) eqn:E; [|reflexivity]. exfalso. assert (X : dh_nodes h b <> None) by congruence. apply (ho_live _ _ _ _ H) in X as [X|[]]. contradiction.
  - pose proof (ho_nodup _ _ _ _ H) as N. cbn [dblocks] in N. rewrite app_nil_r in N. exact N.
  - intros p. rewrite <- (ho_in _ _ _ _ H). cbn [dblocks]. rewrite app_nil_r. reflexivity.
Qed.

Lemma ok_written : forall levels h t, heap_ok true levels h t -> all_written h.
Proof.
  intros levels h t H b n Hn Hl. apply (downs_written t (dh_nodes h) b n); auto; [apply (ho_owns _ _ _ _ H)|]. rewrite (ho_addr _ _ _ _ H). apply (ho_live _ _ _ _ H). congruence.
Qed.

(* Whatever allocation fails and whenever the field throws, build does not touch deleted
   memory; it returns, with data in every leaf, or passes on the exception that was thrown.
   Nothing is leaked or deleted twice, and after an exception only the root is left. *)
Theorem C78_build : forall levels h works probe splits tried, dmc_heap_reached levels h ->
  exists h', (dmc_rebuild works probe splits tried levels h = DDone h' /\ all_written h' \/
              exists x, dmc_rebuild works probe splits tried levels h = DThrown x h' /\ dmc_cause works probe h x /\ dmc_only_root h') /\ dmc_accounts h'.
Proof.
  intros levels h works probe splits tried H. destruct (reached_ok _ _ H) as (W & t & O). pose proof (rebuild_ok works probe splits tried W levels h t O) as B.
  destruct (dmc_rebuild works probe splits tried levels h) as [h'|x h'| |]; cbn in B; try contradiction; exists h'.
  - destruct B as (t' & O'). split; [left; split; [reflexivity|eapply ok_written; exact O']|]. eapply ok_accounts; exact O'.
  - destruct B as (O' & C). split; [right; exists x; split; [reflexivity|split; [exact C|eapply ok_only_root; exact O']]|]. eapply ok_accounts; exact O'.
Qed.
Print Assumptions C78_build.

(* If memory does not run out and the field does not throw, build returns, whatever
   happened in earlier builds. *)
Theorem C78_returns : forall levels h works probe splits tried, dmc_heap_reached levels h ->
  (forall q, works q = true) -> (forall path, probe path = None) -> exists h', dmc_rebuild works probe splits tried levels h = DDone h'.
Proof.
  intros levels h works probe splits tried H Hw Hp. destruct (C78_build levels h works probe splits tried H) as (h' & [(E & _)|(x & _ & C & _)] & _); [eauto|].
  exfalso. destruct C as [(_ & q & _ & C)|(path & C)]; [rewrite Hw in C|rewrite Hp in C]; discriminate.
Qed.
Print Assumptions C78_returns.

(* Destruction of the octree frees what is left. *)
Theorem C78_destroy : forall levels h, dmc_heap_reached levels h -> exists h', dmc_destroy levels h = DDone h' /\ dmc_only_root h'.
Proof.
  intros levels h H. destruct (reached_ok _ _ H) as (W & t & O). destruct (ok_collapse _ _ _ _ O) as (h' & E & O' & _). exists h'. split; [exact E|].
  eapply ok_only_root; exact O'.
Qed.
Print Assumptions C78_destroy.

(* With a root without children, as before the first build and after an exception, contour
   reads nothing from the root and makes an empty mesh. *)
Theorem C78_contour : forall E (t : dmc_octree E) l, dt_root E t = OLeaf l -> dmc_contour E t = Ret mesh_new.
Proof. intros E [pos scale size root] l H. cbn in H. subst root. unfold dmc_contour. reflexivity. Qed.
Print Assumptions C78_contour.

Definition dheap_of (r : dresult) : dheap := match r with DDone h | DThrown _ h => h | _ => dheap_new end.
Definition dthrown (r : dresult) : option dexn := match r with DThrown x _ => Some x | _ => None end.
Definition ddone (r : dresult) : bool := match r with DDone _ => true | _ => false end.
(* An octree of four cells along a side: a successful build, one in which the fourth of nine
   allocations fails and one whose field throws in the last cell but one. *)
Definition all (_ : list Z) : bool := true.
Definition quiet (_ : list Z) : option dexn := None.
Notation full_build := (dmc_rebuild (fun _ => true) quiet all all 2 dheap_new).
Notation cut_build := (dmc_rebuild (fun p => p <? 13) quiet all all 2 (dheap_of full_build)).
Notation odd_build := (dmc_rebuild (fun _ => true) (fun p => if list_eq_dec Z.eq_dec p [7; 6] then Some (DField 5) else None) all all 2 (dheap_of cut_build)).
Example C78_ex : ddone full_build = true /\ dh_next (dheap_of full_build) = 10 /\ dthrown cut_build = Some DBadAlloc /\
  dh_freed (dheap_of cut_build) = [9; 8; 7; 6; 5; 4; 3; 2; 1; 12; 11; 10] /\ dthrown odd_build = Some (DField 5) /\ zlen (dh_freed (dheap_of odd_build)) = 21.
Proof. vm_compute. repeat split; reflexivity. Qed.
Example C78_ex_reached : dmc_heap_reached 2 (dheap_of full_build).
Proof.
  apply (dmc_heap_build 2 dheap_new (fun _ => true) quiet all all); [constructor|]. left.
  assert (H : ddone full_build = true) by (vm_compute; reflexivity). destruct full_build; try discriminate. reflexivity.
Qed.
