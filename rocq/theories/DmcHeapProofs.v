(* Ownership of the dblocks of a DMC octree. *)
From Coq Require Import ZArith List Bool Lia Permutation.
From Verif Require Import Base DmcHeap.
Import ListNotations.
Local Open Scope Z_scope.

Inductive dtree := DL (a : Z) | DN (a p : Z) (cs : list dtree).
Definition daddr (t : dtree) : Z := match t with DL a => a | DN a _ _ => a end.
Fixpoint dblocks (t : dtree) : list Z := match t with DL _ => [] | DN _ p cs => p :: flat_map dblocks cs end.
Fixpoint dheight (t : dtree) : nat := match t with DL _ => 1%nat | DN _ _ cs => S (fold_right (fun c n => Nat.max (dheight c) n) O cs) end.
(* The nodes of the tree are in memory; with [W] the leaves have been given their data. *)
Fixpoint downs (W : bool) (N : Z -> option dnode) (t : dtree) : Prop :=
  match t with
  | DL a => exists n, N a = Some n /\ dn_children n = None /\ (W = true -> dn_written n = true)
  | DN a p cs => (exists v, N a = Some (DNode (Some p) v)) /\ map daddr cs = dnodes_of p /\
      fold_right (fun c P => downs W N c /\ P) True cs
  end.

Lemma dtree_ind' : forall P : dtree -> Prop, (forall a, P (DL a)) -> (forall a p cs, Forall P cs -> P (DN a p cs)) -> forall t, P t.
Proof. intros P H1 H2. fix IH 1. intros [a|a p cs]; [apply H1|]. apply H2. induction cs as [|c cs IHc]; constructor; [apply IH|exact IHc]. Qed.
Lemma downs_all : forall W N cs, fold_right (fun c P => downs W N c /\ P) True cs <-> Forall (downs W N) cs.
Proof. induction cs as [|c cs IH]; cbn; split; intros H; auto; [destruct H; constructor; tauto|inversion H; subst; tauto]. Qed.
Lemma dheight_all : forall cs n, (fold_right (fun c n => Nat.max (dheight c) n) O cs <= n)%nat <-> Forall (fun c => (dheight c <= n)%nat) cs.
Proof.
  induction cs as [|c cs IH]; intros n; cbn [fold_right]; split; intros H; auto; try lia.
  - constructor; [lia|]. apply IH. lia.
  - inversion H as [|? ? H1 H2]; subst. apply IH in H2. lia.
Qed.

Lemma node_block : forall p a, In a (dnodes_of p) <-> a / 8 = p.
Proof.
  intros p a. unfold dnodes_of. rewrite in_map_iff. split.
  - intros (i & <- & Hi). assert (0 <= i < 8) by (cbn in Hi; lia). rewrite Z.mul_comm, Z.div_add_l by lia. rewrite Z.div_small by lia. lia.
  - intros <-. exists (a mod 8). pose proof (Z.div_mod a 8 ltac:(lia)). pose proof (Z.mod_pos_bound a 8 ltac:(lia)). split; [lia|]. cbn. lia.
Qed.

(* Nodes of the tree lie in its dblocks, except for the root. *)
Lemma kid_block : forall W N a p cs c, downs W N (DN a p cs) -> In c cs -> daddr c / 8 = p.
Proof. intros W N a p cs c (_ & H & _) Hc. apply node_block. rewrite <- H. apply in_map. exact Hc. Qed.

Lemma downs_frame : forall W t N N', (forall b, b = daddr t \/ In (b / 8) (dblocks t) -> N' b = N b) -> downs W N t -> downs W N' t.
Proof.
  intros W. induction t as [a|a p cs IH] using dtree_ind'; intros N N' H Ho.
  - destruct Ho as (n & H1 & H2). exists n. split; [|exact H2]. rewrite H; auto.
  - pose proof Ho as ((v & H1) & H2 & H3). split; [exists v; rewrite H; auto|]. split; [exact H2|]. apply downs_all. apply downs_all in H3.
    rewrite Forall_forall in *. intros c Hc. apply (IH c Hc N); [|apply H3; exact Hc]. intros b Hb. apply H. right. cbn [dblocks].
    destruct Hb as [->|Hb]; [left; symmetry; apply (kid_block W N a p cs); assumption|right; apply in_flat_map; eauto].
Qed.

(* What collapse does: nothing outside of the node and the dblocks below it. *)
Definition gone (t : dtree) (h h' : dheap) : Prop :=
  (forall b, b <> daddr t -> ~ In (b / 8) (dblocks t) -> dh_nodes h' b = dh_nodes h b) /\
  (forall b, In (b / 8) (dblocks t) -> dh_nodes h' b = None) /\
  (exists n n', dh_nodes h (daddr t) = Some n /\ dh_nodes h' (daddr t) = Some n' /\ dn_children n' = None /\ dn_written n' = dn_written n) /\
  dh_next h' = dh_next h /\ Permutation (dh_freed h') (dh_freed h ++ dblocks t).

Definition separate (t : dtree) : Prop := NoDup (dblocks t) /\ ~ In (daddr t / 8) (dblocks t).

Lemma perm_step : forall (a b c d e : list Z), Permutation a (b ++ c) -> Permutation d (a ++ e) -> Permutation d (b ++ c ++ e).
Proof. intros. etransitivity; [eassumption|]. rewrite app_assoc. apply Permutation_app_tail. assumption. Qed.

Lemma NoDup_app_parts : forall (l r : list Z), NoDup (l ++ r) -> NoDup l /\ NoDup r /\ forall x, In x l -> ~ In x r.
Proof.
  induction l as [|x l IH]; intros r H; cbn in *; [split; [constructor|auto]|]. inversion H as [|? ? H1 H2]; subst. destruct (IH r H2) as (A & B & C).
  split; [constructor; auto; intros Q; apply H1, in_or_app; auto|]. split; [exact B|]. intros y [<-|Hy]; [intros Q; apply H1, in_or_app; auto|auto].
Qed.

(* The loop over the nodes of a block, in any order *)
Lemma collapse_list : forall W fuel ts h,
  (forall t h, In t ts -> downs W (dh_nodes h) t -> separate t -> (dheight t <= fuel)%nat -> exists h', dcollapse fuel (daddr t) h = DDone h' /\ gone t h h') ->
  Forall (downs W (dh_nodes h)) ts -> NoDup (map daddr ts) -> NoDup (flat_map dblocks ts) ->
  (forall t, In t ts -> ~ In (daddr t / 8) (flat_map dblocks ts)) -> Forall (fun t => (dheight t <= fuel)%nat) ts ->
  exists h', dfold (dcollapse fuel) (map daddr ts) h = DDone h' /\
    (forall b, ~ In b (map daddr ts) -> ~ In (b / 8) (flat_map dblocks ts) -> dh_nodes h' b = dh_nodes h b) /\
    (forall b, In (b / 8) (flat_map dblocks ts) -> dh_nodes h' b = None) /\
    (forall t, In t ts -> dh_nodes h' (daddr t) <> None) /\
    dh_next h' = dh_next h /\ Permutation (dh_freed h') (dh_freed h ++ flat_map dblocks ts).
Proof.
  intros W fuel. induction ts as [|t ts IH]; intros h Hc Ho Ha Hb Hs Hh.
  - exists h. split; [reflexivity|]. split; [auto|]. split; [intros b []|]. split; [intros t []|]. split; [reflexivity|]. cbn. rewrite app_nil_r. reflexivity.
  - cbn [map flat_map] in *. inversion Ho as [|? ? O1 O2]; subst. inversion Ha as [|? ? A1 A2]; subst. inversion Hh as [|? ? H1 H2]; subst.
    destruct (NoDup_app_parts _ _ Hb) as (B1 & B2 & B3).
    assert (S1 : separate t). { split; [exact B1|]. intros Q. apply (Hs t (or_introl eq_refl)). apply in_or_app. auto. }
    destruct (Hc t h (or_introl eq_refl) O1 S1 H1) as (h1 & E1 & G1 & G2 & (n & n' & G3 & G4 & G5 & _) & G6 & G7).
    assert (O2' : Forall (downs W (dh_nodes h1)) ts).
    { rewrite Forall_forall in *. intros c Hcs. apply (downs_frame W c (dh_nodes h)); [|apply O2; exact Hcs]. intros b Hbb. apply G1.
      - intros ->. destruct Hbb as [Q|Q]; [apply A1; rewrite Q; apply in_map; exact Hcs|].
        apply (Hs t (or_introl eq_refl)). apply in_or_app. right. apply in_flat_map. eauto.
      - intros Q. destruct Hbb as [->|Qb].
        + apply (Hs c (or_intror Hcs)). apply in_or_app. auto.
        + apply (B3 _ Q). apply in_flat_map. eauto. }
    destruct (IH h1) as (h' & E' & I1 & I2 & I3 & I4 & I5); auto.
    { intros t' h'' Ht'. apply Hc. right. exact Ht'. }
    { intros t' Ht' Q. apply (Hs t' (or_intror Ht')). apply in_or_app. auto. }
    exists h'. cbn [dfold]. split; [unfold dfold; cbn; rewrite E1; exact E'|]. split; [|split; [|split; [|split]]].
    + intros b N1 N2. rewrite I1; [apply G1|..].
      * intros ->. apply N1. left. reflexivity.
      * intros Q. apply N2, in_or_app. auto.
      * intros Q. apply N1. right. exact Q.
      * intros Q. apply N2, in_or_app. auto.
    + intros b Q. destruct (in_dec Z.eq_dec (b / 8) (flat_map dblocks ts)) as [D|D]; [apply I2; exact D|].
      apply in_app_or in Q as [Q|Q]; [|contradiction]. rewrite I1; [apply G2; exact Q| |exact D].
      intros M. apply in_map_iff in M as (c & Ec & Hcs). apply (Hs c (or_intror Hcs)). rewrite Ec. apply in_or_app. auto.
    + intros t' [<-|Ht']; [|apply I3; exact Ht']. rewrite I1; [congruence|exact A1|]. intros Q. apply (Hs t (or_introl eq_refl)). apply in_or_app. auto.
    + congruence.
    + eapply perm_step; eassumption.
Qed.

Lemma flat_map_perm : forall (f : dtree -> list Z) l l', Permutation l l' -> Permutation (flat_map f l) (flat_map f l').
Proof. intros. apply Permutation_flat_map. assumption. Qed.

Lemma nodes_nodup : forall p, NoDup (dnodes_of p).
Proof. intros p. unfold dnodes_of. apply FinFun.Injective_map_NoDup; [intros x y H; lia|]. cbn. repeat (constructor; [cbn; lia|]). constructor. Qed.

Lemma collapse_gone : forall W fuel t h, downs W (dh_nodes h) t -> separate t -> (dheight t <= fuel)%nat ->
  exists h', dcollapse fuel (daddr t) h = DDone h' /\ gone t h h'.
Proof.
  intros W. induction fuel as [|fuel IH]; intros t h Ho [Hd Hx] Hh; [destruct t; cbn in Hh; lia|].
  destruct t as [a|a p cs].
  - destruct Ho as (n & H1 & H2 & _). exists (dwrite h a (DNode None (dn_written n))). cbn [dcollapse daddr]. unfold dread. rewrite H1, H2. cbn [dbind]. rewrite H1. split; [reflexivity|].
    cbn [gone dwrite dh_nodes dh_next dh_freed daddr dblocks]. split; [intros b Hb _; cbn; destruct (Z.eqb_spec b a); [contradiction|reflexivity]|]. split; [intros b []|]. split; [|split; [reflexivity|cbn; rewrite app_nil_r; reflexivity]].
    exists n, (DNode None (dn_written n)). cbn. rewrite Z.eqb_refl. auto.
  - pose proof Ho as ((v & H1) & H2 & H3). cbn [daddr dblocks] in *. cbn [dheight] in Hh. apply le_S_n in Hh. apply dheight_all in Hh. apply downs_all in H3.
    inversion Hd as [|? ? Hp Hd']; subst.
    assert (Pr : Permutation (flat_map dblocks (rev cs)) (flat_map dblocks cs)) by (apply flat_map_perm, Permutation_sym, Permutation_rev).
    destruct (collapse_list W fuel (rev cs) h) as (h1 & E1 & I1 & I2 & I3 & I4 & I5).
    + intros t h' Ht Ho' Hs' Hh'. destruct (IH t h' Ho' Hs' Hh') as (h'' & E & G). eauto.
    + apply Forall_rev. exact H3.
    + rewrite map_rev, H2. apply NoDup_rev, nodes_nodup.
    + eapply Permutation_NoDup; [apply Permutation_sym; exact Pr|exact Hd'].
    + intros t Ht Q. apply in_rev in Ht. apply (Permutation_in _ Pr) in Q. rewrite (kid_block _ _ _ _ _ _ Ho Ht) in Q. contradiction.
    + apply Forall_rev. exact Hh.
    + assert (Na : dh_nodes h1 a = Some (DNode (Some p) v)).
      { rewrite I1; [exact H1| |].
        - rewrite map_rev, H2. intros Q. apply in_rev, node_block in Q. apply Hx. left. auto.
        - intros Q. apply (Permutation_in _ Pr) in Q. apply Hx. right. exact Q. }
      assert (N0 : dh_nodes h1 (8 * p) <> None).
      { assert (Q : In (8 * p) (map daddr cs)) by (rewrite H2; apply node_block; rewrite Z.mul_comm; apply Z.div_mul; lia).
        apply in_map_iff in Q as (c & Ec & Hc). rewrite <- Ec. apply I3. apply in_rev in Hc. exact Hc. }
      exists (dwrite (dremove h1 p) a (DNode None v)).
      cbn [dcollapse daddr]. unfold dread at 1. rewrite H1. cbn [dn_children].
      replace (rev (dnodes_of p)) with (map daddr (rev cs)) by (rewrite map_rev, H2; reflexivity). rewrite E1. cbn [dbind].
      unfold dread at 1. destruct (dh_nodes h1 (8 * p)) as [n0|]; [|congruence]. cbn [dbind].
      assert (Nr : dh_nodes (dremove h1 p) a = Some (DNode (Some p) v)).
      { cbn [dremove dh_nodes]. destruct (Z.eqb_spec (a / 8) p) as [Q|_]; [|exact Na]. exfalso. apply Hx. left. auto. }
      unfold dread. rewrite Nr. cbn [dn_written]. split; [reflexivity|].
      unfold gone. cbn [dwrite dremove dh_nodes dh_next dh_freed daddr dblocks].
      split; [|split; [|split; [|split]]].
      * intros b Hb Hn. destruct (Z.eqb_spec b a); [congruence|]. destruct (Z.eqb_spec (b / 8) p) as [Q|Q]; [exfalso; apply Hn; left; auto|].
        apply I1.
        -- rewrite map_rev, H2. intros M. apply in_rev, node_block in M. congruence.
        -- intros M. apply Hn. right. apply (Permutation_in _ Pr). exact M.
      * intros b Hb. destruct (Z.eqb_spec b a) as [->|_]; [exfalso; apply Hx; exact Hb|]. destruct (Z.eqb_spec (b / 8) p) as [Q|Q]; [reflexivity|].
        apply I2. apply (Permutation_in _ (Permutation_sym Pr)). destruct Hb as [Hb|Hb]; [congruence|exact Hb].
      * exists (DNode (Some p) v), (DNode None v). rewrite Z.eqb_refl. auto.
      * exact I4.
      * etransitivity; [apply Permutation_app_tail; exact I5|]. rewrite <- app_assoc. apply Permutation_app_head.
        etransitivity; [apply Permutation_app_comm|]. cbn [app]. constructor. exact Pr.
Qed.

(* Every node of a block of the tree exists. *)
Lemma downs_live : forall W t N b, downs W N t -> b = daddr t \/ In (b / 8) (dblocks t) -> N b <> None.
Proof.
  intros W. induction t as [a|a p cs IH] using dtree_ind'; intros N b Ho Hb.
  - destruct Ho as (n & H1 & _). destruct Hb as [->|[]]. cbn. congruence.
  - destruct Ho as ((v & H1) & H2 & H3). apply downs_all in H3. rewrite Forall_forall in *. cbn [daddr dblocks] in Hb.
    destruct Hb as [->|[Hb|Hb]]; [congruence| |].
    + assert (Q : In b (map daddr cs)) by (rewrite H2; apply node_block; auto). apply in_map_iff in Q as (c & Ec & Hc).
      apply (IH c Hc); [apply H3; exact Hc|]. left. auto.
    + apply in_flat_map in Hb as (c & Hc & Hb). apply (IH c Hc); [apply H3; exact Hc|]. right. exact Hb.
Qed.


Lemma downs_weak : forall W t N, downs true N t -> downs W N t.
Proof.
  intros W. induction t as [a|a p cs IH] using dtree_ind'; intros N H.
  - destruct H as (n & H1 & H2 & H3). exists n. auto.
  - destruct H as (H1 & H2 & H3). split; [exact H1|]. split; [exact H2|]. apply downs_all. apply downs_all in H3. rewrite Forall_forall in *. intros c Hc. apply (IH c Hc). auto.
Qed.

(* The data of all leaves is there. *)
Lemma downs_written : forall t N b n, downs true N t -> b = daddr t \/ In (b / 8) (dblocks t) -> N b = Some n -> dn_children n = None -> dn_written n = true.
Proof.
  induction t as [a|a p cs IH] using dtree_ind'; intros N b n Ho Hb Hn Hl.
  - destruct Ho as (n' & H1 & _ & H2). destruct Hb as [->|[]]. cbn in Hn. rewrite H1 in Hn. injection Hn as <-. auto.
  - destruct Ho as ((v & H1) & H2 & H3). apply downs_all in H3. rewrite Forall_forall in *. cbn [daddr dblocks] in Hb.
    destruct Hb as [->|[Hb|Hb]]; [rewrite H1 in Hn; injection Hn as <-; discriminate| |].
    + assert (Q : In b (map daddr cs)) by (rewrite H2; apply node_block; auto). apply in_map_iff in Q as (c & Ec & Hc).
      apply (IH c Hc N b n); auto.
    + apply in_flat_map in Hb as (c & Hc & Hb). apply (IH c Hc N b n); auto.
Qed.

(* What holds after returning and after an exception *)
Definition dpost (r : dresult) (D : dheap -> Prop) (F : dexn -> dheap -> Prop) : Prop :=
  match r with DDone h => D h | DThrown x h => F x h | _ => False end.

Lemma dbind_post : forall r f D F D', dpost r D' F -> (forall h, D' h -> dpost (f h) D F) -> dpost (dbind r f) D F.
Proof. intros [h|x h| |] f D F D' H H1; cbn in *; auto. Qed.

Lemma dfold_post : forall (P : list Z -> dheap -> Prop) (F : dexn -> dheap -> Prop) f,
  (forall i l h, P (i :: l) h -> dpost (f i h) (P l) F) -> forall l h, P l h -> dpost (dfold f l h) (P []) F.
Proof.
  intros P F f H. induction l as [|i l IH]; intros h Hp; [exact Hp|].
  change (dfold f (i :: l) h) with (dbind (f i h) (dfold f l)). eapply dbind_post; [apply H; exact Hp|exact IH].
Qed.

(* Memory after work on the node [a] and below *)
Definition built (W : bool) (a : Z) (levels : nat) (h h' : dheap) (t : dtree) : Prop :=
  daddr t = a /\ downs W (dh_nodes h') t /\ (dheight t <= S levels)%nat /\
  NoDup (dblocks t) /\ (forall p, In p (dblocks t) <-> dh_next h <= p < dh_next h') /\ dh_next h <= dh_next h' /\
  dh_freed h' = dh_freed h /\
  (forall b, b <> a -> b / 8 < dh_next h -> dh_nodes h' b = dh_nodes h b) /\
  (forall b, dh_next h' <= b / 8 -> dh_nodes h' b = None).

(* The nodes of the new block [p] with numbers in [l] are still to be built. *)
Definition kids_state (W : bool) (a p : Z) (v : bool) (levels : nat) (h : dheap) (l : list Z) (h' : dheap) : Prop :=
  exists done, dh_nodes h' a = Some (DNode (Some p) v) /\ map daddr done ++ map (fun i => 8 * p + i) l = dnodes_of p /\
    Forall (downs W (dh_nodes h')) done /\ Forall (fun t => (dheight t <= S levels)%nat) done /\
    (forall i, In i l -> dh_nodes h' (8 * p + i) = Some dfresh) /\
    NoDup (flat_map dblocks done) /\ (forall q, In q (flat_map dblocks done) <-> p + 1 <= q < dh_next h') /\ p < dh_next h' /\
    dh_freed h' = dh_freed h /\
    (forall b, b <> a -> b / 8 < p -> dh_nodes h' b = dh_nodes h b) /\
    (forall b, dh_next h' <= b / 8 -> dh_nodes h' b = None).

Lemma flat_DL : forall l, flat_map dblocks (map DL l) = [].
Proof. induction l; cbn; auto. Qed.
Lemma NoDup_app_join : forall (l r : list Z), NoDup l -> NoDup r -> (forall x, In x l -> ~ In x r) -> NoDup (l ++ r).
Proof.
  induction l as [|x l IH]; intros r H1 H2 H3; cbn; auto. inversion H1; subst. constructor.
  - intros Q. apply in_app_or in Q as [Q|Q]; [contradiction|]. apply (H3 x); cbn; auto.
  - apply IH; auto. intros y Hy. apply H3. right. exact Hy.
Qed.

Lemma kids_tree : forall W a p v levels h l h', W = false \/ l = [] -> dh_next h = p -> kids_state W a p v levels h l h' ->
  exists t, built W a (S levels) h h' t.
Proof.
  intros W a p v levels h l h' Hw Hp (done & K1 & K2 & K3 & K4 & K5 & K6 & K7 & K8 & K9 & K10 & K11).
  exists (DN a p (done ++ map DL (map (fun i => 8 * p + i) l))).
  assert (Eb : flat_map dblocks (done ++ map DL (map (fun i => 8 * p + i) l)) = flat_map dblocks done) by (rewrite flat_map_app, flat_DL, app_nil_r; reflexivity).
  split; [reflexivity|]. split; [|split; [|split; [|split; [|split; [|split; [|split]]]]]].
  - split; [eauto|]. split.
    + rewrite map_app, !map_map. exact K2.
    + apply downs_all. apply Forall_app. split; [exact K3|]. apply Forall_forall. intros t Ht. apply in_map_iff in Ht as (x & <- & Hx).
      apply in_map_iff in Hx as (i & <- & Hi). exists dfresh. split; [apply K5; exact Hi|]. split; [reflexivity|]. destruct Hw as [-> | ->]; [discriminate|destruct Hi].
  - cbn [dheight]. apply le_n_S. apply dheight_all. apply Forall_app. split; [exact K4|]. apply Forall_forall. intros t Ht. apply in_map_iff in Ht as (x & <- & _). cbn. lia.
  - cbn [dblocks]. rewrite Eb. constructor; [|exact K6]. intros Q. apply K7 in Q. lia.
  - intros q. cbn [dblocks]. rewrite Eb. cbn [In]. rewrite K7. lia.
  - lia.
  - exact K9.
  - intros b Hb Hlt. apply K10; [exact Hb|lia].
  - exact K11.
Qed.

Lemma built_write : forall W a n levels h h' t, built W a levels (dwrite h a n) h' t -> built W a levels h h' t.
Proof.
  intros W a n levels h h' t (B1 & B2 & B3 & B4 & B5 & B6 & B7 & B8 & B9). cbn [dwrite dh_next dh_freed dh_nodes] in *.
  split; [exact B1|]. split; [exact B2|]. split; [exact B3|]. split; [exact B4|]. split; [exact B5|]. split; [exact B6|]. split; [exact B7|]. split; [|exact B9].
  intros b Hb Hlt. rewrite B8 by assumption. destruct (Z.eqb_spec b a); [contradiction|reflexivity].
Qed.

Section Build.
Variable works : Z -> bool.
Variable probe : list Z -> option dexn.
Variables splits tried : list Z -> bool.

(* Why the exception was thrown *)
Definition cause (x : dexn) (h : dheap) : Prop :=
  x = DBadAlloc /\ (exists q, dh_next h <= q /\ works q = false) \/ exists path, probe path = Some x.

Lemma built_leaf : forall W a n levels h, dh_nodes h a = Some n -> dn_children n = None -> (W = true -> dn_written n = true) -> a / 8 < dh_next h ->
  (forall b, dh_next h <= b / 8 -> dh_nodes h b = None) -> built W a levels h h (DL a).
Proof.
  intros W a n levels h H1 H2 Hw H3 H4. split; [reflexivity|]. split; [exists n; auto|]. split; [cbn; lia|].
  split; [constructor|]. split; [intros p; cbn; lia|]. split; [lia|]. auto.
Qed.

Lemma generate_ok : forall a n levels h, dh_nodes h a = Some n -> dn_children n = None -> a / 8 < dh_next h ->
  (forall b, dh_next h <= b / 8 -> dh_nodes h b = None) ->
  dgenerate a h = DDone (dwrite h a (DNode None true)) /\ built true a levels h (dwrite h a (DNode None true)) (DL a).
Proof.
  intros a n levels h H1 H2 H3 H4. split; [unfold dgenerate, dread; rewrite H1, H2; reflexivity|].
  apply (built_write true a (DNode None true)). apply (built_leaf true a (DNode None true)); cbn [dwrite dh_nodes dh_next]; auto.
  - rewrite Z.eqb_refl. reflexivity.
  - intros b Hb. destruct (Z.eqb_spec b a) as [->|]; [lia|]. auto.
Qed.

Lemma build_ok : forall levels a path h n, dh_nodes h a = Some n -> dn_children n = None -> a / 8 < dh_next h ->
  (forall b, dh_next h <= b / 8 -> dh_nodes h b = None) ->
  dpost (dbuild_node works probe splits tried levels a path h)
    (fun h' => exists t, built true a levels h h' t)
    (fun x h' => (exists t, built false a levels h h' t) /\ cause x h).
Proof.
  induction levels as [|levels IH]; intros a path h n H1 H2 H3 H4; cbn [dbuild_node]; (destruct (probe path) as [x|] eqn:Ep;
    [split; [exists (DL a); eapply built_leaf; eauto; discriminate|right; eauto]|]).
  - destruct (generate_ok a n 0 h H1 H2 H3 H4) as (-> & B). cbn [dpost]. eauto.
  - destruct (splits path); cycle 1.
    { destruct (generate_ok a n (S levels) h H1 H2 H3 H4) as (-> & B). cbn [dpost]. eauto. }
    assert (Main : forall h n, dh_nodes h a = Some n -> dn_children n = None -> a / 8 < dh_next h -> (forall b, dh_next h <= b / 8 -> dh_nodes h b = None) ->
      dpost (dbind (dsubdivide works a h) (dfold (fun i h => dchild a i h (fun c => dbuild_node works probe splits tried levels c (path ++ [i]) h)) (zseq 0 8)))
        (fun h' => exists t, built true a (S levels) h h' t) (fun x h' => (exists t, built false a (S levels) h h' t) /\ cause x h)); cycle 1.
    { destruct (tried path); [|exact (Main h n H1 H2 H3 H4)]. destruct (generate_ok a n 0 h H1 H2 H3 H4) as (-> & _). cbn [dbind].
      specialize (Main (dwrite h a (DNode None true)) (DNode None true)). cbn [dwrite dh_nodes dh_next dn_children] in Main. rewrite Z.eqb_refl in Main.
      specialize (Main eq_refl eq_refl H3). match type of Main with ?A -> _ => assert (X : A) by (intros b Hb; destruct (Z.eqb_spec b a) as [->|]; [lia|auto]) end. specialize (Main X).
      change (DHeap (fun b => if b =? a then Some (DNode None true) else dh_nodes h b) (dh_next h) (dh_freed h)) with (dwrite h a (DNode None true)) in Main.
      unfold dpost in *. destruct (dbind _ _) as [h2|x h2| |]; try contradiction.
      - destruct Main as (t & B). exists t. eapply built_write; exact B.
      - destruct Main as ((t & B) & C). split; [exists t; eapply built_write; exact B|exact C]. }
    clear h n H1 H2 H3 H4 Ep. intros h n H1 H2 H3 H4.
    unfold dsubdivide, dread at 1. rewrite H1, H2. destruct (works (dh_next h)) eqn:Ew; cycle 1.
    { cbn [dbind dpost]. split; [exists (DL a); eapply built_leaf; eauto; discriminate|]. left. split; [reflexivity|]. exists (dh_next h). split; [lia|exact Ew]. }
    cbn [dbind]. set (p := dh_next h). set (v := dn_written n).
    assert (Pos : forall i, In i (zseq 0 8) -> (8 * p + i) / 8 = p) by (intros i Hi; apply node_block; unfold dnodes_of; apply in_map; exact Hi).
    assert (Init : kids_state true a p v levels h (zseq 0 8) (dwrite (dcreate h) a (DNode (Some p) v))).
    { exists []. cbn [dwrite dcreate dh_nodes dh_next dh_freed map app flat_map]. split; [rewrite Z.eqb_refl; reflexivity|]. split; [reflexivity|]. split; [constructor|]. split; [constructor|].
      split. { intros i Hi. pose proof (Pos i Hi) as E. destruct (Z.eqb_spec (8 * p + i) a) as [Q|_]; [exfalso; rewrite Q in E; unfold p in *; lia|]. rewrite E. unfold p. rewrite Z.eqb_refl. reflexivity. }
      split; [constructor|]. split; [intros q; unfold p; cbn; lia|]. split; [unfold p; lia|]. split; [reflexivity|]. split.
      - intros b Hb Hlt. destruct (Z.eqb_spec b a); [congruence|]. destruct (Z.eqb_spec (b / 8) (dh_next h)); [unfold p in *; lia|reflexivity].
      - intros b Hb. destruct (Z.eqb_spec b a) as [->|]; [unfold p in *; lia|]. destruct (Z.eqb_spec (b / 8) (dh_next h)); [lia|]. apply H4. lia. }
    set (h0 := dwrite (dcreate h) a (DNode (Some p) v)) in *.
    pose (P := fun l h' => incl l (zseq 0 8) /\ NoDup l /\ kids_state true a p v levels h l h').
    assert (Loop : dpost (dfold (fun i h => dchild a i h (fun c => dbuild_node works probe splits tried levels c (path ++ [i]) h)) (zseq 0 8) h0)
      (P []) (fun x h' => (exists l, kids_state false a p v levels h l h') /\ cause x h)).
    { apply dfold_post with (P := P).
      2:{ split; [apply incl_refl|]. split; [|exact Init]. cbn. repeat (constructor; [cbn; lia|]). constructor. }
      intros i l h1 (Hl & Hnd & done & K1 & K2 & K3 & K4 & K5 & K6 & K7 & K8 & K9 & K10 & K11).
      unfold dchild, dread. rewrite K1. cbn [dn_children].
      assert (Hi : (8 * p + i) / 8 = p) by (apply Pos, Hl; left; reflexivity).
      assert (Step : forall W h2 t, built W (8 * p + i) levels h1 h2 t -> kids_state W a p v levels h l h2).
      { intros W h2 t (B1 & B2 & B3 & B4 & B5 & B6 & B7 & B8 & B9). exists (done ++ [t]).
        assert (Nd : NoDup (map daddr done ++ map (fun i => 8 * p + i) (i :: l))) by (rewrite K2; apply nodes_nodup).
        split. { rewrite B8; [exact K1| |unfold p in *; lia]. intros Q. rewrite Q in H3. unfold p in *. lia. }
        split. { rewrite map_app. cbn [map]. rewrite B1, <- app_assoc. exact K2. }
        split. { apply Forall_app. split; [|constructor; [exact B2|constructor]]. rewrite Forall_forall in *. intros c Hc. apply downs_weak.
          apply (downs_frame true c (dh_nodes h1)); [|apply K3; exact Hc]. intros b Hb.
          assert (Hca : In (daddr c) (map daddr done)) by (apply in_map; exact Hc).
          assert (Hcb : daddr c / 8 = p) by (apply node_block; rewrite <- K2; apply in_or_app; auto).
          apply B8.
          - intros ->. destruct Hb as [Q|Q].
            + cbn [map] in Nd. destruct (NoDup_app_parts _ _ Nd) as (_ & _ & Ds). apply (Ds _ Hca). rewrite Q. left. reflexivity.
            + rewrite Hi in Q. assert (In p (flat_map dblocks done)) by (apply in_flat_map; eauto). apply K7 in H. lia.
          - destruct Hb as [->|Q]; [lia|]. assert (In (b / 8) (flat_map dblocks done)) by (apply in_flat_map; eauto). apply K7 in H. lia. }
        split. { apply Forall_app. split; [exact K4|]. constructor; [exact B3|constructor]. }
        split. { intros j Hj. rewrite B8; [apply K5; right; exact Hj| |].
          - intros Q. inversion Hnd; subst. assert (i = j) by lia. subst. contradiction.
          - rewrite Pos by (apply Hl; right; exact Hj). exact K8. }
        rewrite flat_map_app. cbn [flat_map]. rewrite app_nil_r.
        split. { apply NoDup_app_join; auto. intros x Hx Q. apply K7 in Hx. apply B5 in Q. lia. }
        split. { intros q. rewrite in_app_iff, K7, B5. lia. }
        split; [lia|]. split; [congruence|]. split; [|exact B9].
        intros b Hb Hlt. rewrite B8; [apply K10; assumption| |lia]. intros ->. lia. }
      specialize (IH (8 * p + i) (path ++ [i]) h1 dfresh (K5 i (or_introl eq_refl)) eq_refl ltac:(lia) K11).
      unfold dpost in *. destruct (dbuild_node works probe splits tried levels (8 * p + i) (path ++ [i]) h1) as [h2|x h2| |]; try contradiction.
      - destruct IH as (t & B). split; [intros x Hx; apply Hl; right; exact Hx|]. split; [inversion Hnd; assumption|]. eapply Step; exact B.
      - destruct IH as ((t & B) & C). split; [exists l; eapply Step; exact B|]. destruct C as [(C1 & q & C2 & C3)|C]; [|right; exact C].
        left. split; [exact C1|]. exists q. split; [unfold p in *; lia|exact C3]. }
    unfold dpost in *.
    destruct (dfold (fun i h => dchild a i h (fun c => dbuild_node works probe splits tried levels c (path ++ [i]) h)) (zseq 0 8) h0) as [h2|x h2| |]; try contradiction.
    + destruct Loop as (_ & _ & Hk). eapply kids_tree; [right; reflexivity|reflexivity|exact Hk].
    + destruct Loop as ((l & Hk) & C). split; [|exact C]. eapply kids_tree; [left; reflexivity|reflexivity|exact Hk].
Qed.
End Build.
