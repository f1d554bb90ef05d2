(* Ownership of the blocks of an MDC octree. *)
From Coq Require Import ZArith List Bool Lia Permutation.
From Verif Require Import Base MdcHeap.
Import ListNotations.
Local Open Scope Z_scope.

Inductive btree := TL (a : Z) | TN (a p : Z) (cs : list btree).
Definition baddr (t : btree) : Z := match t with TL a => a | TN a _ _ => a end.
Fixpoint blocks (t : btree) : list Z := match t with TL _ => [] | TN _ p cs => p :: flat_map blocks cs end.
Fixpoint bheight (t : btree) : nat := match t with TL _ => 1%nat | TN _ _ cs => S (fold_right (fun c n => Nat.max (bheight c) n) O cs) end.
Fixpoint bowns (N : Z -> option bnode) (t : btree) : Prop :=
  match t with
  | TL a => exists n, N a = Some n /\ bn_leaf n = true
  | TN a p cs => (exists v, N a = Some (BNode false (BPtr p) v)) /\ map baddr cs = nodes_of p /\
      fold_right (fun c P => bowns N c /\ P) True cs
  end.

Lemma btree_ind' : forall P : btree -> Prop, (forall a, P (TL a)) -> (forall a p cs, Forall P cs -> P (TN a p cs)) -> forall t, P t.
Proof. intros P H1 H2. fix IH 1. intros [a|a p cs]; [apply H1|]. apply H2. induction cs as [|c cs IHc]; constructor; [apply IH|exact IHc]. Qed.
Lemma bowns_all : forall N cs, fold_right (fun c P => bowns N c /\ P) True cs <-> Forall (bowns N) cs.
Proof. induction cs as [|c cs IH]; cbn; split; intros H; auto; [destruct H; constructor; tauto|inversion H; subst; tauto]. Qed.
Lemma bheight_all : forall cs n, (fold_right (fun c n => Nat.max (bheight c) n) O cs <= n)%nat <-> Forall (fun c => (bheight c <= n)%nat) cs.
Proof.
  induction cs as [|c cs IH]; intros n; cbn [fold_right]; split; intros H; auto; try lia.
  - constructor; [lia|]. apply IH. lia.
  - inversion H as [|? ? H1 H2]; subst. apply IH in H2. lia.
Qed.

Lemma node_block : forall p a, In a (nodes_of p) <-> a / 8 = p.
Proof.
  intros p a. unfold nodes_of. rewrite in_map_iff. split.
  - intros (i & <- & Hi). assert (0 <= i < 8) by (cbn in Hi; lia). rewrite Z.mul_comm, Z.div_add_l by lia. rewrite Z.div_small by lia. lia.
  - intros <-. exists (a mod 8). pose proof (Z.div_mod a 8 ltac:(lia)). pose proof (Z.mod_pos_bound a 8 ltac:(lia)). split; [lia|]. cbn. lia.
Qed.

(* Nodes of the tree lie in its blocks, except for the root. *)
Lemma kid_block : forall N a p cs c, bowns N (TN a p cs) -> In c cs -> baddr c / 8 = p.
Proof. intros N a p cs c (_ & H & _) Hc. apply node_block. rewrite <- H. apply in_map. exact Hc. Qed.

Lemma bowns_frame : forall t N N', (forall b, b = baddr t \/ In (b / 8) (blocks t) -> N' b = N b) -> bowns N t -> bowns N' t.
Proof.
  induction t as [a|a p cs IH] using btree_ind'; intros N N' H Ho.
  - destruct Ho as (n & H1 & H2). exists n. split; [|exact H2]. rewrite H; auto.
  - pose proof Ho as ((v & H1) & H2 & H3). split; [exists v; rewrite H; auto|]. split; [exact H2|]. apply bowns_all. apply bowns_all in H3.
    rewrite Forall_forall in *. intros c Hc. apply (IH c Hc N); [|apply H3; exact Hc]. intros b Hb. apply H. right. cbn [blocks].
    destruct Hb as [->|Hb]; [left; symmetry; apply (kid_block N a p cs); assumption|right; apply in_flat_map; eauto].
Qed.

(* What collapse does: nothing outside of the node and the blocks below it. *)
Definition gone (t : btree) (h h' : bheap) : Prop :=
  (forall b, b <> baddr t -> ~ In (b / 8) (blocks t) -> bh_nodes h' b = bh_nodes h b) /\
  (forall b, In (b / 8) (blocks t) -> bh_nodes h' b = None) /\
  (exists n n', bh_nodes h (baddr t) = Some n /\ bh_nodes h' (baddr t) = Some n' /\ bn_leaf n' = true /\ bn_verts n' = bn_verts n) /\
  bh_next h' = bh_next h /\ Permutation (bh_freed h') (bh_freed h ++ blocks t).

Definition separate (t : btree) : Prop := NoDup (blocks t) /\ ~ In (baddr t / 8) (blocks t).

Lemma perm_step : forall (a b c d e : list Z), Permutation a (b ++ c) -> Permutation d (a ++ e) -> Permutation d (b ++ c ++ e).
Proof. intros. etransitivity; [eassumption|]. rewrite app_assoc. apply Permutation_app_tail. assumption. Qed.

Lemma NoDup_app_parts : forall (l r : list Z), NoDup (l ++ r) -> NoDup l /\ NoDup r /\ forall x, In x l -> ~ In x r.
Proof.
  induction l as [|x l IH]; intros r H; cbn in *; [split; [constructor|auto]|]. inversion H as [|? ? H1 H2]; subst. destruct (IH r H2) as (A & B & C).
  split; [constructor; auto; intros Q; apply H1, in_or_app; auto|]. split; [exact B|]. intros y [<-|Hy]; [intros Q; apply H1, in_or_app; auto|auto].
Qed.

(* The loop over the nodes of a block, in any order *)
Lemma collapse_list : forall fuel ts h,
  (forall t h, In t ts -> bowns (bh_nodes h) t -> separate t -> (bheight t <= fuel)%nat -> exists h', bcollapse fuel (baddr t) h = BDone h' /\ gone t h h') ->
  Forall (bowns (bh_nodes h)) ts -> NoDup (map baddr ts) -> NoDup (flat_map blocks ts) ->
  (forall t, In t ts -> ~ In (baddr t / 8) (flat_map blocks ts)) -> Forall (fun t => (bheight t <= fuel)%nat) ts ->
  exists h', bfold (bcollapse fuel) (map baddr ts) h = BDone h' /\
    (forall b, ~ In b (map baddr ts) -> ~ In (b / 8) (flat_map blocks ts) -> bh_nodes h' b = bh_nodes h b) /\
    (forall b, In (b / 8) (flat_map blocks ts) -> bh_nodes h' b = None) /\
    (forall t, In t ts -> bh_nodes h' (baddr t) <> None) /\
    bh_next h' = bh_next h /\ Permutation (bh_freed h') (bh_freed h ++ flat_map blocks ts).
Proof.
  intros fuel. induction ts as [|t ts IH]; intros h Hc Ho Ha Hb Hs Hh.
  - exists h. split; [reflexivity|]. split; [auto|]. split; [intros b []|]. split; [intros t []|]. split; [reflexivity|]. cbn. rewrite app_nil_r. reflexivity.
  - cbn [map flat_map] in *. inversion Ho as [|? ? O1 O2]; subst. inversion Ha as [|? ? A1 A2]; subst. inversion Hh as [|? ? H1 H2]; subst.
    destruct (NoDup_app_parts _ _ Hb) as (B1 & B2 & B3).
    assert (S1 : separate t). { split; [exact B1|]. intros Q. apply (Hs t (or_introl eq_refl)). apply in_or_app. auto. }
    destruct (Hc t h (or_introl eq_refl) O1 S1 H1) as (h1 & E1 & G1 & G2 & (n & n' & G3 & G4 & G5 & _) & G6 & G7).
    assert (O2' : Forall (bowns (bh_nodes h1)) ts).
    { rewrite Forall_forall in *. intros c Hcs. apply (bowns_frame c (bh_nodes h)); [|apply O2; exact Hcs]. intros b Hbb. apply G1.
      - intros ->. destruct Hbb as [Q|Q]; [apply A1; rewrite Q; apply in_map; exact Hcs|].
        apply (Hs t (or_introl eq_refl)). apply in_or_app. right. apply in_flat_map. eauto.
      - intros Q. destruct Hbb as [->|Qb].
        + apply (Hs c (or_intror Hcs)). apply in_or_app. auto.
        + apply (B3 _ Q). apply in_flat_map. eauto. }
    destruct (IH h1) as (h' & E' & I1 & I2 & I3 & I4 & I5); auto.
    { intros t' h'' Ht'. apply Hc. right. exact Ht'. }
    { intros t' Ht' Q. apply (Hs t' (or_intror Ht')). apply in_or_app. auto. }
    exists h'. cbn [bfold]. split; [unfold bfold; cbn; rewrite E1; exact E'|]. split; [|split; [|split; [|split]]].
    + intros b N1 N2. rewrite I1; [apply G1|..].
      * intros ->. apply N1. left. reflexivity.
      * intros Q. apply N2, in_or_app. auto.
      * intros Q. apply N1. right. exact Q.
      * intros Q. apply N2, in_or_app. auto.
    + intros b Q. destruct (in_dec Z.eq_dec (b / 8) (flat_map blocks ts)) as [D|D]; [apply I2; exact D|].
      apply in_app_or in Q as [Q|Q]; [|contradiction]. rewrite I1; [apply G2; exact Q| |exact D].
      intros M. apply in_map_iff in M as (c & Ec & Hcs). apply (Hs c (or_intror Hcs)). rewrite Ec. apply in_or_app. auto.
    + intros t' [<-|Ht']; [|apply I3; exact Ht']. rewrite I1; [congruence|exact A1|]. intros Q. apply (Hs t (or_introl eq_refl)). apply in_or_app. auto.
    + congruence.
    + eapply perm_step; eassumption.
Qed.

Lemma flat_map_perm : forall (f : btree -> list Z) l l', Permutation l l' -> Permutation (flat_map f l) (flat_map f l').
Proof. intros. apply Permutation_flat_map. assumption. Qed.

Lemma nodes_nodup : forall p, NoDup (nodes_of p).
Proof. intros p. unfold nodes_of. apply FinFun.Injective_map_NoDup; [intros x y H; lia|]. cbn. repeat (constructor; [cbn; lia|]). constructor. Qed.

Lemma collapse_gone : forall fuel t h, bowns (bh_nodes h) t -> separate t -> (bheight t <= fuel)%nat ->
  exists h', bcollapse fuel (baddr t) h = BDone h' /\ gone t h h' /\ (forall a p cs, t = TN a p cs -> exists v, bh_nodes h' (baddr t) = Some (BNode true BNull v)).
Proof.
  induction fuel as [|fuel IH]; intros t h Ho [Hd Hx] Hh; [destruct t; cbn in Hh; lia|].
  destruct t as [a|a p cs].
  - destruct Ho as (n & H1 & H2). exists h. cbn [bcollapse baddr]. unfold bread. rewrite H1, H2. split; [reflexivity|]. split; [|discriminate].
    split; [auto|]. split; [intros b []|]. split; [exists n, n; auto|]. split; [reflexivity|]. cbn. rewrite app_nil_r. reflexivity.
  - pose proof Ho as ((v & H1) & H2 & H3). cbn [baddr blocks] in *. cbn [bheight] in Hh. apply le_S_n in Hh. apply bheight_all in Hh. apply bowns_all in H3.
    inversion Hd as [|? ? Hp Hd']; subst.
    assert (Pr : Permutation (flat_map blocks (rev cs)) (flat_map blocks cs)) by (apply flat_map_perm, Permutation_sym, Permutation_rev).
    destruct (collapse_list fuel (rev cs) h) as (h1 & E1 & I1 & I2 & I3 & I4 & I5).
    + intros t h' Ht Ho' Hs' Hh'. destruct (IH t h' Ho' Hs' Hh') as (h'' & E & G & _). eauto.
    + apply Forall_rev. exact H3.
    + rewrite map_rev, H2. apply NoDup_rev, nodes_nodup.
    + eapply Permutation_NoDup; [apply Permutation_sym; exact Pr|exact Hd'].
    + intros t Ht Q. apply in_rev in Ht. apply (Permutation_in _ Pr) in Q. rewrite (kid_block _ _ _ _ _ Ho Ht) in Q. contradiction.
    + apply Forall_rev. exact Hh.
    + assert (Na : bh_nodes h1 a = Some (BNode false (BPtr p) v)).
      { rewrite I1; [exact H1| |].
        - rewrite map_rev, H2. intros Q. apply in_rev, node_block in Q. apply Hx. left. auto.
        - intros Q. apply (Permutation_in _ Pr) in Q. apply Hx. right. exact Q. }
      assert (N0 : bh_nodes h1 (8 * p) <> None).
      { assert (Q : In (8 * p) (map baddr cs)) by (rewrite H2; apply node_block; rewrite Z.mul_comm; apply Z.div_mul; lia).
        apply in_map_iff in Q as (c & Ec & Hc). rewrite <- Ec. apply I3. apply in_rev in Hc. exact Hc. }
      exists (bwrite (bremove h1 p) a (BNode true BNull v)).
      cbn [bcollapse baddr]. unfold bread at 1. rewrite H1. cbn [bn_leaf bn_word].
      replace (rev (nodes_of p)) with (map baddr (rev cs)) by (rewrite map_rev, H2; reflexivity). rewrite E1. cbn [bbind].
      unfold bread at 1. destruct (bh_nodes h1 (8 * p)) as [n0|]; [|congruence]. cbn [bbind].
      assert (Nr : bh_nodes (bremove h1 p) a = Some (BNode false (BPtr p) v)).
      { cbn [bremove bh_nodes]. destruct (Z.eqb_spec (a / 8) p) as [Q|_]; [|exact Na]. exfalso. apply Hx. left. auto. }
      unfold bread. rewrite Nr. cbn [bn_verts]. split; [reflexivity|]. split; [|intros; exists v; cbn [bwrite bh_nodes]; rewrite Z.eqb_refl; reflexivity].
      unfold gone. cbn [bwrite bremove bh_nodes bh_next bh_freed baddr blocks].
      split; [|split; [|split; [|split]]].
      * intros b Hb Hn. destruct (Z.eqb_spec b a); [congruence|]. destruct (Z.eqb_spec (b / 8) p) as [Q|Q]; [exfalso; apply Hn; left; auto|].
        apply I1.
        -- rewrite map_rev, H2. intros M. apply in_rev, node_block in M. congruence.
        -- intros M. apply Hn. right. apply (Permutation_in _ Pr). exact M.
      * intros b Hb. destruct (Z.eqb_spec b a) as [->|_]; [exfalso; apply Hx; exact Hb|]. destruct (Z.eqb_spec (b / 8) p) as [Q|Q]; [reflexivity|].
        apply I2. apply (Permutation_in _ (Permutation_sym Pr)). destruct Hb as [Hb|Hb]; [congruence|exact Hb].
      * exists (BNode false (BPtr p) v), (BNode true BNull v). rewrite Z.eqb_refl. auto.
      * exact I4.
      * etransitivity; [apply Permutation_app_tail; exact I5|]. rewrite <- app_assoc. apply Permutation_app_head.
        etransitivity; [apply Permutation_app_comm|]. cbn [app]. constructor. exact Pr.
Qed.

(* What holds after returning and after a failed allocation *)
Definition bpost (r : bresult) (D F : bheap -> Prop) : Prop :=
  match r with BDone h => D h | BFailed h => F h | _ => False end.

Lemma bbind_post : forall r f D F D', bpost r D' F -> (forall h, D' h -> bpost (f h) D F) -> bpost (bbind r f) D F.
Proof. intros [h|h| |] f D F D' H H1; cbn in *; auto. Qed.

Lemma bfold_post : forall (P : list Z -> bheap -> Prop) (F : bheap -> Prop) f,
  (forall i l h, P (i :: l) h -> bpost (f i h) (P l) F) -> forall l h, P l h -> bpost (bfold f l h) (P []) F.
Proof.
  intros P F f H. induction l as [|i l IH]; intros h Hp; [exact Hp|].
  change (bfold f (i :: l) h) with (bbind (f i h) (bfold f l)). eapply bbind_post; [apply H; exact Hp|exact IH].
Qed.

(* Leaf flag and union of the node, not its vertices *)
Definition shape (o : option bnode) : option (bool * bword) := option_map (fun n => (bn_leaf n, bn_word n)) o.
Definition same_shape (h h' : bheap) : Prop := forall b, shape (bh_nodes h' b) = shape (bh_nodes h b).
Definition verts_at (h : bheap) (a : Z) : option Z := option_map bn_verts (bh_nodes h a).

Lemma shape_leaf : forall (N N' : Z -> option bnode) a n, (forall b, shape (N' b) = shape (N b)) -> N a = Some n ->
  exists v, N' a = Some (BNode (bn_leaf n) (bn_word n) v).
Proof.
  intros N N' a n H H1. specialize (H a). rewrite H1 in H. cbn in H. destruct (N' a) as [[l w v]|]; cbn in H; [|discriminate].
  injection H as -> ->. exists v. reflexivity.
Qed.

Lemma bowns_shape : forall t (N N' : Z -> option bnode), (forall b, shape (N' b) = shape (N b)) -> bowns N t -> bowns N' t.
Proof.
  induction t as [a|a p cs IH] using btree_ind'; intros N N' H Ho.
  - destruct Ho as (n & H1 & H2). destruct (shape_leaf N N' a n H H1) as (v & E). eexists. split; [exact E|exact H2].
  - destruct Ho as ((v & H1) & H2 & H3). split; [|split; [exact H2|]].
    + destruct (shape_leaf N N' a _ H H1) as (v' & E). exists v'. exact E.
    + apply bowns_all. apply bowns_all in H3. rewrite Forall_forall in *. intros c Hc. apply (IH c Hc N); auto.
Qed.

(* Every node of a block of the tree exists. *)
Lemma bowns_live : forall t N b, bowns N t -> b = baddr t \/ In (b / 8) (blocks t) -> N b <> None.
Proof.
  induction t as [a|a p cs IH] using btree_ind'; intros N b Ho Hb.
  - destruct Ho as (n & H1 & _). destruct Hb as [->|[]]. cbn. congruence.
  - destruct Ho as ((v & H1) & H2 & H3). apply bowns_all in H3. rewrite Forall_forall in *. cbn [baddr blocks] in Hb.
    destruct Hb as [->|[Hb|Hb]]; [congruence| |].
    + assert (Q : In b (map baddr cs)) by (rewrite H2; apply node_block; auto). apply in_map_iff in Q as (c & Ec & Hc).
      apply (IH c Hc); [apply H3; exact Hc|]. left. auto.
    + apply in_flat_map in Hb as (c & Hc & Hb). apply (IH c Hc); [apply H3; exact Hc|]. right. exact Hb.
Qed.

Section Build.
Variable works : Z -> bool.
Variable verts : list Z -> Z.
Variable leaf_works : list Z -> bool.
Variables early late : list Z -> bool.

Lemma subtree_sep : forall N a p cs c, bowns N (TN a p cs) -> separate (TN a p cs) -> In c cs ->
  separate c /\ a <> baddr c /\ ~ In (a / 8) (blocks c).
Proof.
  intros N a p cs c Ho [Hd Hx] Hc. cbn [baddr blocks] in *. inversion Hd as [|? ? Hp Hd']; subst.
  pose proof (kid_block _ _ _ _ _ Ho Hc) as Hk. split; [split|split].
  - clear - Hd' Hc. induction cs as [|c' cs IH]; [contradiction|]. cbn [flat_map] in Hd'. destruct (NoDup_app_parts _ _ Hd') as (A & B & _).
    destruct Hc as [->|Hc]; auto.
  - rewrite Hk. intros Q. apply Hp. apply in_flat_map. eauto.
  - intros ->. apply Hx. left. auto.
  - intros Q. apply Hx. right. apply in_flat_map. eauto.
Qed.

Definition cluster_result (a : Z) (t : btree) (h h' : bheap) : Prop :=
  same_shape h h' /\ bh_next h' = bh_next h /\ bh_freed h' = bh_freed h /\
  (forall b, b <> a -> ~ In (b / 8) (blocks t) -> bh_nodes h' b = bh_nodes h b).

Lemma cluster_ok : forall fuel t path h, bowns (bh_nodes h) t -> separate t -> (bheight t <= fuel)%nat ->
  bpost (bcluster verts early late fuel (baddr t) path h)
    (fun h' => cluster_result (baddr t) t h h' /\ verts_at h' (baddr t) = match t with TL _ => verts_at h (baddr t) | TN _ _ _ => Some (verts path) end)
    (fun h' => cluster_result (baddr t) t h h' /\
      (verts_at h' (baddr t) = verts_at h (baddr t) \/
       early path = true /\ late path = false /\ verts_at h' (baddr t) = Some (verts path))).
Proof.
  induction fuel as [|fuel IH]; intros t path h Ho Hs Hh; [destruct t; cbn in Hh; lia|].
  destruct t as [a|a p cs].
  - destruct Ho as (n & H1 & H2). cbn [bcluster baddr]. unfold bread. rewrite H1, H2. cbn [bpost].
    split; [|reflexivity]. split; [intros b; reflexivity|auto].
  - pose proof Ho as ((v & H1) & H2 & H3). cbn [bheight] in Hh. apply le_S_n in Hh. apply bheight_all in Hh. apply bowns_all in H3.
    rewrite Forall_forall in Hh, H3. cbn [baddr].
    cbn [bcluster]. unfold bread at 1. rewrite H1. cbn [bn_leaf].
    pose (P := fun (l : list Z) h' => incl l (zseq 0 8) /\ cluster_result a (TN a p cs) h h' /\ bh_nodes h' a = Some (BNode false (BPtr p) v)).
    apply bbind_post with (D' := P []).
    + apply bfold_post with (P := P).
      * intros i l h1 (Hl & Hc1 & Ha1). destruct Hc1 as (C1 & C2 & C3 & C4). unfold bchild, bread. rewrite Ha1. cbn [bn_word].
        assert (Hi : In (8 * p + i) (map baddr cs)) by (rewrite H2; unfold nodes_of; apply in_map; apply Hl; left; reflexivity).
        apply in_map_iff in Hi as (c & Ec & Hc). rewrite <- Ec.
        destruct (subtree_sep _ _ _ _ _ Ho Hs Hc) as (Sc & Ac & Bc).
        assert (O1 : bowns (bh_nodes h1) c) by (apply (bowns_shape c (bh_nodes h)); [exact C1|apply H3; exact Hc]).
        assert (K : forall h2, cluster_result (baddr c) c h1 h2 -> cluster_result a (TN a p cs) h h2 /\ bh_nodes h2 a = Some (BNode false (BPtr p) v)).
        { intros h2 (D1 & D2 & D3 & D4). split; [|rewrite D4; assumption]. split; [intros b; rewrite D1; apply C1|]. split; [congruence|]. split; [congruence|].
          intros b Hb Hn. cbn [blocks] in Hn. rewrite D4; [apply C4; assumption|..].
          - intros ->. apply Hn. left. symmetry. apply (kid_block _ _ _ _ _ Ho Hc).
          - intros Q. apply Hn. right. apply in_flat_map. eauto. }
        specialize (IH c (path ++ [i]) h1 O1 Sc (Hh c Hc)). unfold bpost in *.
        destruct (bcluster verts early late fuel (baddr c) (path ++ [i]) h1) as [h2|h2| |]; try contradiction.
        -- destruct IH as (R & _). destruct (K h2 R) as (K1 & K2). split; [intros x Hx; apply Hl; right; exact Hx|auto].
        -- destruct IH as (R & _). destruct (K h2 R) as (K1 & K2). split; [exact K1|]. left. unfold verts_at. rewrite K2, H1. reflexivity.
      * split; [apply incl_refl|]. split; [|exact H1]. split; [intros b; reflexivity|auto].
    + intros h1 (_ & (C1 & C2 & C3 & C4) & Ha1). destruct (early path) eqn:Ee.
      * unfold bread. rewrite Ha1. cbn [bn_leaf bn_word].
        assert (K : cluster_result a (TN a p cs) h (bwrite h1 a (BNode false (BPtr p) (verts path)))).
        { split; [|split; [exact C2|split; [exact C3|]]].
          - intros b. cbn [bwrite bh_nodes]. destruct (Z.eqb_spec b a) as [->|_]; [rewrite H1; reflexivity|apply C1].
          - intros b Hb Hn. cbn [bwrite bh_nodes]. destruct (Z.eqb_spec b a); [congruence|]. apply C4; assumption. }
        assert (V : verts_at (bwrite h1 a (BNode false (BPtr p) (verts path))) a = Some (verts path)) by (unfold verts_at; cbn [bwrite bh_nodes]; rewrite Z.eqb_refl; reflexivity).
        destruct (late path) eqn:El; cbn [bpost]; auto.
      * cbn [bpost]. split; [split; auto|]. left. unfold verts_at. rewrite Ha1, H1. reflexivity.
Qed.

(* The part of buildNode *)
Definition built (a : Z) (levels : nat) (h h' : bheap) (t : btree) : Prop :=
  baddr t = a /\ bowns (bh_nodes h') t /\ (bheight t <= S levels)%nat /\ NoDup (blocks t) /\
  (forall p, In p (blocks t) <-> bh_next h <= p < bh_next h') /\ bh_next h <= bh_next h' /\ bh_freed h' = bh_freed h /\
  (forall b, b <> a -> b / 8 < bh_next h -> bh_nodes h' b = bh_nodes h b) /\
  (forall b, bh_next h' <= b / 8 -> bh_nodes h' b = None).

Definition kids_state (a p v : Z) (levels : nat) (h : bheap) (l : list Z) (h' : bheap) : Prop := exists done,
  bh_nodes h' a = Some (BNode false (BPtr p) v) /\ map baddr done ++ map (fun i => 8 * p + i) l = nodes_of p /\
  Forall (bowns (bh_nodes h')) done /\ Forall (fun t => (bheight t <= S levels)%nat) done /\
  (forall i, In i l -> bh_nodes h' (8 * p + i) = Some bfresh) /\
  NoDup (flat_map blocks done) /\ (forall q, In q (flat_map blocks done) <-> p < q < bh_next h') /\
  p < bh_next h' /\ bh_freed h' = bh_freed h /\
  (forall b, b <> a -> b / 8 < p -> bh_nodes h' b = bh_nodes h b) /\
  (forall b, bh_next h' <= b / 8 -> bh_nodes h' b = None).

Lemma flat_TL : forall l, flat_map blocks (map TL l) = [].
Proof. induction l; cbn; auto. Qed.
Lemma NoDup_app_join : forall (l r : list Z), NoDup l -> NoDup r -> (forall x, In x l -> ~ In x r) -> NoDup (l ++ r).
Proof.
  induction l as [|x l IH]; intros r H1 H2 H3; cbn; auto. inversion H1; subst. constructor.
  - intros Q. apply in_app_or in Q as [Q|Q]; [contradiction|]. apply (H3 x); cbn; auto.
  - apply IH; auto. intros y Hy. apply H3. right. exact Hy.
Qed.

Lemma kids_tree : forall a p v levels h l h', bh_next h = p -> kids_state a p v levels h l h' ->
  exists t, built a (S levels) h h' t /\ verts_at h' a = Some v.
Proof.
  intros a p v levels h l h' Hp (done & K1 & K2 & K3 & K4 & K5 & K6 & K7 & K8 & K9 & K10 & K11).
  exists (TN a p (done ++ map TL (map (fun i => 8 * p + i) l))). split; [|unfold verts_at; rewrite K1; reflexivity].
  assert (Eb : flat_map blocks (done ++ map TL (map (fun i => 8 * p + i) l)) = flat_map blocks done) by (rewrite flat_map_app, flat_TL, app_nil_r; reflexivity).
  split; [reflexivity|]. split; [|split; [|split; [|split; [|split; [|split; [|split]]]]]].
  - split; [eauto|]. split.
    + rewrite map_app, !map_map. exact K2.
    + apply bowns_all. apply Forall_app. split; [exact K3|]. apply Forall_forall. intros t Ht. apply in_map_iff in Ht as (x & <- & Hx).
      apply in_map_iff in Hx as (i & <- & Hi). exists bfresh. split; [apply K5; exact Hi|reflexivity].
  - cbn [bheight]. apply le_n_S. apply bheight_all. apply Forall_app. split; [exact K4|]. apply Forall_forall. intros t Ht. apply in_map_iff in Ht as (x & <- & _). cbn. lia.
  - cbn [blocks]. rewrite Eb. constructor; [|exact K6]. intros Q. apply K7 in Q. lia.
  - intros q. cbn [blocks]. rewrite Eb. cbn [In]. rewrite K7. lia.
  - lia.
  - exact K9.
  - intros b Hb Hlt. apply K10; [exact Hb|lia].
  - exact K11.
Qed.

Lemma build_ok : forall levels a path h n, bh_nodes h a = Some n -> bn_leaf n = true -> a / 8 < bh_next h ->
  (forall b, bh_next h <= b / 8 -> bh_nodes h b = None) ->
  bpost (bbuild_node works verts leaf_works levels a path h)
    (fun h' => exists t, built a levels h h' t /\ verts_at h' a = Some (match levels with O => verts path | S _ => bn_verts n end) /\
       match levels with O => t = TL a | S _ => exists p cs, t = TN a p cs end)
    (fun h' => exists t, built a levels h h' t /\ verts_at h' a = Some (bn_verts n)).
Proof.
  induction levels as [|levels IH]; intros a path h n H1 H2 H3 H4.
  - cbn [bbuild_node]. unfold bleaf, bread. rewrite H1.
    assert (K : forall v, built a 0 h (bwrite h a (BNode (bn_leaf n) BData v)) (TL a)).
    { intros v. split; [reflexivity|]. cbn [bwrite bh_nodes bh_next bh_freed blocks bowns]. split; [exists (BNode (bn_leaf n) BData v); rewrite Z.eqb_refl; auto|].
      split; [cbn; lia|]. split; [constructor|]. split; [intros p; cbn; lia|]. split; [lia|]. split; [reflexivity|]. split; intros b Hb; [intros _|];
        destruct (Z.eqb_spec b a) as [->|]; auto; try congruence; lia. }
    assert (V : forall h0 v, verts_at (bwrite h0 a (BNode (bn_leaf n) BData v)) a = Some v) by (intros; unfold verts_at; cbn [bwrite bh_nodes]; rewrite Z.eqb_refl; reflexivity).
    destruct (leaf_works path); cbn [bpost].
    + exists (TL a). split; [|split; [apply V|reflexivity]].
      destruct (K (verts path)) as (A1 & A2 & A3 & A4 & A5 & A6 & A7 & A8 & A9). split; [exact A1|].
      cbn [bwrite bh_nodes bh_next bh_freed blocks bowns] in *. split; [exists (BNode (bn_leaf n) BData (verts path)); rewrite Z.eqb_refl; auto|].
      split; [exact A3|]. split; [exact A4|]. split; [exact A5|]. split; [exact A6|]. split; [exact A7|].
      split; intros b Hb; [intros Hb2; rewrite <- (A8 b Hb Hb2)|rewrite <- (A9 b Hb)]; destruct (b =? a); reflexivity.
    + exists (TL a). split; [apply K|apply V].
  - cbn [bbuild_node]. unfold bsubdivide, bread at 1. rewrite H1, H2. destruct (works (bh_next h)); cycle 1.
    { cbn [bbind bpost]. exists (TL a). split; [|unfold verts_at; rewrite H1; reflexivity]. split; [reflexivity|]. split; [exists n; auto|]. split; [cbn; lia|].
      split; [constructor|]. split; [intros p; cbn; lia|]. split; [lia|]. auto. }
    cbn [bbind]. set (p := bh_next h). set (v := bn_verts n).
    assert (Pos : forall i, In i (zseq 0 8) -> (8 * p + i) / 8 = p) by (intros i Hi; apply node_block; unfold nodes_of; apply in_map; exact Hi).
    assert (Init : kids_state a p v levels h (zseq 0 8) (bwrite (bcreate h) a (BNode false (BPtr p) v))).
    { exists []. cbn [bwrite bcreate bh_nodes bh_next bh_freed map app flat_map]. split; [rewrite Z.eqb_refl; reflexivity|]. split; [reflexivity|]. split; [constructor|]. split; [constructor|].
      split. { intros i Hi. pose proof (Pos i Hi) as E. destruct (Z.eqb_spec (8 * p + i) a) as [Q|_]; [exfalso; rewrite Q in E; unfold p in *; lia|]. rewrite E. unfold p. rewrite Z.eqb_refl. reflexivity. }
      split; [constructor|]. split; [intros q; unfold p; cbn; lia|]. split; [unfold p; lia|]. split; [reflexivity|]. split.
      - intros b Hb Hlt. destruct (Z.eqb_spec b a); [congruence|]. destruct (Z.eqb_spec (b / 8) (bh_next h)); [unfold p in *; lia|reflexivity].
      - intros b Hb. destruct (Z.eqb_spec b a) as [->|]; [unfold p in *; lia|]. destruct (Z.eqb_spec (b / 8) (bh_next h)); [lia|]. apply H4. lia. }
    set (h0 := bwrite (bcreate h) a (BNode false (BPtr p) v)) in *.
    pose (P := fun l h' => incl l (zseq 0 8) /\ NoDup l /\ kids_state a p v levels h l h').
    assert (Loop : bpost (bfold (fun i h => bchild a i h (fun c => bbuild_node works verts leaf_works levels c (path ++ [i]) h)) (zseq 0 8) h0)
      (P []) (fun h' => exists l, kids_state a p v levels h l h')).
    { apply bfold_post with (P := P).
      2:{ split; [apply incl_refl|]. split; [|exact Init]. cbn. repeat (constructor; [cbn; lia|]). constructor. }
      intros i l h1 (Hl & Hnd & done & K1 & K2 & K3 & K4 & K5 & K6 & K7 & K8 & K9 & K10 & K11).
      unfold bchild, bread. rewrite K1. cbn [bn_word].
      assert (Hi : (8 * p + i) / 8 = p) by (apply Pos, Hl; left; reflexivity).
      assert (Step : forall h2 t, built (8 * p + i) levels h1 h2 t -> kids_state a p v levels h l h2).
      { intros h2 t (B1 & B2 & B3 & B4 & B5 & B6 & B7 & B8 & B9). exists (done ++ [t]).
        assert (Nd : NoDup (map baddr done ++ map (fun i => 8 * p + i) (i :: l))) by (rewrite K2; apply nodes_nodup).
        split. { rewrite B8; [exact K1| |unfold p in *; lia]. intros Q. rewrite Q in H3. unfold p in *. lia. }
        split. { rewrite map_app. cbn [map]. rewrite B1, <- app_assoc. exact K2. }
        split. { apply Forall_app. split; [|constructor; [exact B2|constructor]]. rewrite Forall_forall in *. intros c Hc.
          apply (bowns_frame c (bh_nodes h1)); [|apply K3; exact Hc]. intros b Hb.
          assert (Hca : In (baddr c) (map baddr done)) by (apply in_map; exact Hc).
          assert (Hcb : baddr c / 8 = p) by (apply node_block; rewrite <- K2; apply in_or_app; auto).
          apply B8.
          - intros ->. destruct Hb as [Q|Q].
            + cbn [map] in Nd. destruct (NoDup_app_parts _ _ Nd) as (_ & _ & Ds). apply (Ds _ Hca). rewrite Q. left. reflexivity.
            + rewrite Hi in Q. assert (In p (flat_map blocks done)) by (apply in_flat_map; eauto). apply K7 in H. lia.
          - destruct Hb as [->|Q]; [lia|]. assert (In (b / 8) (flat_map blocks done)) by (apply in_flat_map; eauto). apply K7 in H. lia. }
        split. { apply Forall_app. split; [exact K4|]. constructor; [exact B3|constructor]. }
        split. { intros j Hj. rewrite B8; [apply K5; right; exact Hj| |].
          - intros Q. inversion Hnd; subst. assert (i = j) by lia. subst. contradiction.
          - rewrite Pos by (apply Hl; right; exact Hj). exact K8. }
        rewrite flat_map_app. cbn [flat_map]. rewrite app_nil_r.
        split. { apply NoDup_app_join; auto. intros x Hx Q. apply K7 in Hx. apply B5 in Q. lia. }
        split. { intros q. rewrite in_app_iff, K7, B5. lia. }
        split; [lia|]. split; [congruence|]. split; [|exact B9].
        intros b Hb Hlt. rewrite B8; [apply K10; assumption| |lia]. intros ->. lia. }
      specialize (IH (8 * p + i) (path ++ [i]) h1 bfresh (K5 i (or_introl eq_refl)) eq_refl ltac:(lia) K11).
      unfold bpost in *. destruct (bbuild_node works verts leaf_works levels (8 * p + i) (path ++ [i]) h1) as [h2|h2| |]; try contradiction.
      - destruct IH as (t & B & _). split; [intros x Hx; apply Hl; right; exact Hx|]. split; [inversion Hnd; assumption|]. eapply Step; exact B.
      - destruct IH as (t & B & _). exists l. eapply Step; exact B. }
    unfold bpost in *.
    destruct (bfold (fun i h => bchild a i h (fun c => bbuild_node works verts leaf_works levels c (path ++ [i]) h)) (zseq 0 8) h0) as [h2|h2| |]; try contradiction.
    + destruct Loop as (_ & _ & Hk). pose proof Hk as (done & K1 & _). destruct (kids_tree a p v levels h [] h2 eq_refl Hk) as (t & Hb & Hv). exists t. split; [exact Hb|]. split; [exact Hv|].
      destruct Hb as (E & Ho & _). destruct t as [a'|a' p' cs]; [|cbn in E; subst; eauto]. cbn in E. subst a'. destruct Ho as (n' & E1 & E2). rewrite K1 in E1. injection E1 as <-. discriminate.
    + destruct Loop as (l & Hk). eapply kids_tree; [reflexivity|exact Hk].
Qed.

End Build.
