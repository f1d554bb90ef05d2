(* C84: subdivide and collapse of the nodes of the octrees. *)
From Coq Require Import ZArith List Bool Lia.
From Verif Require Import Base LoopLemmas DcHeap MdcHeap DmcHeap.
Import ListNotations.
Local Open Scope Z_scope.

(* ---- DMC ---- *)

(* C84, for DMC_OctreeNode.  The node does not lie in memory that has not been allocated. *)
Theorem C84_dmc : forall works a h n, dh_nodes h a = Some n -> a / 8 < dh_next h ->
  (forall p, dn_children n = Some p -> dsubdivide works a h = DThrown DLogicError h) /\
  (dn_children n = None -> works (dh_next h) = false -> dsubdivide works a h = DThrown DBadAlloc h) /\
  (dn_children n = None -> works (dh_next h) = true -> exists h', dsubdivide works a h = DDone h' /\
     dh_nodes h' a = Some (DNode (Some (dh_next h)) (dn_written n)) /\
     (forall i, 0 <= i < 8 -> dh_nodes h' (8 * dh_next h + i) = Some (DNode None false)) /\
     (forall b, b <> a -> b / 8 <> dh_next h -> dh_nodes h' b = dh_nodes h b) /\ dh_freed h' = dh_freed h).
Proof.
  intros works a h n N L. unfold dsubdivide, dread. rewrite N. split; [intros p ->; reflexivity|]. split; [intros -> ->; reflexivity|]. intros -> ->.
  eexists. split; [reflexivity|]. cbn [dwrite dcreate dh_nodes dh_freed]. rewrite Z.eqb_refl. split; [reflexivity|]. split; [|split; [|reflexivity]].
  - intros i Hi. assert (D : (8 * dh_next h + i) / 8 = dh_next h) by (rewrite Z.mul_comm, Z.div_add_l, Z.div_small by lia; lia).
    destruct (Z.eqb_spec (8 * dh_next h + i) a) as [E|_]; [rewrite E in D; lia|]. rewrite D, Z.eqb_refl. reflexivity.
  - intros b Hb Hb'. destruct (Z.eqb_spec b a); [contradiction|]. destruct (Z.eqb_spec (b / 8) (dh_next h)); [contradiction|reflexivity].
Qed.
Print Assumptions C84_dmc.

(* ---- MDC ---- *)

(* C84, for MDC_OctreeNode: a second subdivide does nothing. *)
Theorem C84_mdc : forall works a h n, bh_nodes h a = Some n -> a / 8 < bh_next h ->
  (bn_leaf n = false -> bsubdivide works a h = BDone h) /\
  (bn_leaf n = true -> works (bh_next h) = false -> bsubdivide works a h = BFailed h) /\
  (bn_leaf n = true -> works (bh_next h) = true -> exists h', bsubdivide works a h = BDone h' /\
     bh_nodes h' a = Some (BNode false (BPtr (bh_next h)) (bn_verts n)) /\
     (forall i, 0 <= i < 8 -> bh_nodes h' (8 * bh_next h + i) = Some (BNode true BNull 0)) /\
     (forall b, b <> a -> b / 8 <> bh_next h -> bh_nodes h' b = bh_nodes h b) /\ bh_freed h' = bh_freed h).
Proof.
  intros works a h n N L. unfold bsubdivide, bread. rewrite N. split; [intros ->; reflexivity|]. split; [intros -> ->; reflexivity|]. intros -> ->.
  eexists. split; [reflexivity|]. cbn [bwrite bcreate bh_nodes bh_freed]. rewrite Z.eqb_refl. split; [reflexivity|]. split; [|split; [|reflexivity]].
  - intros i Hi. assert (D : (8 * bh_next h + i) / 8 = bh_next h) by (rewrite Z.mul_comm, Z.div_add_l, Z.div_small by lia; lia).
    destruct (Z.eqb_spec (8 * bh_next h + i) a) as [E|_]; [rewrite E in D; lia|]. rewrite D, Z.eqb_refl. reflexivity.
  - intros b Hb Hb'. destruct (Z.eqb_spec b a); [contradiction|]. destruct (Z.eqb_spec (b / 8) (bh_next h)); [contradiction|reflexivity].
Qed.
Print Assumptions C84_mdc.

(* ---- DC ---- *)

Fixpoint set_all (ws : list word) (l : list Z) (p : Z) : list word :=
  match l with [] => ws | i :: l' => set_all (set_nth ws (Z.to_nat i) (WPtr p)) l' (p + 1) end.

Lemma fold_new : forall works a l h n, hp_nodes h a = Some n -> a < hp_next h ->
  (forall p, hp_next h <= p < hp_next h + Z.of_nat (length l) -> works p = true) ->
  exists h', hfold (fun i h => let p := hp_next h in
      if works p then set_word (Heap (fun b => if b =? p then Some fresh_node else hp_nodes h b) (p + 1) (hp_freed h)) a i (WPtr p) else BadAlloc h) l h = Done h' /\
    hp_nodes h' a = Some (HNode (hn_leaf n) (set_all (hn_words n) l (hp_next h))) /\
    (forall p, hp_next h <= p < hp_next h + Z.of_nat (length l) -> hp_nodes h' p = Some fresh_node) /\
    (forall b, b <> a -> ~ (hp_next h <= b < hp_next h + Z.of_nat (length l)) -> hp_nodes h' b = hp_nodes h b) /\
    hp_next h' = hp_next h + Z.of_nat (length l) /\ hp_freed h' = hp_freed h.
Proof.
  intros works a. induction l as [|i l IH]; intros h n N L W.
  - exists h. cbn [hfold length set_all]. destruct n as [f ws]. cbn [hn_leaf hn_words]. split; [reflexivity|]. split; [exact N|]. split; [intros p Hp; lia|]. split; [reflexivity|]. split; [lia|reflexivity].
  - cbn [hfold]. rewrite W by (cbn [length]; lia). unfold set_word at 1, hread at 1. cbn [hp_nodes].
    destruct (Z.eqb_spec a (hp_next h)) as [E|_]; [lia|]. rewrite N. cbn [hbind].
    set (h1 := hwrite _ a _).
    assert (N1 : hp_nodes h1 a = Some (HNode (hn_leaf n) (set_nth (hn_words n) (Z.to_nat i) (WPtr (hp_next h))))) by (unfold h1, hwrite; cbn [hp_nodes]; rewrite Z.eqb_refl; reflexivity).
    assert (L1 : hp_next h1 = hp_next h + 1) by reflexivity.
    destruct (IH h1 _ N1 ltac:(lia)) as (h' & E1 & E2 & E3 & E4 & E5 & E6).
    { intros p Hp. apply W. cbn [length]. lia. }
    exists h'. split; [exact E1|]. rewrite L1 in *. cbn [length]. split; [exact E2|]. split; [|split; [|split; [lia|exact E6]]].
    + intros p Hp. destruct (Z.eq_dec p (hp_next h)) as [->|Hne]; [|apply E3; lia]. rewrite E4 by lia. unfold h1, hwrite. cbn [hp_nodes].
      destruct (Z.eqb_spec (hp_next h) a); [lia|]. rewrite Z.eqb_refl. reflexivity.
    + intros b Hb Hr. rewrite E4 by lia. unfold h1, hwrite. cbn [hp_nodes]. destruct (Z.eqb_spec b a); [contradiction|]. destruct (Z.eqb_spec b (hp_next h)); [lia|reflexivity].
Qed.

(* C84, for DC_OctreeNode, as long as memory suffices. *)
Theorem C84_dc_partial : forall works a h n, hp_nodes h a = Some n -> a < hp_next h -> length (hn_words n) = 8%nat ->
  (hn_leaf n = false -> subdivide works a h = LogicErr h) /\
  (hn_leaf n = true -> collapse 1 a h = LogicErr h) /\
  (hn_leaf n = true -> (forall i, 0 <= i < 8 -> works (hp_next h + i) = true) -> exists h', subdivide works a h = Done h' /\
     hp_nodes h' a = Some (HNode false (map (fun i => WPtr (hp_next h + i)) [0; 1; 2; 3; 4; 5; 6; 7])) /\
     (forall i, 0 <= i < 8 -> hp_nodes h' (hp_next h + i) = Some fresh_node) /\
     (forall b, b <> a -> ~ (hp_next h <= b < hp_next h + 8) -> hp_nodes h' b = hp_nodes h b) /\ hp_freed h' = hp_freed h).
Proof.
  intros works a h n N L W. split; [intro F; unfold subdivide, hread; rewrite N, F; reflexivity|].
  split; [intro F; cbn [collapse]; unfold hread; rewrite N, F; reflexivity|]. intros F Hw.
  unfold subdivide, hread at 1. rewrite N, F. cbn [negb]. unfold set_leaf, hread at 1. rewrite N. cbn [hbind].
  set (h0 := hwrite h a _). assert (N0 : hp_nodes h0 a = Some (HNode false (hn_words n))) by (unfold h0, hwrite; cbn [hp_nodes]; rewrite Z.eqb_refl; reflexivity).
  destruct (fold_new works a (zseq 0 8) h0 _ N0 L) as (h' & E1 & E2 & E3 & E4 & E5 & E6).
  { intros p Hp. change (hp_next h0) with (hp_next h) in Hp. change (Z.of_nat (length (zseq 0 8))) with 8 in Hp. replace p with (hp_next h + (p - hp_next h)) by lia. apply Hw. lia. }
  change (hp_next h0) with (hp_next h) in *. change (Z.of_nat (length (zseq 0 8))) with 8 in *.
  exists h'. split; [exact E1|]. split; [|split; [|split; [|exact E6]]].
  - rewrite E2. cbn [hn_leaf hn_words]. destruct (hn_words n) as [|w0 [|w1 [|w2 [|w3 [|w4 [|w5 [|w6 [|w7 [|]]]]]]]]]; try discriminate.
    change (Some (HNode false [WPtr (hp_next h); WPtr (hp_next h + 1); WPtr (hp_next h + 1 + 1); WPtr (hp_next h + 1 + 1 + 1); WPtr (hp_next h + 1 + 1 + 1 + 1); WPtr (hp_next h + 1 + 1 + 1 + 1 + 1);
        WPtr (hp_next h + 1 + 1 + 1 + 1 + 1 + 1); WPtr (hp_next h + 1 + 1 + 1 + 1 + 1 + 1 + 1)]) = Some (HNode false (map (fun i => WPtr (hp_next h + i)) [0; 1; 2; 3; 4; 5; 6; 7]))).
    cbn [map]. rewrite Z.add_0_r, <- !Z.add_assoc. reflexivity.
  - intros i Hi. apply E3. lia.
  - intros b Hb Hr. rewrite E4 by assumption. unfold h0, hwrite. cbn [hp_nodes]. destruct (Z.eqb_spec b a); [contradiction|reflexivity].
Qed.
Print Assumptions C84_dc_partial.

(* If memory runs out, the node of a DC octree is marked as subdivided all the same, and its children are null
   pointers: isSubdivided () is true and operator[] gives null.  Here the first allocation fails. *)
Theorem C84_dc_refuted : exists works a h h' n, hp_nodes h a = Some fresh_node /\ a < hp_next h /\
  subdivide works a h = BadAlloc h' /\ hp_nodes h' a = Some n /\ hn_leaf n = false /\ Forall (eq WNull) (hn_words n).
Proof. exists (fun _ => false), 0, heap_new. eexists. eexists. split; [reflexivity|]. split; [reflexivity|]. split; [reflexivity|]. split; [reflexivity|]. split; [reflexivity|]. repeat constructor. Qed.
Print Assumptions C84_dc_refuted.

(* The root of a new octree is a node as in the theorems; a heap of which the first allocations work *)
Example C84_ex : dh_nodes dheap_new 0 = Some dfresh /\ 0 / 8 < dh_next dheap_new /\ bh_nodes bheap_new 0 = Some bfresh /\ 0 / 8 < bh_next bheap_new /\
  hp_nodes heap_new 0 = Some fresh_node /\ 0 < hp_next heap_new /\ length (hn_words fresh_node) = 8%nat /\ hn_leaf fresh_node = true.
Proof. vm_compute. repeat split; reflexivity. Qed.
