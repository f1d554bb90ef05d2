(* Deleting and searching a TriangleOctree in memory. *)
From Coq Require Import ZArith List Bool Lia.
From Verif Require Import Base Arith TriModel TriHeap TriSpec TriProofs TriNear TriHeapProofs.
Import ListNotations.
Local Open Scope Z_scope.

Section Heap.
Context {F : Type}.
Variable A : arith F.
Notation tree := (ttree F).

Definition gone (h h' : theap F) (fp : list Z) : Prop :=
  th_next h' = th_next h /\ (forall x, In x fp -> th_nodes h' x = None) /\ (forall x, ~ In x fp -> th_nodes h' x = th_nodes h x).

Lemma gone_trans : forall h h1 h2 f g, gone h h1 f -> gone h1 h2 g -> (forall x, In x f -> ~ In x g) -> gone h h2 (f ++ g).
Proof.
  intros h h1 h2 f g (N & G & K) (N' & G' & K') D. split; [lia|]. split; intros x X.
  - apply in_app_or in X. destruct X as [X|X]; [rewrite K' by auto; auto | auto].
  - rewrite in_app_iff in X. rewrite K' by tauto. apply K. tauto.
Qed.

Section Delete.
Variables (d : nat) (del : Z -> theap F -> tresult F) (a : Z) (n : tnode F).
Hypothesis IH : forall c tr fp h, owns (th_nodes h) d c tr fp -> NoDup fp -> exists h', del c h = TDone h' /\ gone h h' fp.

Lemma delete_kids : forall ch2 cs2 fss2, length cs2 = length ch2 -> forall ch1 h, tn_children n = ch1 ++ ch2 -> th_nodes h a = Some n ->
  Forall3 (kid_owns (owns (th_nodes h) d)) ch2 cs2 fss2 -> NoDup (a :: concat fss2) ->
  exists h', tfold (fun i h => tread h a (fun n => match znth (tn_children n) i with None => TUB | Some None => TDone h | Some (Some c) => del c h end))
    (zseq (Z.of_nat (length ch1)) (length ch2)) h = TDone h' /\ gone h h' (concat fss2).
Proof.
  induction ch2 as [|oc ch2 IHc]; intros cs2 fss2 L ch1 h Ch N K ND.
  - inversion K; subst. exists h. split; [reflexivity|]. repeat split; auto. intros x [].
  - destruct cs2 as [|ot cs2]; [discriminate|]. destruct fss2 as [|f fss2]; [inversion K|].
    assert (K1 : kid_owns (owns (th_nodes h) d) oc ot f /\ Forall3 (kid_owns (owns (th_nodes h) d)) ch2 cs2 fss2) by (inversion K; auto).
    destruct K1 as (K1 & K2). cbn [concat] in ND |- *. inversion ND as [|? ? Na Nd]. subst x l. apply NoDup_cut in Nd. destruct Nd as (D1 & D2 & D3).
    assert (E1 : exists h1, match oc with None => TDone h | Some c => del c h end = TDone h1 /\ gone h h1 f).
    { destruct oc as [c|], ot as [tr|]; unfold kid_owns in K1; try tauto; [eapply IH; eauto|]. subst f. exists h. split; auto. repeat split; auto. intros x []. }
    destruct E1 as (h1 & E1 & G1). cbn [length zseq tfold]. unfold tread at 1. rewrite N, Ch, znth_mid by (rewrite ?Nat2Z.id; auto; lia).
    replace (match oc with Some c => del c h | None => TDone h end) with (TDone h1) by (destruct oc; auto). cbn [tbind].
    pose proof G1 as (Gn & Gi & Gk).
    destruct (IHc cs2 fss2 ltac:(cbn in L; lia) (ch1 ++ [oc]) h1) as (h2 & E2 & G2).
    + rewrite <- app_assoc. exact Ch.
    + rewrite Gk; auto. intros X. apply Na. apply in_or_app. now left.
    + eapply Forall3_imp; [|exact K2]. intros o t g Ig Hk. unfold kid_owns in *. destruct o, t; auto. eapply owns_frame; [exact Hk|].
      intros x X. apply Gk. intros Y. apply (D3 x Y). apply in_concat. eauto.
    + constructor; auto. intros X. apply Na. apply in_or_app. now right.
    + exists h2. split; [|eapply gone_trans; eauto]. rewrite app_length in E2. cbn [length] in E2. replace (Z.of_nat (length ch1 + 1)) with (Z.of_nat (length ch1) + 1) in E2 by lia. exact E2.
Qed.
End Delete.

Lemma delete_heap : forall d a tr fp h, owns (th_nodes h) d a tr fp -> NoDup fp -> exists h', th_delete (S d) a h = TDone h' /\ gone h h' fp.
Proof.
  induction d as [|d IHd]; intros a tr fp h O ND; destruct O as (n & N & Lv & Ps & Hf & Lt & K); destruct tr as [pos half level ts|pos half level cs].
  - destruct K as (Lf & _ & _ & ->). cbn [th_delete]. unfold tread. rewrite N, Lf. cbn [tbind]. rewrite N. eexists. split; [reflexivity|].
    split; [reflexivity|]. split; intros x X; cbn; destruct (x =? a) eqn:E; auto; [apply Z.eqb_neq in E; cbn in X; intuition lia | apply Z.eqb_eq in E; cbn in X; intuition lia].
  - tauto.
  - destruct K as (Lf & _ & _ & ->). cbn [th_delete]. unfold tread. rewrite N, Lf. cbn [tbind]. rewrite N. eexists. split; [reflexivity|].
    split; [reflexivity|]. split; intros x X; cbn; destruct (x =? a) eqn:E; auto; [apply Z.eqb_neq in E; cbn in X; intuition lia | apply Z.eqb_eq in E; cbn in X; intuition lia].
  - destruct K as (Lf & L8 & fss & K & ->).
    pose proof (Forall3_len _ _ _ _ _ _ _ K) as (L1 & L2).
    destruct (delete_kids d (th_delete (S d)) a n IHd (tn_children n) cs fss L1 [] h eq_refl N K ND) as (h1 & E & G).
    cbn [length Z.of_nat] in E. rewrite <- L1, L8 in E.
    change (th_delete (S (S d)) a h) with (tread h a (fun n =>
        tbind (if tn_leaf n then TDone h
               else tfold (fun i h => tread h a (fun n => match znth (tn_children n) i with None => TUB | Some None => TDone h | Some (Some c) => th_delete (S d) c h end)) (zseq 0 8) h) (fun h =>
        tread h a (fun _ => TDone (tput h a None))))).
    unfold tread at 1. rewrite N, Lf, E. cbn [tbind]. pose proof G as (Gn & Gi & Gk). inversion ND; subst. unfold tread. rewrite Gk, N by auto.
    eexists. split; [reflexivity|]. change (a :: concat fss) with ([a] ++ concat fss). split; [exact Gn|]. split; intros x X; cbn; destruct (x =? a) eqn:E'; auto.
    + apply Z.eqb_neq in E'. destruct X as [X|X]; [lia | auto].
    + apply Z.eqb_eq in E'. exfalso. apply X. now left.
    + apply Gk. intros Y. apply X. now right.
Qed.

Lemma Forall3_znth : forall X Y W (P : X -> Y -> W -> Prop) l m n i, Forall3 P l m n -> 0 <= i < Z.of_nat (length l) ->
  exists x y w, znth l i = Some x /\ znth m i = Some y /\ P x y w.
Proof.
  intros X Y W P l m n i H I. destruct (Forall3_split _ _ _ _ _ _ _ H (Z.to_nat i)) as (l1 & x & l2 & m1 & y & m2 & n1 & w & n2 & -> & -> & -> & L1 & L2 & L3 & P1 & P2 & P3); [lia|].
  exists x, y, w. rewrite !znth_mid by (auto; lia). auto.
Qed.

Lemma fold_some : forall S (f : Z -> S -> option S) (g : Z -> S -> S) l s, (forall i s, In i l -> f i s = Some (g i s)) ->
  fold_left (fun o i => match o with None => None | Some s => f i s end) l (Some s) = Some (fold_left (fun s i => g i s) l s).
Proof. induction l; intros s H; cbn [fold_left]; auto. rewrite H by now left. apply IHl. intros. apply H. now right. Qed.

Lemma near_heap : forall d a tr fp h p s, owns (th_nodes h) d a tr fp -> th_near A (S d) p h a s = Some (near_impl A p tr s).
Proof.
  induction d as [|d IHd]; intros a tr fp h p s O; destruct O as (n & N & Lv & Ps & Hf & Lt & K); destruct tr as [pos half level ts|pos half level cs];
    destruct s as ((b & t) & sg).
  - destruct K as (Lf & Ts & _). cbn [th_near near_impl tt_pos tt_half] in *. rewrite N, Lf, Ps, Hf, Ts. destruct (a_lt A b _); reflexivity.
  - tauto.
  - destruct K as (Lf & Ts & _). cbn [th_near near_impl tt_pos tt_half] in *. rewrite N, Lf, Ps, Hf, Ts. destruct (a_lt A b _); reflexivity.
  - destruct K as (Lf & L8 & fss & K & _). cbn [tt_pos tt_half] in *. rewrite near_node.
    pose proof (Forall3_len _ _ _ _ _ _ _ K) as (L1 & L2).
    assert (V : forall i s, 0 <= i < 8 -> match znth (tn_children n) i with None => None | Some None => Some s | Some (Some c) => th_near A (S d) p h c s end = Some (visit A p cs i s)).
    { intros i s I. destruct (Forall3_znth _ _ _ _ _ _ _ i K) as (oc & ot & f & E1 & E2 & Hk); [lia|]. rewrite E1. unfold visit. rewrite E2. unfold kid_owns in Hk.
      destruct oc, ot; try tauto. eapply IHd; eauto. }
    change (th_near A (S (S d)) p h a (b, t, sg)) with (
      match th_nodes h a with
      | None => None
      | Some n =>
          if a_lt A b (distance_to_node A (tn_pos n) (tn_half n) p) then Some (b, t, sg)
          else if tn_leaf n then Some (fold_left (near_step A p) (tn_tris n) (b, t, sg))
          else
            fold_left (fun o i => match o with None => None | Some s => if i =? tt_index A (tn_pos n) (tn_half n) p then Some s else
                match znth (tn_children n) i with None => None | Some None => Some s | Some (Some c) => th_near A (S d) p h c s end end) (zseq 0 8)
              (match znth (tn_children n) (tt_index A (tn_pos n) (tn_half n) p) with None => None | Some None => Some (b, t, sg) | Some (Some c) => th_near A (S d) p h c (b, t, sg) end)
      end).
    rewrite N, Lf, Ps, Hf. destruct (a_lt A b _); [reflexivity|]. rewrite V by apply index_range.
    rewrite (fold_some _ (fun i s => if i =? tt_index A pos half p then Some s else
                match znth (tn_children n) i with None => None | Some None => Some s | Some (Some c) => th_near A (S d) p h c s end)
      (fun i s => if i =? tt_index A pos half p then s else visit A p cs i s)); [reflexivity|].
    intros i s I. destruct (i =? _); auto. apply V. cbn in I. lia.
Qed.
End Heap.
