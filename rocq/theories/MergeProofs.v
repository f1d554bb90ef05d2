(* The merge of sorted entry lists in marching_cubes.cpp. *)
From Coq Require Import ZArith List Bool Lia Sorted Permutation.
From Verif Require Import Base EdgeSpec MCModel LoopLemmas.
Import ListNotations.
Local Open Scope Z_scope.

Definition strict (l : list entry) : Prop := StronglySorted (fun a b => fst a < fst b) l.
Definition below_bad (l : list entry) : Prop := Forall (fun a => fst a < kBadIndex) l.

Fixpoint assoc (c : Z) (l : list entry) : option Z :=
  match l with
  | [] => None
  | (c', v) :: l' => if c' =? c then Some v else assoc c l'
  end.

Lemma assoc_above : forall c l, Forall (fun a => c < fst a) l -> assoc c l = None.
Proof.
  induction l as [|[c' v] l IH]; intro H; simpl; [reflexivity|]. inversion H; subst. cbn [fst] in *.
  destruct (Z.eqb_spec c' c); [lia|auto].
Qed.

(* Two strictly sorted lists with the same elements are equal. *)
Lemma strict_unique : forall l l', strict l -> strict l' -> (forall x, In x l <-> In x l') -> l = l'.
Proof.
  induction l as [|a l IH]; intros l' Hs Hs' H.
  - destruct l' as [|b l']; [reflexivity|]. destruct (proj2 (H b)); left; reflexivity.
  - destruct l' as [|b l']; [destruct (proj1 (H a)); left; reflexivity|].
    apply StronglySorted_inv in Hs as [Hs Ha]. apply StronglySorted_inv in Hs' as [Hs' Hb].
    rewrite Forall_forall in Ha, Hb.
    assert (a = b).
    { destruct (proj1 (H a)) as [E|E]; [left; reflexivity|congruence|].
      destruct (proj2 (H b)) as [E'|E']; [left; reflexivity|congruence|].
      apply Hb in E. apply Ha in E'. lia. }
    subst b. f_equal. apply IH; [assumption|assumption|]. intro x. split; intro Hx.
    + destruct (proj1 (H x) (or_intror Hx)) as [->|G]; [|assumption]. apply Ha in Hx. lia.
    + destruct (proj2 (H x) (or_intror Hx)) as [->|G]; [|assumption]. apply Hb in Hx. lia.
Qed.

Lemma sort_strict : forall sort l, sorts entry_less sort -> strict l -> sort l = l.
Proof.
  intros sort l Hsort Hs. destruct (Hsort l) as [Hp Ho].
  symmetry. apply strict_unique; [assumption| |].
  - assert (Hnd : NoDup (map fst (sort l))).
    { apply Permutation_NoDup with (map fst l); [apply Permutation_map; assumption|].
      clear -Hs. induction l as [|a l IH]; simpl; constructor; apply StronglySorted_inv in Hs as [Hs Ha]; auto.
      intro G. apply in_map_iff in G as (b & Eb & Hb). rewrite Forall_forall in Ha. apply Ha in Hb. lia. }
    revert Ho Hnd. generalize (sort l) as l'. clear.
    induction l' as [|a l IH]; intros Ho Hnd; constructor; apply StronglySorted_inv in Ho as [Ho Ha];
      inversion Hnd; subst; [apply IH; assumption|].
    rewrite Forall_forall in *. intros b Hb. specialize (Ha b Hb). unfold entry_less in Ha.
    apply Z.ltb_ge in Ha. assert (fst a <> fst b) by (intro X; apply H1; rewrite X; apply in_map; assumption). lia.
  - intro x. split; intro H; [eapply Permutation_in; eassumption|].
    eapply Permutation_in; [apply Permutation_sym|]; eassumption.
Qed.

Lemma heads_min_gen : forall ls m0,
  let r := fold_left (fun m l => match l with [] => m | (c, _) :: _ => if c <? m then c else m end) ls m0 in
  r <= m0 /\ (forall l c v (t : list entry), In l ls -> l = (c, v) :: t -> r <= c) /\
  (r = m0 \/ exists c v t, In ((c, v) :: t) ls /\ r = c).
Proof.
  induction ls as [|l ls IH]; intro m0; cbn [fold_left].
  - split; [lia|]. split; [intros l c v t []|left; reflexivity].
  - set (m1 := match l with [] => m0 | (c, _) :: _ => if c <? m0 then c else m0 end).
    destruct (IH m1) as (A & B & C).
    set (r := fold_left _ ls m1) in *. cbv zeta.
    assert (Hm1 : m1 <= m0) by (unfold m1; destruct l as [|[c v] t]; [lia|]; destruct (Z.ltb_spec c m0); lia).
    split; [lia|]. split.
    + intros l' c v t [<-|Hin] E; [|eapply B; eassumption].
      assert (m1 <= c) by (unfold m1; rewrite E; destruct (Z.ltb_spec c m0); lia). lia.
    + destruct C as [C|(c & v & t & Hin & E)]; [|right; exists c, v, t; split; [right|]; assumption].
      unfold m1 in C. destruct l as [|[c v] t]; [left; assumption|].
      destruct (Z.ltb_spec c m0); [right; exists c, v, t; split; [left; reflexivity|assumption]|left; assumption].
Qed.

Lemma take_head_ok : forall c l, strict l -> (forall c' v t, l = (c', v) :: t -> c <= c') ->
  fst (take_head c l) = assoc c l /\ strict (snd (take_head c l)) /\
  Forall (fun a => c < fst a) (snd (take_head c l)) /\
  (forall x, In x (snd (take_head c l)) <-> In x l /\ fst x <> c) /\
  (forall c', c < c' -> assoc c' (snd (take_head c l)) = assoc c' l).
Proof.
  intros c [|[c' v] t] Hs Hm.
  - cbn. split; [reflexivity|]. split; [constructor|]. split; [constructor|]. split; [tauto|reflexivity].
  - specialize (Hm c' v t eq_refl). apply StronglySorted_inv in Hs as [Hs Ha]. cbn [take_head assoc].
    assert (Hgt : Forall (fun a => c' < fst a) t) by exact Ha.
    destruct (Z.eqb_spec c' c) as [->|Hne]; cbn [fst snd].
    + split; [reflexivity|]. split; [assumption|]. split; [assumption|]. split.
      * intro x. split; [|intros [[<-|H] N]; [cbn in N; lia|assumption]].
        intro H. split; [right; assumption|]. rewrite Forall_forall in Hgt. apply Hgt in H. lia.
      * intros c'' H. destruct (Z.eqb_spec c c''); [lia|reflexivity].
    + assert (Hall : Forall (fun a : entry => c < fst a) ((c', v) :: t)).
      { constructor; [cbn; lia|]. eapply Forall_impl; [|exact Hgt]. cbn; intros; lia. }
      split; [symmetry; apply assoc_above; eapply Forall_impl; [|exact Hgt]; cbn; intros; lia|].
      split; [constructor; assumption|]. split; [assumption|]. split.
      * intro x. split; [|tauto]. intro H. split; [assumption|].
        rewrite Forall_forall in Hall. apply Hall in H. lia.
      * reflexivity.
Qed.

Lemma take_head_length : forall c l, (length (snd (take_head c l)) <= length l)%nat.
Proof. intros c [|[c' v] t]; cbn [take_head]; [apply le_n|]. destruct (c' =? c); cbn [snd length]; lia. Qed.

Lemma total_cons : forall A (l : list A) ls, total_length (l :: ls) = (length l + total_length ls)%nat.
Proof. reflexivity. Qed.

Lemma total_take : forall c ls, (total_length (map (fun l => snd (take_head c l)) ls) <= total_length ls)%nat.
Proof.
  induction ls as [|l ls IH]; [apply le_n|]. cbn [map]. rewrite !total_cons.
  apply Nat.add_le_mono; [apply take_head_length|assumption].
Qed.

Lemma total_take_lt : forall c ls v t, In ((c, v) :: t) ls ->
  (total_length (map (fun l => snd (take_head c l)) ls) < total_length ls)%nat.
Proof.
  induction ls as [|l ls IH]; intros v t H; [destruct H|]. cbn [map]. rewrite !total_cons.
  destruct H as [->|H].
  - cbn [take_head]. rewrite Z.eqb_refl. cbn [snd length].
    apply Nat.lt_succ_r. apply Nat.add_le_mono; [apply le_n|apply total_take].
  - apply Nat.add_le_lt_mono; [apply take_head_length|]. exact (IH v t H).
Qed.

Lemma ofold_ext : forall A S (f g : S -> A -> outcome S) l s,
  (forall s a, In a l -> f s a = g s a) -> ofold f l s = ofold g l s.
Proof.
  induction l as [|a l IH]; intros s H; cbn [ofold]; [reflexivity|].
  rewrite H by (left; reflexivity). destruct (g s a); cbn [obind]; auto.
  apply IH. intros; apply H; right; assumption.
Qed.

Lemma ofold_map : forall A B S (f : S -> B -> outcome S) (h : A -> B) l s,
  ofold f (map h l) s = ofold (fun s a => f s (h a)) l s.
Proof.
  induction l as [|a l IH]; intro s; cbn [ofold map]; [reflexivity|].
  destruct (f s (h a)); cbn [obind]; auto.
Qed.

(* The loop handles every cell named in one of the lists once, in increasing
   order, and finds for each list the entry with that cell. *)
Lemma merge_ok : forall M (proc : Z -> list (option Z) -> M -> outcome M) fuel ls m,
  Forall strict ls -> Forall below_bad ls -> (total_length ls < fuel)%nat ->
  exists cells, StronglySorted Z.lt cells /\
    (forall c, In c cells <-> exists l, In l ls /\ In c (map fst l)) /\
    mc_loop proc fuel ls m = ofold (fun m c => proc c (map (assoc c) ls) m) cells m.
Proof.
  induction fuel as [|fuel IH]; intros ls m Hs Hb Hf; [lia|].
  cbn [mc_loop]. destruct (heads_min_gen ls kBadIndex) as (A & B & C).
  change (fold_left _ ls kBadIndex) with (heads_min ls) in *. cbv zeta in A, B, C.
  rewrite Forall_forall in Hs, Hb.
  destruct (Z.eqb_spec (heads_min ls) kBadIndex) as [E|E].
  - exists []. split; [constructor|]. split; [|reflexivity]. intro c. split; [intros []|].
    intros (l & Hl & Hc). destruct l as [|[c' v] t]; [destruct Hc|].
    specialize (B _ c' v t Hl eq_refl). specialize (Hb _ Hl).
    unfold below_bad in Hb. inversion Hb; subst. cbn [fst] in *. lia.
  - destruct C as [C|(c & v & t & Hin & C)]; [contradiction|]. rewrite C in *. clear C.
    assert (Ht : forall l, In l ls -> fst (take_head c l) = assoc c l /\ strict (snd (take_head c l)) /\
      Forall (fun a => c < fst a) (snd (take_head c l)) /\
      (forall x, In x (snd (take_head c l)) <-> In x l /\ fst x <> c) /\
      (forall c', c < c' -> assoc c' (snd (take_head c l)) = assoc c' l)).
    { intros l Hl. apply take_head_ok; [auto|]. intros c' v' t' El. eapply B; eassumption. }
    set (ls' := map (fun l => snd (take_head c l)) ls).
    assert (IHm := fun m' => IH ls' m').
    assert (H1 : Forall strict ls').
    { apply Forall_forall. intros l' Hl'. apply in_map_iff in Hl' as (l & <- & Hl). apply (Ht l Hl). }
    assert (H2 : Forall below_bad ls').
    { apply Forall_forall. intros l' Hl'. apply in_map_iff in Hl' as (l & <- & Hl).
      apply Forall_forall. intros x Hx. apply (Ht l Hl) in Hx. specialize (Hb l Hl). unfold below_bad in Hb.
      rewrite Forall_forall in Hb. apply Hb. tauto. }
    assert (H3 : (total_length ls' < fuel)%nat).
    { apply Nat.lt_le_trans with (total_length ls); [exact (total_take_lt c ls v t Hin)|]. apply Nat.lt_succ_r. exact Hf. }
    assert (Hlook : map (fun l => fst (take_head c l)) ls = map (assoc c) ls).
    { apply map_ext_in. intros l Hl. apply (Ht l Hl). }
    rewrite Hlook.
    (* the cells of the remaining lists do not depend on the accumulator *)
    destruct (IHm m H1 H2 H3) as (cells0 & S0 & M0 & _).
    exists (c :: cells0).
    assert (Hgt : forall c', In c' cells0 -> c < c').
    { intros c' Hc'. apply M0 in Hc' as (l' & Hl' & Hc'). apply in_map_iff in Hl' as (l & <- & Hl).
      apply in_map_iff in Hc' as (x & <- & Hx). destruct (Ht l Hl) as (_ & _ & G & _).
      rewrite Forall_forall in G. auto. }
    split; [constructor; [assumption|apply Forall_forall; assumption]|]. split.
    + intro c'. split.
      * intros [<-|Hc'].
        -- exists ((c, v) :: t). split; [assumption|left; reflexivity].
        -- apply M0 in Hc' as (l' & Hl' & Hc'). apply in_map_iff in Hl' as (l & <- & Hl).
           exists l. split; [assumption|]. apply in_map_iff in Hc' as (x & <- & Hx).
           apply in_map. apply (Ht l Hl) in Hx. tauto.
      * intros (l & Hl & Hc'). apply in_map_iff in Hc' as (x & <- & Hx).
        destruct (Z.eq_dec (fst x) c) as [Ex|Ex]; [left; symmetry; assumption|right].
        apply M0. exists (snd (take_head c l)). split; [apply in_map_iff; eauto|].
        apply in_map. apply (Ht l Hl). auto.
    + cbn [ofold]. destruct (proc c (map (assoc c) ls) m) as [m'| | | |]; cbn [obind]; try reflexivity.
      destruct (IHm m' H1 H2 H3) as (cells1 & S1 & M1 & E1). rewrite E1.
      assert (Ecells : cells1 = cells0).
      { assert (G : forall l1 l2 : list Z, StronglySorted Z.lt l1 -> StronglySorted Z.lt l2 ->
            (forall x, In x l1 <-> In x l2) -> l1 = l2).
        { clear. intros l1 l2 G1 G2 G.
          assert (X : map (fun x => (x, 0)) l1 = map (fun x => (x, 0)) l2).
          { apply strict_unique.
            - clear -G1. induction l1; cbn [map]; constructor; apply StronglySorted_inv in G1 as [G1 Ha]; [apply IHl1; assumption|].
              rewrite Forall_forall in Ha. apply Forall_forall. intros x Hx. apply in_map_iff in Hx as (y & <- & Hy). exact (Ha y Hy).
            - clear -G2. induction l2; cbn [map]; constructor; apply StronglySorted_inv in G2 as [G2 Ha]; [apply IHl2; assumption|].
              rewrite Forall_forall in Ha. apply Forall_forall. intros x Hx. apply in_map_iff in Hx as (y & <- & Hy). exact (Ha y Hy).
            - intro x. rewrite !in_map_iff. split; intros (y & Ey & Hy); exists y; (split; [assumption|]); apply G; assumption. }
          apply (f_equal (map fst)) in X. rewrite !map_map in X. cbn [fst] in X. rewrite !map_id in X. assumption. }
        apply G; [assumption|assumption|]. intro x. rewrite M0, M1. reflexivity. }
      rewrite Ecells. apply ofold_ext. intros s c' Hc'. f_equal.
      unfold ls'. rewrite map_map. apply map_ext_in. intros l Hl. apply (Ht l Hl). apply Hgt. assumption.
Qed.
