(* Ownership of the nodes of a DC octree. *)
From Coq Require Import ZArith List Bool Lia Permutation.
From Verif Require Import Base LoopLemmas DcHeap.
Import ListNotations.
Local Open Scope Z_scope.

(* The tree formed by the nodes. *)
Inductive gtree := GLeaf (a : Z) | GNode (a : Z) (cs : list gtree).
Definition addr (t : gtree) : Z := match t with GLeaf a => a | GNode a _ => a end.
Fixpoint below (t : gtree) : list Z :=
  match t with GLeaf _ => [] | GNode _ cs => flat_map (fun c => addr c :: below c) cs end.
Definition addrs (t : gtree) : list Z := addr t :: below t.
Fixpoint height (t : gtree) : nat :=
  match t with GLeaf _ => O | GNode _ cs => S (fold_right (fun c n => Nat.max (height c) n) O cs) end.

Definition nulls (n : nat) : list word := repeat WNull n.
Definition words_of (cs : list gtree) : list word := map (fun c => WPtr (addr c)) cs.

Fixpoint owns (N : Z -> option hnode) (t : gtree) : Prop :=
  match t with
  | GLeaf a => exists ws, N a = Some (HNode true ws) /\ length ws = 8%nat
  | GNode a cs => (length cs <= 8)%nat /\ N a = Some (HNode false (words_of cs ++ nulls (8 - length cs))) /\
      fold_right (fun c P => owns N c /\ P) True cs
  end.

Lemma owns_all : forall N cs, fold_right (fun c P => owns N c /\ P) True cs <-> Forall (owns N) cs.
Proof. intros N. induction cs as [|c cs IH]; cbn; [split; auto|]. rewrite IH. split; [intros []; auto|intro H; inversion H; auto]. Qed.

Lemma height_all : forall cs n, (fold_right (fun c n => Nat.max (height c) n) O cs <= n)%nat <-> Forall (fun c => (height c <= n)%nat) cs.
Proof.
  induction cs as [|c cs IH]; intro n; cbn; [split; [constructor|lia]|].
  rewrite Nat.max_lub_iff, IH. split; [intros []; auto|intro H; inversion H; auto].
Qed.

Lemma gtree_ind' : forall P : gtree -> Prop, (forall a, P (GLeaf a)) -> (forall a cs, Forall P cs -> P (GNode a cs)) -> forall t, P t.
Proof.
  intros P HL HN. fix IH 1. intros [a|a cs]; [apply HL|]. apply HN. induction cs as [|c cs IHc]; constructor; [apply IH|exact IHc].
Qed.

Lemma below_node : forall a cs, below (GNode a cs) = flat_map addrs cs.
Proof. reflexivity. Qed.

Lemma owns_frame : forall t N N', (forall b, In b (addrs t) -> N' b = N b) -> owns N t -> owns N' t.
Proof.
  induction t as [a|a cs IH] using gtree_ind'; intros N N' H Ho; cbn [owns] in *.
  - rewrite H by (left; reflexivity). exact Ho.
  - destruct Ho as (H1 & H2 & H3). split; [exact H1|]. split; [rewrite H by (left; reflexivity); exact H2|].
    rewrite owns_all in *. rewrite Forall_forall in *. intros c Hc. apply (IH c Hc N); [|apply H3; exact Hc].
    intros b Hb. apply H. right. rewrite below_node. apply in_flat_map. eauto.
Qed.

(* ---- words ---- *)

Lemma znth_app : forall T (l r : list T) w, znth (l ++ w :: r) (Z.of_nat (length l)) = Some w.
Proof.
  intros T l r w. unfold znth. destruct (Z.ltb_spec (Z.of_nat (length l)) 0); [lia|]. rewrite Nat2Z.id.
  rewrite nth_error_app2 by lia. rewrite Nat.sub_diag. reflexivity.
Qed.
Lemma set_nth_app : forall T (l r : list T) w x, set_nth (l ++ w :: r) (length l) x = l ++ x :: r.
Proof. induction l as [|a l IH]; intros; cbn; [reflexivity|]. rewrite IH. reflexivity. Qed.

Lemma nulls_snoc : forall n, nulls n ++ [WNull] = nulls (S n).
Proof. unfold nulls. induction n; cbn; [reflexivity|]. rewrite IHn. reflexivity. Qed.

Lemma hwrite_same : forall h a n, hp_nodes (hwrite h a n) a = Some n.
Proof. intros. unfold hwrite. cbn. rewrite Z.eqb_refl. reflexivity. Qed.
Lemma hwrite_other : forall h a n b, b <> a -> hp_nodes (hwrite h a n) b = hp_nodes h b.
Proof. intros. unfold hwrite. cbn. destruct (Z.eqb_spec b a); [contradiction|reflexivity]. Qed.

(* ---- collapse ---- *)

(* The nodes in [l] are gone and [a] is a leaf with null pointers. *)
Definition cleared (a : Z) (l : list Z) (h h' : heap) : Prop :=
  hp_nodes h' a = Some (HNode true (nulls 8)) /\ (forall b, b <> a -> In b l -> hp_nodes h' b = None) /\
  (forall b, b <> a -> ~ In b l -> hp_nodes h' b = hp_nodes h b) /\
  hp_next h' = hp_next h /\ exists f, hp_freed h' = hp_freed h ++ f /\ Permutation f l.

Lemma NoDup_app_inv : forall T (l r : list T), NoDup (l ++ r) -> NoDup l /\ NoDup r /\ forall x, In x l -> ~ In x r.
Proof.
  induction l as [|a l IH]; intros r H; cbn in *; [split; [constructor|split; auto]|].
  inversion H as [|? ? H1 H2]; subst. destruct (IH _ H2) as (I1 & I2 & I3). split; [constructor; [|exact I1]|].
  - intro X. apply H1. apply in_or_app. auto.
  - split; [exact I2|]. intros x [->|Hx]; [|auto]. intro X. apply H1. apply in_or_app. auto.
Qed.

Lemma collapse_ok : forall fuel a cs h, owns (hp_nodes h) (GNode a cs) -> NoDup (addrs (GNode a cs)) ->
  (height (GNode a cs) <= fuel)%nat ->
  exists h', collapse fuel a h = Done h' /\ cleared a (below (GNode a cs)) h h'.
Proof.
  induction fuel as [|fuel IH]; intros a cs h Ho Hd Hf; [cbn in Hf; lia|].
  cbn [height] in Hf. apply le_S_n in Hf. rewrite height_all in Hf.
  cbn [owns] in Ho. destruct Ho as (H8 & Ha & Hc). rewrite owns_all in Hc.
  unfold addrs in Hd. cbn [addr] in Hd. rewrite below_node in *.
  cbn [collapse]. unfold hread at 1. rewrite Ha. cbn [hn_leaf]. unfold set_leaf. unfold hread at 1. rewrite Ha. cbn [hbind hn_words].
  set (h1 := hwrite h a (HNode true (words_of cs ++ nulls (8 - length cs)))).
  match goal with |- context [hfold ?f _ _] => set (step := f) end.
  assert (Loop : forall k i cs h, (i + k = 8)%nat -> (length cs <= k)%nat ->
    hp_nodes h a = Some (HNode true (nulls i ++ words_of cs ++ nulls (k - length cs))) ->
    Forall (owns (hp_nodes h)) cs -> NoDup (a :: flat_map addrs cs) -> Forall (fun c => (height c <= fuel)%nat) cs ->
    exists h', hfold step (zseq (Z.of_nat i) k) h = Done h' /\ cleared a (flat_map addrs cs) h h').
  { clear - IH. induction k as [|k IHk]; intros i cs h Hi Hk Ha Hc Hd Hf.
    - destruct cs; [|cbn in Hk; lia]. cbn. exists h. split; [reflexivity|].
      assert (i = 8%nat) by lia; subst i. cbn in Ha. split; [exact Ha|]. split; [intros b _ []|]. split; [auto|].
      split; [reflexivity|]. exists []. rewrite app_nil_r. auto.
    - cbn [zseq hfold].
      assert (Hn : (length (nulls i) = i)%nat) by (apply repeat_length).
      destruct cs as [|c cs].
      + (* a null pointer *)
        cbn [words_of map app length Nat.sub nulls repeat] in Ha.
        assert (Hst : exists h', step (Z.of_nat i) h = Done h' /\ hp_nodes h' a = Some (HNode true (nulls (S i) ++ nulls k)) /\
          (forall b, b <> a -> hp_nodes h' b = hp_nodes h b) /\ hp_next h' = hp_next h /\ hp_freed h' = hp_freed h).
        { unfold step. unfold hread at 1. rewrite Ha. cbn [hn_words].
          replace (Z.of_nat i) with (Z.of_nat (length (nulls i))) by (rewrite Hn; reflexivity).
          change (WNull :: repeat WNull k) with (WNull :: nulls k). rewrite znth_app.
          unfold set_word, hread. rewrite Ha. cbn [hn_words hn_leaf]. rewrite Nat2Z.id.
          change (WNull :: repeat WNull k) with (WNull :: nulls k). rewrite set_nth_app.
          eexists. split; [reflexivity|]. split; [rewrite hwrite_same; rewrite <- nulls_snoc, <- app_assoc; reflexivity|].
          split; [intros; apply hwrite_other; assumption|]. split; reflexivity. }
        destruct Hst as (h1 & -> & A1 & A2 & A3 & A4). cbn [hbind].
        replace (Z.of_nat i + 1) with (Z.of_nat (S i)) by lia.
        destruct (IHk (S i) [] h1) as (h' & Hr & B1 & B2 & B3 & B4 & f & B5 & B6); [lia|cbn; lia| |constructor|constructor; [intros []|constructor]|constructor|].
        { cbn [words_of map app length]. rewrite Nat.sub_0_r. exact A1. }
        exists h'. split; [exact Hr|]. split; [exact B1|]. split; [intros b _ []|]. split.
        { intros b Hb _. rewrite B3 by auto. apply A2. exact Hb. }
        split; [congruence|]. exists f. rewrite <- A4. auto.
      + (* a child *)
        inversion Hc as [|? ? Hc1 Hc2]; subst. inversion Hf as [|? ? Hf1 Hf2]; subst.
        cbn [flat_map] in Hd. apply NoDup_cons_iff in Hd as [Hd1 Hd2].
        destruct (NoDup_app_inv _ _ _ Hd2) as (Hdc & Hdr & Hdis).
        assert (Hac : addr c <> a) by (intro X; apply Hd1; rewrite <- X; cbn; auto).
        cbn [words_of map app length] in Ha. change (S k - S (length cs))%nat with (k - length cs)%nat in Ha. fold (words_of cs) in Ha.
        (* the child is emptied *)
        assert (Hch : exists h1, 
           hread h (addr c) (fun n => if hn_leaf n then Done h else collapse fuel (addr c) h) = Done h1 /\
           (forall b, In b (below c) -> hp_nodes h1 b = None) /\ (forall b, ~ In b (addrs c) -> hp_nodes h1 b = hp_nodes h b) /\
           hp_next h1 = hp_next h /\ exists f, hp_freed h1 = hp_freed h ++ f /\ Permutation f (below c)).
        { destruct c as [p|p cc].
          - destruct Hc1 as (ws & Hp & _). cbn [addr]. unfold hread. rewrite Hp. cbn [hn_leaf]. exists h.
            split; [reflexivity|]. split; [intros b []|]. split; [auto|]. split; [reflexivity|]. exists []. rewrite app_nil_r. auto.
          - destruct (IH p cc h Hc1 Hdc Hf1) as (h1 & Hr & B1 & B2 & B3 & B4 & B5).
            pose proof Hc1 as (_ & Hp & _). cbn [addr]. unfold hread. rewrite Hp. cbn [hn_leaf]. exists h1.
            split; [exact Hr|]. unfold addrs in *. cbn [addr] in *. inversion Hdc as [|? ? X1 X2]; subst. split.
            + intros b Hb. apply B2; [|exact Hb]. intros ->. contradiction.
            + split; [|split; assumption]. intros b Hb. apply B3; [intros ->; apply Hb; left; reflexivity|intro; apply Hb; right; assumption]. }
        assert (Hst : exists h', step (Z.of_nat i) h = Done h' /\
          hp_nodes h' a = Some (HNode true (nulls (S i) ++ words_of cs ++ nulls (k - length cs))) /\
          (forall b, In b (addrs c) -> hp_nodes h' b = None) /\
          (forall b, b <> a -> ~ In b (addrs c) -> hp_nodes h' b = hp_nodes h b) /\ hp_next h' = hp_next h /\
          exists f, hp_freed h' = hp_freed h ++ f /\ Permutation f (addrs c)).
        { assert (Hna : ~ In a (addrs c)) by (intro X; apply Hd1; apply in_or_app; auto).
          destruct Hch as (h1 & C1 & C2 & C3 & C4 & f & C5 & C6).
          unfold step. unfold hread at 1. rewrite Ha. cbn [hn_words].
          replace (Z.of_nat i) with (Z.of_nat (length (nulls i))) by (rewrite Hn; reflexivity).
          rewrite znth_app. rewrite C1. cbn [hbind].
          unfold set_word, hread. cbn [hp_nodes]. destruct (Z.eqb_spec a (addr c)) as [X|_]; [congruence|].
          rewrite C3 by exact Hna. rewrite Ha. cbn [hn_words hn_leaf]. rewrite Nat2Z.id, set_nth_app.
          eexists. split; [reflexivity|]. split; [rewrite hwrite_same; rewrite <- nulls_snoc, <- app_assoc; reflexivity|]. split.
          - intros b Hb. rewrite hwrite_other by (intros ->; contradiction). cbn [hp_nodes].
            destruct (Z.eqb_spec b (addr c)); [reflexivity|]. apply C2. destruct Hb; [congruence|assumption].
          - split.
            + intros b Hb Hb'. rewrite hwrite_other by exact Hb. cbn [hp_nodes].
              destruct (Z.eqb_spec b (addr c)) as [->|]; [exfalso; apply Hb'; left; reflexivity|]. apply C3. exact Hb'.
            + split; [exact C4|]. exists (f ++ [addr c]). cbn [hwrite hp_freed]. rewrite C5, <- app_assoc. split; [reflexivity|].
              unfold addrs. rewrite C6. symmetry. apply Permutation_cons_append. }
        destruct Hst as (h1 & -> & A1 & A2 & A3 & A4 & f1 & A5 & A6). cbn [hbind].
        replace (Z.of_nat i + 1) with (Z.of_nat (S i)) by lia.
        destruct (IHk (S i) cs h1) as (h' & Hr & B1 & B2 & B3 & B4 & f & B5 & B6);
          [lia|cbn in Hk; lia|exact A1| | |exact Hf2|].
        { rewrite Forall_forall in *. intros x Hx. apply (owns_frame x (hp_nodes h)); [|apply Hc2; exact Hx].
          intros b Hb. assert (Hb' : In b (flat_map addrs cs)) by (apply in_flat_map; eauto).
          apply A3; [intros ->; apply Hd1; apply in_or_app; auto|]. intro Y. exact (Hdis b Y Hb'). }
        { constructor; [|exact Hdr]. intro X. apply Hd1. apply in_or_app. auto. }
        exists h'. split; [exact Hr|]. split; [exact B1|]. cbn [flat_map]. split; [|split].
        * intros b Hb Hin. destruct (in_dec Z.eq_dec b (flat_map addrs cs)) as [Y|Y]; [apply B2; assumption|].
          rewrite B3 by assumption. apply A2. apply in_app_or in Hin as [|]; [assumption|contradiction].
        * intros b Hb Hin. rewrite B3; [apply A3; [exact Hb|]|exact Hb|]; intro Y; apply Hin; apply in_or_app; auto.
        * split; [congruence|]. exists (f1 ++ f). rewrite B5, A5, <- app_assoc. split; [reflexivity|]. apply Permutation_app; assumption. }
  destruct (Loop 8%nat O cs h1) as (h' & Hr & B1 & B2 & B3 & B4 & f & B5 & B6); [reflexivity|exact H8| | |exact Hd|exact Hf|].
  { unfold h1. rewrite hwrite_same. reflexivity. }
  { rewrite Forall_forall in *. intros x Hx. apply (owns_frame x (hp_nodes h)); [|apply Hc; exact Hx].
    intros b Hb. unfold h1. apply hwrite_other. intros ->. inversion Hd as [|? ? X _]. apply X. apply in_flat_map. eauto. }
  exists h'. split; [exact Hr|]. split; [exact B1|]. split; [exact B2|]. split.
  - intros b Hb Hb'. rewrite B3 by assumption. unfold h1. apply hwrite_other. exact Hb.
  - split; [exact B4|]. exists f. auto.
Qed.

(* ---- building ---- *)

(* From [h] to [h'] the node [a], a leaf before, became the tree [t]; no other old
   node changed; each new node is either part of [t] or has been freed, once. *)
Record effect (a : Z) (h h' : heap) (t : gtree) : Prop := {
  e_addr : addr t = a;
  e_owns : owns (hp_nodes h') t;
  e_lt : a < hp_next h;
  e_next : hp_next h <= hp_next h';
  e_frame : forall b, b <> a -> b < hp_next h -> hp_nodes h' b = hp_nodes h b;
  e_live : forall b, hp_next h <= b -> hp_nodes h' b <> None -> In b (below t);
  e_freed : exists f, hp_freed h' = hp_freed h ++ f /\
    Permutation (f ++ below t) (zseq (hp_next h) (Z.to_nat (hp_next h' - hp_next h)))
}.

Lemma zseq_length : forall n a, length (zseq a n) = n.
Proof. induction n as [|n IH]; intro a; cbn [zseq length]; [reflexivity|]. rewrite IH. reflexivity. Qed.
Lemma zseq_nodup : forall n a, NoDup (zseq a n).
Proof.
  induction n as [|n IH]; intro a; cbn [zseq]; constructor; [|apply IH]. rewrite in_zseq. lia.
Qed.

Lemma effect_range : forall a h h' t, effect a h h' t -> forall b, In b (below t) -> hp_next h <= b < hp_next h'.
Proof.
  intros a h h' t He b Hb. destruct (e_freed _ _ _ _ He) as (f & _ & P).
  assert (X : In b (f ++ below t)) by (apply in_or_app; auto).
  apply (Permutation_in _ P) in X. apply in_zseq in X. pose proof (e_next _ _ _ _ He). lia.
Qed.

Lemma effect_nodup : forall a h h' t, effect a h h' t -> NoDup (addrs t).
Proof.
  intros a h h' t He. unfold addrs. constructor.
  - intro X. pose proof (effect_range _ _ _ _ He _ X). rewrite (e_addr _ _ _ _ He) in H. pose proof (e_lt _ _ _ _ He). lia.
  - destruct (e_freed _ _ _ _ He) as (f & _ & P). pose proof (Permutation_NoDup (Permutation_sym P) (zseq_nodup _ _)) as N.
    apply NoDup_app_inv in N. tauto.
Qed.

Lemma effect_refl : forall a h, (exists ws, hp_nodes h a = Some (HNode true ws) /\ length ws = 8%nat) -> a < hp_next h ->
  (forall b, hp_next h <= b -> hp_nodes h b = None) -> effect a h h (GLeaf a).
Proof.
  intros a h Ha Hlt Hb. constructor; cbn [addr below]; auto; try lia.
  - intros b X Y. rewrite (Hb b X) in Y. congruence.
  - exists []. rewrite app_nil_r, Z.sub_diag. split; reflexivity.
Qed.

(* One of the children is built. *)
Lemma effect_step : forall a h0 h h' d p r t, effect a h0 h (GNode a (d ++ GLeaf p :: r)) -> effect p h h' t ->
  effect a h0 h' (GNode a (d ++ t :: r)).
Proof.
  intros a h0 h h' d p r t H1 H2.
  assert (Hp : In p (below (GNode a (d ++ GLeaf p :: r)))).
  { rewrite below_node, flat_map_app. apply in_or_app. right. left. reflexivity. }
  pose proof (effect_range _ _ _ _ H1) as R1. pose proof (effect_range _ _ _ _ H2) as R2. pose proof (R1 _ Hp) as Rp.
  pose proof (e_lt _ _ _ _ H1) as La. pose proof (e_next _ _ _ _ H1) as N1. pose proof (e_next _ _ _ _ H2) as N2.
  pose proof (effect_nodup _ _ _ _ H1) as Nd. unfold addrs in Nd. cbn [addr] in Nd. rewrite below_node in *. apply NoDup_cons_iff in Nd as [Nda Nd].
  rewrite flat_map_app in *. cbn [flat_map] in *. change (addrs (GLeaf p)) with [p] in *. cbn [app] in *.
  assert (Hnp : forall b, In b (flat_map addrs d) \/ In b (flat_map addrs r) -> b <> p).
  { intros b Hb ->. apply NoDup_remove_2 in Nd. apply Nd. apply in_or_app. exact Hb. }
  pose proof (e_addr _ _ _ _ H2) as At.
  constructor.
  - reflexivity.
  - pose proof (e_owns _ _ _ _ H1) as Ho. cbn [owns] in Ho |- *. destruct Ho as (O1 & O2 & O3).
    rewrite app_length in *. cbn [length] in *. split; [exact O1|]. split.
    + rewrite (e_frame _ _ _ _ H2) by lia. rewrite O2. unfold words_of. rewrite !map_app. cbn [map addr]. rewrite At. reflexivity.
    + rewrite owns_all in *. rewrite Forall_app in *. destruct O3 as [O3 O4]. inversion O4 as [|? ? O5 O6]; subst.
      assert (Fr : forall l, (forall b, In b (flat_map addrs l) -> In b (flat_map addrs d) \/ In b (flat_map addrs r)) ->
        Forall (owns (hp_nodes h)) l -> Forall (owns (hp_nodes h')) l).
      { intros l Hl Hown. rewrite Forall_forall in *. intros c Hc. apply (owns_frame c (hp_nodes h)); [|apply Hown; exact Hc].
        intros b Hb. assert (Hin : In b (flat_map addrs l)) by (apply in_flat_map; eauto). specialize (Hl b Hin).
        apply (e_frame _ _ _ _ H2); [apply Hnp; exact Hl|]. apply R1. apply in_or_app.
        destruct Hl; [left; assumption|right; right; assumption]. }
      split; [apply Fr; auto|]. constructor; [exact (e_owns _ _ _ _ H2)|apply Fr; auto].
  - exact La.
  - lia.
  - intros b Hb Hlt. rewrite (e_frame _ _ _ _ H2) by lia. apply (e_frame _ _ _ _ H1); assumption.
  - intros b Hb Hl. rewrite below_node, flat_map_app. cbn [flat_map]. unfold addrs at 2. rewrite At.
    destruct (Z_lt_le_dec b (hp_next h)) as [Hlt|Hge].
    + destruct (Z.eq_dec b p) as [->|Hne]; [apply in_or_app; right; left; reflexivity|].
      rewrite (e_frame _ _ _ _ H2) in Hl by assumption. apply (e_live _ _ _ _ H1) in Hl; [|exact Hb].
      rewrite below_node, flat_map_app in Hl. cbn [flat_map] in Hl. change (addrs (GLeaf p)) with [p] in Hl.
      apply in_app_or in Hl as [Hl|[Hl|Hl]]; apply in_or_app; [auto|congruence|]. right. right. apply in_or_app. auto.
    + apply (e_live _ _ _ _ H2) in Hl; [|exact Hge]. apply in_or_app. right. right. apply in_or_app. auto.
  - destruct (e_freed _ _ _ _ H1) as (f1 & F1 & P1). destruct (e_freed _ _ _ _ H2) as (f2 & F2 & P2).
    exists (f1 ++ f2). rewrite F2, F1, <- app_assoc. split; [reflexivity|].
    rewrite below_node, flat_map_app in *. cbn [flat_map] in *. change (addrs (GLeaf p)) with [p] in P1. cbn [app] in P1.
    replace (Z.to_nat (hp_next h' - hp_next h0)) with (Z.to_nat (hp_next h - hp_next h0) + Z.to_nat (hp_next h' - hp_next h))%nat by lia.
    rewrite zseq_app. replace (hp_next h0 + Z.of_nat (Z.to_nat (hp_next h - hp_next h0))) with (hp_next h) by lia.
    rewrite <- P1, <- P2. unfold addrs at 2. rewrite At. rewrite <- !app_assoc. apply Permutation_app_head.
    rewrite (Permutation_app_comm f2). rewrite <- !app_assoc. apply Permutation_app_head. cbn [app]. constructor.
    rewrite <- ?app_assoc. rewrite (Permutation_app_comm (below t)). rewrite <- ?app_assoc. reflexivity.
Qed.

(* The node is collapsed again. *)
Lemma effect_collapse : forall a h0 h cs fuel, effect a h0 h (GNode a cs) -> (height (GNode a cs) <= fuel)%nat ->
  exists h', collapse fuel a h = Done h' /\ effect a h0 h' (GLeaf a) /\ hp_nodes h' a = Some (HNode true (nulls 8)) /\ hp_next h' = hp_next h.
Proof.
  intros a h0 h cs fuel He Hf. pose proof (effect_range _ _ _ _ He) as R. pose proof (e_lt _ _ _ _ He) as La.
  destruct (collapse_ok fuel a cs h (e_owns _ _ _ _ He) (effect_nodup _ _ _ _ He) Hf) as (h' & Hr & C1 & C2 & C3 & C4 & f & C5 & C6).
  exists h'. split; [exact Hr|]. split; [|split; [exact C1|exact C4]]. constructor.
  - reflexivity.
  - exists (nulls 8). auto.
  - exact La.
  - rewrite C4. apply (e_next _ _ _ _ He).
  - intros b Hb Hlt. rewrite C3; [apply (e_frame _ _ _ _ He); assumption|exact Hb|]. intro X. specialize (R _ X). lia.
  - intros b Hb Hl. exfalso. apply Hl. destruct (in_dec Z.eq_dec b (below (GNode a cs))) as [X|X]; [apply C2; [lia|exact X]|].
    rewrite C3 by (auto; lia). destruct (hp_nodes h b) eqn:Y; [|reflexivity]. exfalso. apply X. apply (e_live _ _ _ _ He); congruence.
  - destruct (e_freed _ _ _ _ He) as (f0 & F & P). exists (f0 ++ f). rewrite C5, F, <- app_assoc. split; [reflexivity|].
    rewrite C4. cbn [below]. rewrite app_nil_r, C6. exact P.
Qed.

Lemma effect_data : forall a h0 h, effect a h0 h (GLeaf a) -> exists h', write_data a h = Done h' /\ effect a h0 h' (GLeaf a) /\ hp_next h' = hp_next h.
Proof.
  intros a h0 h He. pose proof (e_owns _ _ _ _ He) as (ws & Ha & Hl). unfold write_data, hread. rewrite Ha.
  eexists. split; [reflexivity|]. pose proof (e_lt _ _ _ _ He). split; [|reflexivity]. constructor.
  - reflexivity.
  - eexists. rewrite hwrite_same. split; [reflexivity|]. cbn [hn_words]. rewrite map_length. exact Hl.
  - assumption.
  - apply (e_next _ _ _ _ He).
  - intros b Hb Hlt. rewrite hwrite_other by exact Hb. apply (e_frame _ _ _ _ He); assumption.
  - intros b Hb Hn. rewrite hwrite_other in Hn by lia. apply (e_live _ _ _ _ He); assumption.
  - exact (e_freed _ _ _ _ He).
Qed.

Section Alloc.
Variable works : Z -> bool.
Variable merges : list Z -> bool.

(* Nodes as the constructor leaves them. *)
Definition untouched (h : heap) (p : Z) : Prop := hp_nodes h p = Some fresh_node.

(* subdivide allocates up to the first failure. *)
Lemma subdivide_ok : forall a h0 h, effect a h0 h (GLeaf a) ->
  (exists ws, hp_nodes h a = Some (HNode true ws) /\ (ws = nulls 8 \/ forall i, 0 <= i < 8 -> works (hp_next h + i) = true)) ->
  exists h' k, (k <= 8)%nat /\ hp_next h' = hp_next h + Z.of_nat k /\ effect a h0 h' (GNode a (map GLeaf (zseq (hp_next h) k))) /\
    Forall (untouched h') (zseq (hp_next h) k) /\
    (forall b, hp_next h <= b < hp_next h' -> works b = true) /\
    (subdivide works a h = Done h' /\ k = 8%nat \/ subdivide works a h = BadAlloc h' /\ works (hp_next h') = false).
Proof.
  intros a h0 h He (ws & Ha & Hws). unfold subdivide, hread. rewrite Ha. cbn [hn_leaf negb]. unfold set_leaf, hread. rewrite Ha.
  cbn [hbind hn_words]. pose proof (e_owns _ _ _ _ He) as (ws' & Ha' & Hlen). rewrite Ha in Ha'. injection Ha' as <-.
  pose proof (e_lt _ _ _ _ He) as La. pose proof (e_next _ _ _ _ He) as Ln.
  match goal with |- context [hfold ?f _ _] => set (step := f) end. set (n0 := hp_next h) in *.
  (* the words after k allocations *)
  assert (Loop : forall m k h1, (k + m = 8)%nat -> hp_next h1 = n0 + Z.of_nat k ->
    hp_nodes h1 a = Some (HNode false (words_of (map GLeaf (zseq n0 k)) ++ skipn k ws)) ->
    (forall b, b <> a -> b < n0 -> hp_nodes h1 b = hp_nodes h b) ->
    Forall (untouched h1) (zseq n0 k) -> (forall b, n0 + Z.of_nat k <= b -> hp_nodes h1 b = None) -> hp_freed h1 = hp_freed h ->
    (forall b, n0 <= b < n0 + Z.of_nat k -> works b = true) ->
    exists h' k', (k' <= 8)%nat /\ hp_next h' = n0 + Z.of_nat k' /\
      hp_nodes h' a = Some (HNode false (words_of (map GLeaf (zseq n0 k')) ++ skipn k' ws)) /\
      (forall b, b <> a -> b < n0 -> hp_nodes h' b = hp_nodes h b) /\
      Forall (untouched h') (zseq n0 k') /\ (forall b, n0 + Z.of_nat k' <= b -> hp_nodes h' b = None) /\ hp_freed h' = hp_freed h /\
      (forall b, n0 <= b < n0 + Z.of_nat k' -> works b = true) /\
      (hfold step (zseq (Z.of_nat k) m) h1 = Done h' /\ k' = 8%nat \/
       hfold step (zseq (Z.of_nat k) m) h1 = BadAlloc h' /\ works (n0 + Z.of_nat k') = false /\ (k' < 8)%nat)).
  { induction m as [|m IH]; intros k h1 Hk Hn Hw Hfr Hu Hb Hf Hwk.
    - exists h1, k. assert (k = 8%nat) by lia. split; [lia|]. cbn. do 7 (split; [assumption|]). left. split; [reflexivity|assumption].
    - cbn [zseq hfold]. unfold step at 1. unfold step at 2. rewrite Hn. destruct (works (n0 + Z.of_nat k)) eqn:W.
      + unfold set_word, hread. cbn [hp_nodes].
        destruct (Z.eqb_spec a (n0 + Z.of_nat k)) as [X|_]; [lia|]. rewrite Hw. cbn [hn_words hn_leaf hbind].
        assert (Lw : length (words_of (map GLeaf (zseq n0 k))) = k) by (unfold words_of; rewrite !map_length; apply zseq_length).
        assert (Hsk : exists w, skipn k ws = w :: skipn (S k) ws).
        { clear -Hlen Hk. revert k Hk. revert ws Hlen. assert (G : forall ws k, (k < length ws)%nat -> exists w : word, skipn k ws = w :: skipn (S k) ws).
          { induction ws as [|w ws IH]; intros k Hk; [cbn in Hk; lia|]. destruct k; [exists w; reflexivity|]. cbn [skipn]. apply IH. cbn in Hk. lia. }
          intros ws Hl k Hk. apply G. lia. }
        destruct Hsk as (w & Hsk). rewrite Hsk. rewrite Nat2Z.id. 
        pose proof (set_nth_app _ (words_of (map GLeaf (zseq n0 k))) (skipn (S k) ws) w (WPtr (n0 + Z.of_nat k))) as Hset.
        rewrite Lw in Hset. rewrite Hset.
        replace (Z.of_nat k + 1) with (Z.of_nat (S k)) by lia.
        match goal with |- context [hfold step _ ?x] => set (h2 := x) end.
        assert (Z1 : zseq n0 (S k) = zseq n0 k ++ [n0 + Z.of_nat k]).
        { replace (S k) with (k + 1)%nat by lia. rewrite zseq_app. reflexivity. }
        apply (IH (S k) h2); unfold h2; clear h2 IH.
        * lia.
        * cbn. lia.
        * rewrite hwrite_same. rewrite Z1. unfold words_of. rewrite !map_app, <- app_assoc. reflexivity.
        * intros b Hba Hlt. rewrite hwrite_other by exact Hba. cbn. destruct (Z.eqb_spec b (n0 + Z.of_nat k)); [lia|]. apply Hfr; assumption.
        * rewrite Z1, Forall_app. rewrite Forall_forall in *. split.
          -- intros b Hin. pose proof Hin as Hr. apply in_zseq in Hr. unfold untouched. rewrite hwrite_other by lia. cbn.
             destruct (Z.eqb_spec b (n0 + Z.of_nat k)); [lia|]. apply Hu. exact Hin.
          -- constructor; [|constructor]. unfold untouched. rewrite hwrite_other by lia. cbn. rewrite Z.eqb_refl. reflexivity.
        * intros b Hge. rewrite hwrite_other by lia. cbn. destruct (Z.eqb_spec b (n0 + Z.of_nat k)); [lia|]. apply Hb. lia.
        * exact Hf.
        * intros b Hr. destruct (Z.eq_dec b (n0 + Z.of_nat k)) as [->|]; [exact W|]. apply Hwk. lia.
      + cbn [hbind]. exists h1, k. split; [lia|]. do 7 (split; [assumption|]). right. split; [reflexivity|]. split; [assumption|lia]. }
  destruct (Loop 8%nat O (hwrite h a (HNode false ws))) as (h' & k & Hk & Hn & Hw & Hfr & Hu & Hb & Hf & Hwk & Hres).
  - reflexivity.
  - cbn. lia.
  - apply hwrite_same.
  - intros b Hba _. apply hwrite_other. exact Hba.
  - constructor.
  - intros b Hge. rewrite hwrite_other by lia. destruct (hp_nodes h b) eqn:Y; [|reflexivity]. exfalso.
    apply (e_live _ _ _ _ He b); [lia|congruence].
  - reflexivity.
  - intros b Hr. lia.
  - exists h', k. split; [exact Hk|]. split; [exact Hn|]. split; [|split; [exact Hu|rewrite Hn; split; [exact Hwk|tauto]]].
    assert (Hsk : skipn k ws = nulls (8 - k)).
    { destruct Hws as [-> |Hall].
      - unfold nulls. clear -Hk. do 9 (destruct k as [|k]; [reflexivity|]). lia.
      - destruct Hres as [[_ ->]|(_ & Hfail & Hlt)]; [rewrite skipn_all2 by lia; reflexivity|]. rewrite Hall in Hfail by lia. discriminate. }
    rewrite Hsk in Hw.
    assert (Bel : below (GNode a (map GLeaf (zseq n0 k))) = zseq n0 k).
    { rewrite below_node. clear. generalize n0. induction k as [|k IH]; intro x; [reflexivity|]. cbn [zseq map flat_map]. rewrite IH. reflexivity. }
    constructor.
    + reflexivity.
    + cbn [owns]. rewrite map_length, zseq_length. split; [exact Hk|]. split; [exact Hw|]. rewrite owns_all, Forall_map.
      rewrite Forall_forall in *. intros b Hb'. exists (map (fun _ => WNull) (zseq 0 8)). split; [apply Hu; exact Hb'|reflexivity].
    + exact La.
    + lia.
    + intros b Hba Hlt. rewrite Hfr by lia. apply (e_frame _ _ _ _ He); assumption.
    + intros b Hge Hl. rewrite Bel. apply in_zseq. destruct (Z_lt_le_dec b n0) as [X|X].
      * exfalso. rewrite Hfr in Hl by lia. apply (e_live _ _ _ _ He) in Hl; [contradiction|exact Hge].
      * destruct (Z_lt_le_dec b (n0 + Z.of_nat k)) as [Y|Y]; [lia|]. exfalso. apply Hl. apply Hb. exact Y.
    + destruct (e_freed _ _ _ _ He) as (f & F & P). exists f. rewrite Hf. split; [exact F|]. rewrite Bel. cbn [below] in P. rewrite app_nil_r in P.
      replace (Z.to_nat (hp_next h' - hp_next h0)) with (Z.to_nat (n0 - hp_next h0) + k)%nat by lia. rewrite zseq_app, P.
      replace (hp_next h0 + Z.of_nat (Z.to_nat (n0 - hp_next h0))) with n0 by lia. reflexivity.
Qed.

Lemma znth_words : forall d p r tl, znth (words_of (d ++ GLeaf p :: r) ++ tl) (Z.of_nat (length d)) = Some (WPtr p).
Proof.
  intros. unfold words_of. rewrite map_app. cbn [map addr]. rewrite <- app_assoc. cbn [app].
  replace (Z.of_nat (length d)) with (Z.of_nat (length (map (fun c => WPtr (addr c)) d))) by (rewrite map_length; reflexivity).
  apply znth_app.
Qed.

Lemma all_leaves_ok : forall a h cs f, owns (hp_nodes h) (GNode a cs) -> length cs = 8%nat ->
  exists b, all_leaves a h f = f b.
Proof.
  intros a h cs f Ho H8. unfold all_leaves. cbn [owns] in Ho. destruct Ho as (_ & Ha & Hc). rewrite H8 in Ha. cbn [Nat.sub nulls repeat] in Ha.
  rewrite app_nil_r in Ha. rewrite owns_all in Hc.
  match goal with |- exists b, ?g _ = _ => set (go := g) end.
  assert (G : forall k i, (i + k = 8)%nat -> exists b, go (zseq (Z.of_nat i) k) = f b).
  { induction k as [|k IH]; intros i Hi; cbn [zseq]; [exists true; reflexivity|].
    cbn [go]. fold go. unfold child_of, hread at 1. rewrite Ha. cbn [hn_words].
    assert (exists c, znth (words_of cs) (Z.of_nat i) = Some (WPtr (addr c)) /\ In c cs) as (c & Hz & Hin).
    { destruct (nth_error cs i) as [c|] eqn:X; [|apply nth_error_None in X; lia]. exists c. split; [|eapply nth_error_In; exact X].
      unfold znth. destruct (Z.ltb_spec (Z.of_nat i) 0); [lia|]. rewrite Nat2Z.id. unfold words_of.
      exact (map_nth_error (fun c => WPtr (addr c)) i cs X). }
    rewrite Hz. rewrite Forall_forall in Hc. specialize (Hc c Hin).
    assert (exists n, hp_nodes h (addr c) = Some n) as (n & Hn).
    { destruct c as [p|p cc]; cbn [owns addr] in *; [destruct Hc as (ws & -> & _)|destruct Hc as (_ & -> & _)]; eauto. }
    unfold hread. rewrite Hn. destruct (hn_leaf n); [|eauto].
    replace (Z.of_nat i + 1) with (Z.of_nat (S i)) by lia. apply IH. lia. }
  exact (G 8%nat O eq_refl).
Qed.

Lemma build_node_ok : forall levels a path h0 h, effect a h0 h (GLeaf a) ->
  (exists ws, hp_nodes h a = Some (HNode true ws) /\ (ws = nulls 8 \/ levels = O \/ forall i, 0 <= i < 8 -> works (hp_next h + i) = true)) ->
  exists h' t, (build_node works merges levels a path h = Done h' \/
      build_node works merges levels a path h = BadAlloc h' /\ works (hp_next h') = false /\ exists cs, t = GNode a cs) /\
    effect a h0 h' t /\ (height t <= levels)%nat /\ hp_next h <= hp_next h' /\
    (forall b, hp_next h <= b < hp_next h' -> works b = true).
Proof.
  induction levels as [|levels IH]; intros a path h0 h He Hws; cbn [build_node].
  { destruct (effect_data _ _ _ He) as (h' & -> & He' & Hn'). exists h', (GLeaf a). split; [auto|]. split; [exact He'|].
    split; [cbn; lia|]. rewrite Hn'. split; lia. }
  destruct (subdivide_ok a h0 h He) as (h1 & k & Hk & Hnk & He1 & Hu & Hwk & Hres).
  { destruct Hws as (ws & Ha & [Hw|[Hw|Hw]]); [eauto|discriminate|eauto]. }
  assert (Hh : forall n x, (height (GNode a (map GLeaf (zseq x n))) <= S levels)%nat).
  { intros n x. cbn [height]. apply le_n_S. apply height_all. rewrite Forall_map, Forall_forall. intros b _. cbn. lia. }
  assert (Hn1 : hp_next h <= hp_next h1).
  { rewrite Hnk. lia. }
  destruct Hres as [[-> ->]|[-> Hfail]]; cbn [hbind];
    [|exists h1; eexists; split; [right; split; [reflexivity|split; [exact Hfail|eauto]]|split; [exact He1|split; [apply Hh|split; [exact Hn1|exact Hwk]]]]].
  match goal with |- context [hfold ?f _ _] => set (step := f) end.
  assert (Loop : forall m d rest h2, (length d + m = 8)%nat -> length rest = m -> effect a h0 h2 (GNode a (d ++ map GLeaf rest)) ->
    Forall (untouched h2) rest -> Forall (fun c => (height c <= levels)%nat) d ->
    exists h' cs, (hfold step (zseq (Z.of_nat (length d)) m) h2 = Done h' \/
        hfold step (zseq (Z.of_nat (length d)) m) h2 = BadAlloc h' /\ works (hp_next h') = false) /\
      effect a h0 h' (GNode a cs) /\ length cs = 8%nat /\ Forall (fun c => (height c <= levels)%nat) cs /\ hp_next h2 <= hp_next h' /\
      (forall b, hp_next h2 <= b < hp_next h' -> works b = true)).
  { induction m as [|m IHm]; intros d rest h2 Hd Hr He2 Hu2 Hht.
    - destruct rest; [|discriminate]. cbn [map] in He2. rewrite app_nil_r in He2. exists h2, d. split; [left; reflexivity|]. split; [exact He2|].
      split; [lia|]. split; [exact Hht|]. split; lia.
    - destruct rest as [|p rest]; [discriminate|]. injection Hr as Hr. inversion Hu2 as [|? ? Hp Hu3]; subst. cbn [map] in He2.
      cbn [zseq hfold]. unfold step at 1. unfold step at 2. unfold child_of, hread.
      pose proof (e_owns _ _ _ _ He2) as (O1 & O2 & O3). rewrite O2. cbn [hn_words]. rewrite znth_words.
      assert (Hpin : In p (below (GNode a (d ++ GLeaf p :: map GLeaf rest)))).
      { rewrite below_node, flat_map_app. apply in_or_app. right. left. reflexivity. }
      pose proof (effect_range _ _ _ _ He2) as R. pose proof (effect_nodup _ _ _ _ He2) as Nd.
      destruct (IH p (path ++ [Z.of_nat (length d)]) h2 h2) as (h3 & t3 & Hb & He3 & Hh3 & Hn3 & Hw3).
      { apply effect_refl.
        - exists (map (fun _ => WNull) (zseq 0 8)). split; [exact Hp|reflexivity].
        - apply R in Hpin. lia.
        - intros b Hb. destruct (hp_nodes h2 b) eqn:Y; [|reflexivity]. exfalso.
          pose proof (e_next _ _ _ _ He2). assert (In b (below (GNode a (d ++ GLeaf p :: map GLeaf rest)))) by (apply (e_live _ _ _ _ He2); [lia|congruence]).
          apply R in H0. lia. }
      { exists (map (fun _ => WNull) (zseq 0 8)). split; [exact Hp|]. left. reflexivity. }
      pose proof (effect_step _ _ _ _ _ _ _ _ He2 He3) as He4.
      assert (Hall : Forall (fun c => (height c <= levels)%nat) (d ++ t3 :: map GLeaf rest)).
      { rewrite Forall_app. split; [exact Hht|]. constructor; [exact Hh3|]. rewrite Forall_map, Forall_forall. intros; cbn; lia. }
      destruct Hb as [-> |(-> & Hfail & _)]; cbn [hbind].
      + replace (Z.of_nat (length d) + 1) with (Z.of_nat (length (d ++ [t3]))) by (rewrite app_length; cbn; lia).
        destruct (IHm (d ++ [t3]) rest h3) as (h' & cs & Q1 & Q2 & Q3 & Q4 & Q5 & Q6).
        * rewrite app_length. cbn. lia.
        * reflexivity.
        * rewrite <- app_assoc. exact He4.
        * rewrite Forall_forall in *. intros b Hb. unfold untouched. rewrite (e_frame _ _ _ _ He3); [apply Hu3; exact Hb| |].
          -- intros ->. unfold addrs in Nd. rewrite below_node, flat_map_app in Nd. cbn [flat_map] in Nd. apply NoDup_cons_iff in Nd as [_ Nd].
             change (addrs (GLeaf p)) with [p] in Nd. cbn [app] in Nd. apply NoDup_remove_2 in Nd. apply Nd. apply in_or_app. right.
             apply in_flat_map. exists (GLeaf p). split; [apply in_map; exact Hb|left; reflexivity].
          -- assert (In b (below (GNode a (d ++ GLeaf p :: map GLeaf rest)))) as Y; [|apply R in Y; lia].
             rewrite below_node, flat_map_app. apply in_or_app. right. right. apply in_flat_map. exists (GLeaf b). split; [apply in_map; exact Hb|left; reflexivity].
        * rewrite Forall_app in *. split; [exact Hht|]. constructor; [exact Hh3|constructor].
        * exists h', cs. do 4 (split; [assumption|]). split; [lia|]. intros b Hr. destruct (Z_lt_le_dec b (hp_next h3)); [apply Hw3|apply Q6]; lia.
      + exists h3. eexists. split; [right; split; [reflexivity|exact Hfail]|]. split; [exact He4|]. split; [|split; [exact Hall|split; [exact Hn3|exact Hw3]]].
        rewrite app_length. cbn [length]. rewrite map_length. lia. }
  destruct (Loop 8%nat [] (zseq (hp_next h) 8) h1) as (h2 & cs & Hb & He2 & H8 & Hht & Hn2 & Hw2); [reflexivity|reflexivity|exact He1|exact Hu|constructor|].
  cbn [length] in Hb. change (Z.of_nat 0) with 0 in Hb.
  assert (Hhn : (height (GNode a cs) <= S levels)%nat) by (cbn [height]; apply le_n_S, height_all; exact Hht).
  assert (Hw12 : forall b, hp_next h <= b < hp_next h2 -> works b = true).
  { intros b Hr. destruct (Z_lt_le_dec b (hp_next h1)); [apply Hwk|apply Hw2]; lia. }
  destruct Hb as [-> |[-> Hfail]]; cbn [hbind];
    [|exists h2; eexists; split; [right; split; [reflexivity|split; [exact Hfail|eauto]]|split; [exact He2|split; [exact Hhn|split; [lia|exact Hw12]]]]].
  match goal with |- context [all_leaves a h2 ?f] => destruct (all_leaves_ok a h2 cs f (e_owns _ _ _ _ He2) H8) as (b & ->) end.
  destruct (b && merges path).
  - destruct (effect_collapse _ _ _ _ (S (S levels)) He2) as (h3 & -> & He3 & _ & Hn3); [lia|]. cbn [hbind].
    destruct (effect_data _ _ _ He3) as (h4 & -> & He4 & Hn4). exists h4, (GLeaf a). split; [auto|]. split; [exact He4|].
    split; [cbn; lia|]. rewrite Hn4, Hn3. split; [lia|exact Hw12].
  - exists h2. eexists. split; [left; reflexivity|]. split; [exact He2|]. split; [exact Hhn|]. split; [lia|exact Hw12].
Qed.
End Alloc.
