(* Ownership of the nodes of a TriangleOctree in memory. *)
From Coq Require Import ZArith List Bool Lia.
From Verif Require Import Base Arith TriModel TriHeap TriSpec TriProofs TriNear.
Import ListNotations.
Local Open Scope Z_scope.

Inductive Forall3 {X Y W : Type} (P : X -> Y -> W -> Prop) : list X -> list Y -> list W -> Prop :=
| F3nil : Forall3 P [] [] []
| F3cons : forall x y w l m n, P x y w -> Forall3 P l m n -> Forall3 P (x :: l) (y :: m) (w :: n).

Lemma Forall3_imp : forall X Y W (P Q : X -> Y -> W -> Prop) l m n, (forall x y w, In w n -> P x y w -> Q x y w) -> Forall3 P l m n -> Forall3 Q l m n.
Proof. induction 2; constructor; [apply H; auto; now left | apply IHForall3; intros; apply H; auto; now right]. Qed.
Lemma Forall3_len : forall X Y W (P : X -> Y -> W -> Prop) l m n, Forall3 P l m n -> length m = length l /\ length n = length l.
Proof. induction 1; cbn; lia. Qed.
Lemma Forall3_app : forall X Y W (P : X -> Y -> W -> Prop) l m n l' m' n', Forall3 P l m n -> Forall3 P l' m' n' -> Forall3 P (l ++ l') (m ++ m') (n ++ n').
Proof. induction 1; cbn; auto; constructor; auto. Qed.
Lemma Forall3_split : forall X Y W (P : X -> Y -> W -> Prop) l m n, Forall3 P l m n -> forall k, (k < length l)%nat ->
  exists l1 x l2 m1 y m2 n1 w n2, l = l1 ++ x :: l2 /\ m = m1 ++ y :: m2 /\ n = n1 ++ w :: n2 /\
    length l1 = k /\ length m1 = k /\ length n1 = k /\ Forall3 P l1 m1 n1 /\ P x y w /\ Forall3 P l2 m2 n2.
Proof.
  induction 1 as [|x y w l m n H Hs IH]; intros k K; [cbn in K; lia|]. destruct k.
  - exists [], x, l, [], y, m, [], w, n. cbn. repeat split; auto. constructor.
  - cbn in K. destruct (IH k) as (l1 & x' & l2 & m1 & y' & m2 & n1 & w' & n2 & -> & -> & -> & L1 & L2 & L3 & P1 & P2 & P3); [lia|].
    exists (x :: l1), x', l2, (y :: m1), y', m2, (w :: n1), w', n2. cbn. repeat split; auto. constructor; auto.
Qed.

Lemma set_mid : forall X (l r : list X) x y k, length l = k -> set_nth (l ++ x :: r) k y = l ++ y :: r.
Proof. induction l; intros; subst; cbn; auto. f_equal. apply IHl. reflexivity. Qed.
Lemma znth_mid : forall X (l r : list X) x i, 0 <= i -> length l = Z.to_nat i -> znth (l ++ x :: r) i = Some x.
Proof. intros. unfold znth. destruct (i <? 0) eqn:E; [apply Z.ltb_lt in E; lia|]. rewrite nth_error_app2, H0, Nat.sub_diag; [reflexivity | lia]. Qed.

Section Heap.
Context {F : Type}.
Variable A : arith F.
Variable float_max : F.
Notation tree := (ttree F).
Notation tri := (triangle F).
Notation mem := (Z -> option (tnode F)).

(* One child pointer, the tree behind it, the addresses of its nodes *)
Definition kid_owns (P : Z -> tree -> list Z -> Prop) (oc : option Z) (ot : option tree) (f : list Z) : Prop :=
  match oc, ot with None, None => f = [] | Some p, Some c => P p c f | _, _ => False end.

(* The node at [a] and those below it, at addresses [fp], are the tree [tr], with at most [d] levels below [a]. *)
Fixpoint owns (h : mem) (d : nat) (a : Z) (tr : tree) (fp : list Z) {struct d} : Prop :=
  exists n, h a = Some n /\ tn_level n = 15 - Z.of_nat d /\ tn_pos n = tt_pos tr /\ tn_half n = tt_half tr /\ tn_level n = tt_level tr /\
    match tr with
    | TLeaf _ _ _ ts => tn_leaf n = true /\ tn_tris n = ts /\ tn_children n = repeat None 8 /\ fp = [a]
    | TNode _ _ _ cs => tn_leaf n = false /\ length cs = 8%nat /\
        match d with
        | O => False
        | S d' => exists fss, Forall3 (kid_owns (owns h d')) (tn_children n) cs fss /\ fp = a :: concat fss
        end
    end.

Lemma owns_frame : forall d a tr fp h h', owns h d a tr fp -> (forall x, In x fp -> h' x = h x) -> owns h' d a tr fp.
Proof.
  induction d; intros a tr fp h h' (n & N & L & P & Hh & Lv & K) E; exists n; destruct tr as [pos half level ts|pos half level cs].
  - destruct K as (K1 & K2 & K3 & ->). rewrite E by now left. auto 10.
  - tauto.
  - destruct K as (K1 & K2 & K3 & ->). rewrite E by now left. auto 10.
  - destruct K as (K1 & K2 & fss & K3 & ->). rewrite E by now left. repeat split; auto. exists fss. split; auto.
    eapply Forall3_imp; [|exact K3]. intros oc ot f I Hk. unfold kid_owns in *. destruct oc, ot; auto.
    eapply IHd; [exact Hk|]. intros x X. apply E. right. apply in_concat. eauto.
Qed.

Lemma owns_leaf : forall h d a n pos half ts, h a = Some n -> tn_level n = 15 - Z.of_nat d -> tn_pos n = pos -> tn_half n = half -> tn_leaf n = true ->
  tn_tris n = ts -> tn_children n = repeat None 8 -> owns h d a (TLeaf pos half (15 - Z.of_nat d) ts) [a].
Proof. intros. destruct d; exists n; cbn [tt_pos tt_half tt_level]; repeat split; auto. Qed.

(* A node that is not a leaf, with its children *)
Definition node_at (h : mem) (d : nat) (a : Z) pos half (cs : list (option tree)) (fss : list (list Z)) : Prop :=
  exists n, h a = Some n /\ tn_level n = 15 - Z.of_nat (S d) /\ tn_pos n = pos /\ tn_half n = half /\ tn_leaf n = false /\ length cs = 8%nat /\
    Forall3 (kid_owns (owns h d)) (tn_children n) cs fss.

Lemma node_owns : forall h d a pos half cs fss, node_at h d a pos half cs fss ->
  owns h (S d) a (TNode pos half (15 - Z.of_nat (S d)) cs) (a :: concat fss).
Proof. intros h d a pos half cs fss (n & N & L & P & Hh & Lf & C & K). exists n. cbn [tt_pos tt_half tt_level]. repeat split; eauto. Qed.

(* What a call may change: it gives the tree the addresses it takes from operator new, and changes no other node. *)
Definition grows (h h' : theap F) (fp fp' : list Z) : Prop :=
  th_next h <= th_next h' /\ (forall x, In x fp' <-> In x fp \/ th_next h <= x < th_next h') /\
  (forall x, ~ In x fp' -> th_nodes h' x = th_nodes h x).
Definition under (h : theap F) (fp : list Z) : Prop := NoDup fp /\ forall x, In x fp -> x < th_next h.

Lemma grows_trans : forall h h1 h2 f f1 f2, grows h h1 f f1 -> grows h1 h2 f1 f2 -> grows h h2 f f2.
Proof.
  intros h h1 h2 f f1 f2 (N & I & K) (N' & I' & K'). repeat split; [lia | | |].
  - intros X. apply I' in X. destruct X as [X|X]; [apply I in X|]; intuition lia.
  - intros X. apply I'. destruct X as [X|X]; [left; apply I; now left|].
    destruct (Z_lt_ge_dec x (th_next h1)); [left; apply I; lia | right; lia].
  - intros x X. rewrite K' by auto. apply K. intros Y. apply X, I'. now left.
Qed.
Lemma grows_refl : forall h f, grows h h f f.
Proof. intros. repeat split; try lia; auto. intros [X|X]; [auto | lia]. Qed.
(* Only the node at [a] is written, and nothing created. *)
Lemma grows_write : forall h h' a f, In a f -> th_next h' = th_next h -> (forall x, x <> a -> th_nodes h' x = th_nodes h x) -> grows h h' f f.
Proof. intros h h' a f I N E. repeat split; try lia; auto. { intros [X|X]; [auto | lia]. } intros x X. apply E. congruence. Qed.

(* The part of the node replaced by what a call on a child leaves *)
Lemma concat_mid : forall (l r : list (list Z)) f x, In x (concat (l ++ f :: r)) <-> In x (concat l) \/ In x f \/ In x (concat r).
Proof. intros. rewrite concat_app. cbn. rewrite !in_app_iff. tauto. Qed.
Lemma NoDup_cut : forall (u v : list Z), NoDup (u ++ v) -> NoDup u /\ NoDup v /\ forall x, In x u -> In x v -> False.
Proof.
  induction u; cbn; intros v H; [split; [constructor|split; auto]|]. inversion H; subst. destruct (IHu v H3) as (U & V & D).
  split; [constructor; auto; intro; apply H2, in_or_app; now left|]. split; auto. intros x [->|X] Y; [apply H2, in_or_app; now right | eauto].
Qed.
Lemma NoDup_join : forall (u v : list Z), NoDup u -> NoDup v -> (forall x, In x u -> In x v -> False) -> NoDup (u ++ v).
Proof.
  induction u; cbn; intros v U V D; auto. inversion U; subst. constructor; [|apply IHu; auto; intros; eapply D; eauto].
  intros I. apply in_app_or in I. destruct I; [auto | eapply D; eauto].
Qed.
Lemma NoDup_swap : forall a (l r : list (list Z)) f f', NoDup (a :: concat (l ++ f :: r)) -> NoDup f' ->
  (forall x, In x f' -> In x f \/ (x <> a /\ ~ In x (concat l) /\ ~ In x (concat r))) -> NoDup (a :: concat (l ++ f' :: r)).
Proof.
  intros a l r f f' H N D. inversion H as [|? ? Na Hn]; subst. rewrite concat_mid in Na. rewrite concat_app in Hn. cbn in Hn.
  apply NoDup_cut in Hn. destruct Hn as (H1 & H2 & H3). apply NoDup_cut in H2. destruct H2 as (H4 & H5 & H6).
  assert (Nl : forall x, In x f' -> ~ In x (concat l)) by (intros x X Y; destruct (D x X) as [Z|Z]; [apply (H3 x); auto; apply in_or_app; now left | tauto]).
  assert (Nr : forall x, In x f' -> ~ In x (concat r)) by (intros x X Y; destruct (D x X) as [Z|Z]; [apply (H6 x); auto | tauto]).
  constructor.
  - rewrite concat_mid. intros [X|[X|X]]; [tauto | | tauto]. destruct (D a X) as [Z|Z]; [tauto | now destruct Z].
  - rewrite concat_app. cbn. apply NoDup_join; auto; [apply NoDup_join; auto; intros x X Y; eapply Nr; eauto|].
    intros x X Y. apply in_app_or in Y. destruct Y as [Y|Y]; [eapply Nl; eauto | apply (H3 x); auto; apply in_or_app; now right].
Qed.
Lemma part_of : forall a (l r : list (list Z)) f, NoDup (a :: concat (l ++ f :: r)) ->
  NoDup f /\ forall x, In x f -> x <> a /\ ~ In x (concat l) /\ ~ In x (concat r).
Proof.
  intros a l r f H. inversion H as [|? ? Na Hn]; subst. rewrite concat_mid in Na. rewrite concat_app in Hn. cbn in Hn.
  apply NoDup_cut in Hn. destruct Hn as (H1 & H2 & H3). apply NoDup_cut in H2. destruct H2 as (H4 & H5 & H6).
  split; auto. intros x X. repeat split; [intros ->; tauto | | eauto]. intros Y. apply (H3 x); auto. apply in_or_app; now left.
Qed.

(* The trees: nothing but [t] is new in [tr']. *)
Definition only (ts : list tri) (tr tr' : tree) : Prop := forall u, In u (tris_of tr') -> In u ts \/ In u (tris_of tr).

Definition post (d : nat) (a : Z) (t : tri) (tr : tree) (fp : list Z) (h : theap F) (o : outcome tree) (r : tresult F) : Prop :=
  match r with
  | TDone h' => exists tr' fp', o = Ret tr' /\ owns (th_nodes h') d a tr' fp' /\ under h' fp' /\ grows h h' fp fp' /\ only [t] tr tr'
  | TBad h' => exists tr' fp', owns (th_nodes h') d a tr' fp' /\ under h' fp' /\ grows h h' fp fp' /\ only [t] tr tr'
  | _ => False
  end.

Definition kid_tris (cs : list (option tree)) : list tri := flat_map (fun c => match c with Some c' => tris_of c' | None => [] end) cs.
Definition postn (d : nat) (a : Z) (ts : list tri) pos half (cs : list (option tree)) (fss : list (list Z)) (h : theap F)
    (o : outcome (list (option tree))) (r : tresult F) : Prop :=
  let good h' cs' fss' := node_at (th_nodes h') d a pos half cs' fss' /\ under h' (a :: concat fss') /\
    grows h h' (a :: concat fss) (a :: concat fss') /\ forall u, In u (kid_tris cs') -> In u ts \/ In u (kid_tris cs) in
  match r with
  | TDone h' => exists cs' fss', o = Ret cs' /\ good h' cs' fss'
  | TBad h' => exists cs' fss', good h' cs' fss'
  | _ => False
  end.

Lemma postn_bind : forall d a ts pos half cs fss h o r o' r', postn d a ts pos half cs fss h o r ->
  (forall h1 cs1 fss1, node_at (th_nodes h1) d a pos half cs1 fss1 -> under h1 (a :: concat fss1) ->
     postn d a ts pos half cs1 fss1 h1 (o' cs1) (r' h1)) ->
  postn d a ts pos half cs fss h (obind o o') (tbind r r').
Proof.
  intros d a ts pos half cs fss h o r o' r' H K. destruct r as [h1|h1| |]; cbn in H; try tauto.
  - destruct H as (cs1 & fss1 & -> & H1 & H2 & H3 & H4). cbn [tbind obind]. specialize (K h1 cs1 fss1 H1 H2).
    destruct (r' h1) as [h2|h2| |]; cbn in K |- *; try tauto.
    + destruct K as (cs2 & fss2 & E & K1 & K2 & K3 & K4). exists cs2, fss2. repeat split; auto; try apply K2; try (eapply grows_trans; eauto).
      intros u U. destruct (K4 u U); auto.
    + destruct K as (cs2 & fss2 & K1 & K2 & K3 & K4). exists cs2, fss2. repeat split; auto; try apply K2; try (eapply grows_trans; eauto).
      intros u U. destruct (K4 u U); auto.
Qed.

Section Step.
Variables (works : nat -> bool) (d : nat) (ins : Z -> tri -> theap F -> tresult F) (insT : tree -> tri -> outcome tree).
Hypothesis IH : forall c t tr fp h, owns (th_nodes h) d c tr fp -> under h fp -> post d c t tr fp h (insT tr t) (ins c t h).

Lemma kid_mid : forall (l r : list (option tree)) c, kid_tris (l ++ Some c :: r) = kid_tris l ++ tris_of c ++ kid_tris r.
Proof. intros. unfold kid_tris. rewrite flat_map_app. reflexivity. Qed.

(* The child exists already. *)
Lemma old_child : forall a t pos half n ch1 c ch2 cs1 tr cs2 l1 f l2 h idx, th_nodes h a = Some n ->
  tn_level n = 15 - Z.of_nat (S d) -> tn_pos n = pos -> tn_half n = half -> tn_leaf n = false -> tn_children n = ch1 ++ Some c :: ch2 ->
  length (cs1 ++ Some tr :: cs2) = 8%nat -> 0 <= idx -> length cs1 = Z.to_nat idx ->
  Forall3 (kid_owns (owns (th_nodes h) d)) ch1 cs1 l1 -> owns (th_nodes h) d c tr f -> Forall3 (kid_owns (owns (th_nodes h) d)) ch2 cs2 l2 ->
  under h (a :: concat (l1 ++ f :: l2)) ->
  postn d a [t] pos half (cs1 ++ Some tr :: cs2) (l1 ++ f :: l2) h
    (insert_by_index A insT pos half (15 - Z.of_nat (S d)) (cs1 ++ Some tr :: cs2) idx t) (ins c t h).
Proof.
  intros a t pos half n ch1 c ch2 cs1 tr cs2 l1 f l2 h idx N Lv Ps Hf Lf Ch L8 I0 I1 P1 P2 P3 (ND & Lt).
  destruct (part_of _ _ _ _ ND) as (NDf & Pf).
  assert (Lf' : forall x, In x f -> x < th_next h) by (intros; apply Lt; right; apply concat_mid; auto).
  assert (La : a < th_next h) by (apply Lt; now left).
  pose proof (IH c t tr f h P2 (conj NDf Lf')) as K.
  (* what holds after the call, whether it returned or threw *)
  assert (G : forall h' tr' f', owns (th_nodes h') d c tr' f' -> under h' f' -> grows h h' f f' -> only [t] tr tr' ->
    node_at (th_nodes h') d a pos half (cs1 ++ Some tr' :: cs2) (l1 ++ f' :: l2) /\ under h' (a :: concat (l1 ++ f' :: l2)) /\
    grows h h' (a :: concat (l1 ++ f :: l2)) (a :: concat (l1 ++ f' :: l2)) /\
    forall u, In u (kid_tris (cs1 ++ Some tr' :: cs2)) -> In u [t] \/ In u (kid_tris (cs1 ++ Some tr :: cs2))).
  { intros h' tr' f' O (NDf' & Lf'') (Nx & Gi & Gk) On.
    assert (Fr : forall x, x < th_next h -> ~ In x f -> th_nodes h' x = th_nodes h x).
    { intros x X Y. apply Gk. intros Z. apply Gi in Z. destruct Z; [tauto | lia]. }
    assert (Fl : forall x, In x (concat l1) \/ In x (concat l2) \/ x = a -> th_nodes h' x = th_nodes h x).
    { intros x X. apply Fr; [apply Lt; destruct X as [X|[X|X]]; [right; apply concat_mid; auto | right; apply concat_mid; auto | now left]|].
      intros Y. apply Pf in Y. intuition. }
    split; [|split; [split|split]].
    - exists n. rewrite Fl by auto. repeat split; auto; [rewrite app_length in *; cbn in *; lia|]. rewrite Ch.
      apply Forall3_app; [|constructor; [exact O|]]; (eapply Forall3_imp; [|eassumption]); intros oc ot g Ig Hk; unfold kid_owns in *;
        destruct oc, ot; auto; (eapply owns_frame; [exact Hk|]); intros x X; apply Fl; [left | right; left]; apply in_concat; eauto.
    - eapply NoDup_swap; [exact ND | exact NDf' |]. intros x X. apply Gi in X. destruct X as [X|X]; [now left|]. right.
      assert (forall y, In y (a :: concat (l1 ++ f :: l2)) -> y <> x) by (intros y Y E; subst y; apply Lt in Y; lia).
      repeat split; [intros ->; apply (H a); [now left | reflexivity] | intros Y; apply (H x); [right; apply concat_mid; auto | reflexivity] |
        intros Y; apply (H x); [right; apply concat_mid; auto | reflexivity]].
    - intros x [<-|X]; [lia|]. apply concat_mid in X. destruct X as [X|[X|X]]; [| now apply Lf'' |].
      + enough (x < th_next h) by lia. apply Lt. right. apply concat_mid. auto.
      + enough (x < th_next h) by lia. apply Lt. right. apply concat_mid. auto.
    - split; [exact Nx|]. split.
      + intros x. cbn [In]. rewrite !concat_mid, Gi. tauto.
      + intros x X. apply Gk. intros Y. apply X. right. apply concat_mid. auto.
    - intros u. rewrite !kid_mid, !in_app_iff. intros [X|[X|X]]; auto. destruct (On u X); auto. }
  unfold insert_by_index. rewrite znth_mid by auto. cbn [obind].
  destruct (ins c t h) as [h'|h'| |]; cbn [post] in K; try tauto.
  - destruct K as (tr' & f' & -> & K1 & K2 & K3 & K4). cbn [obind]. exists (cs1 ++ Some tr' :: cs2), (l1 ++ f' :: l2).
    split; [rewrite set_mid by auto; reflexivity | apply G; auto].
  - destruct K as (tr' & f' & K1 & K2 & K3 & K4). exists (cs1 ++ Some tr' :: cs2), (l1 ++ f' :: l2). apply G; auto.
Qed.

Lemma by_index_heap : forall a t pos half cs fss h idx, node_at (th_nodes h) d a pos half cs fss -> under h (a :: concat fss) -> 0 <= idx < 8 ->
  (0 <= 15 - Z.of_nat (S d)) ->
  postn d a [t] pos half cs fss h (insert_by_index A insT pos half (15 - Z.of_nat (S d)) cs idx t) (th_by_index A works ins a idx t h).
Proof.
  intros a t pos half cs fss h idx (n & N & Lv & Ps & Hf & Lf & L8 & K) U I D0.
  assert (Lc : length (tn_children n) = 8%nat) by (apply Forall3_len in K; lia).
  destruct (Forall3_split _ _ _ _ _ _ _ K (Z.to_nat idx)) as (ch1 & oc & ch2 & cs1 & ot & cs2 & l1 & f & l2 & Ec & -> & -> & L1 & L2 & L3 & P1 & P2 & P3); [lia|].
  unfold th_by_index, tread. rewrite N, Ec. rewrite znth_mid by (auto; lia). cbn [kid_owns] in P2.
  destruct oc as [c|], ot as [tr|]; unfold kid_owns in P2; try tauto.
  - eapply old_child; eauto. lia.
  - subst f. unfold tnew. destruct (works (th_tick h)).
    + set (p := th_next h). set (tr := tt_new (a_div A half (a_ofZ A 2)) (15 - Z.of_nat (S d) + 1) (child_at A pos half idx)).
      match goal with |- postn _ _ _ _ _ _ _ _ _ (ins _ _ ?hh) => set (h1 := hh) end.
      destruct U as (ND & Lt). assert (La : a < p) by (apply Lt; now left).
      assert (E1 : forall x, x < p -> x <> a -> th_nodes h1 x = th_nodes h x).
      { intros x X Y. unfold h1. cbn. destruct (x =? a) eqn:E; [apply Z.eqb_eq in E; lia|]. fold p. destruct (x =? p) eqn:E'; [apply Z.eqb_eq in E'; lia | reflexivity]. }
      assert (Fl : forall x, In x (concat l1) \/ In x (concat l2) -> th_nodes h1 x = th_nodes h x).
      { intros x X. inversion ND as [|? ? Na Nd]; subst. apply E1; [apply Lt; right; apply concat_mid; tauto|].
        intros ->. apply Na, concat_mid. tauto. }
      assert (Fk : forall ch cs' l, (l = l1 \/ l = l2) -> Forall3 (kid_owns (owns (th_nodes h) d)) ch cs' l -> Forall3 (kid_owns (owns (th_nodes h1) d)) ch cs' l).
      { intros ch cs' l El Hk. eapply Forall3_imp; [|exact Hk]. intros oc ot g Ig Hg. unfold kid_owns in *. destruct oc, ot; auto.
        eapply owns_frame; [exact Hg|]. intros x X. apply Fl. destruct El; subst l; [left | right]; apply in_concat; eauto. }
      assert (Np : ~ In p (a :: concat (l1 ++ [] :: l2))) by (intros X; apply Lt in X; unfold p in X; lia).
      assert (U1 : under h1 (a :: concat (l1 ++ [p] :: l2))).
      { split.
        - eapply NoDup_swap; [exact ND | repeat constructor; intros [] |]. intros x [<-|[]]. right. cbn [In] in Np. rewrite concat_mid in Np. intuition.
        - intros x [<-|X]; [cbn; fold p; lia|]. apply concat_mid in X. cbn [th_next h1 tput]. fold p. destruct X as [X|[[<-|[]]|X]]; [|lia|].
          + enough (x < p) by lia. apply Lt. right. apply concat_mid. auto.
          + enough (x < p) by lia. apply Lt. right. apply concat_mid. auto. }
      pose proof (old_child a t pos half (TN (tn_pos n) (tn_half n) (tn_leaf n) (tn_level n) (set_nth (ch1 ++ None :: ch2) (Z.to_nat idx) (Some p)) (tn_tris n))
        ch1 p ch2 cs1 tr cs2 l1 [p] l2 h1 idx) as Q.
      assert (R : postn d a [t] pos half (cs1 ++ Some tr :: cs2) (l1 ++ [p] :: l2) h1
        (insert_by_index A insT pos half (15 - Z.of_nat (S d)) (cs1 ++ Some tr :: cs2) idx t) (ins p t h1)).
      { apply Q; auto; try lia.
        - unfold h1. cbn. rewrite Z.eqb_refl. rewrite ?Ec. reflexivity.
        - cbn [tn_children]. apply set_mid. auto.
        - rewrite app_length in *. cbn in *. lia.
        - unfold tr, tt_new. replace (15 - Z.of_nat (S d) + 1) with (15 - Z.of_nat d) by lia.
          eapply owns_leaf; [unfold h1; cbn; destruct (p =? a) eqn:E; [apply Z.eqb_eq in E; lia|]; fold p; rewrite Z.eqb_refl; reflexivity | ..];
            cbn [tn_new tn_level tn_pos tn_half tn_leaf tn_tris tn_children]; rewrite ?Lv, ?Ps, ?Hf; auto; lia. }
      assert (Gr : grows h h1 (a :: concat (l1 ++ [] :: l2)) (a :: concat (l1 ++ [p] :: l2))).
      { split; [cbn; lia|]. split.
        - intros x. cbn [In]. rewrite !concat_mid. cbn [In th_next h1 tput]. fold p. split; [|intros [X|X]; [tauto|]; replace x with p by lia; tauto].
          intros [X|[X|[[X|[]]|X]]]; auto. right. lia.
        - intros x X. assert (x <> a /\ x <> p) as (X1 & X2) by (cbn [In] in X; rewrite concat_mid in X; cbn [In] in X; split; intros ->; apply X; auto).
          unfold h1. cbn. destruct (x =? a) eqn:E; [apply Z.eqb_eq in E; lia|]. fold p. destruct (x =? p) eqn:E'; [apply Z.eqb_eq in E'; lia | reflexivity]. }
      assert (Ei : insert_by_index A insT pos half (15 - Z.of_nat (S d)) (cs1 ++ None :: cs2) idx t = insert_by_index A insT pos half (15 - Z.of_nat (S d)) (cs1 ++ Some tr :: cs2) idx t).
      { unfold insert_by_index. rewrite !znth_mid by (auto; lia). cbn [obind]. fold tr. destruct (insT tr t); cbn [obind]; auto. rewrite !set_mid by auto. reflexivity. }
      rewrite Ei. clearbody h1.
      assert (Kt : kid_tris (cs1 ++ Some tr :: cs2) = kid_tris (cs1 ++ None :: cs2)) by (unfold kid_tris; rewrite !flat_map_app; reflexivity).
      fold p. destruct (ins p t h1) as [h'|h'| |]; cbn [postn] in R |- *; auto.
      * destruct R as (cs' & fss' & R0 & R1 & R2 & R3 & R4). exists cs', fss'. rewrite Kt in R4. repeat split; auto; try apply R2; eapply grows_trans; eauto.
      * destruct R as (cs' & fss' & R1 & R2 & R3 & R4). exists cs', fss'. rewrite Kt in R4. repeat split; auto; try apply R2; eapply grows_trans; eauto.
    + exists (cs1 ++ None :: cs2), (l1 ++ [] :: l2). split; [exists n; repeat split; auto|].
      split; [exact U|]. split; [apply (grows_write _ _ a); [now left | reflexivity | reflexivity]|]. auto.
Qed.

Lemma as_node_heap : forall a t pos half cs fss h, node_at (th_nodes h) d a pos half cs fss -> under h (a :: concat fss) -> 0 <= 15 - Z.of_nat (S d) ->
  postn d a [t] pos half cs fss h (insert_as_node A insT pos half (15 - Z.of_nat (S d)) cs t) (th_as_node A works ins a t h).
Proof.
  intros a t pos half cs fss h Hn U D0. unfold th_as_node, tread. destruct Hn as (n & N & Q). assert (Hn : node_at (th_nodes h) d a pos half cs fss) by (exists n; auto).
  rewrite N. destruct Q as (_ & Ps & Hf & _). rewrite Ps, Hf. unfold insert_as_node. cbv zeta.
  apply postn_bind; [apply by_index_heap; auto; apply index_range|]. intros h1 cs1 fss1 N1 U1.
  apply postn_bind.
  - destruct (_ =? _); [|apply by_index_heap; auto; apply index_range].
    exists cs1, fss1. split; auto. split; auto. split; auto. split; [apply grows_refl | auto].
  - intros h2 cs2 fss2 N2 U2. destruct (_ || _); [|apply by_index_heap; auto; apply index_range].
    exists cs2, fss2. split; auto. split; auto. split; auto. split; [apply grows_refl | auto].
Qed.

Lemma postn_weaken : forall a ts ts' pos half cs fss h o r, incl ts ts' -> postn d a ts pos half cs fss h o r -> postn d a ts' pos half cs fss h o r.
Proof.
  intros a ts ts' pos half cs fss h o r I H. destruct r; cbn in H |- *; auto.
  - destruct H as (cs' & fss' & H0 & H1 & H2 & H3 & H4). exists cs', fss'. repeat split; auto; try apply H2; try apply H3. intros u X. destruct (H4 u X); auto.
  - destruct H as (cs' & fss' & H1 & H2 & H3 & H4). exists cs', fss'. repeat split; auto; try apply H2; try apply H3. intros u X. destruct (H4 u X); auto.
Qed.

Lemma split_heap : forall a pos half ts cs fss h, node_at (th_nodes h) d a pos half cs fss -> under h (a :: concat fss) -> 0 <= 15 - Z.of_nat (S d) ->
  postn d a ts pos half cs fss h (ofold (fun cs t => insert_as_node A insT pos half (15 - Z.of_nat (S d)) cs t) ts cs) (tfold (th_as_node A works ins a) ts h).
Proof.
  induction ts as [|t ts IHt]; intros cs fss h N U D0.
  - exists cs, fss. split; auto. split; auto. split; auto. split; [apply grows_refl | auto].
  - cbn [ofold tfold]. apply postn_bind.
    + eapply postn_weaken; [|apply as_node_heap; auto]. intros u [<-|[]]. now left.
    + intros h1 cs1 fss1 N1 U1. eapply postn_weaken; [|apply IHt; auto]. intros u X. now right.
Qed.
End Step.

Lemma insert_heap : forall works d a t tr fp h, (d <= 15)%nat -> owns (th_nodes h) d a tr fp -> under h fp ->
  post d a t tr fp h (tt_insert A (S d) tr t) (th_insert A works (S d) a t h).
Proof.
  induction d as [|d IHd]; intros a t tr fp h Dd O U.
  - destruct O as (n & N & Lv & Ps & Hf & Lt & K). destruct tr as [pos half level ts|pos half level cs]; [|tauto].
    destruct K as (Lf & Ts & Ch & ->). cbn [tt_pos tt_half tt_level] in *. cbn [th_insert tt_insert]. unfold tread. rewrite N, Lf, Ts, Lv, <- Lt, Lv.
    assert (M : (zlen ts <? split_limit) || (max_depth <=? 15 - Z.of_nat 0) = true) by (apply orb_true_r). rewrite M.
    destruct (works (th_tick h)).
    + exists (TLeaf pos half level (ts ++ [t])), [a]. split; [rewrite <- Lt, Lv; reflexivity|]. split; [|split; [exact U | split]].
      * exists (TN (tn_pos n) (tn_half n) true (15 - Z.of_nat 0) (tn_children n) (ts ++ [t])). cbn [tput ttick th_nodes]. rewrite Z.eqb_refl.
        cbn [tn_level tn_pos tn_half tn_leaf tn_tris tn_children tt_pos tt_half tt_level]. rewrite <- Lt, Lv. repeat split; auto.
      * apply (grows_write _ _ a); [now left | reflexivity|]. intros x X. cbn. destruct (x =? a) eqn:E; [apply Z.eqb_eq in E; lia | reflexivity].
      * intros u X. cbn [tris_of] in *. apply in_app_or in X. tauto.
    + exists (TLeaf pos half level ts), [a]. split; [|split; [exact U | split; [apply (grows_write _ _ a); [now left | reflexivity | reflexivity]|]]].
      * exists n. cbn. repeat split; auto.
      * intros u X. now right.
  - assert (IH' : forall c t tr fp h, owns (th_nodes h) d c tr fp -> under h fp -> post d c t tr fp h (tt_insert A (S d) tr t) (th_insert A works (S d) c t h))
      by (intros; apply IHd; auto; lia).
    pose proof O as O'. destruct O as (n & N & Lv & Ps & Hf & Lt & K). destruct tr as [pos half level ts|pos half level cs].
    + destruct K as (Lf & Ts & Ch & ->). cbn [tt_pos tt_half tt_level] in *.
      change (th_insert A works (S (S d)) a t h) with (tread h a (fun n =>
        if tn_leaf n then
          if (zlen (tn_tris n) <? split_limit) || (max_depth <=? tn_level n) then
            if works (th_tick h)
            then TDone (tput (ttick h) a (Some (TN (tn_pos n) (tn_half n) true (tn_level n) (tn_children n) (tn_tris n ++ [t]))))
            else TBad (ttick h)
          else
            tbind (tfold (th_as_node A works (th_insert A works (S d)) a) (tn_tris n)
                     (tput h a (Some (TN (tn_pos n) (tn_half n) false (tn_level n) (tn_children n) (tn_tris n))))) (fun h =>
            tread h a (fun n =>
              TDone (tput h a (Some (TN (tn_pos n) (tn_half n) (tn_leaf n) (tn_level n) (tn_children n) [])))))
        else th_as_node A works (th_insert A works (S d)) a t h)).
      change (tt_insert A (S (S d)) (TLeaf pos half level ts) t) with (
        if (zlen ts <? split_limit) || (max_depth <=? level) then Ret (TLeaf pos half level (ts ++ [t]))
        else
          cs <- ofold (fun cs t' => insert_as_node A (tt_insert A (S d)) pos half level cs t') ts (repeat None 8) ;;
          Ret (TNode pos half level cs)).
      unfold tread at 1. rewrite N, Lf, Ts, <- Lt. destruct ((zlen ts <? split_limit) || (max_depth <=? tn_level n)).
      * destruct (works (th_tick h)).
        -- exists (TLeaf pos half (tn_level n) (ts ++ [t])), [a]. split; [reflexivity|]. split; [|split; [exact U | split]].
           ++ exists (TN (tn_pos n) (tn_half n) true (tn_level n) (tn_children n) (ts ++ [t])). cbn [tput ttick th_nodes]. rewrite Z.eqb_refl.
              cbn [tn_level tn_pos tn_half tn_leaf tn_tris tn_children tt_pos tt_half tt_level]. repeat split; auto.
           ++ apply (grows_write _ _ a); [now left | reflexivity|]. intros x X. cbn. destruct (x =? a) eqn:E; [apply Z.eqb_eq in E; lia | reflexivity].
           ++ intros u X. cbn [tris_of] in *. apply in_app_or in X. tauto.
        -- exists (TLeaf pos half level ts), [a]. split; [exact O' | split; [exact U | split; [apply (grows_write _ _ a); [now left | reflexivity | reflexivity]|]]].
           intros u X. now right.
      * set (h0 := tput h a _).
        assert (N0 : node_at (th_nodes h0) d a pos half (repeat None 8) (repeat [] 8)).
        { exists (TN (tn_pos n) (tn_half n) false (tn_level n) (tn_children n) ts). unfold h0. cbn [tput th_nodes]. rewrite Z.eqb_refl.
          cbn [tn_level tn_pos tn_half tn_leaf tn_tris tn_children]. repeat split; auto. rewrite Ch. cbn [repeat]. repeat (constructor; [reflexivity|]). constructor. }
        assert (U0 : under h0 (a :: concat (repeat [] 8))) by exact U.
        pose proof (split_heap works d (th_insert A works (S d)) (tt_insert A (S d)) IH' a pos half ts _ _ _ N0 U0 ltac:(lia)) as S. rewrite <- Lv in S.
        assert (G0 : grows h h0 [a] [a]).
        { apply (grows_write _ _ a); [now left | reflexivity|]. intros x X. cbn. destruct (x =? a) eqn:E; [apply Z.eqb_eq in E; lia | reflexivity]. }
        destruct (tfold _ ts h0) as [h1|h1| |]; cbn [postn] in S; try tauto.
        -- destruct S as (cs1 & fss1 & -> & S1 & S2 & S3 & S4). cbn [tbind obind]. unfold tread. pose proof S1 as (n1 & M1 & M2 & M3 & M4 & M5 & M6 & M7). rewrite M1.
           set (h2 := tput h1 a _).
           assert (E2 : forall x, x <> a -> th_nodes h2 x = th_nodes h1 x) by (intros x X; cbn; destruct (x =? a) eqn:E; [apply Z.eqb_eq in E; lia | reflexivity]).
           exists (TNode pos half (tn_level n) cs1), (a :: concat fss1). split; [reflexivity|]. split; [|split; [exact S2|split]].
           ++ rewrite Lv. apply node_owns. exists (TN (tn_pos n1) (tn_half n1) (tn_leaf n1) (tn_level n1) (tn_children n1) []).
              unfold h2 at 1. cbn [tput th_nodes]. rewrite Z.eqb_refl. cbn [tn_level tn_pos tn_half tn_leaf tn_tris tn_children]. repeat split; auto.
              eapply Forall3_imp; [|exact M7]. intros oc ot f If Hk. unfold kid_owns in *. destruct oc, ot; auto. eapply owns_frame; [exact Hk|].
              intros x X. apply E2. intros ->. destruct S2 as (S2 & _). inversion S2 as [|? ? Na ?]. apply Na, in_concat. eauto.
           ++ eapply grows_trans; [exact G0|]. eapply grows_trans; [exact S3|]. apply (grows_write _ _ a); [now left | reflexivity | exact E2].
           ++ intros u X. right. destruct (S4 u X) as [Y|Y]; [exact Y | destruct Y].
        -- destruct S as (cs1 & fss1 & S1 & S2 & S3 & S4). cbn [tbind]. exists (TNode pos half (tn_level n) cs1), (a :: concat fss1). split; [|split; [exact S2|split]].
           ++ rewrite Lv. apply node_owns. exact S1.
           ++ eapply grows_trans; [exact G0 | exact S3].
           ++ intros u X. right. destruct (S4 u X) as [Y|Y]; [exact Y | destruct Y].
    + destruct K as (Lf & L8 & fss & K & ->). cbn [tt_pos tt_half tt_level] in *.
      assert (N0 : node_at (th_nodes h) d a pos half cs fss) by (exists n; repeat split; auto).
      pose proof (as_node_heap works d (th_insert A works (S d)) (tt_insert A (S d)) IH' a t pos half cs fss h N0 U ltac:(lia)) as S.
      cbn [th_insert tt_insert] in *. unfold tread. rewrite N, Lf. rewrite <- Lt, Lv.
      change (fix th_insert (fuel : nat) (a0 : Z) (t0 : tri) (h0 : theap F) {struct fuel} : tresult F := _) with (th_insert A works) in *.
      destruct (th_as_node A works _ a t h) as [h1|h1| |]; cbn [postn post] in S |- *; auto.
      * destruct S as (cs1 & fss1 & S0 & S1 & S2 & S3 & S4). rewrite S0. exists (TNode pos half (15 - Z.of_nat (Datatypes.S d)) cs1), (a :: concat fss1).
        split; [reflexivity|]. split; [apply node_owns; auto|]. auto.
      * destruct S as (cs1 & fss1 & S1 & S2 & S3 & S4). exists (TNode pos half (15 - Z.of_nat (Datatypes.S d)) cs1), (a :: concat fss1).
        split; [apply node_owns; auto|]. auto.
Qed.
End Heap.
