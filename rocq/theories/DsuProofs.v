From Coq Require Import ZArith List Bool Lia Relations Operators_Properties Arith.
From Verif Require Import Base DsuModel DsuSpec.
Import ListNotations.

(* [path p i d r]: following [d] parent links from [i] ends at the root [r]. *)
Inductive path (p : list nat) : nat -> nat -> nat -> Prop :=
| path_root : forall r, nth_error p r = Some r -> path p r 0 r
| path_step : forall i q d r, nth_error p i = Some q -> q <> i ->
    path p q d r -> path p i (S d) r.

Lemma path_det : forall p i d r, path p i d r -> forall d' r', path p i d' r' -> d = d' /\ r = r'.
Proof.
  induction 1; intros d' r' H'; inversion H'; subst; try congruence; auto.
  rewrite H in H2. injection H2 as <-.
  destruct (IHpath _ _ H4); subst; auto.
Qed.

Lemma path_end : forall p i d r, path p i d r -> nth_error p r = Some r.
Proof. induction 1; auto. Qed.

Lemma nth_set_eq : forall A (l : list A) n a, n < length l -> nth_error (set_nth l n a) n = Some a.
Proof. induction l; intros [|n] b H; simpl in *; try lia; auto. apply IHl; lia. Qed.

Lemma nth_set_neq : forall A (l : list A) n m a, n <> m -> nth_error (set_nth l n a) m = nth_error l m.
Proof. induction l; intros [|n] [|m] b H; simpl in *; try lia; auto. Qed.

Lemma set_nth_length : forall A (l : list A) n a, length (set_nth l n a) = length l.
Proof. induction l; intros [|n] b; simpl; auto. Qed.

Lemma nth_some_lt : forall A (l : list A) n a, nth_error l n = Some a -> n < length l.
Proof. intros. apply nth_error_Some. congruence. Qed.

(* Redirecting a non-root straight to its root keeps all roots and never
   lengthens a path. *)
Lemma compress_path : forall p i d r, path p i (S d) r ->
  forall j e s, path p j e s -> exists e', e' <= e /\ path (set_nth p i r) j e' s.
Proof.
  intros p i d r Hi j e s Hj.
  assert (Hroot : nth_error p r = Some r) by (eapply path_end; eauto).
  assert (Hne : i <> r).
  { inversion Hi; subst. intros ->. congruence. }
  assert (Hlen : i < length p) by (inversion Hi; subst; eapply nth_some_lt; eauto).
  induction Hj as [s Hs|j q e s Hjq Hq Hp IH].
  - exists 0. split; [lia|]. constructor. rewrite nth_set_neq; auto.
    intros ->. destruct (path_det _ _ _ _ Hi 0 s) as [HH _]; [constructor; auto|discriminate].
  - destruct (Nat.eq_dec i j) as [->|Hij].
    + destruct (path_det _ _ _ _ Hi (S e) s) as [_ <-]; [econstructor; eauto|].
      exists 1. split; [lia|]. apply path_step with (q := r).
      * apply nth_set_eq; assumption.
      * congruence.
      * constructor. rewrite nth_set_neq; auto.
    + destruct IH as (e' & He & Hp'). exists (S e'). split; [lia|].
      apply path_step with (q := q); auto. rewrite nth_set_neq; auto.
Qed.

Lemma find_root_ok : forall d fuel p i r, path p i d r -> d < fuel ->
  exists p', find_root fuel p i = Ret (p', r) /\ length p' = length p /\
    (forall j e s, path p j e s -> exists e', e' <= e /\ path p' j e' s).
Proof.
  induction d; intros fuel p i r Hp Hf; (destruct fuel as [|fuel]; [lia|]); simpl.
  - inversion Hp; subst. rewrite H. rewrite Nat.eqb_refl.
    exists p. repeat split; eauto.
  - inversion Hp as [|i0 q d0 r0 Hq Hne Hpq]; subst. rewrite Hq.
    destruct (Nat.eqb_spec q i); [contradiction|].
    destruct (IHd fuel p q r Hpq) as (p' & Hfr & Hlen & Hkeep); [lia|].
    rewrite Hfr. simpl. exists (set_nth p' i r).
    rewrite set_nth_length. repeat split; auto.
    intros j e s Hj. destruct (Hkeep _ _ _ Hj) as (e1 & He1 & Hj1).
    destruct (Hkeep _ _ _ Hp) as (e2 & He2 & Hi2).
    destruct e2 as [|e2].
    + (* impossible: i would be its own root in p' *)
      assert (Hir : i = r) by (inversion Hi2; auto). subst r.
      destruct (path_det _ _ _ _ Hp 0 i) as [HH _].
      { constructor. eapply path_end; eauto. }
      discriminate.
    + destruct (compress_path _ _ _ _ Hi2 _ _ _ Hj1) as (e3 & He3 & Hj3).
      exists e3. split; [lia|assumption].
Qed.

Lemma path_mem : forall p i d r, path p i d r -> i < length p /\ r < length p.
Proof. induction 1; [split; eapply nth_some_lt; eauto|]. split; [eapply nth_some_lt; eauto|apply IHpath]. Qed.

(* The invariant: every item has a path to a root, at most logarithmically
   long; sizes of roots are the sizes of their sets; roots agree exactly for
   connected items. *)
Definition dinv (d : dsu) (n : nat) (E : list (nat * nat)) : Prop :=
  length (d_parent d) = n /\ length (d_size d) = n /\
  (forall i, i < n -> exists k r s, path (d_parent d) i k r /\
      nth_error (d_size d) r = Some s /\ 2 ^ k <= s) /\
  (forall r s, nth_error (d_parent d) r = Some r -> nth_error (d_size d) r = Some s ->
      exists l, NoDup l /\ length l = s /\
        forall j, In j l <-> exists k, path (d_parent d) j k r) /\
  (forall i j k1 k2 r1 r2, path (d_parent d) i k1 r1 -> path (d_parent d) j k2 r2 ->
      (r1 = r2 <-> connected E i j)) /\
  (forall a b, In (a, b) E -> a < n /\ b < n).

Lemma pow2_gt : forall k, k < 2 ^ k.
Proof. intro k. apply Nat.pow_gt_lin_r. lia. Qed.

(* Depth is below the number of items. *)
Lemma dinv_depth : forall d n E i k r, dinv d n E -> path (d_parent d) i k r -> k < n.
Proof.
  intros d n E i k r (H1 & H2 & H3 & H4 & H5 & H6) Hp.
  destruct (path_mem _ _ _ _ Hp) as [Hi Hr].
  destruct (H3 i) as (k' & r' & s & Hp' & Hs & Hk); [lia|].
  destruct (path_det _ _ _ _ Hp _ _ Hp') as [<- <-].
  destruct (H4 r s) as (l & Hnd & Hlen & Hl); auto.
  { eapply path_end; eauto. }
  assert (Hle : length l <= n).
  { rewrite <- (seq_length n 0). apply NoDup_incl_length; auto.
    intros j Hj. apply Hl in Hj as [kj Hj]. apply path_mem in Hj.
    apply in_seq. lia. }
  pose proof (pow2_gt k). lia.
Qed.

Lemma dinv_keep : forall d n E p', dinv d n E -> length p' = length (d_parent d) ->
  (forall j e s, path (d_parent d) j e s -> exists e', e' <= e /\ path p' j e' s) ->
  dinv (Dsu p' (d_size d)) n E.
Proof.
  intros d n E p' Hd Hlen Hkeep. pose proof Hd as (H1 & H2 & H3 & H4 & H5 & H6).
  assert (Hback : forall j e s, path p' j e s -> exists e', path (d_parent d) j e' s).
  { intros j e s Hj. destruct (path_mem _ _ _ _ Hj) as [Hj1 _].
    destruct (H3 j) as (k & r & s0 & Hp & _); [lia|].
    destruct (Hkeep _ _ _ Hp) as (e' & _ & Hp').
    destruct (path_det _ _ _ _ Hj _ _ Hp') as [_ ->]. eauto. }
  repeat split; simpl.
  - congruence.
  - assumption.
  - intros i Hi. destruct (H3 i Hi) as (k & r & s & Hp & Hs & Hk).
    destruct (Hkeep _ _ _ Hp) as (e' & He & Hp'). exists e', r, s. repeat split; auto.
    apply Nat.le_trans with (2 ^ k); auto. apply Nat.pow_le_mono_r; lia.
  - intros r s Hr Hs.
    assert (Hr' : nth_error (d_parent d) r = Some r).
    { destruct (Hback r 0 r) as [e' He]; [constructor; auto|]. eapply path_end; eauto. }
    destruct (H4 r s Hr' Hs) as (l & Hnd & Hl & Hmem). exists l. repeat split; auto.
    + intro Hin. apply Hmem in Hin as [k Hk]. destruct (Hkeep _ _ _ Hk) as (e' & _ & He). eauto.
    + intros [k Hk]. apply Hmem. apply Hback in Hk as [e' He]. eauto.
  - intros ->. apply Hback in H as [? ?]. apply Hback in H0 as [? ?]. eapply H5; eauto.
  - intros Hc. apply Hback in H as [? ?]. apply Hback in H0 as [? ?]. eapply H5; eauto.
  - apply (H6 a b); auto.
  - apply (H6 a b); auto.
Qed.

Lemma dsu_leader_ok : forall d n E i, dinv d n E -> i < n ->
  exists d' r k k', dsu_leader d i = Ret (d', r) /\ dinv d' n E /\
    path (d_parent d) i k r /\ path (d_parent d') i k' r /\ d_size d' = d_size d /\
    (forall j e s, path (d_parent d) j e s -> exists e', path (d_parent d') j e' s).
Proof.
  intros d n E i Hd Hi. pose proof Hd as (H1 & H2 & H3 & H4 & H5 & H6).
  destruct (H3 i Hi) as (k & r & s & Hp & Hs & Hk).
  pose proof (dinv_depth _ _ _ _ _ _ Hd Hp) as Hkn.
  destruct (find_root_ok k (dsu_count d) (d_parent d) i r Hp) as (p' & Hfr & Hlen & Hkeep).
  { unfold dsu_count. lia. }
  unfold dsu_leader. rewrite Hfr. simpl.
  destruct (Hkeep _ _ _ Hp) as (k' & _ & Hp').
  exists (Dsu p' (d_size d)), r, k, k'. simpl. split; [reflexivity|].
  split; [apply dinv_keep; auto|]. repeat (split; [solve [auto]|]).
  intros j e s0 Hj. destruct (Hkeep _ _ _ Hj) as (e' & _ & He). eauto.
Qed.

(* ---- connectivity ---- *)

Lemma conn_refl : forall E a, connected E a a.
Proof. intros; apply rst_refl. Qed.
Lemma conn_sym : forall E a b, connected E a b -> connected E b a.
Proof. intros; apply rst_sym; assumption. Qed.
Lemma conn_trans : forall E a b c, connected E a b -> connected E b c -> connected E a c.
Proof. intros; eapply rst_trans; eauto. Qed.

Lemma conn_mono : forall E E' a b, incl E E' -> connected E a b -> connected E' a b.
Proof.
  intros E E' a b Hi H. induction H.
  - apply rst_step. apply Hi; assumption.
  - apply rst_refl.
  - apply rst_sym; assumption.
  - eapply rst_trans; eauto.
Qed.

Lemma conn_add : forall E a b i j, connected (E ++ [(a, b)]) i j <->
  connected E i j \/ (connected E i a /\ connected E j b) \/ (connected E i b /\ connected E j a).
Proof.
  intros E a b i j. split.
  - intro H. induction H as [x y Hin|x|x y H IH|x y z H1 IH1 H2 IH2].
    + apply in_app_or in Hin as [Hin|[Hin|[]]].
      * left. apply rst_step. assumption.
      * injection Hin as <- <-. right; left. split; apply conn_refl.
    + left. apply conn_refl.
    + destruct IH as [IH|[[? ?]|[? ?]]]; eauto using conn_sym.
    + destruct IH1 as [IH1|[[? ?]|[? ?]]], IH2 as [IH2|[[? ?]|[? ?]]];
        eauto 8 using conn_sym, conn_trans.
  - intros H.
    assert (Hab : connected (E ++ [(a, b)]) a b).
    { apply rst_step. apply in_or_app. right. left. reflexivity. }
    assert (Hm : forall x y, connected E x y -> connected (E ++ [(a, b)]) x y).
    { intros. eapply conn_mono; [|eassumption]. intros z Hz. apply in_or_app; auto. }
    destruct H as [H|[[H1 H2]|[H1 H2]]]; auto.
    + eapply conn_trans; [apply Hm; eassumption|]. eapply conn_trans; [exact Hab|].
      apply conn_sym, Hm; assumption.
    + eapply conn_trans; [apply Hm; eassumption|].
      eapply conn_trans; [apply conn_sym, Hab|]. apply conn_sym, Hm; assumption.
Qed.

(* Attaching the root [a] under the root [b]. *)
Lemma attach_path : forall p a b, a <> b ->
  nth_error p a = Some a -> nth_error p b = Some b ->
  forall j k r, path p j k r ->
    (r <> a -> path (set_nth p a b) j k r) /\ (r = a -> path (set_nth p a b) j (S k) b).
Proof.
  intros p a b Hab Ha Hb j k r Hj.
  assert (Hla : a < length p) by (eapply nth_some_lt; eauto).
  induction Hj as [r Hr|j q k r Hjq Hq Hp IH].
  - split.
    + intro Hra. constructor. rewrite nth_set_neq by auto. assumption.
    + intros ->. apply path_step with (q := b).
      * apply nth_set_eq; assumption.
      * auto.
      * constructor. rewrite nth_set_neq by auto. assumption.
  - assert (Hja : a <> j) by (intros ->; congruence).
    split; intro H; apply path_step with (q := q); auto;
      try (rewrite nth_set_neq by auto; assumption); apply IH; assumption.
Qed.

Lemma attach_inv : forall d n E a b x y kx ky sa sb,
  dinv d n E -> path (d_parent d) x kx a -> path (d_parent d) y ky b ->
  a <> b -> nth_error (d_size d) a = Some sa -> nth_error (d_size d) b = Some sb ->
  sa <= sb ->
  dinv (Dsu (set_nth (d_parent d) a b) (set_nth (d_size d) b (sb + sa))) n (E ++ [(x, y)]) /\
  dinv (Dsu (set_nth (d_parent d) a b) (set_nth (d_size d) b (sb + sa))) n (E ++ [(y, x)]).
Proof.
  intros d n E a b x y kx ky sa sb (H1 & H2 & H3 & H4 & H5 & H6) Hx Hy Hab Hsa Hsb Hle.
  pose proof (path_end _ _ _ _ Hx) as Ha. pose proof (path_end _ _ _ _ Hy) as Hb.
  pose proof (attach_path _ _ _ Hab Ha Hb) as Hatt.
  destruct (path_mem _ _ _ _ Hx) as [Hxn Han]. destruct (path_mem _ _ _ _ Hy) as [Hyn Hbn].
  set (p' := set_nth (d_parent d) a b) in *.
  assert (Hnew : forall j k' r', path p' j k' r' -> exists k r, path (d_parent d) j k r /\
            ((r <> a /\ r' = r /\ k' = k) \/ (r = a /\ r' = b /\ k' = S k))).
  { intros j k' r' Hj. destruct (path_mem _ _ _ _ Hj) as [Hjn _].
    unfold p' in Hjn. rewrite set_nth_length in Hjn.
    destruct (H3 j) as (k & r & s & Hp & _); [lia|]. exists k, r. split; auto.
    destruct (Hatt _ _ _ Hp) as [G1 G2].
    destruct (Nat.eq_dec r a) as [->|Hra].
    - destruct (path_det _ _ _ _ Hj _ _ (G2 eq_refl)); auto.
    - destruct (path_det _ _ _ _ Hj _ _ (G1 Hra)); auto. }
  assert (Hmain : forall E', (forall i j, connected E' i j <->
      connected E i j \/ (connected E i x /\ connected E j y) \/ (connected E i y /\ connected E j x)) ->
      (forall u v, In (u, v) E' -> u < n /\ v < n) ->
      dinv (Dsu p' (set_nth (d_size d) b (sb + sa))) n E').
  { intros E' HE' HE'n. unfold dinv; cbn [d_parent d_size].
    split; [unfold p'; rewrite set_nth_length; assumption|].
    split; [rewrite set_nth_length; assumption|].
    split; [|split; [|split]].
    - intros i Hi. destruct (H3 i Hi) as (k & r & s & Hp & Hs & Hk).
      destruct (Hatt _ _ _ Hp) as [G1 G2].
      destruct (Nat.eq_dec r a) as [->|Hra].
      + exists (S k), b, (sb + sa). split; [auto|]. split; [apply nth_set_eq; lia|].
        rewrite Hs in Hsa. injection Hsa as ->. simpl. lia.
      + destruct (Nat.eq_dec r b) as [->|Hrb].
        * exists k, b, (sb + sa). split; [auto|]. split; [apply nth_set_eq; lia|].
          rewrite Hs in Hsb. injection Hsb as ->. lia.
        * exists k, r, s. split; [auto|]. split; [|assumption].
          rewrite nth_set_neq by auto. assumption.
    - intros r s Hr Hs.
      assert (Hra : r <> a).
      { intros ->. unfold p' in Hr. rewrite nth_set_eq in Hr by lia. congruence. }
      assert (Hr' : nth_error (d_parent d) r = Some r).
      { unfold p' in Hr. rewrite nth_set_neq in Hr by auto. assumption. }
      destruct (Nat.eq_dec r b) as [->|Hrb].
      + rewrite nth_set_eq in Hs by lia. injection Hs as <-.
        destruct (H4 a sa Ha Hsa) as (la & Hnda & Hla & Hma).
        destruct (H4 b sb Hb Hsb) as (lb & Hndb & Hlb & Hmb).
        exists (lb ++ la). split; [|split].
        * clear - Hnda Hndb Hma Hmb Hab.
          induction lb as [|z lb IHl] in Hndb, Hmb |- *; simpl; auto.
          assert (G : forall lb, (forall j, In j lb -> exists k, path (d_parent d) j k b) ->
                     NoDup lb -> NoDup (lb ++ la)).
          { clear - Hnda Hma Hab. induction lb as [|w lb IH]; intros Hm Hn; simpl; auto.
            inversion Hn; subst. constructor.
            - intro Hin. apply in_app_or in Hin as [Hin|Hin]; [contradiction|].
              apply Hma in Hin as [k1 Hk1]. destruct (Hm w) as [k2 Hk2]; [left; auto|].
              destruct (path_det _ _ _ _ Hk1 _ _ Hk2). contradiction.
            - apply IH; auto. intros; apply Hm; right; auto. }
          apply (G (z :: lb)); auto. intros j Hj. apply Hmb. assumption.
        * rewrite app_length. lia.
        * intro j. rewrite in_app_iff, Hma, Hmb. split.
          -- intros [[k Hk]|[k Hk]]; destruct (Hatt _ _ _ Hk) as [G1 G2]; eauto.
          -- intros [k Hk]. destruct (Hnew _ _ _ Hk) as (k0 & r0 & Hp0 & [(G1 & G2 & G3)|(G1 & G2 & G3)]);
             subst; eauto.
      + rewrite nth_set_neq in Hs by auto.
        destruct (H4 r s Hr' Hs) as (l & Hnd & Hl & Hm). exists l. repeat split; auto.
        * intro Hin. apply Hm in Hin as [k Hk]. destruct (Hatt _ _ _ Hk) as [G1 _]. eauto.
        * intros [k Hk]. apply Hm.
          destruct (Hnew _ _ _ Hk) as (k0 & r0 & Hp0 & [(G1 & G2 & G3)|(G1 & G2 & G3)]);
             subst; eauto; contradiction.
    - intros i j k1 k2 r1 r2 Hi Hj. rewrite HE'.
      destruct (Hnew _ _ _ Hi) as (ki & ri & Hpi & Hci).
      destruct (Hnew _ _ _ Hj) as (kj & rj & Hpj & Hcj).
      rewrite <- (H5 _ _ _ _ _ _ Hpi Hpj), <- (H5 _ _ _ _ _ _ Hpi Hx), <- (H5 _ _ _ _ _ _ Hpj Hy),
        <- (H5 _ _ _ _ _ _ Hpi Hy), <- (H5 _ _ _ _ _ _ Hpj Hx).
      clear - Hci Hcj Hab.
      destruct Hci as [(A1 & A2 & A3)|(A1 & A2 & A3)], Hcj as [(B1 & B2 & B3)|(B1 & B2 & B3)]; subst.
      + split; [auto|]. intros [?|[[? ?]|[? ?]]]; congruence.
      + split; [intros ->; right; right; auto|]. intros [?|[[? ?]|[? ?]]]; congruence.
      + split; [intros <-; right; left; auto|]. intros [?|[[? ?]|[? ?]]]; congruence.
      + split; auto.
    - exact HE'n. }
  assert (Hr : forall u v, (u = x /\ v = y) \/ (u = y /\ v = x) ->
     forall s t, In (s, t) (E ++ [(u, v)]) -> s < n /\ t < n).
  { intros u v Huv s t Hin. apply in_app_or in Hin as [Hin|[Hin|[]]]; [apply H6; assumption|].
    injection Hin as <- <-. destruct Huv as [[-> ->]|[-> ->]]; lia. }
  split; apply Hmain; try (apply Hr; auto).
  - intros i j. apply conn_add.
  - intros i j. rewrite conn_add. tauto.
Qed.

Lemma dinv_ext : forall d n E E', dinv d n E ->
  (forall i j, connected E' i j <-> connected E i j) ->
  (forall u v, In (u, v) E' -> u < n /\ v < n) -> dinv d n E'.
Proof.
  intros d n E E' (H1 & H2 & H3 & H4 & H5 & H6) HE Hn.
  repeat split; auto; try (intros; apply (Hn a b); auto).
  - intro. apply HE. eapply H5; eauto.
  - intro. eapply H5; eauto. apply HE; auto.
Qed.

Lemma dsu_merge_ok : forall d n E a b, dinv d n E -> a < n -> b < n ->
  exists d', dsu_merge d a b = Ret d' /\ dinv d' n (E ++ [(a, b)]).
Proof.
  intros d n E a b Hd Ha Hb.
  destruct (dsu_leader_ok d n E a Hd Ha) as (d1 & ra & ka & ka' & L1 & D1 & Pa & Pa' & S1 & K1).
  destruct (dsu_leader_ok d1 n E b D1 Hb) as (d2 & rb & kb & kb' & L2 & D2 & Pb & Pb' & S2 & K2).
  unfold dsu_merge. rewrite L1. cbn [obind]. rewrite L2. cbn [obind].
  destruct (K2 _ _ _ Pa') as [ka2 Pa2].
  pose proof D2 as (H1 & H2 & H3 & H4 & H5 & H6).
  destruct (Nat.eqb_spec ra rb) as [->|Hne].
  - exists d2. split; auto. eapply dinv_ext; [exact D2| |].
    + intros i j. rewrite conn_add. split; [|auto].
      assert (Hab : connected E a b) by (eapply H5; eauto).
      intros [?|[[? ?]|[? ?]]]; eauto 6 using conn_sym, conn_trans.
    + intros u v Hin. apply in_app_or in Hin as [Hin|[Hin|[]]]; [apply H6; auto|].
      injection Hin as <- <-. auto.
  - destruct (path_mem _ _ _ _ Pa2) as [_ Hra]. destruct (path_mem _ _ _ _ Pb') as [_ Hrb].
    destruct (nth_error (d_size d2) ra) as [sa|] eqn:Esa;
      [|apply nth_error_None in Esa; lia].
    destruct (nth_error (d_size d2) rb) as [sb|] eqn:Esb;
      [|apply nth_error_None in Esb; lia].
    cbn [oread obind].
    destruct (Nat.ltb_spec sa sb).
    + eexists. split; [reflexivity|].
      refine (proj1 (attach_inv d2 n E ra rb a b _ _ sa sb D2 Pa2 Pb' _ Esa Esb _)); auto; lia.
    + eexists. split; [reflexivity|].
      refine (proj2 (attach_inv d2 n E rb ra b a _ _ sb sa D2 Pb' Pa2 _ Esb Esa _)); auto; lia.
Qed.

Lemma nth_app_old : forall A (l1 l2 : list A) i, i < length l1 ->
  nth_error (l1 ++ l2) i = nth_error l1 i.
Proof. intros; apply nth_error_app1; assumption. Qed.

Lemma nth_seq : forall n k i, nth_error (seq k n) i = if i <? n then Some (k + i) else None.
Proof.
  induction n; intros k i; simpl.
  - destruct i; reflexivity.
  - destruct i; simpl; [rewrite Nat.add_0_r; reflexivity|].
    rewrite IHn. change (S i <? S n) with (i <? n).
    destruct (i <? n); [f_equal; lia|reflexivity].
Qed.

Lemma nth_rep : forall A (a : A) n i, nth_error (repeat a n) i = if i <? n then Some a else None.
Proof.
  induction n; intros i; simpl; [destruct i; reflexivity|].
  destruct i; simpl; [reflexivity|]. rewrite IHn. reflexivity.
Qed.

Lemma conn_out : forall E n i j, (forall a b, In (a, b) E -> a < n /\ b < n) ->
  connected E i j -> i = j \/ (i < n /\ j < n).
Proof.
  intros E n i j HE H. induction H.
  - right. apply HE. assumption.
  - left; reflexivity.
  - destruct IHclos_refl_sym_trans as [->|[? ?]]; auto.
  - destruct IHclos_refl_sym_trans1 as [->|[? ?]], IHclos_refl_sym_trans2 as [->|[? ?]]; auto.
Qed.

Lemma dsu_expand_ok : forall d n E m, dinv d n E -> dinv (dsu_expand d m) (Nat.max n m) E.
Proof.
  intros d n E m Hd. pose proof Hd as (H1 & H2 & H3 & H4 & H5 & H6).
  unfold dsu_expand, dsu_count. rewrite H1.
  destruct (Nat.leb_spec m n); [rewrite Nat.max_l by lia; assumption|].
  rewrite Nat.max_r by lia.
  set (p := d_parent d) in *. set (q := p ++ seq n (m - n)).
  assert (Hnew : forall i, n <= i -> i < m -> nth_error q i = Some i).
  { intros i Hi Him. unfold q. rewrite nth_error_app2 by lia. rewrite nth_seq.
    destruct (Nat.ltb_spec (i - length p) (m - n)); [f_equal; lia|lia]. }
  assert (Hold : forall i k r, path p i k r -> path q i k r).
  { induction 1.
    - constructor. unfold q. rewrite nth_app_old; auto. eapply nth_some_lt; eauto.
    - apply path_step with (q := q0); auto. unfold q. rewrite nth_app_old; auto.
      eapply nth_some_lt; eauto. }
  assert (Hinv : forall i k r, path q i k r -> (i < n /\ path p i k r) \/ (n <= i /\ i < m /\ k = 0 /\ r = i)).
  { intros i k r Hp. destruct (path_mem _ _ _ _ Hp) as [Hi _].
    unfold q in Hi. rewrite app_length, seq_length in Hi.
    destruct (Nat.lt_ge_cases i n).
    - left. split; auto. destruct (H3 i) as (k' & r' & s & Hp' & _); auto.
      destruct (path_det _ _ _ _ Hp _ _ (Hold _ _ _ Hp')) as [-> ->]. assumption.
    - right. assert (Hr : path q i 0 i) by (constructor; apply Hnew; lia).
      destruct (path_det _ _ _ _ Hp _ _ Hr). repeat split; auto; lia. }
  unfold dinv; cbn [d_parent d_size]. fold q.
  split; [unfold q; rewrite app_length, seq_length; lia|].
  split; [rewrite app_length, repeat_length; lia|].
  split; [|split; [|split]].
  - intros i Hi. destruct (Nat.lt_ge_cases i n) as [Hin|Hin].
    + destruct (H3 i Hin) as (k & r & s & Hp & Hs & Hk). exists k, r, s.
      split; [auto|]. split; [|assumption].
      rewrite nth_app_old; auto. destruct (path_mem _ _ _ _ Hp). lia.
    + exists 0, i, 1. split; [constructor; apply Hnew; lia|]. split; [|simpl; lia].
      rewrite nth_error_app2 by lia. rewrite nth_rep.
      destruct (Nat.ltb_spec (i - length (d_size d)) (m - n)); [reflexivity|lia].
  - intros r s Hr Hs. destruct (Nat.lt_ge_cases r n) as [Hrn|Hrn].
    + unfold q in Hr. rewrite nth_app_old in Hr by lia. rewrite nth_app_old in Hs by lia.
      destruct (H4 r s Hr Hs) as (l & Hnd & Hl & Hm). exists l. repeat split; auto.
      * intro Hin. apply Hm in Hin as [k Hk]. eauto.
      * intros [k Hk]. apply Hm. destruct (Hinv _ _ _ Hk) as [[? ?]|(? & ? & ? & ?)]; eauto. lia.
    + assert (Hrm : r < m) by (apply nth_some_lt in Hs; rewrite app_length, repeat_length in Hs; lia).
      rewrite nth_error_app2 in Hs by lia. rewrite nth_rep in Hs.
      destruct (Nat.ltb_spec (r - length (d_size d)) (m - n)); [|discriminate].
      injection Hs as <-. exists [r]. split; [constructor; [auto|constructor]|]. split; [reflexivity|].
      intro j. split.
      * intros [<-|[]]. exists 0. constructor. assumption.
      * intros [k Hk]. destruct (Hinv _ _ _ Hk) as [[? Hp]|(? & ? & ? & ?)]; [|left; auto].
        destruct (path_mem _ _ _ _ Hp). lia.
  - intros i j k1 k2 r1 r2 Hi Hj.
    destruct (Hinv _ _ _ Hi) as [[Gi Pi]|(Gi & Gi' & -> & ->)], (Hinv _ _ _ Hj) as [[Gj Pj]|(Gj & Gj' & -> & ->)].
    + eapply H5; eauto.
    + destruct (path_mem _ _ _ _ Pi). split; [lia|].
      intro Hc. destruct (conn_out _ _ _ _ H6 Hc); lia.
    + destruct (path_mem _ _ _ _ Pj). split; [lia|].
      intro Hc. destruct (conn_out _ _ _ _ H6 Hc); lia.
    + split; [intros <-; apply conn_refl|].
      intro Hc. destruct (conn_out _ _ _ _ H6 Hc); lia.
  - intros a b Hin. destruct (H6 a b Hin). lia.
Qed.

Lemma dsu_new_ok : forall n, dinv (dsu_new n) n [].
Proof.
  intro n. assert (H0 : dinv (Dsu [] []) 0 []).
  { unfold dinv; cbn [d_parent d_size].
    split; [reflexivity|]. split; [reflexivity|].
    split; [intros; lia|]. split; [intros r s H; destruct r; discriminate|].
    split; [|intros a b []].
    intros i j k1 k2 r1 r2 H. apply path_mem in H. simpl in H. lia. }
  pose proof (dsu_expand_ok _ _ _ n H0) as H. rewrite Nat.max_0_l in H.
  unfold dsu_expand, dsu_count in H. simpl in H. rewrite Nat.sub_0_r in H.
  destruct (Nat.leb_spec n 0); [assert (n = 0) by lia; subst; exact H|exact H].
Qed.

Lemma dsu_step_ok : forall d n E c, dinv d n E -> in_range n [c] ->
  exists d', dsu_step d c = Ret d' /\ dinv d' (items n [c]) (E ++ merged [c]).
Proof.
  intros d n E [m| |i|a b|a b] Hd HR; simpl in HR |- *; rewrite ?app_nil_r.
  - eexists. split; [reflexivity|]. apply dsu_expand_ok; assumption.
  - eexists. split; [reflexivity|].
    replace (S n) with (Nat.max n (dsu_count d + 1)); [apply dsu_expand_ok; assumption|].
    destruct Hd as (H1 & _). unfold dsu_count. lia.
  - destruct HR as [Hi _].
    destruct (dsu_leader_ok d n E i Hd Hi) as (d' & r & k & k' & HL & Hd' & _).
    rewrite HL. simpl. eauto.
  - destruct HR as (Ha & Hb & _). apply dsu_merge_ok; assumption.
  - destruct HR as (Ha & Hb & _). unfold dsu_same.
    destruct (dsu_leader_ok d n E a Hd Ha) as (d1 & ra & k1 & k1' & L1 & D1 & _).
    rewrite L1. simpl.
    destruct (dsu_leader_ok d1 n E b D1 Hb) as (d2 & rb & k2 & k2' & L2 & D2 & _).
    rewrite L2. simpl. eauto.
Qed.

Lemma dsu_run_gen : forall cs d n E, dinv d n E -> in_range n cs ->
  exists d', ofold dsu_step cs d = Ret d' /\ dinv d' (items n cs) (E ++ merged cs).
Proof.
  induction cs as [|c cs IH]; intros d n E Hd HR.
  - simpl. rewrite app_nil_r. eauto.
  - assert (HR' : in_range n [c] /\ in_range (items n [c]) cs) by (destruct c; simpl in *; tauto).
    destruct HR' as [HR1 HR2].
    destruct (dsu_step_ok d n E c Hd HR1) as (d1 & Hs & Hd1).
    destruct (IH d1 _ _ Hd1 HR2) as (d' & Hr & Hd').
    exists d'. simpl ofold. rewrite Hs. split; [exact Hr|].
    destruct c; simpl in Hd' |- *; rewrite <- ?app_assoc in Hd'; simpl in Hd'; assumption.
Qed.

Lemma dsu_run_ok : forall n cs, in_range n cs ->
  exists d, dsu_run n cs = Ret d /\ dinv d (items n cs) (merged cs).
Proof. intros. apply (dsu_run_gen cs (dsu_new n) n []); auto. apply dsu_new_ok. Qed.

Lemma dsu_same_correct : forall n cs a b, in_range n cs ->
  a < items n cs -> b < items n cs ->
  exists d d' r, dsu_run n cs = Ret d /\ dsu_same d a b = Ret (d', r) /\
    (r = true <-> connected (merged cs) a b).
Proof.
  intros n cs a b HR Ha Hb. destruct (dsu_run_ok n cs HR) as (d & Hd & Hinv).
  destruct (dsu_leader_ok d _ _ a Hinv Ha) as (d1 & ra & k1 & k1' & L1 & D1 & P1 & P1' & S1 & K1).
  destruct (dsu_leader_ok d1 _ _ b D1 Hb) as (d2 & rb & k2 & k2' & L2 & D2 & P2 & P2' & _).
  exists d, d2, (ra =? rb). split; [assumption|]. split.
  - unfold dsu_same. rewrite L1. simpl. rewrite L2. simpl. reflexivity.
  - rewrite Nat.eqb_eq. destruct D1 as (_ & _ & _ & _ & H5 & _). eapply H5; eauto.
Qed.

Lemma dsu_leader_correct : forall n cs a, in_range n cs -> a < items n cs ->
  exists d d' r, dsu_run n cs = Ret d /\ dsu_leader d a = Ret (d', r) /\
    r < items n cs /\ connected (merged cs) a r /\
    (forall b, connected (merged cs) a b -> b < items n cs ->
       exists d'', dsu_leader d b = Ret (d'', r)).
Proof.
  intros n cs a HR Ha. destruct (dsu_run_ok n cs HR) as (d & Hd & Hinv).
  pose proof Hinv as (H1 & _ & _ & _ & H5 & _).
  destruct (dsu_leader_ok d _ _ a Hinv Ha) as (d1 & ra & k1 & k1' & L1 & D1 & P1 & _).
  exists d, d1, ra. repeat split; auto.
  - destruct (path_mem _ _ _ _ P1). lia.
  - assert (Hr : path (d_parent d) ra 0 ra) by (constructor; eapply path_end; eauto).
    eapply H5; eauto.
  - intros b Hc Hb.
    destruct (dsu_leader_ok d _ _ b Hinv Hb) as (d2 & rb & k2 & k2' & L2 & _ & P2 & _).
    exists d2. rewrite L2. do 2 f_equal. symmetry. eapply H5; eauto.
Qed.

Lemma links_path : forall p i k r fuel, path p i k r -> k < fuel -> links fuel p i = k.
Proof.
  intros p i k r fuel Hp. revert fuel.
  induction Hp; intros [|fuel] Hf; try lia; simpl.
  - rewrite H, Nat.eqb_refl. reflexivity.
  - rewrite H. destruct (Nat.eqb_spec q i); [contradiction|]. rewrite IHHp by lia. reflexivity.
Qed.

Lemma dsu_depth : forall n cs a, in_range n cs -> a < items n cs ->
  exists d l, dsu_run n cs = Ret d /\ NoDup l /\
    (forall j, In j l <-> j < items n cs /\ connected (merged cs) a j) /\
    2 ^ links (items n cs) (d_parent d) a <= length l.
Proof.
  intros n cs a HR Ha. destruct (dsu_run_ok n cs HR) as (d & Hd & Hinv).
  pose proof Hinv as (H1 & H2 & H3 & H4 & H5 & H6).
  destruct (H3 a Ha) as (k & r & s & Hp & Hs & Hk).
  destruct (H4 r s) as (l & Hnd & Hl & Hm); auto.
  { eapply path_end; eauto. }
  exists d, l. repeat split; auto.
  - apply Hm in H as [k' Hk']. apply path_mem in Hk'. lia.
  - apply Hm in H as [k' Hk']. eapply H5; eauto.
  - intros [Hj Hc]. apply Hm. destruct (H3 j Hj) as (k' & r' & s' & Hp' & _).
    assert (r = r') by (eapply H5; eauto). subst. eauto.
  - rewrite (links_path _ _ _ _ _ Hp); [lia|]. eapply dinv_depth; eauto.
Qed.

(* Every leader lookup terminates within its fuel and the stored sizes never
   exceed the number of items. *)
Lemma dsu_sizes : forall n cs d, in_range n cs -> dsu_run n cs = Ret d ->
  forall r s, nth_error (d_parent d) r = Some r -> nth_error (d_size d) r = Some s ->
  s <= items n cs.
Proof.
  intros n cs d HR Hd r s Hr Hs. destruct (dsu_run_ok n cs HR) as (d' & Hd' & Hinv).
  rewrite Hd in Hd'. injection Hd' as <-.
  destruct Hinv as (H1 & H2 & H3 & H4 & H5 & H6).
  destruct (H4 r s Hr Hs) as (l & Hnd & Hl & Hm).
  rewrite <- Hl, <- (seq_length (items n cs) 0). apply NoDup_incl_length; auto.
  intros j Hj. apply Hm in Hj as [k Hk]. apply path_mem in Hk. apply in_seq. lia.
Qed.
