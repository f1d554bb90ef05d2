(* The mesh of dual marching cubes. *)
From Coq Require Import ZArith List Bool Lia.
From Verif Require Import Base Arith Tables MeshModel MeshSpec MeshProofs GridSpec MCModel CellSpec CellTables MCProofs MCClosed
  DualProofs OctreeModel OctreeSpec OctreeSums OctreeProofs OctreeFlux DcModel DcBuild DmcModel DmcTrav DmcFlux DmcContour DmcSpec.
Import ListNotations.
Local Open Scope Z_scope.

(* ---- leaves are aligned ---- *)
Definition aligned (q' : ivec3) (n' : nat) (q : ivec3) : Prop :=
  (edge_len n' | vx q' - vx q) /\ (edge_len n' | vy q' - vy q) /\ (edge_len n' | vz q' - vz q).

Lemma edge_len_divide : forall k n, (k <= n)%nat -> (edge_len k | edge_len n).
Proof.
  intros k n H. exists (edge_len (n - k)). unfold edge_len. rewrite <- Z.pow_add_r by lia. f_equal. lia.
Qed.
Lemma nested : forall k n a b r x, (k <= n)%nat -> (edge_len n | a - r) -> (edge_len k | b - r) -> a <= x < a + edge_len n -> b <= x < b + edge_len k ->
  a <= b /\ b + edge_len k <= a + edge_len n.
Proof.
  intros k n a b r x Hk [u Hu] [v Hv] Ha Hb. destruct (edge_len_divide k n Hk) as [w Hw]. rewrite Hw in *. pose proof (OctreeProofs.edge_len_pos k).
  assert (a = r + u * w * edge_len k) by lia. assert (b = r + v * edge_len k) by lia. subst a b. clear Hu Hv.
  assert (u * w <= v < u * w + w) by nia. nia.
Qed.

(* ---- addresses ---- *)
Lemma nodup_flat : forall T U (f : T -> list U) l i j x y u, NoDup (flat_map f l) -> nth_error l i = Some x -> nth_error l j = Some y ->
  In u (f x) -> In u (f y) -> i = j.
Proof.
  intros T U f l. induction l as [|a l IH]; intros i j x y u H Hi Hj Hx Hy; [destruct i; discriminate|]. cbn [flat_map] in H.
  assert (D : forall u, In u (f a) -> ~ In u (flat_map f l)).
  { intros w Hw Hw'. clear -H Hw Hw'. induction (f a) as [|z zs IHz]; [destruct Hw|]. inversion H; subst. destruct Hw as [->|Hw].
    - apply H2. apply in_app_iff. right. exact Hw'.
    - apply IHz; assumption. }
  assert (H' : NoDup (flat_map f l)) by (clear -H; induction (f a) as [|z zs IHz]; [exact H|inversion H; auto]).
  destruct i as [|i], j as [|j]; [reflexivity| | |].
  - injection Hi as ->. exfalso. apply (D u Hx). apply in_flat_map. exists y. split; [eapply nth_error_In; exact Hj|assumption].
  - injection Hj as ->. exfalso. apply (D u Hy). apply in_flat_map. exists x. split; [eapply nth_error_In; exact Hi|assumption].
  - f_equal. eapply IH; eassumption.
Qed.
Lemma flat_part : forall T U (f : T -> list U) l i x, NoDup (flat_map f l) -> nth_error l i = Some x -> NoDup (f x).
Proof.
  intros T U f l. induction l as [|a l IH]; intros i x H Hi; [destruct i; discriminate|]. cbn [flat_map] in H. destruct i as [|i].
  - injection Hi as ->. clear -H. induction (f x) as [|z zs IHz]; [constructor|]. inversion H; subst. constructor; [|auto].
    intro Hin. apply H2. apply in_app_iff. left. exact Hin.
  - apply (IH i x); [|exact Hi]. clear -H. induction (f a) as [|z zs IHz]; [exact H|inversion H; auto].
Qed.

Section Tree.
Variable E : fpenv.
Notation F := (fp_F E).
Notation leaf := (dmc_leaf F).
Notation tree := (otree leaf unit).

Lemma leaf_at_in : forall n (t : tree) q c a, leaf_at n t q c = Some a -> In a (leaves_of t).
Proof.
  induction n as [|m IH]; intros t q c a H; destruct t as [l|b cs]; cbn [leaf_at leaves_of] in *; try discriminate.
  - injection H as ->. left. reflexivity.
  - injection H as ->. left. reflexivity.
  - destruct (znth cs (child_of q m c)) as [t'|] eqn:Hz; [|discriminate]. apply in_flat_map. exists t'. split; [|eapply IH; exact H].
    unfold znth in Hz. destruct (_ <? 0); [discriminate|]. eapply nth_error_In. exact Hz.
Qed.

Lemma flat_map_map : forall T U W (f : T -> list U) (g : U -> W) l, map g (flat_map f l) = flat_map (fun x => map g (f x)) l.
Proof. induction l as [|a l IH]; cbn; [reflexivity|]. rewrite map_app, IH. reflexivity. Qed.


(* The cube of the leaf that contains a cell *)
Fixpoint leaf_cube (n : nat) (t : tree) (q c : ivec3) : ivec3 * nat :=
  match t with
  | OLeaf _ => (q, n)
  | ONode _ cs =>
      match n with
      | O => (q, n)
      | S m => match znth cs (child_of q m c) with
               | Some t' => leaf_cube m t' (child_pos q m (child_of q m c)) c
               | None => (q, n)
               end
      end
  end.

Lemma aligned_refl : forall q n, aligned q n q.
Proof. intros. unfold aligned. rewrite !Z.sub_diag. split; [|split]; apply Z.divide_0_r. Qed.
Lemma aligned_child : forall q' n' q m i, (n' <= m)%nat -> aligned q' n' (child_pos q m i) -> aligned q' n' q.
Proof.
  intros q' n' q m i Hn (A1 & A2 & A3).
  assert (G : forall u v o, (edge_len n' | u - (v + edge_len m * o)) -> (edge_len n' | u - v)).
  { intros u v o Hd. replace (u - v) with ((u - (v + edge_len m * o)) + edge_len m * o) by lia. apply Z.divide_add_r; [exact Hd|].
    apply Z.divide_mul_l. apply edge_len_divide. exact Hn. }
  unfold child_pos, vadd, vscale in *. cbn [vx vy vz] in *. unfold aligned.
  split; [eapply G; exact A1|split; [eapply G; exact A2|eapply G; exact A3]].
Qed.

Lemma cube_facts : forall n (t : tree) q c, tree_ok (fun _ _ _ => True) n t q -> in_cube q n c ->
  exists q' n' a, leaf_cube n t q c = (q', n') /\ leaf_at n t q c = Some a /\ in_cube q' n' c /\ subcube q' n' q n /\ aligned q' n' q /\ (n' <= n)%nat /\
    forall x, in_cube q' n' x -> leaf_cube n t q x = (q', n') /\ leaf_at n t q x = Some a.
Proof.
  induction n as [|m IH]; intros t q c Hok Hc; destruct t as [l|b cs]; cbn [tree_ok] in Hok; try contradiction.
  - exists q, 0%nat, l. cbn [leaf_cube leaf_at]. auto 10 using aligned_refl, subcube_refl.
  - exists q, (S m), l. cbn [leaf_cube leaf_at]. auto 10 using aligned_refl, subcube_refl.
  - destruct Hok as [Hl Hok]. cbn [leaf_cube leaf_at]. pose proof (child_of_range q m c) as R.
    destruct (znth cs (child_of q m c)) as [t1|] eqn:Z1.
    + destruct (IH t1 _ c (Hok _ _ Z1) (child_of_in q m c Hc)) as (q' & n' & a & H1 & H2 & H3 & H4 & H5 & H6 & H7).
      exists q', n', a. split; [exact H1|]. split; [exact H2|]. split; [exact H3|].
      split; [eapply subcube_trans; [exact H4|apply child_subcube; assumption]|]. split; [eapply aligned_child; eassumption|]. split; [lia|].
      intros x Hx. rewrite (child_of_pos q m (child_of q m c) x R), Z1 by (eapply in_cube_sub; eassumption). auto.
    + exfalso. unfold znth in Z1. destruct (Z.ltb_spec (child_of q m c) 0); [lia|]. apply nth_error_None in Z1. lia.
Qed.

(* Cells whose leaves have the same address belong to the same leaf. *)
Lemma same_address : forall n (t : tree) q c c' a a', tree_ok (fun _ _ _ => True) n t q -> distinct_nodes E t -> in_cube q n c -> in_cube q n c' ->
  leaf_at n t q c = Some a -> leaf_at n t q c' = Some a' -> dn_addr a = dn_addr a' -> a' = a /\ leaf_cube n t q c' = leaf_cube n t q c.
Proof.
  intros n t q c c' a a' Hok Hd Hc Hc' Ha Ha' Hadr. revert t q Hok Hd Hc Hc' Ha Ha'.
  induction n as [|m IH]; intros t q Hok Hd Hc Hc' Ha Ha'; destruct t as [l|b cs]; cbn [tree_ok] in Hok; try contradiction.
  - cbn [leaf_at] in *. injection Ha as ->. injection Ha' as ->. auto.
  - cbn [leaf_at] in *. injection Ha as ->. injection Ha' as ->. auto.
  - destruct Hok as [Hl Hok]. cbn [leaf_at leaf_cube] in *.
    destruct (znth cs (child_of q m c)) as [t1|] eqn:Z1; [|discriminate]. destruct (znth cs (child_of q m c')) as [t2|] eqn:Z2; [|discriminate].
    pose proof (child_of_range q m c) as R1. pose proof (child_of_range q m c') as R2.
    unfold distinct_nodes in Hd. cbn [leaves_of] in Hd. rewrite flat_map_map in Hd.
    assert (N1 : nth_error cs (Z.to_nat (child_of q m c)) = Some t1) by (rewrite <- znth_nat by lia; exact Z1).
    assert (N2 : nth_error cs (Z.to_nat (child_of q m c')) = Some t2) by (rewrite <- znth_nat by lia; exact Z2).
    assert (Hi : Z.to_nat (child_of q m c) = Z.to_nat (child_of q m c')).
    { eapply (nodup_flat _ _ _ cs _ _ t1 t2 (dn_addr a) Hd N1 N2).
      - cbv beta. apply (List.in_map dn_addr). eapply leaf_at_in. exact Ha.
      - cbv beta. rewrite Hadr. apply (List.in_map dn_addr). eapply leaf_at_in. exact Ha'. }
    pose proof (child_of_in q m c Hc) as C1. pose proof (child_of_in q m c' Hc') as C2.
    assert (Hi' : child_of q m c' = child_of q m c) by lia. rewrite Hi' in *. rewrite Z1 in Z2. injection Z2 as <-.
    pose proof (flat_part _ _ _ cs _ t1 Hd N1) as Hd1.
    apply (IH t1 (child_pos q m (child_of q m c)) (Hok _ _ Z1) Hd1); assumption.
Qed.

(* ---- a corner of the smaller of two neighbouring leaves ---- *)
Section Corner.
Variables (n : nat) (q : ivec3) (root : tree).
Hypothesis Hok : tree_ok (fun _ _ _ => True) n root q.
Hypothesis Hdist : distinct_nodes E root.
Notation L := (leaf_at n root q).

Definition pick_point (lo len r : Z) : Z := if r <? lo then lo else lo + len.
Definition pick_cell (lo len r : Z) : Z := if r <? lo then lo else lo + len - 1.

Lemma L_changes : forall c c' q' n', in_cube q n c -> in_cube q n c' -> leaf_cube n root q c = (q', n') -> ~ in_cube q' n' c' -> L c <> L c'.
Proof.
  intros c c' q' n' Hc Hc' Hq Hn Heq. destruct (cube_facts n root q c Hok Hc) as (q1 & n1 & a & H1 & H2 & _).
  destruct (cube_facts n root q c' Hok Hc') as (q2 & n2 & a' & G1 & G2 & G3 & _).
  rewrite H2, G2 in Heq. injection Heq as <-. destruct (same_address n root q c c' a a Hok Hdist Hc Hc' H2 G2 eq_refl) as [_ Hcube].
  rewrite G1, Hq in Hcube. injection Hcube as -> ->. contradiction.
Qed.


(* ---- coordinates ---- *)
Definition mkv (f : axis -> Z) : ivec3 := V3 (f AX) (f AY) (f AZ).
Lemma vget_mkv : forall f a, vget a (mkv f) = f a.
Proof. intros f []; reflexivity. Qed.
Lemma vget_ext : forall u v : ivec3, (forall a, vget a u = vget a v) -> u = v.
Proof. intros [a b c] [a' b' c'] H. pose proof (H AX). pose proof (H AY). pose proof (H AZ). cbn in *. congruence. Qed.
Lemma vget_add : forall a u v, vget a (vadd u v) = vget a u + vget a v.
Proof. intros [] u v; reflexivity. Qed.
Lemma vget_unit : forall a d, vget a (unit_vec d) = if axis_eqb a d then 1 else 0.
Proof. intros [] []; reflexivity. Qed.
Lemma in_cube_iff : forall r k c, in_cube r k c <-> forall a, vget a r <= vget a c < vget a r + edge_len k.
Proof.
  intros [x y z] k [x' y' z']. unfold in_cube. cbn [vx vy vz]. split; [intros H []; cbn [vget vx vy vz]; lia|].
  intro H. pose proof (H AX). pose proof (H AY). pose proof (H AZ). cbn in *. lia.
Qed.
Lemma subcube_iff : forall r k r' k', subcube r k r' k' <-> forall a, vget a r' <= vget a r /\ vget a r + edge_len k <= vget a r' + edge_len k'.
Proof.
  intros [x y z] k [x' y' z'] k'. unfold subcube. cbn [vx vy vz]. split; [intros H []; cbn [vget vx vy vz]; lia|].
  intro H. pose proof (H AX). pose proof (H AY). pose proof (H AZ). cbn in *. lia.
Qed.
Lemma aligned_iff : forall r k r', aligned r k r' <-> forall a, (edge_len k | vget a r - vget a r').
Proof.
  intros r k r'. unfold aligned. split; [intros (H1 & H2 & H3) []; assumption|].
  intro H. pose proof (H AX). pose proof (H AY). pose proof (H AZ). auto.
Qed.
Lemma inner_iff : forall p, inner q n p <-> forall a, vget a q < vget a p < vget a q + edge_len n.
Proof.
  intros p. unfold inner. split; [intros H []; cbn [vget]; lia|]. intro H. pose proof (H AX). pose proof (H AY). pose proof (H AZ). cbn in *. lia.
Qed.
Lemma cells8_iff : forall p c, In c (cells8 p) <-> forall a, vget a p - 1 <= vget a c <= vget a p.
Proof.
  intros p c. unfold cells8. rewrite in_map_iff. split.
  - intros (o & <- & Ho) a. apply place_vert_range in Ho as (R1 & R2 & R3). rewrite vget_add. destruct a; cbn [vget]; lia.
  - intro H. exists (vsub c p). split; [apply vec_eq; unfold vadd, vsub; cbn [vx vy vz]; lia|].
    pose proof (H AX). pose proof (H AY). pose proof (H AZ). destruct c as [x y z], p as [x' y' z']. cbn [vget vx vy vz] in *.
    change (place KVert) with [V3 (-1) (-1) (-1); V3 (-1) (-1) 0; V3 0 (-1) (-1); V3 0 (-1) 0; V3 (-1) 0 (-1); V3 (-1) 0 0; V3 0 0 (-1); V3 0 0 0].
    unfold vsub. cbn [vx vy vz In].
    assert (X : x - x' = -1 \/ x - x' = 0) by lia. assert (Y : y - y' = -1 \/ y - y' = 0) by lia. assert (Z : z - z' = -1 \/ z - z' = 0) by lia.
    destruct X as [-> | ->], Y as [-> | ->], Z as [-> | ->]; tauto.
Qed.
Lemma axis_eqb_spec : forall a d, axis_eqb a d = true /\ a = d \/ axis_eqb a d = false /\ a <> d.
Proof. intros [] []; cbn; auto; right; split; congruence. Qed.

(* [cs] in the smaller leaf, [ct] in the other one *)
Lemma corner_point : forall d up cs ct qs ns qt nt, in_cube q n cs -> in_cube q n ct -> leaf_cube n root q cs = (qs, ns) -> leaf_cube n root q ct = (qt, nt) ->
  L cs <> L ct -> (ns <= nt)%nat -> (if up : bool then ct = vadd cs (unit_vec d) else cs = vadd ct (unit_vec d)) ->
  exists p cs' ct', inner q n p /\ ~ flat_at leaf L p /\ In (if up then cs' else ct') (cells8 p) /\ vget d (if up then cs' else ct') = vget d p - 1 /\
    (if up then ct' = vadd cs' (unit_vec d) else cs' = vadd ct' (unit_vec d)) /\ L cs' = L cs /\ L ct' = L ct.
Proof.
  intros d up cs ct qs ns qt nt Hs Ht Ls Lt Hne Hle Hadj.
  destruct (cube_facts n root q cs Hok Hs) as (q1 & n1 & a & S1 & S2 & S3 & S4 & S5 & S6 & S7). rewrite Ls in S1. injection S1 as <- <-.
  destruct (cube_facts n root q ct Hok Ht) as (q2 & n2 & b & T1 & T2 & T3 & T4 & T5 & T6 & T7). rewrite Lt in T1. injection T1 as <- <-.
  assert (Ns : ~ in_cube qs ns ct) by (intro X; destruct (S7 ct X) as [_ X2]; congruence).
  rewrite in_cube_iff in Hs, Ht. rewrite subcube_iff in S4, T4. rewrite aligned_iff in S5, T5.
  assert (Hlt : edge_len ns < edge_len n).
  { destruct (Nat.eq_dec ns n) as [->|Hn]; [|unfold edge_len; apply Z.pow_lt_mono_r; lia].
    exfalso. apply Ns. rewrite in_cube_iff. intro x. specialize (S4 x). specialize (Ht x). lia. }
  rewrite in_cube_iff in S3, T3.
  assert (Off : forall x, x <> d -> vget x ct = vget x cs).
  { intros x Hx. destruct up; subst; rewrite vget_add, vget_unit; destruct (axis_eqb_spec x d) as [[_ ?]|[-> _]]; try contradiction; lia. }
  assert (On : if up then vget d ct = vget d cs + 1 else vget d cs = vget d ct + 1).
  { destruct up; subst; rewrite vget_add, vget_unit; destruct (axis_eqb_spec d d) as [[-> _]|[_ ?]]; try contradiction; reflexivity. }
  pose proof (OctreeProofs.edge_len_pos ns) as Ps.
  set (pt x := if axis_eqb x d then (if up then vget d ct else vget d cs) else pick_point (vget x qs) (edge_len ns) (vget x q)).
  set (fs x := if axis_eqb x d then vget d cs else pick_cell (vget x qs) (edge_len ns) (vget x q)).
  set (ft x := if axis_eqb x d then vget d ct else pick_cell (vget x qs) (edge_len ns) (vget x q)).
  assert (Cs : in_cube qs ns (mkv fs)).
  { rewrite in_cube_iff. intro x. rewrite vget_mkv. unfold fs, pick_cell. specialize (S3 x). destruct (axis_eqb_spec x d) as [[-> ->]|[-> _]]; [exact S3|].
    destruct (_ <? _); lia. }
  assert (Ct : in_cube qt nt (mkv ft)).
  { rewrite in_cube_iff. intro x. rewrite vget_mkv. unfold ft. destruct (axis_eqb_spec x d) as [[-> ->]|[-> Hx]]; [apply T3|].
    rewrite in_cube_iff in Cs. pose proof (Cs x) as Cx. rewrite vget_mkv in Cx. unfold fs in Cx. destruct (axis_eqb_spec x d) as [[_ ->]|[-> _]] in Cx; [congruence|].
    destruct (nested ns nt (vget x qt) (vget x qs) (vget x q) (vget x cs) Hle (T5 x) (S5 x)) as [N1 N2]; [rewrite <- (Off x Hx); apply T3|apply S3|]. lia. }
  assert (Root : forall x, x <> d -> vget x q < pt x < vget x q + edge_len n /\ pt x - 1 <= fs x <= pt x /\ vget x q <= fs x < vget x q + edge_len n).
  { intros x Hx. unfold pt, fs, pick_point, pick_cell. destruct (axis_eqb_spec x d) as [[_ ->]|[-> _]]; [congruence|]. specialize (S4 x).
    destruct (Z.ltb_spec (vget x q) (vget x qs)); lia. }
  assert (Same : forall x, x <> d -> ft x = fs x) by (intros x Hx; unfold ft, fs; destruct (axis_eqb_spec x d) as [[_ ->]|[-> _]]; [congruence|reflexivity]).
  assert (Dd : fs d = vget d cs /\ ft d = vget d ct /\ pt d = if up then vget d ct else vget d cs).
  { unfold fs, ft, pt. destruct (axis_eqb_spec d d) as [[-> _]|[_ ?]]; [auto|congruence]. } destruct Dd as (D1 & D2 & D3).
  pose proof (Hs d) as Hsd. pose proof (Ht d) as Htd.
  destruct (S7 _ Cs) as [Ks Es]. destruct (T7 _ Ct) as [Kt Et].
  exists (mkv pt), (mkv fs), (mkv ft). split.
  { rewrite inner_iff. intro x. rewrite vget_mkv. destruct (axis_eqb_spec x d) as [[_ ->]|[_ Hx]]; [rewrite D3; destruct up; lia|apply Root; exact Hx]. }
  assert (C0 : In (if up then mkv fs else mkv ft) (cells8 (mkv pt))).
  { rewrite cells8_iff. intro x. rewrite vget_mkv. destruct (axis_eqb_spec x d) as [[_ ->]|[_ Hx]].
    - destruct up; rewrite vget_mkv; lia.
    - destruct up; rewrite vget_mkv; rewrite ?(Same x Hx); apply Root; exact Hx. }
  assert (C1 : vget d (if up then mkv fs else mkv ft) = vget d (mkv pt) - 1) by (rewrite (vget_mkv pt); destruct up; rewrite vget_mkv; lia).
  assert (C2 : if up then mkv ft = vadd (mkv fs) (unit_vec d) else mkv fs = vadd (mkv ft) (unit_vec d)).
  { destruct up; apply vget_ext; intro x; rewrite vget_add, vget_unit, !vget_mkv; (destruct (axis_eqb_spec x d) as [[-> ->]|[-> Hx]]; [lia|rewrite (Same x Hx); lia]). }
  split.
  { intros (x & Hflat). destruct (axis_eqb_spec x d) as [[_ ->]|[_ Hx]].
    - specialize (Hflat _ C0 C1). apply Hne. destruct up; [rewrite <- C2 in Hflat|rewrite <- C2 in Hflat]; congruence.
    - assert (Hin : forall c, (forall y, y <> x -> vget y c = fs y) -> (vget x c = pt x - 1 \/ vget x c = pt x) -> in_cube q n c /\ In c (cells8 (mkv pt))).
      { intros c Hc Hcx. destruct (Root x Hx) as (Rx1 & Rx2 & Rx3). split.
        - rewrite in_cube_iff. intro y. destruct (axis_eqb_spec y x) as [[_ ->]|[_ Hy]]; [lia|]. rewrite (Hc y Hy).
          destruct (axis_eqb_spec y d) as [[_ ->]|[_ Hyd]]; [rewrite D1; apply Hs|apply Root; exact Hyd].
        - rewrite cells8_iff. intro y. rewrite vget_mkv. destruct (axis_eqb_spec y x) as [[_ ->]|[_ Hy]]; [lia|]. rewrite (Hc y Hy).
          destruct (axis_eqb_spec y d) as [[_ ->]|[_ Hyd]]; [destruct up; lia|apply Root; exact Hyd]. }
      assert (In0 : in_cube q n (mkv fs)).
      { apply Hin; [intros; apply vget_mkv|]. rewrite vget_mkv. destruct (Root x Hx) as (_ & ? & _). lia. }
      assert (E1 : fs x = pt x /\ vget x qs = pt x \/ fs x = pt x - 1 /\ vget x qs + edge_len ns = pt x).
      { unfold fs, pt, pick_point, pick_cell. destruct (axis_eqb_spec x d) as [[_ ->]|[-> _]]; [congruence|]. destruct (_ <? _); [left|right]; lia. }
      destruct E1 as [[E1 E2]|[E1 E2]].
      + (* the cell before *)
        set (o := mkv (fun y => if axis_eqb y x then pt x - 1 else fs y)).
        assert (Ho : (forall y, y <> x -> vget y o = fs y) /\ vget x o = pt x - 1).
        { unfold o. split; [intros y Hy|]; rewrite vget_mkv; [destruct (axis_eqb_spec y x) as [[_ ->]|[-> _]]; [congruence|reflexivity]|].
          destruct (axis_eqb_spec x x) as [[-> _]|[_ ?]]; [reflexivity|congruence]. }
        destruct Ho as [Ho1 Ho2]. destruct (Hin o Ho1 (or_introl Ho2)) as [Io Co].
        specialize (Hflat o Co). rewrite vget_mkv in Hflat. specialize (Hflat Ho2).
        assert (Eo : vadd o (unit_vec x) = mkv fs).
        { apply vget_ext. intro y. rewrite vget_add, vget_unit, vget_mkv. destruct (axis_eqb_spec y x) as [[-> ->]|[-> Hy]]; [lia|rewrite (Ho1 y Hy); lia]. }
        rewrite Eo in Hflat. apply (L_changes (mkv fs) o qs ns In0 Io Ks); [|exact Hflat].
        rewrite in_cube_iff. intro X. specialize (X x). lia.
      + set (o := mkv (fun y => if axis_eqb y x then pt x else fs y)).
        assert (Ho : (forall y, y <> x -> vget y o = fs y) /\ vget x o = pt x).
        { unfold o. split; [intros y Hy|]; rewrite vget_mkv; [destruct (axis_eqb_spec y x) as [[_ ->]|[-> _]]; [congruence|reflexivity]|].
          destruct (axis_eqb_spec x x) as [[-> _]|[_ ?]]; [reflexivity|congruence]. }
        destruct Ho as [Ho1 Ho2]. destruct (Hin o Ho1 (or_intror Ho2)) as [Io Co].
        assert (Cf : In (mkv fs) (cells8 (mkv pt))) by (apply Hin; [intros; apply vget_mkv|rewrite vget_mkv; lia]).
        specialize (Hflat _ Cf). rewrite !vget_mkv in Hflat. specialize (Hflat E1).
        assert (Eo : vadd (mkv fs) (unit_vec x) = o).
        { apply vget_ext. intro y. rewrite vget_add, vget_unit, vget_mkv. destruct (axis_eqb_spec y x) as [[-> ->]|[-> Hy]]; [lia|rewrite (Ho1 y Hy); lia]. }
        rewrite Eo in Hflat. apply (L_changes (mkv fs) o qs ns In0 Io Ks); [|congruence].
        rewrite in_cube_iff. intro X. specialize (X x). lia. }
  split; [exact C0|]. split; [exact C1|]. split; [exact C2|]. split; congruence.
Qed.

(* Neighbouring cells of different leaves: the traversal comes past a pair of cells of the same leaves. *)
Lemma neighbour_point : forall d c c', in_cube q n c -> in_cube q n c' -> c' = vadd c (unit_vec d) -> L c <> L c' ->
  exists p e, inner q n p /\ ~ flat_at leaf L p /\ In e (cells8 p) /\ vget d e = vget d p - 1 /\ L e = L c /\ L (vadd e (unit_vec d)) = L c'.
Proof.
  intros d c c' Hc Hc' Hadj Hne. destruct (leaf_cube n root q c) as [q1 n1] eqn:K1. destruct (leaf_cube n root q c') as [q2 n2] eqn:K2.
  destruct (Nat.le_ge_cases n1 n2) as [Hle|Hle].
  - destruct (corner_point d true c c' q1 n1 q2 n2 Hc Hc' K1 K2 Hne Hle Hadj) as (p & cs & ct & H1 & H2 & H3 & H4 & H5 & H6 & H7).
    exists p, cs. rewrite <- H5. auto 10.
  - destruct (corner_point d false c' c q2 n2 q1 n1 Hc' Hc K2 K1 ltac:(congruence) Hle Hadj) as (p & cs & ct & H1 & H2 & H3 & H4 & H5 & H6 & H7).
    exists p, ct. rewrite <- H5. auto 10.
Qed.
End Corner.
End Tree.
