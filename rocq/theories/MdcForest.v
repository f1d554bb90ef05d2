(* Trees of dual vertices linked by parent pointers. *)
From Coq Require Import ZArith List Bool Lia.
From Verif Require Import Base Arith Tables MeshModel MeshSpec MaterialFilterModel GridModel GridSpec GridProofs EdgeModel FillModel FillProofs MCModel CellSpec CellTables DualSpec DualProofs
  UdcModel OctreeModel OctreeSpec OctreeSums OctreeProofs OctreeFlux DcModel DcSpec DcBuild MdcModel MdcSpec MdcTables MdcLeaf MdcTrav.
Import ListNotations.
Local Open Scope Z_scope.

(* ---- parts of trees ---- *)

Lemma part_inv : forall A B m b (cs : list (otree A B)) q k t' q', part (S m) (ONode b cs) q k t' q' ->
  (k = S m /\ t' = ONode b cs /\ q' = q) \/
  (exists i c, znth cs i = Some c /\ part m c (child_pos q m i) k t' q').
Proof.
  intros A B m b cs q k t' q' H. induction H as [|k b' cs' q' i c H IH Hi]; [left; auto|]. right.
  destruct IH as [(X1 & X2 & ->)|(j & d & Hj & IH)].
  - injection X1 as ->. injection X2 as -> ->. exists i, c. split; [exact Hi|]. constructor.
  - exists j, d. split; [exact Hj|]. econstructor; eassumption.
Qed.

Lemma part_leaf : forall A B n (a : A) q k (t' : otree A B) q', part n (OLeaf a) q k t' q' -> k = n /\ t' = OLeaf a /\ q' = q.
Proof.
  intros A B n a q k t' q' H. induction H as [|k b' cs' q' i c H IH Hi]; [auto|]. destruct IH as (_ & X & _). discriminate.
Qed.

Lemma part_le : forall A B n (t : otree A B) q k t' q', part n t q k t' q' -> (k <= n)%nat.
Proof. intros A B n t q k t' q' H. induction H; lia. Qed.

Lemma part_zero : forall A B (t : otree A B) q k t' q', part 0 t q k t' q' -> k = O /\ t' = t /\ q' = q.
Proof.
  intros A B t q k t' q' H. induction H as [|k b' cs' q' i c H IH Hi]; [auto|]. destruct IH as (X & _). discriminate.
Qed.

Lemma part_in : forall A B m b (cs : list (otree A B)) q i c k t' q', znth cs i = Some c ->
  part m c (child_pos q m i) k t' q' -> part (S m) (ONode b cs) q k t' q'.
Proof.
  intros A B m b cs q i c k t' q' Hi H. induction H as [|k b' cs' q' j d H IH Hj]; [|econstructor; eassumption].
  econstructor; [constructor|exact Hi].
Qed.

Lemma part_tree_ok : forall A B (X : A -> ivec3 -> nat -> Prop) n (t : otree A B) q k t' q',
  part n t q k t' q' -> tree_ok X n t q -> tree_ok X k t' q'.
Proof.
  intros A B X n t q k t' q' H Ht. induction H as [|k b' cs' q' i c H IH Hi]; [exact Ht|]. cbn [tree_ok] in IH. apply IH. exact Hi.
Qed.

Lemma znth_bound : forall T (l : list T) i a, znth l i = Some a -> length l = 8%nat -> 0 <= i < 8.
Proof. intros T l i a H H8. apply znth_range in H. rewrite H8 in H. exact H. Qed.

Lemma part_sub : forall A B (X : A -> ivec3 -> nat -> Prop) n (t : otree A B) q k t' q',
  part n t q k t' q' -> tree_ok X n t q ->
  subcube q' k q n /\ forall c, in_cube q' k c -> leaf_at n t q c = leaf_at k t' q' c.
Proof.
  intros A B X n t q k t' q' H Ht. induction H as [|k b' cs' q' i c H IH Hi]; [split; [apply subcube_refl|auto]|].
  pose proof (part_tree_ok _ _ _ _ _ _ _ _ _ H Ht) as Hp. cbn [tree_ok] in Hp. destruct Hp as [H8 _].
  pose proof (znth_bound _ _ _ _ Hi H8) as Hr. pose proof (child_subcube q' k i Hr) as Hs. destruct IH as [I1 I2]. split.
  - eapply subcube_trans; eassumption.
  - intros c' Hc. rewrite I2 by (eapply in_cube_sub; eassumption). cbn [leaf_at]. rewrite (child_of_pos q' k i c' Hr Hc), Hi. reflexivity.
Qed.

Lemma part_verts : forall n (t : mdc_tree) q k t' q' a, part n t q k t' q' -> In a (tree_verts t') -> In a (tree_verts t).
Proof.
  intros n t q k t' q' a H. induction H as [|k b' cs' q' i c H IH Hi]; [auto|]. intro Ha. apply IH. cbn [tree_verts].
  apply in_or_app. right. apply in_flat_map. exists c. split; [eapply znth_in; eassumption|exact Ha].
Qed.

Lemma leaf_part : forall A B (X : A -> ivec3 -> nat -> Prop) n (t : otree A B) q c l, tree_ok X n t q -> in_cube q n c -> leaf_at n t q c = Some l ->
  exists k q', part n t q k (OLeaf l) q' /\ in_cube q' k c.
Proof.
  induction n as [|m IH]; intros t q c l Ht Hc Hl; destruct t as [l0|b cs]; cbn [leaf_at] in Hl; try (injection Hl as ->; eexists _, _; split; [constructor|exact Hc]).
  - discriminate.
  - cbn [tree_ok] in Ht. destruct Ht as [H8 Hcs]. destruct (znth cs (child_of q m c)) as [t'|] eqn:Hi; [|discriminate].
    destruct (IH t' _ c l (Hcs _ _ Hi) (child_of_in _ _ _ Hc) Hl) as (k & q' & H1 & H2). exists k, q'. split; [|exact H2].
    eapply part_in; eassumption.
Qed.

(* [a] is a vertex of a node of level [m]. *)
Fixpoint vert_at (n : nat) (t : mdc_tree) (m : nat) (a : Z) : Prop :=
  match t with
  | OLeaf l => m = n /\ In a (ml_verts l)
  | ONode b cs => (m = n /\ In a (mi_verts b)) \/ match n with O => False | S n' => exists c, In c cs /\ vert_at n' c m a end
  end.

Lemma vert_at_in : forall n t m a, vert_at n t m a -> In a (tree_verts t).
Proof.
  induction n as [|n IH]; intros t m a H; destruct t as [l|b cs]; cbn [vert_at tree_verts] in *; try tauto.
  - destruct H as [[_ H]|[]]. apply in_or_app. auto.
  - apply in_or_app. destruct H as [[_ H]|(c & Hc & H)]; [auto|]. right. apply in_flat_map. exists c. split; [exact Hc|]. eapply IH; eassumption.
Qed.

Lemma vert_at_le : forall n t m a, vert_at n t m a -> (m <= n)%nat.
Proof.
  induction n as [|n IH]; intros t m a H; destruct t as [l|b cs]; cbn [vert_at] in *.
  - destruct H. lia.
  - destruct H as [[H _]|[]]. lia.
  - destruct H. lia.
  - destruct H as [[H _]|(c & Hc & H)]; [lia|]. apply IH in H. lia.
Qed.

Lemma in_vert_at : forall X n (t : mdc_tree) q a, tree_ok X n t q -> In a (tree_verts t) -> exists m, vert_at n t m a.
Proof.
  intros X. induction n as [|n IH]; intros t q a Ht H; destruct t as [l|b cs]; cbn [vert_at tree_verts tree_ok] in *; try (exists O; tauto); try (eexists; eauto; fail).
  apply in_app_or in H as [H|H]; [eauto|]. apply in_flat_map in H as (c & Hc & H). destruct (in_znth _ _ _ Hc) as (i & Hi).
  destruct (IH c _ a (proj2 Ht i c Hi) H) as (m & Hm). eauto.
Qed.

Lemma leaf_vert_at : forall n (t : mdc_tree) q c l a X, tree_ok X n t q -> (forall l q k, X l q k -> k = O) ->
  leaf_at n t q c = Some l -> In a (ml_verts l) -> vert_at n t 0 a.
Proof.
  induction n as [|m IH]; intros t q c l a X Ht H0 Hl Ha; destruct t as [l0|b cs]; cbn [leaf_at vert_at tree_ok] in *; try discriminate.
  - injection Hl as ->. auto.
  - injection Hl as ->. apply H0 in Ht. discriminate.
  - destruct (znth cs (child_of q m c)) as [t'|] eqn:Hi; [|discriminate]. right. exists t'. split; [eapply znth_in; eassumption|].
    eapply IH; try eassumption. apply Ht. exact Hi.
Qed.

(* [p] is a vertex of a node above the node of [a]. *)
Inductive up : mdc_tree -> Z -> Z -> Prop :=
| up_here : forall b cs a p, In p (mi_verts b) -> In a (flat_map tree_verts cs) -> up (ONode b cs) a p
| up_below : forall b cs c a p, In c cs -> up c a p -> up (ONode b cs) a p.

Section Forest.
Context {E : fpenv} {Q S : Type}.
Variable ops : qef_ops (fp_F E) Q S.
Variable g : ugrid E.
Variable solid : ivec3 -> bool.
Notation F := (fp_F E).
Notation A := (fp_f E).
Notation xvertex := (mdc_vertex F S).
Notation store := (vstore xvertex).
Notation suc := Datatypes.S.

(* ---- values ---- *)

Definition core_eq (v v' : xvertex) : Prop :=
  xv_pos v' = xv_pos v /\ xv_normal v' = xv_normal v /\ xv_mat v' = xv_mat v /\ xv_error v' = xv_error v /\ xv_qef v' = xv_qef v.

Lemma core_refl : forall v, core_eq v v.
Proof. intro v. unfold core_eq. auto. Qed.
Lemma core_parent : forall v p, core_eq v (set_parent v p).
Proof. intros v p. unfold core_eq. auto. Qed.
Lemma core_contour : forall v c i, core_eq v (set_contour v c i).
Proof. intros v c i. unfold core_eq. auto. Qed.

Lemma solution_core : forall q n sol normals mats v v', core_eq v v' -> solution ops q n sol normals mats v -> solution ops q n sol normals mats v'.
Proof.
  intros q n sol normals mats v v' (H1 & H2 & H3 & H4 & H5) (sol1 & sol2 & s & K1 & K2 & K3 & K4 & K5 & K6). exists sol1, sol2, s.
  rewrite H1, H2, H3, H4, H5. auto 10.
Qed.

Lemma leaf_solution_core : forall c s v v', core_eq v v' -> leaf_solution ops g solid c s v -> leaf_solution ops g solid c s v'.
Proof.
  intros c s v v' H (es & mats & sol0 & K1 & K2 & K3 & K4 & K5). exists es, mats, sol0.
  do 4 (split; [assumption|]). eapply solution_core; eassumption.
Qed.

Lemma merge_solution_core : forall (st st' : store) q n hs v v', core_eq v v' ->
  (forall h w, In h hs -> vs_at st h = Some w -> exists w', vs_at st' h = Some w' /\ core_eq w w') ->
  merge_solution ops st q n hs v -> merge_solution ops st' q n hs v'.
Proof.
  intros st st' q n hs v v' H Hst (parts & sol0 & H1 & H2).
  assert (X : exists parts', Forall2 (fun h p => vs_at st' h = Some (fst p) /\ xv_qef (fst p) = Some (snd p)) hs parts' /\
    map snd parts' = map snd parts /\ map (fun p => xv_normal (fst p)) parts' = map (fun p => xv_normal (fst p)) parts /\
    map (fun p => xv_mat (fst p)) parts' = map (fun p => xv_mat (fst p)) parts).
  { clear H2. induction H1 as [|h p hs parts [K1 K2] K3 IH]; [exists []; split; [constructor|auto]|].
    destruct IH as (parts' & I1 & I2 & I3 & I4); [intros; apply Hst; [right; assumption|assumption]|].
    destruct (Hst h (fst p) (or_introl eq_refl) K1) as (w' & W1 & W2 & W3 & W4 & W5 & W6).
    exists ((w', snd p) :: parts'). split; [constructor; [cbn [fst snd]; split; [exact W1|congruence]|exact I1]|].
    cbn [map fst snd]. rewrite I2, I3, I4, W3, W4. auto. }
  destruct X as (parts' & X1 & X2 & X3 & X4). exists parts', sol0. split; [exact X1|].
  assert (Y : forall l (s : Q), fold_left (fun sol (p : xvertex * S) => qo_merge ops sol (snd p)) l s = fold_left (qo_merge ops) (map snd l) s).
  { induction l as [|p l IH]; intro s; [reflexivity|]. cbn [fold_left map]. apply IH. }
  rewrite Y, X2, X3, X4, <- Y. eapply solution_core; eassumption.
Qed.

(* ---- ancestors ---- *)

Lemma anc_trans : forall (st : store) a b c, ancestor st a b -> ancestor st b c -> ancestor st a c.
Proof. intros st a b c H. induction H as [|a p b Hp _ IH]; [auto|]. intro Hc. eapply anc_up; [exact Hp|auto]. Qed.

Lemma anc_linear : forall (st : store) a b c, ancestor st a b -> ancestor st a c -> ancestor st b c \/ ancestor st c b.
Proof.
  intros st a b c H. induction H as [|a p b Hp H IH]; [auto|]. intro Hc. inversion Hc as [|a' p' c' Hp' Hc']; subst.
  - right. eapply anc_up; eassumption.
  - rewrite Hp in Hp'. injection Hp' as <-. auto.
Qed.

Definition top (st : store) (a h : Z) : Prop := ancestor st a h /\ parent_of st h = None.

Lemma top_stop : forall (st : store) h b, parent_of st h = None -> ancestor st h b -> b = h.
Proof. intros st h b Hn H. inversion H as [|a p c Hp _]; subst; [reflexivity|congruence]. Qed.

Lemma top_anc : forall (st : store) a b h, top st a h -> ancestor st a b -> ancestor st b h.
Proof.
  intros st a b h [H1 H2] Hb. destruct (anc_linear st a b h Hb H1) as [H|H]; [exact H|].
  apply top_stop in H; [subst; constructor|exact H2].
Qed.

Lemma top_unique : forall (st : store) a h h', top st a h -> top st a h' -> h = h'.
Proof.
  intros st a h h' H1 H2. pose proof (top_anc _ _ _ _ H1 (proj1 H2)) as H. symmetry. eapply top_stop in H; [symmetry; exact H|apply H2].
Qed.

Definition closed (st : store) (V : list Z) : Prop := forall a p, In a V -> parent_of st a = Some p -> In p V.

Lemma closed_anc : forall st V a b, closed st V -> In a V -> ancestor st a b -> In b V.
Proof. intros st V a b Hc Ha H. induction H as [|a p b Hp H IH]; [exact Ha|]. apply IH. eapply Hc; eassumption. Qed.

Definition common (st : store) (V : list Z) (a a' : Z) : Prop := exists u, In u V /\ ancestor st a u /\ ancestor st a' u.

Lemma common_sym : forall st V a a', common st V a a' -> common st V a' a.
Proof. intros st V a a' (u & H1 & H2 & H3). exists u. auto. Qed.
Lemma common_trans : forall st V a b c, common st V a b -> common st V b c -> common st V a c.
Proof.
  intros st V a b c (u & H1 & H2 & H3) (w & K1 & K2 & K3). destruct (anc_linear _ _ _ _ H3 K2) as [X|X].
  - exists w. split; [exact K1|]. split; [eapply anc_trans; eassumption|exact K3].
  - exists u. split; [exact H1|]. split; [exact H2|eapply anc_trans; eassumption].
Qed.
Lemma common_mono : forall st V V' a b, incl V V' -> common st V a b -> common st V' a b.
Proof. intros st V V' a b H (u & H1 & H2 & H3). exists u. auto. Qed.
Lemma common_top : forall st V a b h, common st V a b -> top st a h -> top st b h.
Proof.
  intros st V a b h (u & H1 & H2 & H3) Hh. split; [|apply Hh]. eapply anc_trans; [exact H3|]. eapply top_anc; eassumption.
Qed.

(* The vertices [V] are kept, but some without a parent get one from [U]. *)
Record grow (st st' : store) (U V : list Z) : Prop := Grow {
  gr_keep : forall a v, In a V -> vs_at st a = Some v ->
    exists v', vs_at st' a = Some v' /\ core_eq v v' /\ xv_surface v' = xv_surface v /\
      (xv_parent v' = xv_parent v \/ xv_parent v = None /\ exists u, In u U /\ xv_parent v' = Some u);
  gr_out : forall u, In u U -> ~ In u V;
  gr_top : forall u, In u U -> parent_of st' u = None
}.

Lemma grow_mono : forall st st' U V V', grow st st' U V -> incl V' V -> grow st st' U V'.
Proof.
  intros st st' U V V' [H1 H2 H3] Hi. constructor; [|intros u Hu Hv; exact (H2 u Hu (Hi _ Hv))|exact H3].
  intros a v Ha Hv. apply H1; auto.
Qed.

Lemma grow_parent : forall st st' U V a p, grow st st' U V -> In a V -> (exists v, vs_at st a = Some v) -> In p V ->
  (parent_of st' a = Some p <-> parent_of st a = Some p).
Proof.
  intros st st' U V a p H Ha (v & Hv) Hp. destruct (gr_keep _ _ _ _ H a v Ha Hv) as (v' & Hv' & _ & _ & Hpar).
  unfold parent_of. rewrite Hv, Hv'. destruct Hpar as [->|[-> (u & Hu & ->)]]; [reflexivity|]. split; [|discriminate].
  intro X. injection X as ->. exfalso. exact (gr_out _ _ _ _ H p Hu Hp).
Qed.

Lemma grow_anc : forall st st' U V, grow st st' U V -> closed st V -> (forall a, In a V -> exists v, vs_at st a = Some v) ->
  forall a u, In a V -> In u V -> (ancestor st' a u <-> ancestor st a u).
Proof.
  intros st st' U V H Hc Hl a u Ha Hu. split; intro X.
  - induction X as [|a p u Hp X IH]; [constructor|]. destruct (Hl a Ha) as (v & Hv).
    destruct (gr_keep _ _ _ _ H a v Ha Hv) as (v' & Hv' & _ & _ & Hpar). unfold parent_of in Hp. rewrite Hv' in Hp. rewrite Hp in Hpar.
    destruct Hpar as [Y|[_ (w & Hw & Y)]].
    + assert (Z : parent_of st a = Some p) by (unfold parent_of; rewrite Hv; congruence).
      eapply anc_up; [exact Z|]. apply IH; [exact (Hc _ _ Ha Z)|exact Hu].
    + injection Y as ->. apply top_stop in X; [|eapply gr_top; eassumption]. subst. exfalso. exact (gr_out _ _ _ _ H _ Hw Hu).
  - induction X as [|a p u Hp X IH]; [constructor|]. pose proof (Hc _ _ Ha Hp) as HpV.
    eapply anc_up; [|apply IH; assumption]. eapply grow_parent; try eassumption. apply Hl. exact Ha.
Qed.

(* ---- trees ---- *)

Definition leaf_ok (l : mdc_leaf) (c : ivec3) (m : nat) : Prop :=
  m = O /\ ml_mask l = mask_of (config solid c) /\ ml_corners l = Some (map (grid_material g) (cell_corners c)) /\
  length (ml_verts l) = Z.to_nat (set_count (config solid c)).
Notation shape := (@tree_ok mdc_leaf mdc_inner leaf_ok).

Lemma shape_full : forall n t q, shape n t q -> tree_ok (full_leaf solid) n t q.
Proof. intros n t q H. refine (tree_ok_impl _ _ _ _ _ _ _ _ H). intros l q' n' _ _ (H1 & _ & _ & H2). split; assumption. Qed.

Lemma leaf_ok_level : forall l c m, leaf_ok l c m -> m = O.
Proof. intros l c m H. apply H. Qed.

Lemma shape_leaf_at : forall n t q c, shape n t q -> in_cube q n c -> exists l, leaf_at n t q c = Some l /\ leaf_ok l c 0.
Proof.
  intros n t q c H Hc. destruct (leaf_at_ok _ _ _ _ _ _ _ H Hc) as (l & q' & n' & H1 & H2 & H3 & _).
  pose proof (leaf_ok_level _ _ _ H2). subst n'. apply unit_cube in H3. subst. eauto.
Qed.

Definition leaf_vertex (n : nat) (t : mdc_tree) (q : ivec3) (a : Z) : Prop := exists c s, in_cube q n c /\ leaf_vertex_at n t q c s a.

Lemma leaf_vertex_in : forall n t q c s a, leaf_vertex_at n t q c s a -> In a (tree_verts t).
Proof. intros n t q c s a (l & H1 & H2). eapply leaf_verts_in; [exact H1|]. eapply znth_in; eassumption. Qed.

Definition merged_ok (st : store) (m : nat) (b : mdc_inner) (cs : list mdc_tree) (q : ivec3) : Prop :=
  forall a, In a (mi_verts b) -> exists v hs, vs_at st a = Some v /\ NoDup hs /\ hs <> [] /\
    (forall h, In h hs <-> In h (flat_map tree_verts cs) /\ parent_of st h = Some a) /\
    merge_solution ops st q (suc m) hs v.
Definition linked_ok (st : store) (n : nat) (t : mdc_tree) (q : ivec3) : Prop :=
  forall a a', leaf_vertex n t q a -> leaf_vertex n t q a' -> (common st (tree_verts t) a a' <-> quad_linked solid n t q q n a a').

Record good (st : store) (n : nat) (t : mdc_tree) (q : ivec3) : Prop := Good {
  gd_shape : shape n t q;
  gd_nodup : NoDup (tree_verts t);
  gd_live : forall m a, vert_at n t m a -> exists v, vs_at st a = Some v /\ xv_surface v = None /\ (exists s, xv_qef v = Some s) /\
    forall p, xv_parent v = Some p -> exists m', (m < m')%nat /\ vert_at n t m' p;
  gd_leaf : forall c s a, in_cube q n c -> leaf_vertex_at n t q c s a -> exists v, vs_at st a = Some v /\ leaf_solution ops g solid c s v;
  gd_merged : forall m b cs q', part n t q (suc m) (ONode b cs) q' -> merged_ok st m b cs q';
  gd_linked : forall m t' q', part n t q m t' q' -> linked_ok st m t' q';
  gd_up : forall a p, In a (tree_verts t) -> parent_of st a = Some p -> up t a p
}.

Lemma good_live : forall st n t q a, good st n t q -> In a (tree_verts t) -> exists v, vs_at st a = Some v.
Proof.
  intros st n t q a H Ha. destruct (in_vert_at _ _ _ _ _ (gd_shape _ _ _ _ H) Ha) as (m & Hm).
  destruct (gd_live _ _ _ _ H m a Hm) as (v & Hv & _). eauto.
Qed.

Lemma good_closed : forall st n t q, good st n t q -> closed st (tree_verts t).
Proof.
  intros st n t q H a p Ha Hp. destruct (in_vert_at _ _ _ _ _ (gd_shape _ _ _ _ H) Ha) as (m & Hm).
  destruct (gd_live _ _ _ _ H m a Hm) as (v & Hv & _ & _ & K). unfold parent_of in Hp. rewrite Hv in Hp.
  destruct (K p Hp) as (m' & _ & K'). eapply vert_at_in; eassumption.
Qed.

(* The root of each vertex is found by following the pointers. *)
Lemma good_top : forall (st : store) n t q (st' : store), good st n t q ->
  (forall a v, In a (tree_verts t) -> vs_at st a = Some v -> exists v', vs_at st' a = Some v' /\ xv_parent v' = xv_parent v) ->
  forall fuel m a, vert_at n t m a -> (n - m < fuel)%nat ->
  exists h, highest_ancestor fuel st' a = Ret h /\ top st a h /\ In h (tree_verts t).
Proof.
  intros st n t q st' H Hst. induction fuel as [|fuel IH]; intros m a Hm Hf; [lia|].
  destruct (gd_live _ _ _ _ H m a Hm) as (v & Hv & _ & _ & K). destruct (Hst a v (vert_at_in _ _ _ _ Hm) Hv) as (v' & Hv' & Hp).
  cbn [highest_ancestor]. unfold vs_read. rewrite Hv'. cbn [oread obind]. rewrite Hp.
  assert (Hpar : parent_of st a = xv_parent v) by (unfold parent_of; rewrite Hv; reflexivity).
  destruct (xv_parent v) as [p|] eqn:X.
  - destruct (K p eq_refl) as (m' & Hlt & Hm'). pose proof (vert_at_le _ _ _ _ Hm').
    destruct (IH m' p Hm' ltac:(lia)) as (h & H1 & [H2 H3] & H4). exists h. split; [exact H1|]. split; [|exact H4]. split; [|exact H3].
    eapply anc_up; eassumption.
  - exists a. split; [reflexivity|]. split; [|eapply vert_at_in; eassumption]. split; [constructor|exact Hpar].
Qed.

Lemma good_has_top : forall st n t q a, good st n t q -> In a (tree_verts t) -> exists h, top st a h /\ In h (tree_verts t).
Proof.
  intros st n t q a H Ha. destruct (in_vert_at _ _ _ _ _ (gd_shape _ _ _ _ H) Ha) as (m & Hm).
  destruct (good_top st n t q st H) with (fuel := suc n) (m := m) (a := a) as (h & _ & H1 & H2); eauto. lia.
Qed.

(* ---- quads ---- *)

Lemma linked_trans : forall n t q q' m a b c, quad_linked solid n t q q' m a b -> quad_linked solid n t q q' m b c -> quad_linked solid n t q q' m a c.
Proof.
  intros n t q q' m a b c H K. induction K as [|b x x' e y y' K IH He Hc Hc' Hb Hb']; [exact H|].
  eapply ql_step; [exact (IH H)|exact He|exact Hc|exact Hc'|exact Hb|exact Hb'].
Qed.

Lemma linked_sym : forall n t q q' m a b, quad_linked solid n t q q' m a b -> quad_linked solid n t q q' m b a.
Proof.
  intros n t q q' m a b H. induction H as [|a b b' e c c' H IH He Hc Hc' Hb Hb']; [constructor|].
  eapply linked_trans; [|exact IH]. eapply ql_step; [constructor|exact He|exact Hc'|exact Hc|exact Hb'|exact Hb].
Qed.

Lemma linked_part : forall n t q k t' q', shape n t q -> part n t q k t' q' ->
  forall a b, quad_linked solid k t' q' q' k a b <-> quad_linked solid n t q q' k a b.
Proof.
  intros n t q k t' q' Ht Hp a b. destruct (part_sub _ _ _ _ _ _ _ _ _ Hp Ht) as [_ Hl].
  assert (X : forall c s x, in_cube q' k c -> (leaf_vertex_at k t' q' c s x <-> leaf_vertex_at n t q c s x)).
  { intros c s x Hc. unfold leaf_vertex_at. rewrite (Hl c Hc). reflexivity. }
  split; intro H; induction H as [|a b b' e c c' H IH He Hc Hc' Hb Hb']; try constructor;
    pose proof (proj1 (Forall_forall _ _) (proj2 He)) as Hin;
    (eapply ql_step; [exact IH|exact He|exact Hc|exact Hc'|apply (X c); auto|apply (X c'); auto]).
Qed.

Lemma linked_bigger : forall n t q q1 m1 q2 m2 a b, subcube q1 m1 q2 m2 -> quad_linked solid n t q q1 m1 a b -> quad_linked solid n t q q2 m2 a b.
Proof.
  intros n t q q1 m1 q2 m2 a b Hs H. induction H as [|a b b' e c c' H IH [He1 He2] Hc Hc' Hb Hb']; [constructor|].
  eapply ql_step; [exact IH| |exact Hc|exact Hc'|exact Hb|exact Hb']. split; [exact He1|]. eapply Forall_impl; [|exact He2]. intros x Hx. eapply in_cube_sub; eassumption.
Qed.

(* ---- growth ---- *)

Lemma grow_merged : forall st st' U n t q m b cs q', good st n t q -> grow st st' U (tree_verts t) ->
  part n t q (suc m) (ONode b cs) q' -> merged_ok st m b cs q' -> merged_ok st' m b cs q'.
Proof.
  intros st st' U n t q m b cs q' H Hg Hp Hm a Ha. destruct (Hm a Ha) as (v & hs & H1 & H2 & H3 & H4 & H5).
  assert (HV : forall x, In x (mi_verts b) \/ In x (flat_map tree_verts cs) -> In x (tree_verts t)).
  { intros x Hx. eapply part_verts; [exact Hp|]. cbn [tree_verts]. apply in_or_app. exact Hx. }
  destruct (gr_keep _ _ _ _ Hg a v (HV a (or_introl Ha)) H1) as (v' & K1 & K2 & K3 & K4).
  exists v', hs. split; [exact K1|]. split; [exact H2|]. split; [exact H3|]. split.
  - intro h. rewrite H4. assert (X : In h (flat_map tree_verts cs) -> (parent_of st' h = Some a <-> parent_of st h = Some a)).
    { intro X1. apply (grow_parent st st' U (tree_verts t)); [exact Hg|apply HV; auto|eapply good_live; [exact H|apply HV; auto]|apply HV; auto]. }
    split; intros [X1 X2]; (split; [exact X1|]); apply (X X1); exact X2.
  - eapply merge_solution_core; [exact K2| |exact H5]. intros h w Hh Hw. apply H4 in Hh as [Hh _].
    destruct (gr_keep _ _ _ _ Hg h w (HV h (or_intror Hh)) Hw) as (w' & L1 & L2 & _). eauto.
Qed.

Lemma grow_linked : forall st st' U n t q m t' q', good st n t q -> grow st st' U (tree_verts t) ->
  part n t q m t' q' -> linked_ok st m t' q' -> linked_ok st' m t' q'.
Proof.
  intros st st' U n t q m t' q' H Hg Hp Hl a a' Ha Ha'. rewrite <- (Hl a a' Ha Ha').
  assert (HV : forall x, In x (tree_verts t') -> In x (tree_verts t)) by (intros x Hx; eapply part_verts; eassumption).
  assert (X : forall x u, leaf_vertex m t' q' x -> In u (tree_verts t') -> (ancestor st' x u <-> ancestor st x u)).
  { intros x u (c & s & _ & Hx) Hu. apply (grow_anc st st' U (tree_verts t) Hg (good_closed _ _ _ _ H) (fun y Hy => good_live _ _ _ _ y H Hy)).
    - apply HV. eapply leaf_vertex_in; eassumption.
    - apply HV. exact Hu. }
  split; intros (u & U1 & U2 & U3); exists u; (split; [exact U1|]); (split; [apply (X a); assumption|apply (X a'); assumption]).
Qed.

Lemma grow_leaf : forall st st' U n t q, good st n t q -> grow st st' U (tree_verts t) ->
  forall c s a, in_cube q n c -> leaf_vertex_at n t q c s a -> exists v, vs_at st' a = Some v /\ leaf_solution ops g solid c s v.
Proof.
  intros st st' U n t q H Hg c s a Hc Ha. destruct (gd_leaf _ _ _ _ H c s a Hc Ha) as (v & H1 & H2).
  destruct (gr_keep _ _ _ _ Hg a v (leaf_vertex_in _ _ _ _ _ _ Ha) H1) as (v' & K1 & K2 & _). exists v'. split; [exact K1|].
  eapply leaf_solution_core; eassumption.
Qed.

(* Leaves *)
Lemma leaf_good : forall st l q, leaf_ok l q 0 -> NoDup (ml_verts l) ->
  (forall s a, znth (ml_verts l) s = Some a -> exists v, vs_at st a = Some v /\ leaf_solution ops g solid q s v /\ xv_parent v = None /\ xv_surface v = None) ->
  good st 0 (OLeaf l) q.
Proof.
  intros st l q Hl Hnd Hv. constructor; [exact Hl|exact Hnd| | | | |].
  - intros m a [-> Ha]. destruct (in_znth _ _ _ Ha) as (s & Hs). destruct (Hv s a Hs) as (v & H1 & H2 & H3 & H4).
    exists v. split; [exact H1|]. split; [exact H4|]. split; [|intros p Hp; congruence].
    destruct H2 as (es & mats & sol0 & _ & _ & _ & _ & sol1 & sol2 & s' & _ & _ & _ & K & _). eauto.
  - intros c s a Hc (l' & X & Ha). injection X as <-. apply unit_cube in Hc. subst. destruct (Hv s a Ha) as (v & H1 & H2 & _). eauto.
  - intros m b cs q' Hp. apply part_leaf in Hp as (X & _). discriminate.
  - intros m t' q' Hp. apply part_leaf in Hp as (-> & -> & ->). intros a a' (c & s & Hc & l1 & X1 & Ha) (c' & s' & Hc' & l2 & X2 & Ha').
    injection X1 as <-. injection X2 as <-.
    assert (T : forall x u, In x (ml_verts l) -> ancestor st x u -> u = x).
    { intros x u Hx Hu. apply top_stop in Hu; [exact Hu|]. destruct (in_znth _ _ _ Hx) as (k & Hk).
      destruct (Hv k x Hk) as (v & H1 & _ & H3 & _). unfold parent_of. rewrite H1. exact H3. }
    split.
    + intros (u & _ & U1 & U2). apply T in U1; [|eapply znth_in; eassumption]. apply T in U2; [|eapply znth_in; eassumption]. subst. constructor.
    + intro H. induction H as [|a b b' e d d' H IH [_ He] _ _ _ _]; [exists a; split; [eapply znth_in; eassumption|split; constructor]|].
      exfalso. rewrite <- in_inner_edges in He. revert He. clear. intro He.
      apply in_inner_edges in He. destruct e as [d [x y z]]. destruct q as [qx qy qz].
      destruct d; unfold cells_around in He; cbn [fst snd next_axis unit_vec] in He; unfold vsub in He; cbn [vx vy vz] in He;
        rewrite !Forall_cons_iff in He; unfold in_cube in He; rewrite edge_len_0 in He; cbn [vx vy vz] in He; lia.
  - intros a p Ha Hp. exfalso. cbn [tree_verts] in Ha. destruct (in_znth _ _ _ Ha) as (k & Hk). destruct (Hv k a Hk) as (v & H1 & _ & H3 & _).
    unfold parent_of in Hp. rewrite H1, H3 in Hp. discriminate.
Qed.

(* Nodes, from their children *)
Lemma node_good : forall st st' m b cs q, length cs = 8%nat ->
  (forall i c, znth cs i = Some c -> good st m c (child_pos q m i)) ->
  grow st st' (mi_verts b) (flat_map tree_verts cs) -> NoDup (mi_verts b) -> NoDup (flat_map tree_verts cs) ->
  (forall a, In a (mi_verts b) -> exists v, vs_at st' a = Some v /\ xv_surface v = None /\ xv_parent v = None) ->
  merged_ok st' m b cs q -> linked_ok st' (suc m) (ONode b cs) q ->
  good st' (suc m) (ONode b cs) q.
Proof.
  intros st st' m b cs q H8 Hcs Hg Hnd Hnds Hv Hm Hl.
  assert (Hgi : forall i c, znth cs i = Some c -> grow st st' (mi_verts b) (tree_verts c)).
  { intros i c Hi. eapply grow_mono; [exact Hg|]. intros x Hx. apply in_flat_map. exists c. split; [eapply znth_in; eassumption|exact Hx]. }
  constructor.
  - cbn [tree_ok]. split; [exact H8|]. intros i c Hi. exact (gd_shape _ _ _ _ (Hcs i c Hi)).
  - cbn [tree_verts]. assert (K : forall x, In x (mi_verts b) -> ~ In x (flat_map tree_verts cs)) by (apply (gr_out _ _ _ _ Hg)).
    revert Hnd K Hnds. clear. intros H1 K H2. induction (mi_verts b) as [|x l IH]; cbn [app]; [exact H2|].
    apply NoDup_cons_iff in H1 as [H0 H1]. constructor.
    + rewrite in_app_iff. intros [X|X]; [contradiction|]. exact (K x (or_introl eq_refl) X).
    + apply IH; [exact H1|]. intros y Hy. apply K. right. exact Hy.
  - intros k a Ha. cbn [vert_at] in Ha. destruct Ha as [[-> Ha]|(c & Hc & Ha)].
    + destruct (Hv a Ha) as (v & V1 & V2 & V3). exists v. split; [exact V1|]. split; [exact V2|]. split; [|intros p Hp; congruence].
      destruct (Hm a Ha) as (w & hs & W1 & _ & _ & _ & parts & sol0 & _ & sol1 & sol2 & s & _ & _ & _ & K & _). rewrite V1 in W1. injection W1 as <-. eauto.
    + destruct (in_znth _ _ _ Hc) as (i & Hi). destruct (gd_live _ _ _ _ (Hcs i c Hi) k a Ha) as (v & V1 & V2 & (s & V3) & V4).
      destruct (gr_keep _ _ _ _ (Hgi i c Hi) a v (vert_at_in _ _ _ _ Ha) V1) as (v' & K1 & (_ & _ & _ & _ & K2) & K3 & K4).
      exists v'. split; [exact K1|]. split; [congruence|]. split; [exists s; congruence|]. intros p Hp. cbn [vert_at].
      destruct K4 as [K4|[K4 (u & Hu & K5)]].
      * destruct (V4 p) as (m' & L1 & L2); [congruence|]. exists m'. split; [exact L1|]. right. eauto.
      * rewrite K5 in Hp. injection Hp as <-. exists (suc m). apply vert_at_le in Ha. split; [lia|]. auto.
  - intros c s a Hc (l & X & Ha). cbn [leaf_at] in X. match type of X with match ?z with _ => _ end = _ => destruct z as [t'|] eqn:Hi end; [|discriminate].
    eapply (grow_leaf st st' _ m t' _ (Hcs _ _ Hi) (Hgi _ _ Hi)); [apply child_of_in; exact Hc|exists l; eauto].
  - intros k b' cs' q' Hp. apply part_inv in Hp as [(X1 & X2 & ->)|(i & c & Hi & Hp)].
    + injection X1 as ->. injection X2 as -> ->. exact Hm.
    + eapply grow_merged; [apply (Hcs i c Hi)|apply (Hgi i c Hi)|exact Hp|]. eapply gd_merged; [apply (Hcs i c Hi)|exact Hp].
  - intros k t' q' Hp. apply part_inv in Hp as [(-> & -> & ->)|(i & c & Hi & Hp)]; [exact Hl|].
    eapply grow_linked; [apply (Hcs i c Hi)|apply (Hgi i c Hi)|exact Hp|]. eapply gd_linked; [apply (Hcs i c Hi)|exact Hp].
  - intros a p Ha Hp. cbn [tree_verts] in Ha. apply in_app_or in Ha as [Ha|Ha]; [rewrite (gr_top _ _ _ _ Hg a Ha) in Hp; discriminate|].
    pose proof Ha as Haf. apply in_flat_map in Ha as (c & Hc & Ha). destruct (in_znth _ _ _ Hc) as (i & Hi). destruct (good_live _ _ _ _ a (Hcs i c Hi) Ha) as (v & V1).
    destruct (gr_keep _ _ _ _ (Hgi i c Hi) a v Ha V1) as (v' & K1 & _ & _ & K4). unfold parent_of in Hp. rewrite K1 in Hp.
    destruct K4 as [K4|[K4 (u & Hu & K5)]].
    + apply (up_below b cs c a p Hc). apply (gd_up _ _ _ _ (Hcs i c Hi) a p Ha). unfold parent_of. rewrite V1. congruence.
    + rewrite K5 in Hp. injection Hp as <-. apply up_here; assumption.
Qed.

(* The same tree in another store *)
Lemma good_same : forall st st' n t q, good st n t q ->
  (forall a v, In a (tree_verts t) -> vs_at st a = Some v -> exists v', vs_at st' a = Some v' /\ core_eq v v' /\
     xv_surface v' = xv_surface v /\ xv_parent v' = xv_parent v) -> good st' n t q.
Proof.
  intros st st' n t q H Hs.
  assert (Hg : grow st st' [] (tree_verts t)).
  { constructor; [|intros u []|intros u []]. intros a v Ha Hv. destruct (Hs a v Ha Hv) as (v' & H1 & H2 & H3 & H4). eauto 10. }
  constructor.
  - apply (gd_shape _ _ _ _ H).
  - apply (gd_nodup _ _ _ _ H).
  - intros m a Ha. destruct (gd_live _ _ _ _ H m a Ha) as (v & V1 & V2 & (s & V3) & V4).
    destruct (Hs a v (vert_at_in _ _ _ _ Ha) V1) as (v' & K1 & (_ & _ & _ & _ & K2) & K3 & K4). exists v'.
    split; [exact K1|]. split; [congruence|]. split; [exists s; congruence|]. rewrite K4. exact V4.
  - eapply grow_leaf; eassumption.
  - intros m b cs q' Hp. eapply grow_merged; try eassumption. eapply gd_merged; eassumption.
  - intros m t' q' Hp. eapply grow_linked; try eassumption. eapply gd_linked; eassumption.
  - intros a p Ha Hp. apply (gd_up _ _ _ _ H a p Ha). destruct (good_live _ _ _ _ a H Ha) as (v & Hv).
    destruct (Hs a v Ha Hv) as (v' & K1 & _ & _ & K4). unfold parent_of in *. rewrite K1 in Hp. rewrite Hv. congruence.
Qed.
End Forest.
