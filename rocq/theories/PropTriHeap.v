(* C86: the nodes of a triangle octree in memory, with operator new failing at any time. *)
From Coq Require Import ZArith List Bool Reals Lra Lia.
From Verif Require Import Base Arith RealArith TriModel TriHeap TriSpec TriProofs TriNear TriHeapProofs TriHeapUse PropTri.
Import ListNotations.
Local Open Scope Z_scope.

Section Claims.
Context {F : Type}.
Variable A : arith F.
Variable float_max : F.
Notation tri := (triangle F).

(* The octree after calls of insert with the triangles [ts], each of which returned or was left by std::bad_alloc; any
   allocation may have failed. *)
Inductive grown (half : F) (pos : vec3 F) : list tri -> theap F -> Prop :=
| grown_start : grown half pos [] (th_start half pos)
| grown_insert : forall works ts t h h', grown half pos ts h ->
    th_insert A works insert_fuel 0 t h = TDone h' \/ th_insert A works insert_fuel 0 t h = TBad h' -> grown half pos (ts ++ [t]) h'.

(* All insertions return. *)
Definition all_work (half : F) (pos : vec3 F) (ts : list tri) (h : theap F) : Prop :=
  tfold (th_insert A (fun _ => true) insert_fuel 0) ts (th_start half pos) = TDone h.

Lemma start_owned : forall (half : F) pos, owns (th_nodes (th_start half pos)) 15 0 (tt_new half 0 pos) [0] /\ under (th_start half pos) [0] /\
  (forall x, th_nodes (th_start half pos) x <> None -> In x [0]).
Proof.
  intros. split; [|split].
  - exists (tn_new half 0 pos). repeat split.
  - split; [repeat constructor; intros [] |]. intros x [<-|[]]. reflexivity.
  - intros x X. cbn in X. destruct (x =? 0) eqn:E; [apply Z.eqb_eq in E; now left | congruence].
Qed.

Lemma grown_owned : forall half pos ts h, grown half pos ts h -> exists tr fp, owns (th_nodes h) 15 0 tr fp /\ under h fp /\
  (forall x, th_nodes h x <> None -> In x fp) /\ incl (tris_of tr) ts.
Proof.
  induction 1 as [|works ts t h h' G (tr & fp & O & U & L & I) E].
  - destruct (start_owned half pos) as (O & U & L). exists (tt_new half 0 pos), [0]. repeat split; auto; try apply U. intros u [].
  - pose proof (insert_heap A works 15 0 t tr fp h ltac:(lia) O U) as P. change (S 15) with insert_fuel in P.
    assert (Q : exists tr' fp', owns (th_nodes h') 15 0 tr' fp' /\ under h' fp' /\ grows h h' fp fp' /\ only [t] tr tr').
    { destruct E as [E|E]; rewrite E in P; cbn [post] in P; [destruct P as (tr' & fp' & _ & P) | destruct P as (tr' & fp' & P)]; eauto. }
    destruct Q as (tr' & fp' & O' & U' & (Gn & Gi & Gk) & On). exists tr', fp'. repeat split; auto; try apply U'.
    + intros x X. destruct (in_dec Z.eq_dec x fp') as [Y|Y]; auto. rewrite Gk in X by auto. apply Gi. left. auto.
    + intros u X. apply in_or_app. destruct (On u X) as [Y|Y]; auto.
Qed.

(* Whatever failed, the octree can be used and destroyed: another insert returns or is left by std::bad_alloc, the search
   gives an answer, and delete deletes each node once and leaves none.  No call is undefined behaviour or goes deeper than
   MAX_DEPTH. *)
Theorem C86_memory : forall half pos ts h, grown half pos ts h ->
  (forall works t, exists h', th_insert A works insert_fuel 0 t h = TDone h' \/ th_insert A works insert_fuel 0 t h = TBad h') /\
  (forall p, exists ans, th_near_triangle A float_max h 0 p = Some ans) /\
  exists h', th_delete insert_fuel 0 h = TDone h' /\ forall x, th_nodes h' x = None.
Proof.
  intros half pos ts h G. destruct (grown_owned _ _ _ _ G) as (tr & fp & O & U & L & I). split; [|split].
  - intros works t. pose proof (insert_heap A works 15 0 t tr fp h ltac:(lia) O U) as P. change (S 15) with insert_fuel in P.
    destruct (th_insert A works insert_fuel 0 t h) as [h'|h'| |]; cbn [post] in P; try tauto; exists h'; auto.
  - intros p. unfold th_near_triangle. change insert_fuel with (S 15). rewrite (near_heap A 15 0 tr fp) by auto.
    destruct (near_impl A p tr _) as ((b & t) & s). eauto.
  - destruct (delete_heap 15 0 tr fp h O (proj1 U)) as (h' & E & (_ & Gi & Gk)). exists h'. split; [exact E|]. intros x.
    destruct (in_dec Z.eq_dec x fp) as [Y|Y]; [auto|]. rewrite Gk by auto. destruct (th_nodes h x) eqn:X; auto. exfalso. apply Y, L. congruence.
Qed.

(* Its answers are those of a tree with nothing but triangles given to insert. *)
Theorem C86_answers_partial : forall half pos ts h, grown half pos ts h -> exists tr, incl (tris_of tr) ts /\
  forall p, th_near_triangle A float_max h 0 p = Some (near_triangle A float_max tr p).
Proof.
  intros half pos ts h G. destruct (grown_owned _ _ _ _ G) as (tr & fp & O & U & L & I). exists tr. split; auto.
  intros p. unfold th_near_triangle, near_triangle. change insert_fuel with (S 15). rewrite (near_heap A 15 0 tr fp) by auto.
  destruct (near_impl A p tr _) as ((b & t) & s). reflexivity.
Qed.

(* Without failures insert returns. *)
Definition not_bad (r : tresult F) : Prop := match r with TBad _ => False | _ => True end.
Lemma bind_not_bad : forall r k, not_bad r -> (forall h, not_bad (k h)) -> not_bad (tbind r k).
Proof. intros [] k H K; cbn in *; auto. Qed.
Lemma read_not_bad : forall h a k, (forall n, not_bad (k n)) -> not_bad (tread h a k).
Proof. intros. unfold tread. destruct (th_nodes h a); cbn; auto. Qed.
Lemma fold_not_bad : forall X (f : X -> theap F -> tresult F) l h, (forall x h, not_bad (f x h)) -> not_bad (tfold f l h).
Proof. induction l; intros; cbn [tfold]; [exact I|]. apply bind_not_bad; auto. Qed.
Lemma node_not_bad : forall ins, (forall c t h, not_bad (ins c t h)) -> forall a t h, not_bad (th_as_node A (fun _ => true) ins a t h).
Proof.
  intros ins Hi. assert (B : forall a i t h, not_bad (th_by_index A (fun _ => true) ins a i t h)).
  { intros. apply read_not_bad. intros n. destruct (znth _ _) as [[c|]|]; cbn; auto. }
  intros. apply read_not_bad. intros n. cbv zeta. apply bind_not_bad; auto. intros h1. apply bind_not_bad; [destruct (_ =? _); cbn; auto|].
  intros h2. destruct (_ || _); cbn; auto.
Qed.
Lemma insert_not_bad : forall fuel a t h, not_bad (th_insert A (fun _ => true) fuel a t h).
Proof.
  induction fuel as [|fuel IH]; intros; cbn [th_insert]; [exact I|]. apply read_not_bad. intros n. destruct (tn_leaf n).
  - destruct (_ || _); [exact I|]. apply bind_not_bad; [apply fold_not_bad; intros; apply node_not_bad; auto|]. intros h1. apply read_not_bad. intros m. exact I.
  - apply node_not_bad. auto.
Qed.

Lemma all_work_from : forall ts tr fp h, owns (th_nodes h) 15 0 tr fp -> under h fp -> exists tr' fp' h',
  insert_all A tr ts = Ret tr' /\ tfold (th_insert A (fun _ => true) insert_fuel 0) ts h = TDone h' /\ owns (th_nodes h') 15 0 tr' fp' /\ under h' fp'.
Proof.
  induction ts as [|t ts IH]; intros tr fp h O U.
  - exists tr, fp, h. repeat split; auto; apply U.
  - pose proof (insert_heap A (fun _ => true) 15 0 t tr fp h ltac:(lia) O U) as P. pose proof (insert_not_bad 16 0 t h) as B. change (S 15) with insert_fuel in P. change 16%nat with insert_fuel in B.
    unfold insert_all. cbn [ofold tfold]. destruct (th_insert A (fun _ => true) insert_fuel 0 t h) as [h1|h1| |]; cbn [post not_bad] in P, B; try tauto.
    destruct P as (tr1 & fp1 & -> & O1 & U1 & _). cbn [obind tbind]. apply (IH tr1 fp1 h1); auto.
Qed.

(* Without failures the answers are those of the tree of TriModel.v, which C49 and C50 are about. *)
Theorem C86_tree : forall half pos ts, exists tr h, insert_all A (tt_new half 0 pos) ts = Ret tr /\ all_work half pos ts h /\
  forall p, th_near_triangle A float_max h 0 p = Some (near_triangle A float_max tr p).
Proof.
  intros half pos ts. destruct (start_owned half pos) as (O & U & L). destruct (all_work_from ts _ _ _ O U) as (tr & fp & h & E & W & O' & U').
  exists tr, h. split; auto. split; auto. intros p. unfold th_near_triangle, near_triangle. change insert_fuel with (S 15).
  rewrite (near_heap A 15 0 tr fp) by auto. destruct (near_impl A p tr _) as ((b & t) & s). reflexivity.
Qed.

(* If the first allocation fails while a full leaf is divided, its sixty triangles are not found any more: the search
   answers as in an empty octree. *)
Theorem C86_lost : forall half pos ts h works t, zlen ts = 60 -> all_work half pos ts h -> works (th_tick h) = false ->
  exists h', th_insert A works insert_fuel 0 t h = TBad h' /\
  forall p, th_near_triangle A float_max h' 0 p = Some (zero_triangle A, a_sqrt A float_max, 0).
Proof.
  intros half pos ts h works t Ln W Wk. destruct (start_owned half pos) as (O & U & L). destruct (all_work_from ts _ _ _ O U) as (tr & fp & h1 & E & W' & O' & U').
  unfold all_work in W. rewrite W in W'. injection W' as <-.
  pose proof (insert_small A pos half 0 ts [] ltac:(cbn [zlen]; unfold zlen; cbn; unfold zlen in Ln; lia)) as E1. cbn [app] in E1. unfold tt_new in E. rewrite E1 in E. injection E as <-.
  destruct O' as (n & N & Lv & Ps & Hf & Lt & Lf & Ts & Ch & _). cbn [tt_pos tt_half tt_level] in *.
  destruct ts as [|t0 ts']; [discriminate|].
  eexists. split.
  - change insert_fuel with (S 15). generalize 15%nat. intros k. cbn [th_insert]. unfold tread at 1. rewrite N, Lf, Ts, Ln, Lt.
    change ((60 <? split_limit) || (max_depth <=? 0)) with false. cbn [tfold]. unfold th_as_node at 1. unfold tread at 1. cbn [tput th_nodes]. rewrite Z.eqb_refl. cbv zeta.
    cbn [tn_pos tn_half]. unfold th_by_index at 1. unfold tread at 1. cbn [tput th_nodes]. rewrite Z.eqb_refl. cbn [tn_children]. rewrite Ch.
    assert (Z0 : forall i, 0 <= i < 8 -> znth (repeat (@None Z) 8) i = Some None).
    { intros i I. unfold znth. destruct (i <? 0) eqn:Q; [apply Z.ltb_lt in Q; lia|]. apply nth_error_repeat. lia. }
    rewrite Z0 by apply index_range. unfold tnew at 1. cbn [tput th_tick]. rewrite Wk. cbn [tbind]. reflexivity.
  - intros p. unfold th_near_triangle. change insert_fuel with (S 15). generalize 15%nat. intros k. cbn [th_near]. cbn [ttick tput th_nodes]. rewrite Z.eqb_refl. cbn [tn_pos tn_half tn_leaf tn_children].
    destruct (a_lt A float_max _); [reflexivity|].
    assert (Z0 : forall i, 0 <= i < 8 -> znth (repeat (@None Z) 8) i = Some None).
    { intros i I. unfold znth. destruct (i <? 0) eqn:Q; [apply Z.ltb_lt in Q; lia|]. apply nth_error_repeat. lia. }
    rewrite ?Ch. rewrite Z0 by apply index_range. set (idx := tt_index _ _ _ _).
    rewrite (fold_some _ _ (fun _ s => s)); [cbn; reflexivity|]. intros i s I. destruct (i =? idx); auto. rewrite Z0 by (cbn in I; lia). reflexivity.
Qed.

Lemma grown_all : forall half pos ts ts0 h h', grown half pos ts0 h -> tfold (th_insert A (fun _ => true) insert_fuel 0) ts h = TDone h' -> grown half pos (ts0 ++ ts) h'.
Proof.
  induction ts as [|t ts IH]; intros ts0 h h' G E; cbn [tfold] in E.
  - injection E as <-. rewrite app_nil_r. exact G.
  - destruct (th_insert A (fun _ => true) insert_fuel 0 t h) as [h1|h1| |] eqn:E1; cbn [tbind] in E; try discriminate.
    change (t :: ts) with ([t] ++ ts). rewrite app_assoc. apply (IH _ h1); auto. eapply grown_insert; eauto.
Qed.
End Claims.
Print Assumptions C86_memory.
Print Assumptions C86_answers_partial.
Print Assumptions C86_tree.
Print Assumptions C86_lost.

(* Sixty triangles, exact arithmetic: before the failure the nearest one is found, afterwards none. *)
Theorem C86_refuted : exists half pos ts t works h h' p ans d s, all_work arithR half pos ts h /\
  th_near_triangle arithR 1000%R h 0 p = Some (ans, d, s) /\ nearest_answer p ts ans d s /\
  th_insert arithR works insert_fuel 0 t h = TBad h' /\
  th_near_triangle arithR 1000%R h' 0 p = Some (zero_triangle arithR, sqrt 1000, 0).
Proof.
  set (pos := V3 (-4)%R (-4)%R (-4)%R : vec3 R). set (p := V3 0%R (-1)%R 2%R : vec3 R). set (ts := repeat tri_ex 60).
  destruct (C86_tree arithR 1000%R 4%R pos ts) as (tr & h & E & W & Near).
  destruct (C86_lost arithR 1000%R 4%R pos ts h (fun _ => false) tri_ex eq_refl W eq_refl) as (h' & E' & Near').
  destruct (near_triangle arithR 1000%R tr p) as ((ans & d) & s) eqn:En.
  exists 4%R, pos, ts, tri_ex, (fun _ => false), h, h', p, ans, d, s. split; [exact W|]. split; [rewrite Near, En; reflexivity|].
  split; [|split; [exact E' | apply Near']].
  destruct C48_ex as (d0 & s0 & Ed & D5 & _).
  apply (C50_small_partial 1000%R 4%R pos ts tr); auto.
  - cbn. lia.
  - intros t X. apply repeat_spec in X. subst t. exact tri_ex_proper.
  - eapply Rle_trans; [apply (box_distance (TLeaf pos 4%R 0 ts) _ p); unfold in_box; cbn; lra|]. unfold sq_dist, Rsqr. cbn. lra.
  - exists tri_ex. split; [now left|]. unfold p; rewrite Ed. cbn. lra.
Qed.
Print Assumptions C86_refuted.

(* A case of C86_memory and C86_answers_partial: the octree after that failure *)
Example C86_ex : exists half pos ts h, grown arithR half pos ts h /\ zlen ts = 61 /\
  (forall p, th_near_triangle arithR 1000%R h 0 p = Some (zero_triangle arithR, sqrt 1000, 0)).
Proof.
  set (ts := repeat tri_ex 60). destruct (C86_tree arithR 1000%R 4%R (V3 0%R 0%R 0%R) ts) as (tr & h & E & W & _).
  destruct (C86_lost arithR 1000%R 4%R _ ts h (fun _ => false) tri_ex eq_refl W eq_refl) as (h' & E' & Near').
  exists 4%R, (V3 0%R 0%R 0%R), (ts ++ [tri_ex]), h'. split; [|split; [reflexivity | exact Near']].
  eapply grown_insert; [|right; exact E']. apply (grown_all arithR 4%R (V3 0%R 0%R 0%R) ts [] (th_start 4%R (V3 0%R 0%R 0%R))); [constructor | exact W].
Qed.
