(* C87: what an exception during fill leaves behind. *)
From Coq Require Import ZArith List Bool Lia.
From Verif Require Import Base Arith GridModel EdgeModel FillModel FillThrowModel GridSpec FillSpec MeshModel MCModel GridProofs FillProofs FloatArith PropFill PropFillNum PropMC.
Import ListNotations.
Local Open Scope Z_scope.

(* ---- a loop that may be interrupted, and the loop ---- *)
Section Loops.
Context {T : Type}.
Variables (J : T -> Prop) (R : T -> T -> Prop).
Hypothesis R_refl : forall s, R s s.
Hypothesis R_trans : forall a b c, R a b -> R b c -> R a c.

(* The interrupted run agrees with the complete one. *)
Definition agrees (o : outcome T) (r : fres T) : Prop :=
  match r with FRet s _ => o = Ret s | FThrow t => forall s, o = Ret s -> R t s | FErr => forall s, o <> Ret s end.
Definition steps (o : outcome T) (s : T) : Prop := forall s', o = Ret s' -> J s' /\ R s s'.

Lemma fold_agrees : forall X (b : T -> X -> outcome T) tb, (forall s x k, J s -> steps (b s x) s /\ agrees (b s x) (tb s k x)) ->
  forall l s k, J s -> steps (ofold b l s) s /\ agrees (ofold b l s) (ffold tb l s k).
Proof.
  intros X b tb H. induction l as [|x l IH]; intros s k Hj.
  - split; [intros s' E; injection E as <-; auto | reflexivity].
  - cbn [ofold ffold]. destruct (H s x k Hj) as (St & Ag). split.
    + intros s' E. destruct (b s x) as [s1| | | |] eqn:B; try discriminate. cbn [obind] in E. destruct (St s1 eq_refl) as (J1 & R1).
      destruct (IH s1 O J1) as (St1 & _). destruct (St1 s' E). split; auto. eapply R_trans; eauto.
    + destruct (tb s k x) as [s1 k1|t|]; cbn [fbind agrees] in *.
      * rewrite Ag. cbn [obind]. apply IH. apply (St s1 Ag).
      * intros s' E. destruct (b s x) as [s1| | | |] eqn:B; try discriminate. cbn [obind] in E. destruct (St s1 eq_refl) as (J1 & R1).
        destruct (IH s1 O J1) as (St1 & _). destruct (St1 s' E). eapply R_trans; [apply Ag; reflexivity | auto].
      * intros s' E. destruct (b s x) as [s1| | | |] eqn:B; try discriminate. now apply (Ag s1).
Qed.

(* A loop between other statements *)
Lemma around_agrees : forall o r s s0 (post : T -> T), (forall s', J s' -> J (post s') /\ R s' (post s')) -> R s s0 ->
  steps o s0 -> agrees o r -> steps (obind o (fun s => Ret (post s))) s /\ agrees (obind o (fun s => Ret (post s))) (fbind r (fun s => s) (fun s k => FRet (post s) k)).
Proof.
  intros o r s s0 post P R0 St Ag. split.
  - intros s' E. destruct o as [s1| | | |]; try discriminate. cbn [obind] in E. injection E as <-. destruct (St s1 eq_refl) as (J1 & R1).
    destruct (P s1 J1). split; auto. eauto.
  - destruct r as [s1 k1|t|]; cbn [fbind agrees] in *.
    + rewrite Ag. reflexivity.
    + intros s' E. destruct o as [s1| | | |]; try discriminate. cbn [obind] in E. injection E as <-. destruct (St s1 eq_refl) as (J1 & R1).
      destruct (P s1 J1). eauto.
    + intros s' E. destruct o as [s1| | | |]; try discriminate. now apply (Ag s1).
Qed.

Lemma lift_agrees : forall o k, agrees o (lift o k).
Proof. intros. destruct o; cbn; auto; discriminate. Qed.
End Loops.

Section Fill.
Variable E : fpenv.
Variable fails : nat -> bool.
Variables (g : ugrid E) (f : field E) (solver : zero_finder E).

(* Sampling: entries from the index on are as before. *)
Definition fresh_above (s : sample_state E) : Prop := 0 <= ss_idx E s /\ forall i, ss_idx E s <= i -> ss_mat E s i = g_mat g i.
(* From the lowest index to some index the materials are the new ones, from there they are the old ones. *)
Definition so_far (old new m : mat_array) : Prop := exists written : Z -> Prop, (forall i j, i <= j -> written j -> written i) /\
  forall i, written i /\ m i = new i \/ ~ written i /\ m i = old i.
Definition old_or (s s' : sample_state E) : Prop := so_far (g_mat g) (ss_mat E s') (ss_mat E s).
Lemma old_same : forall s s', ss_mat E s = ss_mat E s' -> old_or s s'.
Proof. intros s s' H. exists (fun _ => True). split; auto. intros i. left. now rewrite H. Qed.
Lemma old_refl : forall s, old_or s s.
Proof. intros s. now apply old_same. Qed.
Lemma old_trans : forall a b c, old_or a b -> old_or b c -> old_or a c.
Proof.
  intros a b c (P & P1 & P2) (Q & Q1 & Q2). exists (fun i => P i /\ Q i). split; [intros i j L (H & K); split; eauto|].
  intros i. destruct (P2 i) as [(H & M)|(H & M)]; [|right; tauto]. rewrite M. destruct (Q2 i) as [(K & N)|(K & N)]; [left | right]; tauto.
Qed.

Lemma point_agrees : forall n step s x k, fresh_above s ->
  steps fresh_above old_or (sample_point E n step f s x) s /\ agrees old_or (sample_point E n step f s x) (tsample_point E fails n step f s k x).
Proof.
  intros n step s x k (I0 & Fr).
  assert (St : steps fresh_above old_or (sample_point E n step f s x) s).
  { intros s' H. unfold sample_point in H. unfold array_write in H. destruct ((0 <=? ss_idx E s) && (ss_idx E s <? data_size n)) eqn:B; [|discriminate].
    cbn [obind] in H. injection H as <-. apply andb_prop in B. destruct B as (_ & B). apply Z.ltb_lt in B.
    assert (D : data_size n < two32) by (unfold data_size, u32; apply Z.mod_pos_bound; reflexivity).
    assert (U : u32 (ss_idx E s + 1) = ss_idx E s + 1) by (unfold u32; apply Z.mod_small; lia).
    split.
    - split; cbn [ss_idx ss_mat]; rewrite U; [lia|]. intros i Hi. destruct (i =? ss_idx E s) eqn:Q; [apply Z.eqb_eq in Q; lia|]. apply Fr. lia.
    - exists (fun i => i < ss_idx E s). split; [intros; lia|]. intros i. cbn [ss_mat]. destruct (i <? ss_idx E s) eqn:L; [left | right].
      + apply Z.ltb_lt in L. split; [exact L|]. destruct (i =? ss_idx E s) eqn:Q; auto. apply Z.eqb_eq in Q. lia.
      + apply Z.ltb_ge in L. split; [lia|]. apply Fr. exact L. }
  split; [exact St|]. unfold tsample_point. destruct (fails k); [intros s' H; apply (St s' H)|]. destruct (gt0 E _); [apply lift_agrees|].
  destruct (fails (S k)); [intros s' H; apply (St s' H) | apply lift_agrees].
Qed.

Lemma row_agrees : forall n step low s x k, fresh_above s ->
  steps fresh_above old_or (sample_row E n step low f s x) s /\ agrees old_or (sample_row E n step low f s x) (tsample_row E fails n step low f s k x).
Proof.
  intros n step low s x k Hf. unfold sample_row, tsample_row. cbv zeta.
  match goal with |- context [ofold _ _ ?s0] => assert (F0 : fresh_above s0) by exact Hf; set (s1 := s0) in * end.
  destruct (fold_agrees fresh_above old_or old_refl old_trans _ _ _ (fun s x k H => point_agrees n step s x k H) (zrange (- half n) (half n + 1)) s1 k F0) as (St & Ag).
  apply (around_agrees fresh_above old_or old_refl old_trans _ _ s s1); auto; try (now apply old_same).
  intros s' Hi. split; [exact Hi | now apply old_same].
Qed.
Lemma plane_agrees : forall n step low s x k, fresh_above s ->
  steps fresh_above old_or (sample_plane E n step low f s x) s /\ agrees old_or (sample_plane E n step low f s x) (tsample_plane E fails n step low f s k x).
Proof.
  intros n step low s x k Hf. unfold sample_plane, tsample_plane. cbv zeta.
  match goal with |- context [ofold _ _ ?s0] => assert (F0 : fresh_above s0) by exact Hf; set (s1 := s0) in * end.
  destruct (fold_agrees fresh_above old_or old_refl old_trans _ _ _ (fun s x k H => row_agrees n step low s x k H) (zrange (- half n) (half n + 1)) s1 k F0) as (St & Ag).
  apply (around_agrees fresh_above old_or old_refl old_trans _ _ s s1); auto; try (now apply old_same).
  intros s' Hi. split; [exact Hi | now apply old_same].
Qed.
Lemma samples_agree : forall k, agrees old_or (fill_samples E g f) (tfill_samples E fails g f k).
Proof.
  intros k. unfold fill_samples, tfill_samples. cbv zeta. eapply fold_agrees; [apply old_refl | apply old_trans | intros; apply plane_agrees; eassumption |].
  split; cbn; [lia | auto].
Qed.

(* Edges: they are only appended. *)
Definition longer (s s' : edge_state E) : Prop := exists l, es_edges E s' = es_edges E s ++ l.
Definition any (s : edge_state E) : Prop := True.
Lemma longer_refl : forall s, longer s s.
Proof. intros s. exists []. now rewrite app_nil_r. Qed.
Lemma longer_trans : forall a b c, longer a b -> longer b c -> longer a c.
Proof. intros a b c (l & H) (m & K). exists (l ++ m). rewrite K, H, app_assoc. reflexivity. Qed.

Section Edges.
Variables (d : axis) (values : Z -> option (fp_D E)) (mat : mat_array).
Lemma body_agrees : forall y x s z k, any s -> steps any longer (edge_body E d g f solver values mat y x s z) s /\
  agrees longer (edge_body E d g f solver values mat y x s z) (tedge_body E fails d g f solver values mat y x s k z).
Proof.
  intros y x s z k _.
  assert (St : steps any longer (edge_body E d g f solver values mat y x s z) s).
  { intros s' H. split; [exact I|]. unfold edge_body in H. destruct (values (es_i1 E s)) as [v1|]; [|discriminate]. destruct (values (es_i2 E s)) as [v2|]; [|discriminate].
    cbn [oread obind] in H. cbv zeta in H. destruct (negb _).
    - destruct (oread _) as [mt| | | |]; cbn [obind] in H; try discriminate. destruct (make_edge _ _ _ _ _ _ _ _ _) as [e| | | |]; cbn [obind] in H; try discriminate.
      injection H as <-. exists [e]. reflexivity.
    - cbn [obind] in H. injection H as <-. exists []. cbn. now rewrite app_nil_r. }
  split; [exact St|]. unfold tedge_body. destruct (values (es_i1 E s)) as [v1|] eqn:V1.
  - destruct (values (es_i2 E s)) as [v2|] eqn:V2.
    + destruct (negb _); [|apply lift_agrees]. destruct (_ || _); [intros s' H; apply (St s' H) | apply lift_agrees].
    + intros s' H. unfold edge_body in H. rewrite V1, V2 in H. discriminate.
  - intros s' H. unfold edge_body in H. rewrite V1 in H. discriminate.
Qed.
Lemma erow_agrees : forall y s x k, any s -> steps any longer (edge_row E d g f solver values mat y s x) s /\
  agrees longer (edge_row E d g f solver values mat y s x) (tedge_row E fails d g f solver values mat y s k x).
Proof.
  intros y s x k Hs. unfold edge_row, tedge_row. cbv zeta.
  destruct (fold_agrees any longer longer_refl longer_trans _ _ _ (fun s z k H => body_agrees y x s z k H) (zrange (- half (g_size g)) (loop_end d AZ (half (g_size g)))) s k Hs) as (St & Ag).
  apply (around_agrees any longer longer_refl longer_trans _ _ s s); auto using longer_refl. intros s' _. split; [exact I|]. exists []. rewrite app_nil_r. destruct d; reflexivity.
Qed.
Lemma eplane_agrees : forall s y k, any s -> steps any longer (edge_plane E d g f solver values mat s y) s /\
  agrees longer (edge_plane E d g f solver values mat s y) (tedge_plane E fails d g f solver values mat s k y).
Proof.
  intros s y k Hs. unfold edge_plane, tedge_plane. cbv zeta.
  destruct (fold_agrees any longer longer_refl longer_trans _ _ _ (fun s x k H => erow_agrees y s x k H) (zrange (- half (g_size g)) (loop_end d AX (half (g_size g)))) s k Hs) as (St & Ag).
  apply (around_agrees any longer longer_refl longer_trans _ _ s s); auto using longer_refl. intros s' _. split; [exact I|]. exists []. rewrite app_nil_r. destruct d; reflexivity.
Qed.
Lemma edges_agree : forall k, agrees longer (fill_edges E d g f solver values mat) (tfill_edges E fails d g f solver values mat k).
Proof.
  intros k. unfold fill_edges, tfill_edges. cbv zeta. eapply fold_agrees; [apply longer_refl | apply longer_trans | intros; apply eplane_agrees; eassumption | exact I].
Qed.
End Edges.

(* What is left of an interrupted fill: interrupted while sampling, or while the edges along one of the axes are added *)
Definition partly (gn g' : ugrid E) : Prop :=
  g_size g' = g_size g /\ g_pos g' = g_pos g /\ g_step g' = g_step g /\
  (so_far (g_mat g) (g_mat gn) (g_mat g') /\ (forall d, g_edges d g' = g_edges d g) \/
   g_mat g' = g_mat gn /\ exists before d after l, before ++ d :: after = [AX; AY; AZ] /\ g_edges d gn = g_edges d g' ++ l /\
     (forall d', In d' before -> g_edges d' g' = g_edges d' gn) /\ (forall d', In d' after -> g_edges d' g' = g_edges d' g)).
Lemma tfill_agrees : forall k gn calls, fill g f solver = Ret (gn, calls) ->
  match tfill E fails g f solver k with FRet g' _ => g' = gn | FThrow g' => partly gn g' | FErr => False end.
Proof.
  intros k gn calls H. unfold fill in H. unfold tfill. cbv zeta. destruct (fails k); [split; [auto|split; [auto|split; [auto|]]]; left; split; auto; exists (fun _ => False); split; auto|].
  pose proof (samples_agree (S k)) as A. destruct (fill_samples E g f) as [s| | | |]; try discriminate. cbn [obind] in H.
  destruct (tfill_samples E fails g f (S k)) as [s' k1|t|]; cbn [agrees fbind] in *.
  2:{ specialize (A s eq_refl).
      assert (M : g_mat gn = ss_mat E s).
      { destruct (fill_edges E AX _ _ _ _ _); try discriminate. cbn [obind] in H. destruct (fill_edges E AY _ _ _ _ _); try discriminate. cbn [obind] in H.
        destruct (fill_edges E AZ _ _ _ _ _); try discriminate. cbn [obind] in H. injection H as <- _. reflexivity. }
      split; [auto|split; [auto|split; [auto|]]]. left. cbn [g_mat]. rewrite M. split; [exact A | intros []; auto]. }
  2:{ now apply (A s). }
  injection A as <-.
  pose proof (edges_agree AX (ss_values E s) (ss_mat E s) k1) as X. destruct (fill_edges E AX _ _ _ _ _) as [ex| | | |]; try discriminate. cbn [obind] in H.
  pose proof (fun k => edges_agree AY (ss_values E s) (ss_mat E s) k) as Y. destruct (fill_edges E AY _ _ _ _ _) as [ey| | | |]; try discriminate. cbn [obind] in H.
  pose proof (fun k => edges_agree AZ (ss_values E s) (ss_mat E s) k) as W. destruct (fill_edges E AZ _ _ _ _ _) as [ez| | | |]; try discriminate. cbn [obind] in H.
  injection H as <- _.
  destruct (tfill_edges E fails AX _ _ _ _ _ k1) as [x k2|x|]; cbn [agrees fbind] in *; [injection X as <- | specialize (X ex eq_refl) | now apply (X ex)].
  2:{ destruct X as (l & X). split; [auto|split; [auto|split; [auto|]]]. right. split; [auto|]. exists [], AX, [AY; AZ], l.
      split; [reflexivity|]. split; [exact X|]. split; intros d' D; cbn [In] in D; intuition (subst; reflexivity). }
  specialize (Y k2). destruct (tfill_edges E fails AY _ _ _ _ _ k2) as [y k3|y|]; cbn [agrees fbind] in *; [injection Y as <- | specialize (Y ey eq_refl) | now apply (Y ey)].
  2:{ destruct Y as (l & Y). split; [auto|split; [auto|split; [auto|]]]. right. split; [auto|]. exists [AX], AY, [AZ], l.
      split; [reflexivity|]. split; [exact Y|]. split; intros d' D; cbn [In] in D; intuition (subst; reflexivity). }
  specialize (W k3). destruct (tfill_edges E fails AZ _ _ _ _ _ k3) as [z k4|z|]; cbn [agrees fbind] in *; [injection W as <-; reflexivity | specialize (W ez eq_refl) | now apply (W ez)].
  destruct W as (l & W). split; [auto|split; [auto|split; [auto|]]]. right. split; [auto|]. exists [AX; AY], AZ, [], l.
  split; [reflexivity|]. split; [exact W|]. split; intros d' D; cbn [In] in D; intuition (subst; reflexivity).
Qed.
End Fill.

Section Claims.
Variable E : fpenv.

(* A grid after any calls of fill, each of which returned or was left by an exception at any point *)
Inductive used (n : Z) (pos : vec3 (fp_D E)) (step : fp_D E) : ugrid E -> Prop :=
| used_new : used n pos step (new_grid n pos step)
| used_fill : forall fails g f solver k k' g', used n pos step g ->
    tfill E fails g f solver k = FRet g' k' \/ tfill E fails g f solver k = FThrow g' -> used n pos step g'.

Lemma used_same : forall n pos step g, valid_size n -> used n pos step g -> g_size g = n /\ g_pos g = pos /\ g_step g = step.
Proof.
  intros n pos step g V. induction 1 as [|fails g f solver k k' g' U (I1 & I2 & I3) T]; [auto|].
  destruct (fill_ok E g f solver) as (gn & calls & F & S1 & S2 & S3 & _); [now rewrite I1|].
  pose proof (tfill_agrees E fails g f solver k gn calls F) as A. destruct T as [T|T]; rewrite T in A.
  - subst gn. rewrite S1, S2, S3. auto.
  - destruct A as (A1 & A2 & A3 & _). rewrite A1, A2, A3. auto.
Qed.

(* An exception leaves size, position and step alone.  If it comes while the field is sampled, the edges are the old ones,
   the materials of the vertices up to one of them, in the order of the indices, are the new ones and the others are the old
   ones.  If it comes later, the materials are the new ones, there is an axis whose edges are an initial part of the new
   ones, the edges along the axes before it are the new ones and those along the axes after it the old ones. *)
Theorem C87_left : forall n pos step g fails f solver k, valid_size n -> used n pos step g ->
  exists gn calls, fill g f solver = Ret (gn, calls) /\
  match tfill E fails g f solver k with
  | FRet g' _ => g' = gn
  | FThrow g' => g_size g' = g_size g /\ g_pos g' = g_pos g /\ g_step g' = g_step g /\
      ((forall d, g_edges d g' = g_edges d g) /\ (exists written : Z -> Prop, (forall i j, i <= j -> written j -> written i) /\
         forall p i, vertex_in n p -> point_to_index n p = Ret i ->
           written i /\ grid_at n (g_mat g') p = grid_at n (g_mat gn) p \/ ~ written i /\ grid_at n (g_mat g') p = grid_at n (g_mat g) p) \/
       (forall p, vertex_in n p -> grid_at n (g_mat g') p = grid_at n (g_mat gn) p) /\
       exists before d after l, before ++ d :: after = [AX; AY; AZ] /\ g_edges d gn = g_edges d g' ++ l /\
         (forall d', In d' before -> g_edges d' g' = g_edges d' gn) /\ (forall d', In d' after -> g_edges d' g' = g_edges d' g))
  | FErr => False
  end.
Proof.
  intros n pos step g fails f solver k V U. destruct (used_same _ _ _ _ V U) as (I1 & I2 & I3).
  destruct (fill_ok E g f solver) as (gn & calls & F & _); [now rewrite I1|]. exists gn, calls. split; [exact F|].
  pose proof (tfill_agrees E fails g f solver k gn calls F) as A. destruct (tfill E fails g f solver k) as [g' k'|g'|]; auto.
  destruct A as (A1 & A2 & A3 & A). split; [auto|split; [auto|split; [auto|]]].
  destruct A as [(A4 & A5)|(A4 & A5)]; [left | right; split; [intros; now rewrite A4 | exact A5]].
  split; [exact A5|]. destruct A4 as (W & W1 & W2). exists W. split; [exact W1|]. intros p i _ Hi.
  assert (L : forall m m' : mat_array, m i = m' i -> grid_at n m p = grid_at n m' p).
  { intros m m' M. unfold grid_at. rewrite Hi. destruct (is_vertex_in_grid n p) as [b| | | |]; cbn [obind]; auto.
    destruct (oassert b) as [u| | | |]; cbn [obind]; auto. now rewrite M. }
  destruct (W2 i) as [(H & M)|(H & M)]; [left | right]; auto.
Qed.

(* Without exceptions fill returns. *)
Definition quiet {T} (r : fres T) : Prop := match r with FThrow _ => False | _ => True end.
Lemma quiet_bind : forall S T (r : fres S) (t : S -> T) k, quiet r -> (forall s j, quiet (k s j)) -> quiet (fbind r t k).
Proof. intros S T r t k H K. destruct r; cbn in *; auto. Qed.
Lemma quiet_fold : forall X S (b : S -> nat -> X -> fres S), (forall s k x, quiet (b s k x)) -> forall l s k, quiet (ffold b l s k).
Proof. intros X S b H. induction l; intros; cbn [ffold]; [exact I|]. apply quiet_bind; auto. Qed.
Lemma quiet_lift : forall S (o : outcome S) k, quiet (lift o k).
Proof. intros S [] k; exact I. Qed.
Lemma tfill_quiet : forall fails g f solver k, (forall j, fails j = false) -> quiet (tfill E fails g f solver k).
Proof.
  intros fails g f solver k N.
  assert (Ed : forall d v m k, quiet (tfill_edges E fails d g f solver v m k)).
  { intros d v m j. apply quiet_fold. intros s k1 y. apply quiet_bind; [|intros; exact I]. apply quiet_fold. intros s1 k2 x. apply quiet_bind; [|intros; exact I].
    apply quiet_fold. intros s2 k3 z. unfold tedge_body. destruct (v _); [|exact I]. destruct (v _); [|exact I]. rewrite !N. cbn [orb]. destruct (negb _); apply quiet_lift. }
  unfold tfill. cbv zeta. rewrite N. apply quiet_bind.
  - apply quiet_fold. intros s k1 y. apply quiet_bind; [|intros; exact I]. apply quiet_fold. intros s1 k2 x. apply quiet_bind; [|intros; exact I].
    apply quiet_fold. intros s2 k3 z. unfold tsample_point. rewrite !N. destruct (gt0 E _); apply quiet_lift.
  - intros s k1. apply quiet_bind; auto. intros x k2. apply quiet_bind; auto. intros y k3. apply quiet_bind; auto. intros; exact I.
Qed.

(* Whatever happened to the grid before, a fill that is not interrupted leaves the same grid as that of a new one. *)
Theorem C87_refill : forall n pos step g fails f solver k, valid_size n -> used n pos step g -> (forall j, fails j = false) ->
  exists g' k' gn calls, tfill E fails g f solver k = FRet g' k' /\ fill (new_grid n pos step) f solver = Ret (gn, calls) /\
  (forall d, g_edges d g' = g_edges d gn) /\ forall p, vertex_in n p -> grid_at n (g_mat g') p = grid_at n (g_mat gn) p.
Proof.
  intros n pos step g fails f solver k V U N. destruct (used_same _ _ _ _ V U) as (I1 & I2 & I3).
  destruct (fill_ok E g f solver) as (g' & c & F & S' & _); [now rewrite I1|].
  destruct (fill_ok E (new_grid n pos step) f solver) as (gn & cn & Fn & Sn & _); [exact V|].
  pose proof (tfill_agrees E fails g f solver k g' c F) as A. pose proof (tfill_quiet fails g f solver k N) as Q.
  destruct (tfill E fails g f solver k) as [g1 k1|g1|] eqn:T; cbn in Q; try tauto. subst g1.
  exists g', k1, gn, cn. split; [reflexivity|]. split; [exact Fn|].
  destruct (C08_no_trace E g (new_grid n pos step) f solver g' gn c cn) as (_ & H1 & H2); auto; [now rewrite I1|].
  split; [exact H1|]. intros p Hp. specialize (H2 p). rewrite S', Sn, I1 in H2. apply H2. exact Hp.
Qed.
End Claims.
Print Assumptions C87_left.
Print Assumptions C87_refill.

(* An interrupted fill can leave materials and edges that do not belong together: marching cubes then fails its assertion,
   and without assertions it reads vertex indices which were never written.  A ball in a grid of size 2, then a fill with a
   solid everywhere which throws at the second sample. *)
Definition everywhere : field envIEEE := @Field envIEEE (fun _ => f64 (-1) 0) (fun p => p) (fun _ _ => Solid).
Definition at_second (k : nat) : bool := Nat.eqb k 3.
Definition interrupted_check : bool :=
  match fill c53_grid ball_field c10_solver with
  | Ret (g1, _) =>
      match tfill envIEEE at_second g1 everywhere c10_solver 0 with
      | FThrow g2 => match marching_cubes (isort entry_less) g2 with AssertFail => true | _ => false end
      | _ => false
      end
  | _ => false
  end.

Theorem C87_refuted : exists (g : ugrid envIEEE) fails f solver g', used envIEEE 2 (V3 (f64 0 0) (f64 0 0) (f64 0 0)) (f64 1 0) g /\
  (exists m, marching_cubes (isort entry_less) g = Ret m) /\
  tfill envIEEE fails g f solver 0 = FThrow g' /\ marching_cubes (isort entry_less) g' = AssertFail.
Proof.
  assert (C : interrupted_check = true) by (vm_compute; reflexivity). unfold interrupted_check in C.
  pose proof C13_C14_C15_ex as M.
  destruct (fill c53_grid ball_field c10_solver) as [[g1 c1]| | | |] eqn:F; try discriminate C.
  destruct (tfill envIEEE at_second g1 everywhere c10_solver 0) as [? ?|g2|] eqn:T; try discriminate C.
  destruct (marching_cubes (isort entry_less) g2) eqn:Q; try discriminate C.
  exists g1, at_second, everywhere, c10_solver, g2. split; [|split; [|split; [exact T | exact Q]]].
  - assert (A := tfill_agrees envIEEE (fun _ => false) c53_grid ball_field c10_solver 0 g1 c1 F).
    assert (B := tfill_quiet envIEEE (fun _ => false) c53_grid ball_field c10_solver 0 (fun _ => eq_refl)).
    destruct (tfill envIEEE (fun _ => false) c53_grid ball_field c10_solver 0) as [g0 k0|g0|] eqn:T0; cbn in B; try tauto. subst g0.
    eapply used_fill; [apply used_new | left; exact T0].
  - destruct (marching_cubes (isort entry_less) g1) as [m| | | |]; try discriminate M. eauto.
Qed.
Print Assumptions C87_refuted.

(* The hypotheses of C87_left and C87_refill for the interrupted grid: it keeps the ball's six edges, one material has changed,
   and the next uninterrupted fill makes it the ball again, which can be meshed. *)
Definition interrupted : option (ugrid envIEEE * ugrid envIEEE * ugrid envIEEE) :=
  match tfill envIEEE (fun _ => false) c53_grid ball_field c10_solver 0 with
  | FRet g1 _ =>
      match tfill envIEEE at_second g1 everywhere c10_solver 0 with
      | FThrow g2 => match tfill envIEEE (fun _ => false) g2 ball_field c10_solver 0 with FRet g3 _ => Some (g1, g2, g3) | _ => None end
      | _ => None
      end
  | _ => None
  end.
Definition mat_list (g : ugrid envIEEE) : list (option material) := map (g_mat g) (zrange 0 27).
Definition changed (a b : ugrid envIEEE) : Z :=
  Z.of_nat (length (filter (fun '(x, y) => match x, y with Some a, Some b => negb (a =? b) | None, None => false | _, _ => true end)
    (combine (mat_list a) (mat_list b)))).

Lemma interrupted_used : forall g1 g2 g3, interrupted = Some (g1, g2, g3) ->
  used envIEEE 2 (V3 (f64 0 0) (f64 0 0) (f64 0 0)) (f64 1 0) g2.
Proof.
  unfold interrupted. intros g1 g2 g3 Q.
  destruct (tfill envIEEE (fun _ => false) c53_grid ball_field c10_solver 0) as [a ka| |] eqn:T1; try discriminate Q.
  destruct (tfill envIEEE at_second a everywhere c10_solver 0) as [|b|] eqn:T2; try discriminate Q.
  destruct (tfill envIEEE (fun _ => false) b ball_field c10_solver 0) as [c kc| |]; try discriminate Q. injection Q as <- <- <-.
  apply (used_fill envIEEE _ _ _ at_second a everywhere c10_solver 0 0 b); [|right; exact T2].
  apply (used_fill envIEEE _ _ _ (fun _ => false) c53_grid ball_field c10_solver 0 ka a); [apply used_new | left; exact T1].
Qed.

Example C87_ex : valid_size 2 /\
  (forall g1 g2 g3, interrupted = Some (g1, g2, g3) -> used envIEEE 2 (V3 (f64 0 0) (f64 0 0) (f64 0 0)) (f64 1 0) g2) /\
  match interrupted with
  | Some (g1, g2, g3) =>
      (changed g1 g2 =? 1) && forallb (fun d => Z.of_nat (length (g_edges d g2)) =? 2) [AX; AY; AZ] &&
      match marching_cubes (isort entry_less) g3 with Ret _ => true | _ => false end
  | None => false
  end = true.
Proof.
  split; [exists 1; split; [split; discriminate|reflexivity]|]. split; [exact interrupted_used | vm_compute; reflexivity].
Qed.
