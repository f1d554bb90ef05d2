From Coq Require Import ZArith List Bool Lia.
From Verif Require Import Base MeshModel MeshSpec.
Import ListNotations.
Local Open Scope Z_scope.

Lemma zlen_app : forall A (l1 l2 : list A), zlen (l1 ++ l2) = zlen l1 + zlen l2.
Proof. intros; unfold zlen; rewrite app_length; lia. Qed.

Lemma zlen_nonneg : forall A (l : list A), 0 <= zlen l.
Proof. intros; unfold zlen; lia. Qed.

Lemma flatten_app : forall t1 t2, flatten (t1 ++ t2) = flatten t1 ++ flatten t2.
Proof.
  induction t1 as [|[[a b] c] t1 IH]; intros; simpl; [reflexivity|].
  rewrite IH; reflexivity.
Qed.

Lemma flatten_len : forall ts, zlen (flatten ts) = 3 * zlen ts.
Proof.
  induction ts as [|[[a b] c] ts IH]; [reflexivity|].
  unfold zlen in *; simpl length in *. lia.
Qed.

Lemma good_mono : forall n n' t, n <= n' -> good_triangle n t -> good_triangle n' t.
Proof. intros n n' [[a b] c]; simpl; lia. Qed.

Lemma add_vertex_ok : forall V (m : mesh V) v, zlen (m_verts m) + 1 <= two32 ->
  mesh_add_vertex m v = Ret (Mesh (m_verts m ++ [v]) (m_inds m), zlen (m_verts m)).
Proof.
  intros V m v H. unfold mesh_add_vertex.
  pose proof (zlen_nonneg _ (m_verts m)).
  replace (zlen (m_verts m) <=? u32max) with true
    by (symmetry; apply Z.leb_le; unfold two32, u32max in *; lia).
  simpl. rewrite zlen_app. change (zlen [v]) with 1.
  unfold u32. rewrite Z.mod_small by (unfold two32 in *; lia).
  do 2 f_equal. lia.
Qed.

Lemma add_triangle_ok : forall V (m : mesh V) a b c,
  a < zlen (m_verts m) -> b < zlen (m_verts m) -> c < zlen (m_verts m) ->
  mesh_add_triangle m a b c =
  Ret (Mesh (m_verts m) (m_inds m ++ flatten (filter nondegenerate [(a, b, c)]))).
Proof.
  intros V m a b c Ha Hb Hc. unfold mesh_add_triangle.
  apply Z.ltb_lt in Ha, Hb, Hc. rewrite Ha, Hb, Hc. simpl.
  destruct ((a =? b) || (b =? c) || (a =? c)); simpl; [|reflexivity].
  rewrite app_nil_r. destruct m; reflexivity.
Qed.

Lemma expected_app : forall V (cs1 cs2 : list (mesh_call V)) vs ts,
  expected (cs1 ++ cs2) vs ts =
  expected cs2 (fst (expected cs1 vs ts)) (snd (expected cs1 vs ts)).
Proof.
  induction cs1 as [|[v|a b c|] cs1 IH]; intros; simpl; auto.
Qed.

Lemma run_expected : forall V (cs : list (mesh_call V)) vs ts m,
  m = Mesh vs (flatten (filter nondegenerate ts)) ->
  Forall (fun '(a, b, c) => 0 <= a < zlen vs /\ 0 <= b < zlen vs /\ 0 <= c < zlen vs) ts ->
  respects cs (zlen vs) ->
  exists vs' ts', expected cs vs ts = (vs', ts') /\
    ofold mesh_step cs m = Ret (Mesh vs' (flatten (filter nondegenerate ts'))) /\
    Forall (fun '(a, b, c) => 0 <= a < zlen vs' /\ 0 <= b < zlen vs' /\ 0 <= c < zlen vs') ts'.
Proof.
  induction cs as [|[v|a b c|] cs IH]; intros vs ts m -> HF HR; cbn [respects expected ofold] in *.
  - eauto.
  - destruct HR as [Hn HR]. unfold mesh_step at 1. rewrite add_vertex_ok by assumption.
    cbn [obind m_verts m_inds].
    apply IH; [reflexivity| |rewrite zlen_app; assumption].
    eapply Forall_impl; [|exact HF]. intros [[a b] c]. rewrite zlen_app.
    change (zlen [v]) with 1. lia.
  - destruct HR as (Ha & Hb & Hc & HR). unfold mesh_step at 1.
    rewrite add_triangle_ok by (cbn [m_verts]; lia). cbn [obind m_verts m_inds].
    apply IH; [|apply Forall_app; split; [assumption|constructor; [lia|constructor]]|assumption].
    rewrite filter_app, flatten_app. reflexivity.
  - unfold mesh_step at 1. cbn [obind]. apply IH; [reflexivity|constructor|assumption].
Qed.

Lemma filter_good : forall n ts,
  Forall (fun '(a, b, c) => 0 <= a < n /\ 0 <= b < n /\ 0 <= c < n) ts ->
  Forall (good_triangle n) (filter nondegenerate ts).
Proof.
  intros n ts H. apply Forall_forall. intros [[a b] c] Hin.
  apply filter_In in Hin as [Hin Hnd].
  rewrite Forall_forall in H. specialize (H _ Hin). simpl in H, Hnd |- *.
  apply negb_true_iff, orb_false_iff in Hnd as [Hnd H3].
  apply orb_false_iff in Hnd as [H1 H2]. apply Z.eqb_neq in H1, H2, H3. lia.
Qed.

Lemma mesh_run_valid : forall V (cs : list (mesh_call V)),
  respects cs 0 ->
  exists m, mesh_run cs = Ret m /\
    m_verts m = fst (expected cs [] []) /\
    mesh_valid_with m (filter nondegenerate (snd (expected cs [] []))).
Proof.
  intros V cs HR.
  destruct (run_expected V cs [] [] mesh_new) as (vs & ts & He & Hr & HF); auto.
  exists (Mesh vs (flatten (filter nondegenerate ts))).
  rewrite He. simpl. split; [exact Hr|]. split; [reflexivity|].
  split; [reflexivity|]. apply filter_good. exact HF.
Qed.

Lemma mesh_add_vertex_pos : forall V (cs : list (mesh_call V)) v m,
  respects (cs ++ [AddVertex v]) 0 -> mesh_run cs = Ret m ->
  exists m' i, mesh_add_vertex m v = Ret (m', i) /\
    i = mesh_vertex_count m /\ znth (m_verts m') i = Some v /\
    (forall j, j <> i -> znth (m_verts m') j = znth (m_verts m) j) /\
    m_inds m' = m_inds m.
Proof.
  intros V cs v m HR Hm.
  assert (HR1 : respects cs 0 /\ zlen (fst (expected cs [] [])) + 1 <= two32).
  { assert (G : forall (cs : list (mesh_call V)) vs ts n, n = zlen vs ->
       respects (cs ++ [AddVertex v]) n ->
       respects cs n /\ zlen (fst (expected cs vs ts)) + 1 <= two32).
    { clear. induction cs as [|[w|a b c|] cs IH]; intros vs ts n -> HR; simpl in *.
      - tauto.
      - destruct HR as [H1 HR]. destruct (IH (vs ++ [w]) ts (zlen vs + 1)) as [G1 G2]; auto.
        rewrite zlen_app; reflexivity.
      - destruct HR as (H1 & H2 & H3 & HR).
        destruct (IH vs (ts ++ [(a, b, c)]) (zlen vs)) as [G1 G2]; auto.
      - destruct (IH [] [] 0) as [G1 G2]; auto. }
    apply G; [reflexivity|assumption]. }
  destruct HR1 as [HR1 Hlen].
  destruct (mesh_run_valid V cs HR1) as (m0 & Hm0 & Hv & _).
  rewrite Hm in Hm0. injection Hm0 as <-. rewrite <- Hv in Hlen.
  rewrite add_vertex_ok by assumption.
  do 2 eexists. split; [reflexivity|]. split; [reflexivity|]. cbn [m_verts m_inds].
  pose proof (zlen_nonneg _ (m_verts m)).
  split; [|split; [|reflexivity]].
  - unfold znth. destruct (Z.ltb_spec (zlen (m_verts m)) 0); [lia|].
    unfold zlen. rewrite Nat2Z.id, nth_error_app2, Nat.sub_diag by lia. reflexivity.
  - intros j Hj. unfold znth. destruct (Z.ltb_spec j 0); [reflexivity|].
    unfold zlen in *.
    destruct (Nat.lt_ge_cases (Z.to_nat j) (length (m_verts m))).
    + rewrite nth_error_app1 by assumption. reflexivity.
    + rewrite (proj2 (nth_error_None (m_verts m) _)) by assumption.
      apply nth_error_None. rewrite app_length. simpl. lia.
Qed.

(* ---- counting ---- *)

Lemma countZ_app : forall A (f : A -> bool) l1 l2,
  countZ f (l1 ++ l2) = countZ f l1 + countZ f l2.
Proof. induction l1; intros; cbn [countZ app]; [lia|]. rewrite IHl1. lia. Qed.

Lemma countZ_nonneg : forall A (f : A -> bool) l, 0 <= countZ f l.
Proof. induction l; cbn [countZ]; [lia|]. destruct (f a); simpl b2z; lia. Qed.

Lemma side_count_app : forall t1 t2 a b,
  side_count (t1 ++ t2) a b = side_count t1 a b + side_count t2 a b.
Proof. intros; unfold side_count; rewrite flat_map_app, countZ_app; reflexivity. Qed.
