(* The surface dual to a grid is closed: a discrete version of Stokes' theorem. *)
From Coq Require Import ZArith List Bool Lia Sorted Permutation.
From Verif Require Import Base MeshModel MeshSpec MeshProofs GridSpec CellSpec DualSpec.
Import ListNotations.
Local Open Scope Z_scope.

Fixpoint sumZ (l : list Z) : Z := match l with [] => 0 | a :: l' => a + sumZ l' end.
Definition gsum {A} (f : A -> Z) (l : list A) : Z := sumZ (map f l).

Lemma gsum_cons : forall A (f : A -> Z) a l, gsum f (a :: l) = f a + gsum f l.
Proof. reflexivity. Qed.
Lemma gsum_nil : forall A (f : A -> Z), gsum f [] = 0.
Proof. reflexivity. Qed.
Lemma gsum_app : forall A (f : A -> Z) l1 l2, gsum f (l1 ++ l2) = gsum f l1 + gsum f l2.
Proof. induction l1; intros; cbn [app]; rewrite ?gsum_cons, ?gsum_nil; [lia|]. rewrite IHl1. lia. Qed.
Lemma gsum_flat_map : forall A B (f : B -> Z) (h : A -> list B) l, gsum f (flat_map h l) = gsum (fun a => gsum f (h a)) l.
Proof. induction l; cbn [flat_map]; [reflexivity|]. rewrite gsum_app, gsum_cons, IHl. reflexivity. Qed.
Lemma gsum_ext : forall A (f h : A -> Z) l, (forall a, In a l -> f a = h a) -> gsum f l = gsum h l.
Proof.
  induction l as [|a l IH]; intro H; [reflexivity|]. rewrite !gsum_cons, H, IH; [reflexivity| |left; reflexivity].
  intros; apply H; right; assumption.
Qed.
Lemma gsum_zero : forall A (f : A -> Z) l, (forall a, In a l -> f a = 0) -> gsum f l = 0.
Proof.
  induction l as [|a l IH]; intro H; [reflexivity|]. rewrite gsum_cons, H, IH; [reflexivity| |left; reflexivity].
  intros; apply H; right; assumption.
Qed.
Lemma gsum_add : forall A (f h : A -> Z) l, gsum (fun a => f a + h a) l = gsum f l + gsum h l.
Proof. induction l; [reflexivity|]. rewrite !gsum_cons, IHl. lia. Qed.
Lemma gsum_mul : forall A (f : A -> Z) k l, gsum (fun a => k * f a) l = k * gsum f l.
Proof. induction l; [rewrite !gsum_nil; lia|]. rewrite !gsum_cons, IHl. lia. Qed.
Lemma gsum_map : forall A B (f : B -> Z) (h : A -> B) l, gsum f (map h l) = gsum (fun a => f (h a)) l.
Proof. intros. unfold gsum. rewrite map_map. reflexivity. Qed.
Lemma gsum_perm : forall A (f : A -> Z) l l', Permutation l l' -> gsum f l = gsum f l'.
Proof.
  intros A f l l' H. induction H; rewrite ?gsum_cons in *; lia.
Qed.

(* A sum is concentrated where the summand is not zero. *)
Lemma gsum_support : forall A (dec : forall a b : A, {a = b} + {a <> b}) (f : A -> Z) S L,
  NoDup S -> NoDup L -> incl S L -> (forall a, In a L -> ~ In a S -> f a = 0) -> gsum f L = gsum f S.
Proof.
  intros A dec f S. induction S as [|s S IH]; intros L HS HL Hi Hz.
  - rewrite gsum_nil. apply gsum_zero. intros a Ha. apply Hz; [assumption|intros []].
  - inversion HS as [|? ? Hs HS']; subst.
    destruct (in_split s L) as (L1 & L2 & ->); [apply Hi; left; reflexivity|].
    apply NoDup_remove in HL as [HL Hnl]. rewrite gsum_app, !gsum_cons.
    rewrite <- (IH (L1 ++ L2)); [rewrite gsum_app; lia|assumption|assumption| |].
    + intros a Ha. assert (Hal : In a (L1 ++ s :: L2)) by (apply Hi; right; assumption).
      apply in_app_or in Hal. apply in_or_app. destruct Hal as [|[<-|]]; auto. contradiction.
    + intros a Ha Hna. apply Hz; [apply in_app_or in Ha; apply in_or_app; destruct Ha; [left|right; right]; assumption|].
      intros [<-|X]; contradiction.
Qed.

(* Grouping a sum by a key. *)
Lemma gsum_group : forall A B (dec : forall a b : B, {a = b} + {a <> b}) (k : A -> B) (w : A -> Z) (f : B -> Z) l,
  gsum (fun a => w a * f (k a)) l =
  gsum (fun b => f b * gsum (fun a => if dec (k a) b then w a else 0) l) (nodup dec (map k l)).
Proof.
  intros A B dec k w f l.
  assert (G : forall M, NoDup M -> incl (map k l) M ->
     gsum (fun a => w a * f (k a)) l = gsum (fun b => f b * gsum (fun a => if dec (k a) b then w a else 0) l) M).
  { intros M HM. induction l as [|a l IH]; intro Hi.
    - rewrite gsum_nil. symmetry. apply gsum_zero. intros b _. rewrite gsum_nil. lia.
    - rewrite gsum_cons. rewrite IH by (intros x Hx; apply Hi; right; assumption).
      rewrite (gsum_ext _ (fun b => f b * gsum (fun a => if dec (k a) b then w a else 0) (a :: l))
         (fun b => (if dec (k a) b then w a * f b else 0) +
         f b * gsum (fun a => if dec (k a) b then w a else 0) l) M).
      2: { intros b _. rewrite gsum_cons. destruct (dec (k a) b); lia. }
      rewrite gsum_add. f_equal.
      rewrite (gsum_support _ dec _ [k a] M).
      + rewrite gsum_cons, gsum_nil. destruct (dec (k a) (k a)); [lia|contradiction].
      + constructor; [intros []|constructor].
      + assumption.
      + intros x [<-|[]]. apply Hi. left. reflexivity.
      + intros b _ Hb. destruct (dec (k a) b); [|reflexivity]. subst b. destruct Hb. left. reflexivity. }
  apply G; [apply NoDup_nodup|]. intros x Hx. apply nodup_In. assumption.
Qed.

Lemma gedge_dec : forall a b : gedge, {a = b} + {a <> b}.
Proof. repeat decide equality. Qed.

Lemma vec_eq : forall a b : ivec3, vx a = vx b -> vy a = vy b -> vz a = vz b -> a = b.
Proof. intros [x y z] [x' y' z']. cbn [vx vy vz]. congruence. Qed.

Lemma vadd_inj_r : forall a b c : ivec3, vadd a c = vadd b c -> a = b.
Proof.
  intros [x y z] [x' y' z'] [u v w] H. unfold vadd in H. cbn [vx vy vz] in H. injection H as H1 H2 H3. f_equal; lia.
Qed.
Lemma vsub_vadd : forall a b : ivec3, vadd (vsub a b) b = a.
Proof. intros [x y z] [u v w]. unfold vadd, vsub. cbn [vx vy vz]. f_equal; lia. Qed.
Lemma vadd_vsub : forall a b : ivec3, vsub (vadd a b) b = a.
Proof. intros [x y z] [u v w]. unfold vadd, vsub. cbn [vx vy vz]. f_equal; lia. Qed.

(* Signed change of solidity along an edge. *)
Definition weight (solid : ivec3 -> bool) (e : gedge) : Z :=
  b2z (solid (snd e)) - b2z (solid (vadd (snd e) (unit_vec (fst e)))).

(* The faces around an edge with the direction in which a quad wound along
   cells_around crosses them. *)
Definition crossings (e : gedge) : list (Z * gedge) :=
  let u := next_axis (fst e) in
  let v := next_axis u in
  [(1, (u, vsub (snd e) (unit_vec v))); (1, (v, snd e));
   (-1, (u, snd e)); (-1, (v, vsub (snd e) (unit_vec u)))].

(* Contribution of edge [e] to the circulation around face [f]. *)
Definition contribution (solid : ivec3 -> bool) (f e : gedge) : Z :=
  gsum (fun c => if gedge_dec (snd c) f then weight solid e * fst c else 0) (crossings e).

Lemma next_axis_ne : forall d, next_axis d <> d /\ next_axis (next_axis d) <> d /\ next_axis (next_axis d) <> next_axis d
  /\ next_axis (next_axis (next_axis d)) = d.
Proof. destruct d; repeat split; discriminate || reflexivity. Qed.

Lemma contribution_zero : forall solid f e, ~ In e (face_edges f) -> contribution solid f e = 0.
Proof.
  intros solid [D f] [d p] H. unfold contribution. apply gsum_zero. intros c Hc.
  destruct (gedge_dec (snd c) (D, f)) as [Heq|]; [|reflexivity]. exfalso. apply H. clear H.
  unfold crossings in Hc. cbn [fst snd In] in Hc.
  unfold face_edges. cbn [fst snd In].
  destruct Hc as [<-|[<-|[<-|[<-|[]]]]]; cbn [snd] in Heq; injection Heq as Ha Hf; subst.
  - right; left. rewrite vsub_vadd. destruct d; reflexivity.
  - left. destruct d; reflexivity.
  - right; right; right; left. destruct d; reflexivity.
  - right; right; left. destruct (next_axis_ne d) as (_ & _ & _ & N). rewrite N. rewrite vsub_vadd. reflexivity.
Qed.

Lemma face_edges_nodup : forall f, NoDup (face_edges f).
Proof.
  intros [D [x y z]]. unfold face_edges. cbn [fst snd].
  assert (G : forall a b : gedge, fst a <> fst b \/ snd a <> snd b -> a <> b) by (intros a b [H|H] ->; apply H; reflexivity).
  assert (S : forall p q : ivec3, vx p <> vx q \/ vy p <> vy q \/ vz p <> vz q -> p <> q)
    by (intros p q H ->; destruct H as [H|[H|H]]; apply H; reflexivity).
  destruct D; cbn [next_axis unit_vec]; unfold vadd; cbn [vx vy vz];
  repeat (constructor; [cbn [In]; intro H;
    repeat (destruct H as [H|H]; [revert H; apply G; cbn [fst snd];
       first [left; discriminate | right; apply S; cbn [vx vy vz]; lia]|]); exact H|]); constructor.
Qed.

Lemma contribution_value : forall solid f e k c, In c (crossings e) -> snd c = f -> fst c = k ->
  contribution solid f e = weight solid e * k.
Proof.
  intros solid f e k c Hc Hf Hk.
  assert (Hnd : NoDup (map snd (crossings e))).
  { clear. destruct e as [d [x y z]]. unfold crossings. cbn [fst snd map].
    assert (G : forall a b : gedge, fst a <> fst b \/ snd a <> snd b -> a <> b) by (intros a b [H|H] ->; apply H; reflexivity).
    assert (S : forall p q : ivec3, vx p <> vx q \/ vy p <> vy q \/ vz p <> vz q -> p <> q)
      by (intros p q H ->; destruct H as [H|[H|H]]; apply H; reflexivity).
    destruct d; cbn [next_axis unit_vec]; unfold vsub; cbn [vx vy vz];
    repeat (constructor; [cbn [In]; intro H;
      repeat (destruct H as [H|H]; [revert H; apply G; cbn [fst snd];
         first [left; discriminate | right; apply S; cbn [vx vy vz]; lia]|]); exact H|]); constructor. }
  unfold contribution. revert Hc Hnd. generalize (crossings e). intros l Hc Hnd.
  induction l as [|c' l IH]; [destruct Hc|]. cbn [map] in Hnd. inversion Hnd as [|? ? Hn Hnd']; subst.
  rewrite gsum_cons. destruct Hc as [->|Hc].
  - destruct (gedge_dec (snd c) (snd c)); [|contradiction]. rewrite gsum_zero; [lia|].
    intros a Ha. destruct (gedge_dec (snd a) (snd c)) as [X|]; [|reflexivity].
    exfalso. apply Hn. rewrite <- X. apply in_map. assumption.
  - rewrite IH by assumption. destruct (gedge_dec (snd c') (snd c)) as [X|]; [|lia].
    exfalso. apply Hn. rewrite X. apply in_map. assumption.
Qed.

Lemma circulation : forall solid f, gsum (contribution solid f) (face_edges f) = 0.
Proof.
  intros solid [D f].
  set (a := next_axis D). set (b := next_axis a).
  assert (Nb : next_axis b = D) by (destruct D; reflexivity).
  unfold face_edges. cbn [fst snd]. fold a b.
  rewrite !gsum_cons, gsum_nil.
  rewrite (contribution_value solid (D, f) (a, f) 1 (1, (D, f))).
  2: { unfold crossings. cbn [fst snd]. fold b. rewrite Nb. right; left. reflexivity. }
  2, 3: reflexivity.
  rewrite (contribution_value solid (D, f) (b, vadd f (unit_vec a)) 1 (1, (D, f))).
  2: { unfold crossings. cbn [fst snd]. rewrite Nb. fold a. rewrite vadd_vsub. left. reflexivity. }
  2, 3: reflexivity.
  rewrite (contribution_value solid (D, f) (a, vadd f (unit_vec b)) (-1) (-1, (D, f))).
  2: { unfold crossings. cbn [fst snd]. fold b. rewrite Nb, vadd_vsub. right; right; right; left. reflexivity. }
  2, 3: reflexivity.
  rewrite (contribution_value solid (D, f) (b, f) (-1) (-1, (D, f))).
  2: { unfold crossings. cbn [fst snd]. rewrite Nb. right; right; left. reflexivity. }
  2, 3: reflexivity.
  unfold weight. cbn [fst snd].
  assert (C : vadd (vadd f (unit_vec a)) (unit_vec b) = vadd (vadd f (unit_vec b)) (unit_vec a)).
  { destruct f as [x y z]. unfold vadd. destruct D; cbn; f_equal; lia. }
  rewrite C. lia.
Qed.

Lemma weight_zero : forall solid e, edge_crosses solid e = false -> weight solid e = 0.
Proof.
  intros solid [d p] H. unfold weight, edge_crosses in *. cbn [fst snd] in *.
  destruct (solid p), (solid (vadd p (unit_vec d))); try discriminate; reflexivity.
Qed.

(* The flux of the signed edges through weighted faces vanishes if every face
   that counts has all its sign-changing edges in the list. *)
Definition edge_flux (delta : gedge -> Z) (e : gedge) : Z := gsum (fun c => fst c * delta (snd c)) (crossings e).

Theorem stokes : forall solid delta L, NoDup L ->
  (forall e f, In e L -> In e (face_edges f) -> delta f <> 0 ->
    forall e', In e' (face_edges f) -> edge_crosses solid e' = true -> In e' L) ->
  gsum (fun e => weight solid e * edge_flux delta e) L = 0.
Proof.
  intros solid delta L HL Hall.
  set (I := flat_map (fun e => map (fun c => (weight solid e * fst c, snd c)) (crossings e)) L).
  assert (E1 : gsum (fun e => weight solid e * edge_flux delta e) L = gsum (fun i => fst i * delta (snd i)) I).
  { unfold I. rewrite gsum_flat_map. apply gsum_ext. intros e _. unfold edge_flux. rewrite <- gsum_mul, gsum_map.
    apply gsum_ext. intros c _. cbn [fst snd]. lia. }
  rewrite E1.
  rewrite (gsum_group _ _ gedge_dec snd fst delta I).
  apply gsum_zero. intros f Hf. apply nodup_In in Hf.
  destruct (Z.eq_dec (delta f) 0) as [->|Hd]; [lia|].
  assert (E2 : gsum (fun i => if gedge_dec (snd i) f then fst i else 0) I = gsum (contribution solid f) L).
  { unfold I. rewrite gsum_flat_map. apply gsum_ext. intros e _. rewrite gsum_map. reflexivity. }
  rewrite E2.
  (* some edge of the list meets f *)
  apply in_map_iff in Hf as (i & Hi & Hin). unfold I in Hin. apply in_flat_map in Hin as (e & He & Hc).
  apply in_map_iff in Hc as (c & <- & Hc). cbn [snd] in Hi.
  assert (Hef : In e (face_edges f)).
  { destruct (in_dec gedge_dec e (face_edges f)) as [|Hn]; [assumption|]. exfalso.
    clear -Hi Hc Hn. subst f. apply Hn. destruct e as [d p]. unfold crossings in Hc. cbn [fst snd In] in Hc.
    destruct Hc as [<-|[<-|[<-|[<-|[]]]]]; unfold face_edges; cbn [fst snd In].
    - right; left. rewrite vsub_vadd. destruct d; reflexivity.
    - left. destruct d; reflexivity.
    - right; right; right; left. destruct d; reflexivity.
    - right; right; left. destruct (next_axis_ne d) as (_ & _ & _ & N). rewrite N. rewrite vsub_vadd. reflexivity. }
  assert (Hw : forall a, edge_crosses solid a = false -> contribution solid f a = 0).
  { intros a Ha. unfold contribution. apply gsum_zero. intros c' _. rewrite (weight_zero solid a Ha).
    destruct (gedge_dec (snd c') f); reflexivity. }
  rewrite (gsum_support _ gedge_dec _ (filter (edge_crosses solid) (face_edges f)) L).
  - rewrite <- (gsum_support _ gedge_dec _ (filter (edge_crosses solid) (face_edges f)) (face_edges f)).
    + rewrite circulation. lia.
    + apply NoDup_filter, face_edges_nodup.
    + apply face_edges_nodup.
    + intros a Ha. apply filter_In in Ha. apply Ha.
    + intros a Ha Hn. apply Hw. destruct (edge_crosses solid a) eqn:X; [|reflexivity].
      exfalso. apply Hn. apply filter_In. auto.
  - apply NoDup_filter, face_edges_nodup.
  - assumption.
  - intros a Ha. apply filter_In in Ha as [Ha1 Ha2]. eapply Hall; eassumption.
  - intros a _ Ha. destruct (edge_crosses solid a) eqn:X; [|apply Hw; assumption].
    apply contribution_zero. intro Y. apply Ha. apply filter_In. auto.
Qed.

(* ---- net side counts of quads ---- *)

Lemma countZ_gsum : forall A (f : A -> bool) l, countZ f l = gsum (fun a => b2z (f a)) l.
Proof. induction l; cbn [countZ]; [reflexivity|]. rewrite gsum_cons, IHl. reflexivity. Qed.

Definition signed (a b : Z) (p : Z * Z) : Z := b2z (pair_eqb (a, b) p) - b2z (pair_eqb (b, a) p).

Lemma net_gsum : forall ts a b, net ts a b = gsum (fun t => gsum (signed a b) (sides t)) ts.
Proof.
  intros. unfold net, side_count. rewrite !countZ_gsum. rewrite <- gsum_flat_map. unfold signed.
  rewrite (gsum_ext _ (fun p => b2z (pair_eqb (a, b) p) - b2z (pair_eqb (b, a) p))
    (fun p => b2z (pair_eqb (a, b) p) + (-1) * b2z (pair_eqb (b, a) p))) by (intros; lia).
  rewrite gsum_add, gsum_mul. lia.
Qed.

Lemma net_app : forall l1 l2 a b, net (l1 ++ l2) a b = net l1 a b + net l2 a b.
Proof. intros. rewrite !net_gsum, gsum_app. reflexivity. Qed.

Lemma signed_flip : forall a b x y, signed a b (y, x) = - signed a b (x, y).
Proof. intros. unfold signed, pair_eqb. cbn [fst snd]. 
  destruct (a =? x), (a =? y), (b =? x), (b =? y); reflexivity. Qed.

Lemma net_degenerate : forall a b t, nondegenerate t = false -> net [t] a b = 0.
Proof.
  intros a b [[x y] z] H. rewrite net_gsum. rewrite gsum_cons, gsum_nil. cbn [sides]. rewrite !gsum_cons, gsum_nil.
  assert (S : forall x, signed a b (x, x) = 0) by (intro w; pose proof (signed_flip a b w w); lia).
  unfold nondegenerate in H. apply negb_false_iff in H. rewrite !orb_true_iff, !Z.eqb_eq in H.
  destruct H as [[<-|<-]|<-]; rewrite S.
  - rewrite (signed_flip a b z x). lia.
  - rewrite (signed_flip a b y x). lia.
  - rewrite (signed_flip a b y x). lia.
Qed.

Lemma net_filter : forall ts a b, net (filter nondegenerate ts) a b = net ts a b.
Proof.
  induction ts as [|t ts IH]; intros a b; [reflexivity|]. cbn [filter].
  change (t :: ts) with ([t] ++ ts). rewrite net_app. destruct (nondegenerate t) eqn:E.
  - change (t :: filter nondegenerate ts) with ([t] ++ filter nondegenerate ts). rewrite net_app, IH. reflexivity.
  - rewrite net_degenerate by assumption. rewrite IH. lia.
Qed.

Lemma net_quad : forall forward v0 v1 v2 v3 a b,
  net (quad_tris forward v0 v1 v2 v3) a b =
  (if forward then 1 else -1) * (signed a b (v0, v1) + signed a b (v1, v2) + signed a b (v2, v3) + signed a b (v3, v0)).
Proof.
  intros. rewrite net_gsum. destruct forward; cbn [quad_tris]; rewrite !gsum_cons, gsum_nil; cbn [sides];
    rewrite !gsum_cons, !gsum_nil.
  - rewrite (signed_flip a b v1 v3). lia.
  - rewrite (signed_flip a b v0 v3), (signed_flip a b v0 v1), (signed_flip a b v1 v2), (signed_flip a b v2 v3).
    rewrite (signed_flip a b v3 v0). rewrite (signed_flip a b v1 v3). lia.
Qed.

(* Net number of sides of an edge's quad, expressed by the faces it crosses. *)
Definition face_delta (id : ivec3 -> Z) (a b : Z) (f : gedge) : Z := signed a b (id (face_low f), id (face_high f)).

Lemma net_around : forall id solid e a b, edge_crosses solid e = true ->
  net (around_quad id solid e) a b = weight solid e * edge_flux (face_delta id a b) e.
Proof.
  intros id solid [d p] a b Hc. unfold around_quad, cells_around. cbn [fst snd].
  set (u := next_axis d). set (v := next_axis u). rewrite net_quad.
  assert (W : weight solid (d, p) = if solid p then 1 else -1).
  { unfold weight, edge_crosses in *. cbn [fst snd] in *. destruct (solid p), (solid (vadd p (unit_vec d))); try discriminate; reflexivity. }
  rewrite W. f_equal. unfold edge_flux, crossings. cbn [fst snd]. fold u v. rewrite !gsum_cons, gsum_nil. cbn [fst snd].
  unfold face_delta, face_low, face_high. cbn [fst snd].
  rewrite (signed_flip a b (id (vsub p (unit_vec u))) (id p)).
  rewrite (signed_flip a b (id (vsub (vsub p (unit_vec u)) (unit_vec v))) (id (vsub p (unit_vec u)))).
  replace (vsub (vsub p (unit_vec v)) (unit_vec u)) with (vsub (vsub p (unit_vec u)) (unit_vec v)).
  - lia.
  - unfold vsub. cbn [vx vy vz]. f_equal; lia.
Qed.

Lemma signed_nonzero : forall a b x y, signed a b (x, y) <> 0 -> (x = a /\ y = b) \/ (x = b /\ y = a).
Proof.
  intros a b x y H. unfold signed, pair_eqb in H. cbn [fst snd] in H.
  destruct (Z.eqb_spec a x), (Z.eqb_spec b y), (Z.eqb_spec b x), (Z.eqb_spec a y); subst; cbn in H; auto; lia.
Qed.

Lemma crossings_face : forall e c, In c (crossings e) -> In e (face_edges (snd c)).
Proof.
  intros [d p] c Hc. unfold crossings in Hc. cbn [fst snd In] in Hc.
  destruct Hc as [<-|[<-|[<-|[<-|[]]]]]; unfold face_edges; cbn [fst snd In].
  - right; left. rewrite vsub_vadd. destruct d; reflexivity.
  - left. destruct d; reflexivity.
  - right; right; right; left. destruct d; reflexivity.
  - right; right; left. destruct (next_axis_ne d) as (_ & _ & _ & N). rewrite N. rewrite vsub_vadd. reflexivity.
Qed.

Lemma face_crossings : forall e f, In e (face_edges f) -> In f (map snd (crossings e)).
Proof.
  intros e [D f] H. unfold face_edges in H. cbn [fst snd In] in H.
  destruct (next_axis_ne D) as (_ & _ & _ & N).
  destruct H as [<-|[<-|[<-|[<-|[]]]]]; unfold crossings; cbn [fst snd map In]; rewrite ?N, ?vadd_vsub; auto.
Qed.

(* The two cells of a face are among the cells around each of its edges. *)
Lemma face_cells_around : forall e f, In e (face_edges f) ->
  In (face_low f) (cells_around (fst e) (snd e)) /\ In (face_high f) (cells_around (fst e) (snd e)).
Proof.
  intros e [D f] H. unfold face_edges in H. cbn [fst snd In] in H. unfold face_low, face_high. cbn [fst snd].
  destruct f as [x y z].
  destruct D; cbn [next_axis unit_vec] in *; destruct H as [<-|[<-|[<-|[<-|[]]]]];
    unfold cells_around; cbn [fst snd next_axis unit_vec In]; unfold vsub, vadd; cbn [vx vy vz]; split;
    first [left; f_equal; lia | right; left; f_equal; lia | right; right; left; f_equal; lia | right; right; right; left; f_equal; lia].
Qed.

Lemma forallb_neg : forall A (f : A -> bool) l, forallb f l = false -> exists a, In a l /\ f a = false.
Proof.
  induction l as [|a l IH]; intro H; cbn [forallb] in H; [discriminate|].
  destruct (f a) eqn:X; [|exists a; auto with datatypes]. destruct (IH H) as (b & ? & ?). exists b. auto with datatypes.
Qed.
