(* C85: life of a MeshField. *)
From Coq Require Import ZArith List Bool Lia.
From Verif Require Import Base MeshFieldModel.
Import ListNotations.
Local Open Scope Z_scope.

Definition nothing : fstate := FState (fun _ => None) [] 1.
Definition after (r : fresult) (s : fstate) : Prop := r = FDone s \/ r = FThrown s.

(* The history of one object that is not copied: construction and loads. *)
Inductive history (o : Z) : list load_end -> fstate -> Prop :=
| h_new : forall s, field_new o nothing = FDone s -> history o [] s
| h_load : forall es e s s', history o es s -> after (field_load o e s) s' -> history o (es ++ [e]) s'.

(* The octree, if any, that load has made last. *)
Definition current (es : list load_end) : bool := existsb (fun e => match e with NoInsert | Loaded => true | _ => false end) es.

Lemma history_state : forall o es s, history o es s -> ~ In NoRoot es ->
  exists n, fs_next s = n /\ 1 <= n /\ if current es then exists p, 1 <= p < n /\ fs_fields s o = Some (Some p) /\ fs_trees s = [p] else fs_fields s o = Some None /\ fs_trees s = [].
Proof.
  intros o es s H. induction H as [s H|es e s s' H IH L]; intros N.
  - injection H as <-. exists 1. cbn. rewrite Z.eqb_refl. auto with zarith.
  - destruct IH as (n & E1 & E2 & I); [intros X; apply N, in_or_app; auto|].
    assert (Ne : e <> NoRoot) by (intros ->; apply N, in_or_app; right; left; reflexivity).
    assert (C : current (es ++ [e]) = current es || match e with NoInsert | Loaded => true | _ => false end) by (unfold current; rewrite existsb_app; cbn; rewrite orb_false_r; reflexivity).
    rewrite C. clear C. unfold field_load, fread in L. destruct (current es).
    + destruct I as (p & P1 & P2 & P3). rewrite P2, P3 in L. cbn [existsb filter orb] in L. rewrite Z.eqb_refl in L. cbn [orb negb app] in L.
      destruct e; try congruence; cbn [orb]; destruct L as [L|L]; try discriminate; injection L as <-; cbn [fs_next fs_fields fs_trees].
      * exists n. split; [exact E1|]. split; [exact E2|]. exists p. auto.
      * exists (n + 1). rewrite E1, Z.eqb_refl. split; [reflexivity|]. split; [lia|]. exists n. split; [lia|]. split; reflexivity.
      * exists (n + 1). rewrite E1, Z.eqb_refl. split; [reflexivity|]. split; [lia|]. exists n. split; [lia|]. split; reflexivity.
    + destruct I as (P2 & P3). rewrite P2, P3 in L. cbn [app] in L.
      destruct e; try congruence; cbn [orb]; destruct L as [L|L]; try discriminate; injection L as <-; cbn [fs_next fs_fields fs_trees].
      * exists n. auto.
      * exists (n + 1). rewrite E1, Z.eqb_refl. split; [reflexivity|]. split; [lia|]. exists n. split; [lia|]. split; reflexivity.
      * exists (n + 1). rewrite E1, Z.eqb_refl. split; [reflexivity|]. split; [lia|]. exists n. split; [lia|]. split; reflexivity.
Qed.

(* C85 as long as the root of the octree can be allocated: a load is never undefined behaviour, at most one octree
   exists, and once a file could be read value and grad have an octree to look at, whatever happened later. *)
Theorem C85_partial : forall o es s, history o es s -> ~ In NoRoot es ->
  (forall e, exists s', after (field_load o e s) s') /\
  (length (fs_trees s) <= 1)%nat /\
  (current es = true -> field_value o s = FDone s) /\
  (current es = false -> field_value o s = FUB).
Proof.
  intros o es s H N. destruct (history_state o es s H N) as (n & E1 & E2 & I). unfold field_load, field_value, fread. destruct (current es).
  - destruct I as (p & P1 & P2 & P3). rewrite P2, P3. cbn [existsb]. rewrite Z.eqb_refl. cbn [orb]. split; [|split; [cbn; lia|split; [reflexivity|discriminate]]].
    intros []; eexists; [right|right|right|left]; reflexivity.
  - destruct I as (P2 & P3). rewrite P2, P3. split; [|split; [cbn; lia|split; [discriminate|reflexivity]]].
    intros []; eexists; [right|right|right|left]; reflexivity.
Qed.
Print Assumptions C85_partial.

(* If allocating the root fails while an octree is loaded, m_root dangles: value is undefined behaviour and so is the
   next load, which deletes the octree again.  This happens in every such history. *)
Theorem C85_dangling : forall o es s, history o es s -> ~ In NoRoot es -> current es = true ->
  exists s', field_load o NoRoot s = FThrown s' /\ field_value o s' = FUB /\ forall e, e <> BadFile -> field_load o e s' = FUB.
Proof.
  intros o es s H N C. destruct (history_state o es s H N) as (n & E1 & E2 & I). rewrite C in I. destruct I as (p & P1 & P2 & P3).
  unfold field_load at 1, fread. rewrite P2, P3. cbn [existsb filter]. rewrite Z.eqb_refl. cbn [orb negb]. eexists. split; [reflexivity|].
  unfold field_value, field_load, fread. cbn [fs_fields fs_trees]. rewrite P2. cbn [existsb]. split; [reflexivity|]. intros [] X; congruence.
Qed.
Print Assumptions C85_dangling.

Definition once : fstate := FState (fun x => if x =? 0 then Some (Some 1) else if x =? 0 then Some None else None) [1] 2.
Lemma loaded_once : history 0 [Loaded] once.
Proof. eapply (h_load 0 [] Loaded); [constructor; reflexivity|]. left. reflexivity. Qed.

Theorem C85_dangling_refuted : exists es s s', history 0 es s /\ field_load 0 NoRoot s = FThrown s' /\ field_value 0 s' = FUB /\ field_load 0 Loaded s' = FUB.
Proof.
  destruct (C85_dangling 0 [Loaded] once loaded_once ltac:(intros [|[]]; discriminate) eq_refl) as (s' & A & B & C).
  exists [Loaded], once, s'. split; [exact loaded_once|]. split; [exact A|]. split; [exact B|]. apply C. discriminate.
Qed.
Print Assumptions C85_dangling_refuted.

(* The destructor leaves the octree behind: nothing points to it any more. *)
Theorem C85_leak_refuted : exists s s', history 0 [Loaded] s /\ field_destroy 0 s = FDone s' /\ (forall o, fs_fields s' o = None) /\ fs_trees s' <> [].
Proof.
  exists once.
  eexists. split; [exact loaded_once|]. split; [reflexivity|]. split; [|discriminate]. intros o. cbn [fwrite fs_fields].
  destruct (o =? 0) eqn:E; [reflexivity|]. cbn [once fs_fields]. rewrite E. reflexivity.
Qed.
Print Assumptions C85_leak_refuted.

(* A copy shares the octree: loading into the original makes the value of the copy undefined. *)
Theorem C85_copy_refuted : exists s s1 s2, history 0 [Loaded] s /\ field_copy 0 1 s = FDone s1 /\ field_value 1 s1 = FDone s1 /\ field_load 0 Loaded s1 = FDone s2 /\ field_value 1 s2 = FUB.
Proof.
  exists once.
  eexists. eexists. split; [exact loaded_once|]. split; [reflexivity|]. split; [reflexivity|]. split; reflexivity.
Qed.
Print Assumptions C85_copy_refuted.

(* Two loads with a missing file between them, and one that runs out of memory while inserting. *)
Example C85_ex : exists s, history 0 [Loaded; BadFile; NoInsert; Loaded] s /\ ~ In NoRoot [Loaded; BadFile; NoInsert; Loaded].
Proof.
  assert (A : exists s, history 0 [Loaded; BadFile] s /\ s = once).
  { exists once. split; [|reflexivity]. apply (h_load 0 [Loaded] BadFile once); [exact loaded_once|]. right. reflexivity. }
  destruct A as (s & A & ->).
  assert (B : exists s, history 0 [Loaded; BadFile; NoInsert] s) by (eexists; eapply (h_load 0 [Loaded; BadFile] NoInsert once); [exact A|]; right; reflexivity).
  destruct B as (s & B). assert (N : ~ In NoRoot [Loaded; BadFile; NoInsert]) by (intros H; repeat destruct H as [H|H]; try discriminate; contradiction).
  destruct (C85_partial 0 _ s B N) as (L & _). destruct (L Loaded) as (s' & E). exists s'.
  split; [exact (h_load 0 [Loaded; BadFile; NoInsert] Loaded s s' B E)|]. intros H; repeat destruct H as [H|H]; try discriminate; contradiction.
Qed.
