(* C89: a mesh when memory runs out. *)
From Coq Require Import ZArith List Bool Lia.
From Verif Require Import Base MeshModel MeshSpec MeshProofs MeshThrowModel.
Import ListNotations.
Local Open Scope Z_scope.

Section Claims.
Variable V : Type.
Variable grow : Z -> Z.

(* A mesh after any calls with existing identifiers, each of which returned or was left by std::bad_alloc *)
Inductive used_mesh : cmesh V -> Prop :=
| used_new : forall vcap icap, used_mesh (cmesh_new V vcap icap)
| used_step : forall fails s c k s' k', used_mesh s ->
    match c with
    | AddVertex _ => zlen (m_verts (cm_mesh s)) < two32
    | AddTriangle a b c => 0 <= a < zlen (m_verts (cm_mesh s)) /\ 0 <= b < zlen (m_verts (cm_mesh s)) /\ 0 <= c < zlen (m_verts (cm_mesh s))
    | Clear => True
    end ->
    cstep V grow fails s c k = CDone s' k' \/ cstep V grow fails s c k = CThrow s' k' -> used_mesh s'.

(* A failed addVertex changes nothing.  A failed addTriangle leaves the vertices alone and adds none, one or two of the
   three indices. *)
Theorem C89_left : forall fails s c k s' k', cstep V grow fails s c k = CThrow s' k' ->
  match c with
  | AddVertex _ => s' = s
  | AddTriangle i1 i2 i3 => m_verts (cm_mesh s') = m_verts (cm_mesh s) /\
      exists l, m_inds (cm_mesh s') = m_inds (cm_mesh s) ++ l /\ (l = [] \/ l = [i1] \/ l = [i1; i2])
  | Clear => False
  end.
Proof.
  intros fails s [v|a b c|] k s' k' H; cbn [cstep] in H; [| |discriminate].
  - unfold cadd_vertex, emplace_vertex in H. destruct (_ <=? _); [|discriminate]. destruct (_ <? _); [discriminate|]. destruct (fails k); [|discriminate].
    now injection H as <- _.
  - unfold cadd_triangle in H. destruct (_ && _); [|discriminate]. destruct (_ || _); [discriminate|].
    assert (P : forall s i k, match emplace_index V grow fails s i k with
      | CDone s' _ => m_verts (cm_mesh s') = m_verts (cm_mesh s) /\ m_inds (cm_mesh s') = m_inds (cm_mesh s) ++ [i]
      | CThrow s' _ => s' = s | CErr => False end).
    { intros t i j. unfold emplace_index. cbv zeta. destruct (_ <? _); [split; reflexivity|]. destruct (fails j); [reflexivity | split; reflexivity]. }
    pose proof (P s a k) as P1. destruct (emplace_index V grow fails s a k) as [s1 k1|s1 k1|]; cbn [cbind] in H; [| |discriminate].
    2:{ injection H as <- _. subst s1. split; [reflexivity|]. exists []. rewrite app_nil_r. auto. }
    pose proof (P s1 b k1) as P2. destruct (emplace_index V grow fails s1 b k1) as [s2 k2|s2 k2|]; cbn [cbind] in H; [| |discriminate].
    2:{ injection H as <- _. subst s2. destruct P1 as (P1 & Q1). split; [exact P1|]. exists [a]. auto. }
    pose proof (P s2 c k2) as P3. rewrite H in P3. subst s'. destruct P1 as (P1 & Q1). destruct P2 as (P2 & Q2). split; [congruence|].
    exists [a; b]. rewrite Q2, Q1, <- app_assoc. auto.
Qed.

(* A call that returns has done what it does when memory never runs out. *)
Theorem C89_done : forall fails s c k s' k', cstep V grow fails s c k = CDone s' k' -> mesh_step (cm_mesh s) c = Ret (cm_mesh s').
Proof.
  intros fails s [v|a b c|] k s' k' H; cbn [cstep mesh_step] in *; [| |now injection H as <- _].
  - unfold cadd_vertex, emplace_vertex in H. unfold mesh_add_vertex. destruct (_ <=? _); [|discriminate]. cbn [oassert obind].
    destruct (_ <? _); [now injection H as <- _|]. destruct (fails k); [discriminate|]. now injection H as <- _.
  - unfold cadd_triangle in H. unfold mesh_add_triangle. destruct (_ && _); [|discriminate]. cbn [oassert obind]. destruct (_ || _); [now injection H as <- _|].
    assert (P : forall s i k s' k', emplace_index V grow fails s i k = CDone s' k' -> cm_mesh s' = Mesh (m_verts (cm_mesh s)) (m_inds (cm_mesh s) ++ [i])).
    { intros t i j t' j' T. unfold emplace_index in T. destruct (_ <? _); [now injection T as <- _|]. destruct (fails j); [discriminate|]. now injection T as <- _. }
    destruct (emplace_index V grow fails s a k) as [s1 k1|s1 k1|] eqn:E1; cbn [cbind] in H; try discriminate. apply P in E1.
    destruct (emplace_index V grow fails s1 b k1) as [s2 k2|s2 k2|] eqn:E2; cbn [cbind] in H; try discriminate. apply P in E2. apply P in H.
    rewrite H, E2, E1. cbn [m_verts m_inds]. rewrite <- !app_assoc. reflexivity.
Qed.

(* Whatever failed before, no assertion fails and every index in the buffer names an existing vertex. *)
Theorem C89_partial : forall s, used_mesh s -> zlen (m_verts (cm_mesh s)) <= two32 /\
  Forall (fun i => 0 <= i < zlen (m_verts (cm_mesh s))) (m_inds (cm_mesh s)) /\
  (forall fails v k, zlen (m_verts (cm_mesh s)) < two32 -> cstep V grow fails s (AddVertex v) k <> CErr) /\
  (forall fails a b c k, a < zlen (m_verts (cm_mesh s)) -> b < zlen (m_verts (cm_mesh s)) -> c < zlen (m_verts (cm_mesh s)) ->
     cstep V grow fails s (AddTriangle a b c) k <> CErr).
Proof.
  intros s U. split; [|split; [|split]].
  3:{ intros fails v k H. cbn [cstep]. unfold cadd_vertex, emplace_vertex. cbv zeta. destruct (zlen _ <=? u32max) eqn:L; [|apply Z.leb_gt in L; unfold two32, u32max in *; lia].
      destruct (_ <? _); [discriminate|]. destruct (fails k); discriminate. }
  3:{ intros fails a b c k Ha Hb Hc. cbn [cstep]. unfold cadd_triangle. cbv zeta. apply Z.ltb_lt in Ha, Hb, Hc. rewrite Ha, Hb, Hc. cbn [andb]. destruct (_ || _); [discriminate|].
      assert (P : forall s i k, emplace_index V grow fails s i k <> CErr).
      { intros t i j. unfold emplace_index. cbv zeta. destruct (zlen (m_inds (cm_mesh t)) <? cm_icap t); [discriminate|]. destruct (fails j); discriminate. }
      pose proof (P s a k) as P1. destruct (emplace_index V grow fails s a k) as [s1 k1|s1 k1|]; cbn [cbind]; [|discriminate|tauto].
      pose proof (P s1 b k1) as P2. destruct (emplace_index V grow fails s1 b k1) as [s2 k2|s2 k2|]; cbn [cbind]; [apply P|discriminate|tauto]. }
  - induction U as [|fails s c k s' k' U IH C T]; [vm_compute; discriminate|]. destruct T as [T|T].
    + apply C89_done in T. destruct c as [v|a b c|]; cbn [mesh_step] in T.
      * unfold mesh_add_vertex in T. destruct (_ <=? _); [|discriminate]. cbn [oassert obind] in T. injection T as <-. cbn [m_verts]. rewrite zlen_app. change (zlen [v]) with 1. lia.
      * unfold mesh_add_triangle in T. destruct (_ && _); [|discriminate]. cbn [oassert obind] in T. destruct (_ || _); injection T as <-; exact IH.
      * injection T as <-. vm_compute. discriminate.
    + apply C89_left in T. destruct c as [v|a b c|]; [now subst s'| |tauto]. destruct T as (T & _). now rewrite T.
  - induction U as [|fails s c k s' k' U IH C T]; [constructor|]. destruct T as [T|T].
    + apply C89_done in T. destruct c as [v|a b c|]; cbn [mesh_step] in T.
      * unfold mesh_add_vertex in T. destruct (_ <=? _); [|discriminate]. cbn [oassert obind] in T. injection T as <-. cbn [m_verts m_inds]. rewrite zlen_app. change (zlen [v]) with 1.
        eapply Forall_impl; [|exact IH]. cbn beta. intros i Hi. lia.
      * unfold mesh_add_triangle in T. destruct (_ && _); [|discriminate]. cbn [oassert obind] in T. destruct (_ || _); injection T as <-; [exact IH|].
        cbn [m_verts m_inds]. apply Forall_app. split; [exact IH|]. repeat constructor; tauto.
      * injection T as <-. constructor.
    + apply C89_left in T. destruct c as [v|a b c|]; [now subst s'| |tauto]. destruct T as (T & l & L & Q). rewrite T, L. apply Forall_app. split; [exact IH|].
      destruct Q as [Q|[Q|Q]]; subst l; repeat constructor; tauto.
Qed.

(* Room for three more indices: addTriangle does not throw. *)
Theorem C89_reserved : forall fails s a b c k, zlen (m_inds (cm_mesh s)) + 3 <= cm_icap s ->
  forall s' k', cstep V grow fails s (AddTriangle a b c) k <> CThrow s' k'.
Proof.
  intros fails s a b c k R s' k'. cbn [cstep]. unfold cadd_triangle. cbv zeta. destruct (_ && _); [|discriminate]. destruct (_ || _); [discriminate|].
  assert (P : forall s i k, zlen (m_inds (cm_mesh s)) < cm_icap s ->
    emplace_index V grow fails s i k = CDone (CMesh (Mesh (m_verts (cm_mesh s)) (m_inds (cm_mesh s) ++ [i])) (cm_vcap s) (cm_icap s)) k).
  { intros t i j L. unfold emplace_index. apply Z.ltb_lt in L. now rewrite L. }
  rewrite P by lia. cbn [cbind]. rewrite P by (cbn [cm_mesh m_inds cm_icap]; rewrite zlen_app; change (zlen [a]) with 1; lia). cbn [cbind].
  rewrite P by (cbn [cm_mesh m_inds cm_icap]; rewrite !zlen_app; change (zlen [a]) with 1; change (zlen [b]) with 1; lia). discriminate.
Qed.
End Claims.
Print Assumptions C89_left.
Print Assumptions C89_done.
Print Assumptions C89_partial.
Print Assumptions C89_reserved.

(* The capacities of libstdc++ *)
Definition doubling (c : Z) : Z := Z.max 1 (2 * c).

(* Four vertices and a triangle; the second triangle needs more room for its second index, and that request fails.  The
   client catches std::bad_alloc and adds the triangle again: it returns, but the buffer lists the degenerate triangle
   1, 1, 3 instead, and an index is left over. *)
Definition c89_calls : list (mesh_call nat) :=
  [AddVertex 1%nat; AddVertex 2%nat; AddVertex 3%nat; AddVertex 4%nat; AddTriangle 0 1 2; AddTriangle 1 3 2; AddTriangle 1 3 2].
Definition c89_fails (k : nat) : bool := Nat.eqb k 6.

Theorem C89_refuted : exists fails (cs : list (mesh_call nat)) s k, respects cs 0 /\
  crun nat doubling fails cs (cmesh_new nat 0 0) 0 = CDone s k /\
  m_inds (cm_mesh s) = [0; 1; 2; 1; 1; 3; 2] /\ ~ mesh_valid (cm_mesh s).
Proof.
  exists c89_fails, c89_calls. eexists. eexists. split; [simpl; unfold two32; lia|]. split; [vm_compute; reflexivity|]. split; [reflexivity|].
  intros (ts & H & _). pose proof (flatten_len ts) as L. rewrite <- H in L. cbn [m_inds cm_mesh] in L. change (zlen [0; 1; 2; 1; 1; 3; 2]) with 7 in L. lia.
Qed.
Print Assumptions C89_refuted.

(* The same calls when nothing fails, and with the indices reserved although every request fails *)
Example C89_ex :
  (exists s k, crun nat doubling (fun _ => false) c89_calls (cmesh_new nat 0 0) 0 = CDone s k /\ m_inds (cm_mesh s) = [0; 1; 2; 1; 3; 2; 1; 3; 2]) /\
  (exists s k, crun nat doubling (fun _ => true) c89_calls (cmesh_new nat 4 9) 0 = CDone s k /\ m_inds (cm_mesh s) = [0; 1; 2; 1; 3; 2; 1; 3; 2]) /\
  (exists s, used_mesh nat doubling s /\ m_inds (cm_mesh s) = [] /\ zlen (m_verts (cm_mesh s)) = 1).
Proof.
  split; [do 2 eexists; split; [vm_compute; reflexivity | reflexivity]|]. split; [do 2 eexists; split; [vm_compute; reflexivity | reflexivity]|].
  exists (CMesh (Mesh [7%nat] []) 1 0). split; [|split; reflexivity].
  apply (used_step nat doubling (fun _ => false) (cmesh_new nat 0 0) (AddVertex 7%nat) 0 _ 1); [apply used_new | reflexivity | left; reflexivity].
Qed.
