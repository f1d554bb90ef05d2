(* Properties of Mesh (C01). *)
From Coq Require Import ZArith List Bool Lia.
From Verif Require Import Base MeshModel MeshSpec MeshProofs.
Import ListNotations.
Local Open Scope Z_scope.

(* C01.  Any history of calls with existing identifiers succeeds; afterwards the
   vertices are those added since the last clear, in order, and the index
   buffer lists exactly the non-degenerate triangles added since then, each
   naming three different existing vertices. *)
Theorem C01_mesh_history : forall V (cs : list (mesh_call V)),
  respects cs 0 ->
  exists m, mesh_run cs = Ret m /\
    m_verts m = fst (expected cs [] []) /\
    mesh_valid_with m (filter nondegenerate (snd (expected cs [] []))).
Proof. exact mesh_run_valid. Qed.
Print Assumptions C01_mesh_history.

(* C01: the number of indices is a multiple of three. *)
Theorem C01_index_count : forall V (m : mesh V) ts,
  mesh_valid_with m ts -> mesh_index_count m = 3 * zlen ts.
Proof. intros V m ts [H _]. unfold mesh_index_count. rewrite H. apply flatten_len. Qed.
Print Assumptions C01_index_count.

(* C01: addVertex returns the position of the new vertex and disturbs nothing. *)
Theorem C01_add_vertex : forall V (cs : list (mesh_call V)) v m,
  respects (cs ++ [AddVertex v]) 0 -> mesh_run cs = Ret m ->
  exists m' i, mesh_add_vertex m v = Ret (m', i) /\
    i = mesh_vertex_count m /\ znth (m_verts m') i = Some v /\
    (forall j, j <> i -> znth (m_verts m') j = znth (m_verts m) j) /\
    m_inds m' = m_inds m.
Proof. exact mesh_add_vertex_pos. Qed.
Print Assumptions C01_add_vertex.

(* A history meeting the hypotheses, with a clear, a degenerate triangle and
   two real ones. *)
Definition c01_history : list (mesh_call nat) :=
  [AddVertex 7%nat; Clear; AddVertex 1%nat; AddVertex 2%nat; AddVertex 3%nat;
   AddTriangle 0 1 2; AddTriangle 1 1 2; AddVertex 4%nat; AddTriangle 3 2 1].
Example c01_instance : respects c01_history 0 /\
  mesh_run c01_history = Ret (Mesh [1; 2; 3; 4]%nat [0; 1; 2; 3; 2; 1]).
Proof. split; [simpl; unfold two32; lia|reflexivity]. Qed.
