(* What an octree built for manifold dual contouring is supposed to contain. *)
From Coq Require Import ZArith List Bool.
From Verif Require Import Base Arith Tables GridSpec MeshModel MeshSpec MaterialFilterModel EdgeModel FillModel MCModel CellSpec DualSpec
  UdcModel OctreeModel OctreeSpec DcModel DcSpec MdcModel.
Import ListNotations.
Local Open Scope Z_scope.

(* ------------------------------------------------------------------ *)
(* The surface inside a cell                                           *)
(* ------------------------------------------------------------------ *)

(* Number of an edge in a cell, -1 for the edges of other cells. *)
Definition edge_number (c : ivec3) (e : gedge) : Z :=
  match find (fun i => gedge_eqb (cell_edge c i) e) (zseq 0 12) with Some i => i | None => -1 end.

(* Entry of kMdcEdgeSetIndex for the edge of the cell: number of the vertex of
   the cell which the quad around the edge has. *)
Definition sheet (solid : ivec3 -> bool) (c : ivec3) (e : gedge) : Z :=
  tab (-1) (tab [] kMdcEdgeSetIndex (mask_from (fun b => b) 0 (config solid c))) (edge_number c e).

(* Corners of a face; edge [k] of face_edges joins the corners [k] and [k+1] (mod 4). *)
Definition face_corners (f : gedge) : list ivec3 :=
  let a := unit_vec (next_axis (fst f)) in
  let b := unit_vec (next_axis (next_axis (fst f))) in
  [snd f; vadd (snd f) a; vadd (vadd (snd f) a) b; vadd (snd f) b].

(* The curves in which the surface meets a face, by the edges they join: each curve
   goes around some solid corners, so that diagonally opposite solid corners
   are separated. *)
Definition face_pairs (vs : list bool) : list (Z * Z) :=
  match vs with
  | [true; false; true; false] => [(3, 0); (1, 2)]
  | [false; true; false; true] => [(0, 1); (2, 3)]
  | [v0; v1; v2; v3] =>
      match filter snd [(0, xorb v0 v1); (1, xorb v1 v2); (2, xorb v2 v3); (3, xorb v3 v0)] with
      | [(k, _); (l, _)] => [(k, l)]
      | _ => []
      end
  | _ => []
  end.
Definition on_one_curve (solid : ivec3 -> bool) (f e e' : gedge) : Prop :=
  exists k l, In (k, l) (face_pairs (map solid (face_corners f))) /\
    znth (face_edges f) k = Some e /\ znth (face_edges f) l = Some e'.

(* Edges of a cell joined by the curves in the faces of the cell. *)
Inductive one_piece (solid : ivec3 -> bool) (c : ivec3) : gedge -> gedge -> Prop :=
| piece_refl : forall e, one_piece solid c e e
| piece_forth : forall e e' e'' f, one_piece solid c e e' -> (face_low f = c \/ face_high f = c) ->
    on_one_curve solid f e' e'' -> one_piece solid c e e''
| piece_back : forall e e' e'' f, one_piece solid c e e' -> (face_low f = c \/ face_high f = c) ->
    on_one_curve solid f e'' e' -> one_piece solid c e e''.

(* Two opposite corners of the cell are empty and the others solid. *)
Definition two_holes (solid : ivec3 -> bool) (c : ivec3) : bool :=
  existsb (fun k => let b := fun i => tab false (config solid c) i in
    forallb (fun i => eqb (b i) (negb ((i =? k) || (i =? 7 - k)))) (zseq 0 8)) (zseq 0 4).

(* ------------------------------------------------------------------ *)
(* Trees and vertices                                                  *)
(* ------------------------------------------------------------------ *)

(* [part n t q m t' q']: [t'] is the subtree of [t] occupying the cube of level [m]
   at [q'], if [t] occupies the cube of level [n] at [q]. *)
Inductive part {A B} (n : nat) (t : otree A B) (q : ivec3) : nat -> otree A B -> ivec3 -> Prop :=
| part_self : part n t q n t q
| part_child : forall m b cs q' i c, part n t q (Datatypes.S m) (ONode b cs) q' -> znth cs i = Some c ->
    part n t q m c (child_pos q' m i).

Section Spec.
Context {E : fpenv} {Q S : Type}.
Variable ops : qef_ops (fp_F E) Q S.
Variable g : ugrid E.
Variable solid : ivec3 -> bool.
Notation F := (fp_F E).
Notation A := (fp_f E).
Notation xvertex := (mdc_vertex F S).
Notation store := (vstore xvertex).

Definition parent_of (st : store) (a : Z) : option Z := match vs_at st a with Some v => xv_parent v | None => None end.

(* The vertices reached from [a] by following m_parent. *)
Inductive ancestor (st : store) : Z -> Z -> Prop :=
| anc_refl : forall a, ancestor st a a
| anc_up : forall a p b, parent_of st a = Some p -> ancestor st p b -> ancestor st a b.

(* Position, error, normal and material of the vertex, and the QEF state kept in
   it, are the solver's answer for the cube of level [n] at [q]. *)
Definition solution (q : ivec3) (n : nat) (sol : Q) (normals : list (vec3 F)) (mats : list material) (v : xvertex) : Prop :=
  exists sol1 sol2 s, qo_solve ops sol (cube_low q) (cube_high q n) = (sol1, xv_pos v) /\
    xv_error v = qo_eval ops sol1 (xv_pos v) /\ qo_state ops sol1 = (sol2, s) /\ xv_qef v = Some s /\
    xv_normal v = normalize3 (sum3 normals) /\ xv_mat v = fast_select (fast_add_all fast_new mats).

(* Vertex [s] of a unit cell comes from the planes at the sign-changing edges
   of set [s] and the materials at the solid ends of some of them. *)
Definition leaf_solution (c : ivec3) (s : Z) (v : xvertex) : Prop :=
  exists es mats sol0,
    map edge_key es = filter (fun e => edge_crosses solid e && (sheet solid c e =? s)) (map (cell_edge c) (zseq 0 12)) /\
    (forall e, In e es -> In e (g_edges (fst (edge_key e)) g)) /\
    mats <> [] /\ (forall m, In m mats -> exists e, In e es /\ m = solid_material e) /\
    solution c 0 (fold_left (fun sol e => qo_add ops sol (surface_point E e) (surface_normal E e)) es (qo_reset ops sol0))
      (map (surface_normal E) es) mats v.

(* A vertex of a bigger cube comes from the QEF states of some other vertices [hs]. *)
Definition merge_solution (st : store) (q : ivec3) (n : nat) (hs : list Z) (v : xvertex) : Prop :=
  exists (parts : list (xvertex * S)) sol0,
    Forall2 (fun h p => vs_at st h = Some (fst p) /\ xv_qef (fst p) = Some (snd p)) hs parts /\
    solution q n (fold_left (fun sol p => qo_merge ops sol (snd p)) parts (qo_reset ops sol0))
      (map (fun p => xv_normal (fst p)) parts) (map (fun p => xv_mat (fst p)) parts) v.

(* [a] is vertex [s] of the unit cell [c]. *)
Definition leaf_vertex_at (n : nat) (t : mdc_tree) (q c : ivec3) (s a : Z) : Prop :=
  exists l, leaf_at n t q c = Some l /\ znth (ml_verts l) s = Some a.

(* A quad of the surface inside the cube. *)
Definition inner_quad (q : ivec3) (n : nat) (e : gedge) : Prop :=
  edge_crosses solid e = true /\ Forall (in_cube q n) (cells_around (fst e) (snd e)).

(* Vertices of unit cells connected by quads inside the cube of level [m] at [q']. *)
Inductive quad_linked (n : nat) (t : mdc_tree) (q : ivec3) (q' : ivec3) (m : nat) : Z -> Z -> Prop :=
| ql_refl : forall a, quad_linked n t q q' m a a
| ql_step : forall a b b' e c c', quad_linked n t q q' m a b -> inner_quad q' m e ->
    In c (cells_around (fst e) (snd e)) -> In c' (cells_around (fst e) (snd e)) ->
    leaf_vertex_at n t q c (sheet solid c e) b -> leaf_vertex_at n t q c' (sheet solid c' e) b' ->
    quad_linked n t q q' m a b'.

(* ---- contours ---- *)

(* [b] is the highest collapsible vertex among [a] and its ancestors. *)
Definition top_collapsible (st : store) (a b : Z) : Prop :=
  ancestor st a b /\ (exists v, vs_at st b = Some v /\ xv_collapsible v = true) /\
  forall b' v', ancestor st b b' -> b' <> b -> vs_at st b' = Some v' -> xv_collapsible v' = false.

(* [i] is the number of the mesh vertex which the quad around the edge has in the cell. *)
Definition mesh_vertex (t : mdc_octree E S) (c : ivec3) (e : gedge) (i : Z) : Prop :=
  exists a b v, leaf_vertex_at (root_level (mo_size t)) (mo_root t) (dc_min_corner (mo_size t)) c (sheet solid c e) a /\
    top_collapsible (mo_store t) a b /\ vs_at (mo_store t) b = Some v /\ xv_index v = i.

End Spec.

(* Octrees of a size after any number of successful calls, with the grid of the
   last call of build. *)
Inductive mdc_reached {E Q S} (ops : qef_ops (fp_F E) Q S) (size : Z) : option (ugrid E * (ivec3 -> bool)) -> mdc_octree E S -> Prop :=
| mdc_reached_new : forall scale t, mdc_new size scale = Ret t -> mdc_reached ops size None t
| mdc_reached_build : forall last t g solid sol t' sol', mdc_reached ops size last t -> filled g solid -> size <= g_size g ->
    mdc_build ops g t sol = Ret (t', sol') -> mdc_reached ops size (Some (g, solid)) t'
| mdc_reached_contour : forall last t eps t' m, mdc_reached ops size last t -> mdc_contour eps t = Ret (t', m) ->
    mdc_reached ops size last t'.
