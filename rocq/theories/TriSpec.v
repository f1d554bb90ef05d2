(* Triangles in space, what a triangle octree contains. *)
From Coq Require Import ZArith List Bool Reals.
From Verif Require Import Base Arith RealArith TriModel.
Import ListNotations.
Local Open Scope R_scope.

Definition rvec := vec3 R.
(* Points of the triangle with the given corners. *)
Definition in_triangle (a b c X : rvec) : Prop :=
  exists u v w, 0 <= u /\ 0 <= v /\ 0 <= w /\ u + v + w = 1 /\
    X = V3 (u * vx a + v * vx b + w * vx c) (u * vy a + v * vy b + w * vy c) (u * vz a + v * vz b + w * vz c).
(* Squared distance of two points. *)
Definition sq_dist (X Y : rvec) : R := (vx X - vx Y)² + (vy X - vy Y)² + (vz X - vz Y)².
(* Six times the volume of the tetrahedron a, b, c, P: positive if, seen from P, the corners
   a, b, c go around counterclockwise. *)
Definition volume6 (a b c P : rvec) : R :=
  let ux := vx b - vx a in let uy := vy b - vy a in let uz := vz b - vz a in
  let wx := vx c - vx a in let wy := vy c - vy a in let wz := vz c - vz a in
  (vx P - vx a) * (uy * wz - uz * wy) + (vy P - vy a) * (uz * wx - ux * wz) + (vz P - vz a) * (ux * wy - uy * wx).
(* The corners do not lie on a line. *)
Definition proper (a b c : rvec) : Prop := exists P, volume6 a b c P <> 0.
(* [d] is the smallest squared distance from P to a point of the triangle. *)
Definition nearest (a b c P : rvec) (d : R) : Prop :=
  (exists X, in_triangle a b c X /\ d = sq_dist P X) /\ forall Y, in_triangle a b c Y -> d <= sq_dist P Y.

Section Tree.
Context {F : Type}.
Notation tree := (ttree F).

(* Triangles in the leaves. *)
Fixpoint tris_of (t : tree) : list (triangle F) :=
  match t with
  | TLeaf _ _ _ tris => tris
  | TNode _ _ _ cs => flat_map (fun c => match c with Some c' => tris_of c' | None => [] end) cs
  end.

(* The leaves of a tree. *)
Fixpoint leaves_of (t : tree) : list tree :=
  match t with
  | TLeaf _ _ _ _ => [t]
  | TNode _ _ _ cs => flat_map (fun c => match c with Some c' => leaves_of c' | None => [] end) cs
  end.

(* The leaf can take another triangle. *)
Definition has_room (t : tree) : Prop :=
  match t with TLeaf _ _ level tris => (zlen tris < 60)%Z \/ (15 <= level)%Z | TNode _ _ _ _ => False end.

(* Trees made by insertions into an empty root. *)
Definition made (A : arith F) (half : F) (pos : vec3 F) (t : tree) : Prop :=
  exists ts, insert_all A (tt_new half 0 pos) ts = Ret t.
End Tree.

(* The cube of a tree node: m_pos to m_pos + 2 m_halfSize. *)
Definition in_box (t : ttree R) (X : rvec) : Prop :=
  vx (tt_pos t) <= vx X <= vx (tt_pos t) + 2 * tt_half t /\
  vy (tt_pos t) <= vy X <= vy (tt_pos t) + 2 * tt_half t /\
  vz (tt_pos t) <= vz X <= vz (tt_pos t) + 2 * tt_half t.
(* The same without the upper faces. *)
Definition in_cell (t : ttree R) (X : rvec) : Prop :=
  vx (tt_pos t) <= vx X < vx (tt_pos t) + 2 * tt_half t /\
  vy (tt_pos t) <= vy X < vy (tt_pos t) + 2 * tt_half t /\
  vz (tt_pos t) <= vz X < vz (tt_pos t) + 2 * tt_half t.
(* A leaf with the point in its cell has the triangle. *)
Definition kept_at (tr : ttree R) (X : rvec) (t : triangle R) : Prop :=
  exists lf, In lf (leaves_of tr) /\ in_cell lf X /\ In t (tris_of lf).
Definition corner_of (t : triangle R) (X : rvec) : Prop := X = ta t \/ X = tb t \/ X = tc t.
(* Triangles made by the constructor from corners which do not lie on a line. *)
Definition proper_triangle (t : triangle R) : Prop :=
  t = mk_triangle arithR (ta t) (tb t) (tc t) /\ proper (ta t) (tb t) (tc t).
