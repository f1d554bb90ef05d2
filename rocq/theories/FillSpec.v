(* What a filled grid has to contain. *)
From Coq Require Import ZArith List Bool.
From Verif Require Import Base Arith GridModel GridSpec EdgeModel FillModel.
Import ListNotations.
Local Open Scope Z_scope.

(* low + step + ... + step, k times, as rounded by repeated addition *)
Fixpoint accum {T} (A : arith T) (low step : T) (k : nat) : T :=
  match k with O => low | S k' => a_add A (accum A low step k') step end.

(* The position at which the sample of grid point [p] is taken. *)
Definition sample_pos {E} (g : ugrid E) (p : ivec3) : vec3 (fp_D E) :=
  let h := g_size g / 2 in
  let m := a_ofZ (fp_d E) (- h) in
  let low := local_to_global E (g_step g) (g_pos g) (V3 m m m) in
  V3 (accum (fp_d E) (vx low) (g_step g) (Z.to_nat (vx p + h)))
     (accum (fp_d E) (vy low) (g_step g) (Z.to_nat (vy p + h)))
     (accum (fp_d E) (vz low) (g_step g) (Z.to_nat (vz p + h))).

(* The value sampled there. *)
Definition sample {E} (g : ugrid E) (f : field E) (p : ivec3) : fp_D E := fl_value f (sample_pos g p).

(* The material the documentation promises for grid point [p]. *)
Definition promised_material {E} (g : ugrid E) (f : field E) (p : ivec3) : material :=
  if gt0 E (sample g f p) then Empty else fl_material f (sample_pos g p) (sample g f p).

(* Edge [p] along [d] joins a non-positive sample and one that is not. *)
Definition crosses {E} (g : ugrid E) (f : field E) (d : axis) (p : ivec3) : bool :=
  xorb (le0 E (sample g f p)) (le0 E (sample g f (vadd p (unit_vec d)))).

(* Coordinates along axis [a] of the starting points of edges along [d]. *)
Definition starts (n : Z) (d a : axis) : list Z :=
  zrange (- (n / 2)) (if axis_eqb d a then n / 2 else n / 2 + 1).

(* All edges of the grid along [d], in YXZ order. *)
Definition edge_points (n : Z) (d : axis) : list ivec3 :=
  flat_map (fun y => flat_map (fun x => map (fun z => V3 x y z) (starts n d AZ)) (starts n d AX))
    (starts n d AY).

(* The solver call for a crossing edge. *)
Definition solver_call {E} (g : ugrid E) (f : field E) (d : axis) (p : ivec3) : zf_call E :=
  let start := local_to_global E (g_step g) (g_pos g) (vofZ3 (fp_d E) p) in
  ZfCall d start (a_add (fp_d E) (vget d start) (g_step g))
         (sample g f p) (sample g f (vadd p (unit_vec d))).

(* The edge stored for a crossing edge: position of the zero, normal and offset
   come from the solver and the field. *)
Definition stored_edge {E} (g : ugrid E) (f : field E) (solver : zero_finder E) (d : axis) (p : ivec3)
  : outcome (uedge (fp_F E)) :=
  let c := solver_call g f d p in
  let zero := solver c f in
  let sign1 := le0 E (sample g f p) in
  make_edge E (vx p) (vy p) (vz p)
    (fl_grad f (vset E d (zc_start c) zero))
    (a_div (fp_d E) (a_sub (fp_d E) zero (vget d (zc_start c))) (g_step g))
    (axis_num d) sign1
    (promised_material g f (if sign1 then p else vadd p (unit_vec d))).

(* No sample is a NaN: being positive is the opposite of being non-positive. *)
Definition nan_free {E} (g : ugrid E) (f : field E) : Prop :=
  forall p, vertex_in (g_size g) p -> gt0 E (sample g f p) = negb (le0 E (sample g f p)).

(* The field does not call a non-positive sample Empty. *)
Definition solid_inside {E} (g : ugrid E) (f : field E) : Prop :=
  forall p, vertex_in (g_size g) p -> le0 E (sample g f p) = true ->
    fl_material f (sample_pos g p) (sample g f p) <> Empty.

(* What meshing needs to know about a filled grid: [solid p] tells whether
   grid point [p] is inside.  The materials are initialised and the edges
   stored are those with one end inside. *)
Record represents_edges {E} (g : ugrid E) (solid : ivec3 -> bool) : Prop := {
  rep_size : valid_size (g_size g);
  rep_init : forall p, vertex_in (g_size g) p -> exists m, g_mat g (yxz_index (g_size g) p) = Some m;
  rep_edges : forall d, map lesser_endpoint (g_edges d g) =
    filter (fun p => xorb (solid p) (solid (vadd p (unit_vec d)))) (edge_points (g_size g) d);
  rep_edge : forall d e, In e (g_edges d g) ->
    ue_axis e = axis_num d /\ is_lesser_solid e = solid (lesser_endpoint e)
}.

(* Moreover the materials tell inside from outside. *)
Record represents {E} (g : ugrid E) (solid : ivec3 -> bool) : Prop := {
  rep_base :> represents_edges g solid;
  rep_mat : forall p, vertex_in (g_size g) p ->
    exists m, g_mat g (yxz_index (g_size g) p) = Some m /\ is_solid m = solid p
}.
