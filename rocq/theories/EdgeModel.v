(* Model of include/isomesh/data/grid_edge_storage.hpp and
   src/data/grid_edge_storage.cpp. *)
From Coq Require Import ZArith List Bool.
From Verif Require Import Base Arith.
Import ListNotations.
Local Open Scope Z_scope.

(* Axis numbers in GLM order *)
Definition axis_num (d : axis) : Z := match d with AX => 0 | AY => 1 | AZ => 2 end.

(* struct UniformGridEdge, grid_edge_storage.hpp:57-76.  [F] is float;
   normalYSign and solidEndpoint are one-bit fields. *)
Record uedge (F : Type) := UEdge {
  ue_nx : F; ue_nz : F; ue_off : F;
  ue_ysign : bool;          (* normalYSign == 1 *)
  ue_bigger_solid : bool;   (* solidEndpoint == 1 *)
  ue_axis : Z;
  ue_mat : material;
  ue_x : Z; ue_y : Z; ue_z : Z
}.
Arguments UEdge {F}.
Arguments ue_nx {F}.
Arguments ue_nz {F}.
Arguments ue_off {F}.
Arguments ue_ysign {F}.
Arguments ue_bigger_solid {F}.
Arguments ue_axis {F}.
Arguments ue_mat {F}.
Arguments ue_x {F}.
Arguments ue_y {F}.
Arguments ue_z {F}.

(* The constructor, grid_edge_storage.cpp:12-34 *)
Definition make_edge (E : fpenv) (lx ly lz : Z) (gradient : vec3 (fp_D E)) (offset : fp_D E)
    (axis : Z) (lesser_solid : bool) (mat : material) : outcome (uedge (fp_F E)) :=
  _ <- oassert ((lx <=? i16max) && (ly <=? i16max) && (lz <=? i16max)) ;;
  _ <- oassert ((lx >=? i16min) && (ly >=? i16min) && (lz >=? i16min)) ;;
  _ <- oassert ((axis >=? 0) && (axis <=? 2)) ;;
  let D := fp_d E in
  let grad_len := a_add D (length3 D gradient) (fp_eps E) in
  Ret (UEdge (fp_narrow E (a_div D (vx gradient) grad_len))
             (fp_narrow E (a_div D (vz gradient) grad_len))
             (fp_narrow E offset)
             (a_lt D (vy gradient) (a_ofZ D 0))
             (negb lesser_solid)
             axis mat (i16 lx) (i16 ly) (i16 lz)).

(* surfaceNormal, grid_edge_storage.cpp:36-42 *)
Definition surface_normal (E : fpenv) (e : uedge (fp_F E)) : vec3 (fp_F E) :=
  let F := fp_f E in
  let y_squared := a_sub F (a_sub F (a_ofZ F 1) (a_mul F (ue_nx e) (ue_nx e)))
                           (a_mul F (ue_nz e) (ue_nz e)) in
  let ny := a_sqrt F (glm_max F (a_ofZ F 0) y_squared) in
  V3 (ue_nx e) (if ue_ysign e then a_neg F ny else ny) (ue_nz e).

(* surfacePoint, grid_edge_storage.cpp:44-48 *)
Definition surface_point (E : fpenv) (e : uedge (fp_F E)) : vec3 (fp_F E) :=
  let F := fp_f E in
  let p := V3 (a_ofZ F (ue_x e)) (a_ofZ F (ue_y e)) (a_ofZ F (ue_z e)) in
  match ue_axis e with
  | 0 => V3 (a_add F (vx p) (ue_off e)) (vy p) (vz p)
  | 1 => V3 (vx p) (a_add F (vy p) (ue_off e)) (vz p)
  | _ => V3 (vx p) (vy p) (a_add F (vz p) (ue_off e))
  end.

(* lesserEndpoint, biggerEndpoint, grid_edge_storage.cpp:50-58; no overflow
   since the coordinates are 16 bits wide *)
Definition lesser_endpoint {F} (e : uedge F) : ivec3 := V3 (ue_x e) (ue_y e) (ue_z e).
Definition bigger_endpoint {F} (e : uedge F) : ivec3 :=
  match ue_axis e with
  | 0 => V3 (ue_x e + 1) (ue_y e) (ue_z e)
  | 1 => V3 (ue_x e) (ue_y e + 1) (ue_z e)
  | _ => V3 (ue_x e) (ue_y e) (ue_z e + 1)
  end.

(* isLesserEndpointSolid, solidEndpointMaterial, grid_edge_storage.hpp:47, 53 *)
Definition is_lesser_solid {F} (e : uedge F) : bool := negb (ue_bigger_solid e).
Definition solid_material {F} (e : uedge F) : material := ue_mat e.

(* edgeLess, grid_edge_storage.cpp:60-71, on (y, x, z) keys of both edges *)
Definition key_less (ay ax az b_y bx bz : Z) : bool :=
  if ay <? b_y then true
  else if ay =? b_y then
    if ax <? bx then true
    else if ax =? bx then az <? bz
    else false
  else false.
Definition edge_less {F} (a b : uedge F) : bool :=
  key_less (ue_y a) (ue_x a) (ue_z a) (ue_y b) (ue_x b) (ue_z b).

(* std::lower_bound: the usual loop on (first, len).  [less e] is
   comp (e, value).  Fuel: the length of the range suffices. *)
Fixpoint lower_bound_loop {A} (less : A -> bool) (l : list A) (fuel : nat) (first len : Z) : outcome Z :=
  if len <=? 0 then Ret first
  else match fuel with
  | O => NoFuel
  | S fuel' =>
      let half := len / 2 in
      let mid := first + half in
      e <- oread (znth l mid) ;;
      if less e then lower_bound_loop less l fuel' (mid + 1) (len - half - 1)
      else lower_bound_loop less l fuel' first half
  end.
Definition lower_bound {A} (less : A -> bool) (l : list A) : outcome Z :=
  lower_bound_loop less l (length l) 0 (zlen l).

(* findEdge, both overloads, grid_edge_storage.cpp:76-114.  An iterator is an
   index, end () is the number of edges. *)
Definition find_edge {F} (l : list (uedge F)) (x y z : Z) : outcome Z :=
  if (x >? i16max) || (y >? i16max) || (z >? i16max) then Ret (zlen l)
  else if (x <? i16min) || (y <? i16min) || (z <? i16min) then Ret (zlen l)
  else
    let sx := i16 x in let sy := i16 y in let sz := i16 z in
    it <- lower_bound (fun e => key_less (ue_y e) (ue_x e) (ue_z e) sy sx sz) l ;;
    if it =? zlen l then Ret it
    else
      e <- oread (znth l it) ;;
      if negb (ue_x e =? x) || negb (ue_y e =? y) || negb (ue_z e =? z) then Ret (zlen l)
      else Ret it.
