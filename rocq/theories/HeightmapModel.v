(* Model of src/field/heightmap.cpp and src/private/stbi_data.{hpp,cpp}: the scalar
   field given by a grayscale image.  Decoding of the image file (stb_image) is not
   modelled: an image is what the decoder returned. *)
From Coq Require Import ZArith List Bool.
From Verif Require Import Base Arith.
Import ListNotations.
Local Open Scope Z_scope.

(* src/private/stbi_data.hpp:10-23: m_data, m_width, m_height.  m_bpp is only looked
   at while loading. *)
Record image := Image { im_width : Z; im_height : Z; im_data : list Z }.

(* src/private/stbi_data.cpp:30-32 STBImageData::operator[]: m_data[idx], an access
   outside of the decoded pixels is undefined behaviour *)
Definition im_read (im : image) (idx : Z) : outcome Z := oread (znth (im_data im) idx).

(* Result of an int computation: signed overflow is undefined behaviour *)
Definition to_int (z : Z) : outcome Z := if (i32min <=? z) && (z <=? i32max) then Ret z else UB.

(* std::clamp (v, lo, hi), undefined unless lo <= hi *)
Definition std_clamp (v lo hi : Z) : outcome Z :=
  if hi <? lo then UB else Ret (if v <? lo then lo else if hi <? v then hi else v).

Section Heightmap.
Context {D : Type}.
Variable A : arith D.
(* floor as a mathematical integer; None for infinities and NaN *)
Variable floorZ : D -> option Z.

(* include/isomesh/field/heightmap.hpp:57-61 *)
Record heightmap := Heightmap {
  hm_data : option image;
  hm_range : D * D;
  hm_pixel : D;
  hm_center : vec3 D
}.

(* src/field/heightmap.cpp:17-22, the constructor *)
Definition hm_new (range : D * D) (center : vec3 D) (pixel : D) : heightmap :=
  Heightmap None range pixel center.

(* src/field/heightmap.cpp:28-35 loadGrayscaleMap and src/private/stbi_data.cpp:14-24.  [dec]
   is what the decoder delivers: the number of channels in the file and the image, or nothing
   when there is no such file or it is not an image.  The boolean is false when the call
   throws runtime_error. *)
Definition hm_load (hm : heightmap) (dec : option (Z * image)) : heightmap * bool :=
  match dec with
  | None => (hm, false)
  | Some (bpp, im) =>
      if bpp =? 1 then (Heightmap (Some im) (hm_range hm) (hm_pixel hm) (hm_center hm), true)
      else (Heightmap None (hm_range hm) (hm_pixel hm) (hm_center hm), false)
  end.

(* src/field/heightmap.cpp:43: int conversion of floor (x), undefined if
   the value does not fit *)
Definition floor_int (x : D) : outcome Z :=
  match floorZ x with Some z => to_int z | None => UB end.

(* src/field/heightmap.cpp:74-77 heightVal (x, y) *)
Definition height_val (hm : heightmap) (im : image) (x y : Z) : outcome D :=
  h1 <- to_int (im_height im - 1) ;;
  cx <- std_clamp x 0 h1 ;;
  m <- to_int (cx * im_width im) ;;
  w1 <- to_int (im_width im - 1) ;;
  cy <- std_clamp y 0 w1 ;;
  idx <- to_int (m + cy) ;;
  color <- im_read im idx ;;
  let '(first, second) := hm_range hm in
  Ret (a_add A first (a_div A (a_mul A (a_ofZ A color) (a_sub A second first)) (a_ofZ A 65536))).

(* src/field/heightmap.cpp:37-61 value *)
Definition hm_value (hm : heightmap) (px py pz : D) : outcome D :=
  h <- match hm_data hm with
       | None => Ret (a_ofZ A 0)
       | Some im =>
           let x := a_add A (a_div A (a_sub A px (vx (hm_center hm))) (hm_pixel hm)) (a_ofZ A (Z.quot (im_width im) 2)) in
           let y := a_add A (a_div A (a_sub A pz (vz (hm_center hm))) (hm_pixel hm)) (a_ofZ A (Z.quot (im_height im) 2)) in
           p_x <- floor_int x ;;
           p_y <- floor_int y ;;
           p_x1 <- to_int (p_x + 1) ;;
           p_y1 <- to_int (p_y + 1) ;;
           q11 <- height_val hm im p_x p_y ;;
           q12 <- height_val hm im p_x p_y1 ;;
           q21 <- height_val hm im p_x1 p_y ;;
           q22 <- height_val hm im p_x1 p_y1 ;;
           Ret (a_add A (a_add A (a_add A
             (a_mul A (a_mul A q11 (a_sub A (a_ofZ A p_x1) x)) (a_sub A (a_ofZ A p_y1) y))
             (a_mul A (a_mul A q21 (a_sub A x (a_ofZ A p_x))) (a_sub A (a_ofZ A p_y1) y)))
             (a_mul A (a_mul A q12 (a_sub A (a_ofZ A p_x1) x)) (a_sub A y (a_ofZ A p_y))))
             (a_mul A (a_mul A q22 (a_sub A x (a_ofZ A p_x))) (a_sub A y (a_ofZ A p_y))))
       end ;;
  Ret (a_sub A py (a_add A h (vy (hm_center hm)))).

(* src/field/heightmap.cpp:63-72 grad *)
Definition hm_grad (hm : heightmap) (x y z : D) : outcome (vec3 D) :=
  let h := a_div A (hm_pixel hm) (a_ofZ A 4) in
  x1 <- hm_value hm (a_sub A x h) y z ;;
  x2 <- hm_value hm (a_add A x h) y z ;;
  z1 <- hm_value hm x y (a_sub A z h) ;;
  z2 <- hm_value hm x y (a_add A z h) ;;
  Ret (V3 (a_div A (a_div A (a_sub A x2 x1) (a_ofZ A 2)) h) (a_ofZ A 1)
          (a_div A (a_div A (a_sub A z2 z1) (a_ofZ A 2)) h)).
End Heightmap.
Arguments heightmap D : clear implicits.
