(* What a heightmap is supposed to be, in terms of the pixels of the image. *)
From Coq Require Import ZArith List Bool Reals.
From Verif Require Import Base Arith HeightmapModel.
Import ListNotations.
Local Open Scope Z_scope.

(* What stb_image delivers: width * height 16-bit pixels; the decoder refuses
   images with more than INT_MAX pixels. *)
Definition valid_image (im : image) : Prop :=
  1 <= im_width im /\ 1 <= im_height im /\ im_width im * im_height im <= i32max /\
  zlen (im_data im) = im_width im * im_height im /\ Forall (fun c => 0 <= c <= 65535) (im_data im).

(* Colour of the pixel in a column and a row of the image. *)
Definition pixel (im : image) (col row c : Z) : Prop :=
  0 <= col < im_width im /\ 0 <= row < im_height im /\ znth (im_data im) (row * im_width im + col) = Some c.

(* The integer nearest to [v] in [0, n). *)
Definition clamped (n v : Z) : Z := Z.max 0 (Z.min v (n - 1)).

(* Integer part of a real number. *)
Definition floorR (x : R) : option Z := Some (Int_part x).

(* Position in the image, in pixels. *)
Definition image_x (hm : heightmap R) (im : image) (px : R) : R := ((px - vx (hm_center hm)) / hm_pixel hm + IZR (im_width im / 2))%R.
Definition image_y (hm : heightmap R) (im : image) (pz : R) : R := ((pz - vz (hm_center hm)) / hm_pixel hm + IZR (im_height im / 2))%R.
(* The pixels around the position have coordinates of type int. *)
Definition in_int_range (x : R) : Prop := (IZR i32min <= x < IZR i32max)%R.
Definition position_fits (hm : heightmap R) (px pz : R) : Prop :=
  forall im, hm_data hm = Some im -> in_int_range (image_x hm im px) /\ in_int_range (image_y hm im pz).
(* Height which stands for a colour. *)
Definition color_height (hm : heightmap R) (c : Z) : R :=
  (fst (hm_range hm) + IZR c * (snd (hm_range hm) - fst (hm_range hm)) / 65536)%R.
Definition valid_heightmap {D} (hm : heightmap D) : Prop := forall im, hm_data hm = Some im -> valid_image im.
