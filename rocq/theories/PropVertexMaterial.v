(* C91: the material of a mesh vertex. *)
From Coq Require Import ZArith Reals Lia Lra Bool.
From Flocq Require Import Core BinarySingleNaN.
From Verif Require Import Base Arith FloatArith.
Local Open Scope Z_scope.

(* Mesh::Vertex (p, n, m) : material (float (m)), include/isomesh/data/mesh.hpp:27-28; Material has the underlying type
   uint8_t, include/isomesh/common.hpp:18 *)
Definition vertex_material (m : material) : b32 := a_ofZ arith32 m.

(* The number in the vertex is exactly the number of the material, so reading it as an integer, with or without rounding,
   gives the material, and different materials stay different. *)
Theorem C91_exact : forall m, 0 <= m <= 255 ->
  is_finite (vertex_material m) = true /\ B2R (vertex_material m) = IZR m.
Proof.
  intros m H. unfold vertex_material. cbn [arith32 arith_fp a_ofZ]. unfold fp_make.
  match goal with |- context [binary_normalize 24 128 ?a ?b _ _ _ _] => pose proof (binary_normalize_correct 24 128 a b mode_NE m 0 false) as C end.
  cbn zeta in C.
  assert (F : F2R (Float radix2 m 0) = IZR m) by (unfold F2R; cbn; ring).
  rewrite F in C. rewrite round_generic in C.
  - rewrite Rlt_bool_true in C; [tauto|]. apply Rle_lt_trans with 255%R.
    + rewrite <- abs_IZR. apply IZR_le. lia.
    + change 255%R with (IZR 255). change (bpow radix2 128) with (IZR (2 ^ 128)). apply IZR_lt. reflexivity.
  - apply valid_rnd_N.
  - rewrite <- F. apply generic_format_FLT. exists (Float radix2 m 0); [reflexivity | |].
    + cbn. lia.
    + cbn. lia.
Qed.

Theorem C91_back : forall m, 0 <= m <= 255 -> Ztrunc (B2R (vertex_material m)) = m /\ ZnearestE (B2R (vertex_material m)) = m.
Proof.
  intros m H. destruct (C91_exact m H) as (_ & E). rewrite E. split; [apply Ztrunc_IZR | apply (Zrnd_IZR ZnearestE)].
Qed.
Theorem C91_distinct : forall m m', 0 <= m <= 255 -> 0 <= m' <= 255 -> B2R (vertex_material m) = B2R (vertex_material m') -> m = m'.
Proof. intros m m' H H' Q. destruct (C91_back m H) as (<- & _). destruct (C91_back m' H') as (<- & _). now rewrite Q. Qed.
Print Assumptions C91_exact.
Print Assumptions C91_back.
Print Assumptions C91_distinct.

(* Stone is 2 (common.hpp:21): sign 0, significand 2^23, exponent -22 *)
Example C91_ex : 0 <= 2 <= 255 /\ match vertex_material 2 with B754_finite false s e _ => (s =? 8388608)%positive && (e =? -22) | _ => false end = true.
Proof. split; [lia | vm_compute; reflexivity]. Qed.
