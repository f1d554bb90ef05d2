(* Exact arithmetic: the real numbers. *)
From Coq Require Import ZArith Reals Lra Bool.
From Verif Require Import Base Arith.
Local Open Scope R_scope.

Definition Rltb (x y : R) : bool := if Rlt_dec x y then true else false.
Definition Rleb (x y : R) : bool := if Rle_dec x y then true else false.
Definition Reqb (x y : R) : bool := if Req_EM_T x y then true else false.

Definition arithR : arith R :=
  Arith R Rplus Rminus Rmult Rdiv Ropp Rabs sqrt IZR Rltb Rleb Reqb.

(* numeric_limits<double>::epsilon () = 2^-52 *)
Definition envR : fpenv := FpEnv R R arithR arithR (fun x => x) (/ 2 ^ 52).

Lemma Rltb_iff : forall x y, Rltb x y = true <-> x < y.
Proof. intros. unfold Rltb. destruct (Rlt_dec x y); split; intros; try discriminate; auto; contradiction. Qed.
Lemma Rleb_iff : forall x y, Rleb x y = true <-> x <= y.
Proof. intros. unfold Rleb. destruct (Rle_dec x y); split; intros; try discriminate; auto; contradiction. Qed.
Lemma Reqb_iff : forall x y, Reqb x y = true <-> x = y.
Proof. intros. unfold Reqb. destruct (Req_EM_T x y); split; intros; try discriminate; auto; contradiction. Qed.
Lemma Rltb_false : forall x y, Rltb x y = false <-> y <= x.
Proof. intros. unfold Rltb. destruct (Rlt_dec x y); split; intros; try discriminate; auto; lra. Qed.
Lemma Rleb_false : forall x y, Rleb x y = false <-> y < x.
Proof. intros. unfold Rleb. destruct (Rle_dec x y); split; intros; try discriminate; auto; lra. Qed.
Lemma Reqb_false : forall x y, Reqb x y = false <-> x <> y.
Proof. intros. unfold Reqb. destruct (Req_EM_T x y); split; intros; try discriminate; auto; contradiction. Qed.
