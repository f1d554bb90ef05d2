(* Exact arithmetic with infinities and an undefined value: real numbers without rounding, where
   division by zero behaves as in IEEE 754.  There is one zero only; the sign of x / 0 is given
   by a function, so that statements hold for either sign of the zero. *)
From Coq Require Import ZArith Reals Lra Bool.
From Verif Require Import Base Arith RealArith.
Local Open Scope R_scope.

Inductive xreal := Fin (r : R) | Inf (negative : bool) | Nan.

Section XReal.
(* whether x / 0 is negative *)
Variable neg_by_zero : R -> bool.

Definition x_sign (r : R) : bool := Rltb r 0.
Definition x_neg (x : xreal) : xreal := match x with Fin r => Fin (- r) | Inf b => Inf (negb b) | Nan => Nan end.
Definition x_add (x y : xreal) : xreal :=
  match x, y with
  | Fin r, Fin s => Fin (r + s)
  | Nan, _ | _, Nan => Nan
  | Inf a, Inf b => if Bool.eqb a b then Inf a else Nan
  | Inf a, Fin _ | Fin _, Inf a => Inf a
  end.
Definition x_sub (x y : xreal) : xreal := match x, y with Fin r, Fin s => Fin (r - s) | _, _ => x_add x (x_neg y) end.
Definition x_mul (x y : xreal) : xreal :=
  match x, y with
  | Fin r, Fin s => Fin (r * s)
  | Nan, _ | _, Nan => Nan
  | Inf a, Inf b => Inf (xorb a b)
  | Inf a, Fin r | Fin r, Inf a => if Reqb r 0 then Nan else Inf (xorb a (x_sign r))
  end.
Definition x_div (x y : xreal) : xreal :=
  match x, y with
  | Nan, _ | _, Nan => Nan
  | Fin r, Fin s => if Reqb s 0 then (if Reqb r 0 then Nan else Inf (neg_by_zero r)) else Fin (r / s)
  | Fin _, Inf _ => Fin 0
  | Inf a, Fin s => Inf (xorb a (x_sign s))
  | Inf _, Inf _ => Nan
  end.
Definition x_abs (x : xreal) : xreal := match x with Fin r => Fin (Rabs r) | Inf _ => Inf false | Nan => Nan end.
Definition x_sqrt (x : xreal) : xreal :=
  match x with Fin r => if Rltb r 0 then Nan else Fin (sqrt r) | Inf false => Inf false | _ => Nan end.
Definition x_lt (x y : xreal) : bool :=
  match x, y with
  | Fin r, Fin s => Rltb r s
  | Fin _, Inf b => negb b
  | Inf b, Fin _ => b
  | Inf a, Inf b => (a && negb b)%bool
  | _, _ => false
  end.
Definition x_eq (x y : xreal) : bool := match x, y with Fin r, Fin s => Reqb r s | Inf a, Inf b => Bool.eqb a b | _, _ => false end.
Definition x_le (x y : xreal) : bool := (x_lt x y || x_eq x y)%bool.

Definition arithX : arith xreal := Arith xreal x_add x_sub x_mul x_div x_neg x_abs x_sqrt (fun z => Fin (IZR z)) x_lt x_le x_eq.

(* functions of the mathematical library *)
Definition x_hypot (x y : xreal) : xreal :=
  match x, y with
  | Inf _, _ | _, Inf _ => Inf false
  | Fin r, Fin s => Fin (sqrt (r * r + s * s))
  | _, _ => Nan
  end.
(* the sign of a zero is taken to be plus *)
Definition x_negative (x : xreal) : bool := match x with Fin r => Rltb r 0 | Inf b => b | Nan => false end.
Definition x_copysign (x y : xreal) : xreal := if x_negative y then x_neg (x_abs x) else x_abs x.
Definition x_atan (x : xreal) : xreal := match x with Fin r => Fin (atan r) | Inf b => Fin (if b then - (PI / 2) else PI / 2) | Nan => Nan end.
Definition x_sin (x : xreal) : xreal := match x with Fin r => Fin (sin r) | _ => Nan end.
Definition x_cos (x : xreal) : xreal := match x with Fin r => Fin (cos r) | _ => Nan end.
End XReal.

Lemma x_le_fin : forall r s, x_le (Fin r) (Fin s) = Rleb r s.
Proof.
  intros r s. unfold x_le. cbn [x_lt x_eq]. destruct (Rleb r s) eqn:E.
  - apply Rleb_iff in E. destruct (Rle_lt_or_eq_dec r s E) as [H|H].
    + rewrite (proj2 (Rltb_iff r s) H). reflexivity.
    + rewrite (proj2 (Reqb_iff r s) H). apply orb_true_r.
  - apply Rleb_false in E. rewrite (proj2 (Rltb_false r s)) by lra. rewrite (proj2 (Reqb_false r s)) by lra. reflexivity.
Qed.
