(* The QEF solver in exact arithmetic with infinities: nothing but finite numbers. *)
From Coq Require Import ZArith List Bool Reals Lra Lia.
From Verif Require Import Base Arith RealArith XReal QefModel QefLin QefHouse QefSpec QefProofs QefJacobi QefLeast.
Import ListNotations.
Local Open Scope R_scope.

Section Finite.
Variable nbz : R -> bool.
Notation AX := (arithX nbz).
Variable tiny : R.
Hypothesis tiny_pos : 0 < tiny.
Definition fin_vec (v : nat -> xreal) (v' : nat -> R) : Prop := forall a, v a = Fin (v' a).

Lemma fold_sum_fin : forall (f : nat -> xreal) (f' : nat -> R) l z, (forall k, f k = Fin (f' k)) ->
  fold_left (fun s j => x_add s (f j)) l (Fin z) = Fin (fold_left (fun s j => s + f' j) l z).
Proof. intros f f' l. induction l as [|k l IH]; intros z H; cbn; [reflexivity|]. rewrite H. cbn. apply IH. exact H. Qed.
Lemma col_norm_fin : forall mX m i used, fin_mat mX m -> col_norm AX mX i used = Fin (col_norm arithR m i used).
Proof.
  intros mX m i used H. unfold col_norm. cbn [arithX arithR a_add a_mul a_ofZ].
  apply (fold_sum_fin (fun j => x_mul (mX i j) (mX i j)) (fun j => m i j * m i j)). intros k. rewrite H. reflexivity.
Qed.
Lemma reflection_fin : forall mX m i used, fin_mat mX m ->
  fin_vec (fst (reflection AX (Fin tiny) mX i used)) (fst (reflection arithR tiny m i used)) /\
  snd (reflection AX (Fin tiny) mX i used) = Fin (snd (reflection arithR tiny m i used)).
Proof.
  intros mX m i used H. unfold reflection. rewrite (col_norm_fin mX m) by auto. cbn [arithX arithR a_lt x_lt]. set (a := col_norm arithR m i used).
  destruct (Rltb a tiny) eqn:E.
  - cbn [fst snd arithX arithR a_ofZ]. split; [intros k; destruct (Nat.eqb k i); reflexivity | reflexivity].
  - apply Rltb_false in E. cbn [arithX arithR a_sqrt a_ofZ a_div a_mul a_add a_sub a_le a_abs x_sqrt].
    rewrite (proj2 (Rltb_false a 0)) by lra. assert (P : 0 < sqrt a) by (apply sqrt_lt_R0; lra).
    cbn [x_div]. rewrite (proj2 (Reqb_false (sqrt a) 0)) by lra. cbv zeta.
    assert (V : forall j, (if (Nat.leb i j && Nat.ltb j used)%bool then x_mul (mX i j) (Fin (1 / sqrt a)) else Fin 0) =
      Fin (if (Nat.leb i j && Nat.ltb j used)%bool then m i j * (1 / sqrt a) else 0)).
    { intros j. destruct (_ && _)%bool; [rewrite H|]; reflexivity. }
    rewrite (V i). set (v := if (Nat.leb i i && Nat.ltb i used)%bool then m i i * (1 / sqrt a) else 0). rewrite x_le_fin.
    assert (VI : (if Rleb 0 v then x_add (Fin v) (Fin 1) else x_sub (Fin v) (Fin 1)) = Fin (if Rleb 0 v then v + 1 else v - 1)) by (destruct (Rleb 0 v); reflexivity).
    rewrite VI. cbn [fst snd x_abs x_div].
    assert (NZ : Rabs (if Rleb 0 v then v + 1 else v - 1) <> 0).
    { apply Rabs_no_R0. destruct (Rleb 0 v) eqn:Q; [apply Rleb_iff in Q | apply Rleb_false in Q]; lra. }
    rewrite (proj2 (Reqb_false _ 0) NZ). split; [|reflexivity]. intros j. destruct (Nat.eqb j i); [reflexivity | apply V].
Qed.
Lemma reflect_column_fin : forall vX v g i used mX m j, fin_vec vX v -> fin_mat mX m ->
  fin_mat (reflect_column AX vX (Fin g) i used mX j) (reflect_column arithR v g i used m j).
Proof.
  intros vX v g i used mX m j Hv Hm. unfold reflect_column. cbn [arithX arithR a_add a_mul a_sub a_ofZ].
  rewrite (fold_sum_fin (fun k => x_mul (mX j k) (vX k)) (fun k => m j k * v k)) by (intros k; rewrite Hm, Hv; reflexivity). cbn [x_mul].
  apply (fold_fin (fun mX k => upd mX j k (x_sub (mX j k) (x_mul (Fin _) (vX k)))) (fun m k => upd m j k (m j k - _ * v k))); auto.
  intros mX' m' k H'. rewrite H', Hv. cbn [x_mul x_sub]. apply upd_fin. exact H'.
Qed.
Lemma householder_fin : forall N mX m used, fin_mat mX m -> fin_mat (householder AX (Fin tiny) N mX used) (householder arithR tiny N m used).
Proof.
  intros N mX m used H. unfold householder.
  apply (fold_fin (householder_step AX (Fin tiny) N used) (householder_step arithR tiny N used)); auto.
  intros mX' m' i H'. unfold householder_step. destruct (reflection_fin mX' m' i used H') as [R1 R2].
  destruct (reflection AX (Fin tiny) mX' i used) as [vX gX]. destruct (reflection arithR tiny m' i used) as [v g]. cbn [fst snd] in *. subst gX.
  apply (fold_fin (reflect_column AX vX (Fin g) i used) (reflect_column arithR v g i used)); auto.
  intros. apply reflect_column_fin; auto.
Qed.

(* ---- solvers ---- *)
Record fin_solver (sX : solver xreal) (s : solver R) : Prop := FinSolver {
  f_mat : fin_mat (q_mat sX) (q_mat s); f_used : q_used sX = q_used s; f_sum : fin_vec (q_sum sX) (q_sum s);
  f_count : q_count sX = q_count s; f_dim : q_dim sX = q_dim s }.
Record fin_state (dX : qstate xreal) (d : qstate R) : Prop := FinState {
  fs_mat : fin_mat (s_mat dX) (s_mat d); fs_sum : fin_vec (s_sum dX) (s_sum d); fs_count : s_count dX = s_count d; fs_dim : s_dim dX = s_dim d }.
Variable D : nat.

Lemma new_fin : fin_solver (q_new AX) (q_new arithR).
Proof. constructor; try reflexivity; intros; intro; reflexivity. Qed.
Lemma compress_fin : forall sX s, fin_solver sX s -> fin_solver (compress AX (Fin tiny) D sX) (compress arithR tiny D s).
Proof.
  intros sX s [H1 H2 H3 H4 H5]. constructor; cbn [compress q_mat q_used q_sum q_count q_dim]; auto. rewrite H2. apply householder_fin. exact H1.
Qed.
Lemma sum_left_fin : forall n (f : nat -> xreal) (f' : nat -> R), (forall k, f k = Fin (f' k)) -> sum_left AX (map f (seq 0 n)) = Fin (sum_left arithR (map f' (seq 0 n))).
Proof.
  intros n f f' H. destruct n as [|n]; [reflexivity|]. cbn [seq map sum_left]. rewrite H. unfold sum_from. generalize (f' 0%nat). generalize (seq 1 n).
  induction l as [|k l IH]; intros z; cbn; [reflexivity|]. rewrite H. cbn. apply IH.
Qed.
Lemma add_plane_fin : forall max_rows sX s qX nX q n, fin_solver sX s -> fin_vec qX q -> fin_vec nX n ->
  match add_plane AX (Fin tiny) D max_rows sX qX nX, add_plane arithR tiny D max_rows s q n with
  | Ret sX', Ret s' => fin_solver sX' s' | UB, UB => True | _, _ => False end.
Proof.
  intros max_rows sX s qX nX q n H Hq Hn. unfold add_plane. rewrite (f_used _ _ H).
  assert (H' : fin_solver (if Nat.eqb (q_used s) max_rows then compress AX (Fin tiny) D sX else sX) (if Nat.eqb (q_used s) max_rows then compress arithR tiny D s else s)).
  { destruct (Nat.eqb (q_used s) max_rows); [apply compress_fin|]; auto. }
  destruct H' as [H1 H2 H3 H4 H5]. set (tX := if Nat.eqb _ _ then _ else sX) in *. set (t := if Nat.eqb _ _ then _ else s) in *. rewrite H2.
  destruct (Nat.ltb (q_used t) max_rows); [|exact I]. constructor; cbn [q_mat q_used q_sum q_count q_dim]; auto.
  - intros c r. destruct (_ && _)%bool; [|apply H1]. destruct (Nat.eqb c D); [|apply Hn]. unfold dotn. apply sum_left_fin. intros k. rewrite Hq, Hn. reflexivity.
  - intros c. rewrite H3, Hq. reflexivity.
  - rewrite H4. reflexivity.
Qed.
Lemma merge_fin : forall max_rows sX s dX d, fin_solver sX s -> fin_state dX d ->
  match merge AX (Fin tiny) D max_rows sX dX, merge arithR tiny D max_rows s d with
  | Ret sX', Ret s' => fin_solver sX' s' | UB, UB => True | _, _ => False end.
Proof.
  intros max_rows sX s dX d H [G1 G2 G3 G4]. unfold merge. rewrite (f_used _ _ H), (f_dim _ _ H), (f_count _ _ H), G3, G4.
  assert (Hs : forall c, x_add (q_sum sX c) (s_sum dX c) = Fin (q_sum s c + s_sum d c)) by (intros c; rewrite (f_sum _ _ H), G2; reflexivity).
  assert (Q : exists dim sumX sum count, fin_vec sumX sum /\
    (if (q_dim s <? s_dim d)%Z then (s_dim d, s_sum dX, s_count d) else if (s_dim d =? q_dim s)%Z then (q_dim s, fun c => x_add (q_sum sX c) (s_sum dX c), u32 (q_count s + s_count d)%Z) else (q_dim s, q_sum sX, q_count s)) = (dim, sumX, count) /\
    (if (q_dim s <? s_dim d)%Z then (s_dim d, s_sum d, s_count d) else if (s_dim d =? q_dim s)%Z then (q_dim s, fun c => q_sum s c + s_sum d c, u32 (q_count s + s_count d)%Z) else (q_dim s, q_sum s, q_count s)) = (dim, sum, count)).
  { destruct (q_dim s <? s_dim d)%Z; [|destruct (s_dim d =? q_dim s)%Z]; do 4 eexists; (split; [|split; reflexivity]); [exact G2 | exact Hs | apply H]. }
  destruct Q as (dim & sumX & sm & count & Q1 & Q2 & Q3). cbn [arithX arithR a_add]. rewrite Q2, Q3.
  assert (H' : fin_solver (if Nat.ltb (max_rows - S D) (q_used s) then compress AX (Fin tiny) D sX else sX) (if Nat.ltb (max_rows - S D) (q_used s) then compress arithR tiny D s else s)).
  { destruct (Nat.ltb (max_rows - S D) (q_used s)); [apply compress_fin|]; auto. }
  destruct H' as [H1 H2 H3 H4 H5]. set (tX := if Nat.ltb _ _ then _ else sX) in *. set (t := if Nat.ltb _ _ then _ else s) in *. rewrite H2.
  destruct (Nat.ltb (q_used t + D) max_rows); [|exact I]. constructor; cbn [q_mat q_used q_sum q_count q_dim]; auto.
  intros c r. unfold put_rows. destruct (_ && _)%bool; [|apply H1]. destruct (Nat.leb (r - q_used t) c); [apply G1 | reflexivity].
Qed.
Lemma state_fin : forall limit sX s, fin_solver sX s ->
  match state AX (Fin tiny) D limit sX, state arithR tiny D limit s with
  | Ret (dX, sX'), Ret (d, s') => fin_state dX d /\ fin_solver sX' s' | AssertFail, AssertFail => True | _, _ => False end.
Proof.
  intros limit sX s H. pose proof (compress_fin sX s H) as C. unfold state, oassert. cbn [obind]. cbn [compress q_count]. rewrite (f_count _ _ H).
  destruct (q_count s <? limit)%Z; cbn [obind]; [|exact I]. split; [|exact C].
  constructor; cbn [s_mat s_sum s_count s_dim q_mat q_sum q_dim compress].
  - intros c r. destruct (Nat.leb r c); [|reflexivity]. apply (f_mat _ _ C).
  - apply H.
  - reflexivity.
  - apply H.
Qed.

(* ---- solve ---- *)
Lemma mat_mul_fin : forall aX a bX b, fin_mat aX a -> fin_mat bX b -> fin_mat (mat_mul AX D aX bX) (mat_mul arithR D a b).
Proof. intros aX a bX b Ha Hb c r. unfold mat_mul. apply sum_left_fin. intros k. rewrite Ha, Hb. reflexivity. Qed.
Lemma mat_vec_fin : forall aX a vX v, fin_mat aX a -> fin_vec vX v -> fin_vec (mat_vec AX D aX vX) (mat_vec arithR D a v).
Proof. intros aX a vX v Ha Hv r. unfold mat_vec. apply sum_left_fin. intros k. rewrite Ha, Hv. reflexivity. Qed.

Lemma solve_with_fin : forall eigenX eigen pinv sX s, 0 < pinv -> q_count s <> 0%Z -> fin_solver sX s ->
  fin_vec (fst (eigenX (mat_mul AX D (transpose (q_mat sX)) (q_mat sX)))) (fst (eigen (mat_mul arithR D (transpose (q_mat s)) (q_mat s)))) ->
  fin_mat (snd (eigenX (mat_mul AX D (transpose (q_mat sX)) (q_mat sX)))) (snd (eigen (mat_mul arithR D (transpose (q_mat s)) (q_mat s)))) ->
  fin_vec (fst (solve_with AX D eigenX (Fin pinv) sX)) (fst (solve_with arithR D eigen pinv s)) /\
  snd (solve_with AX D eigenX (Fin pinv) sX) = snd (solve_with arithR D eigen pinv s).
Proof.
  intros eigenX eigen pinv sX s Hp Hc H He HE. unfold solve_with.
  set (MX := q_mat sX) in *. set (M := q_mat s) in *.
  assert (HM : fin_mat MX M) by apply H. assert (HT : fin_mat (transpose MX) (transpose M)) by (intros c r; apply HM).
  pose proof (mat_mul_fin _ _ _ _ HT HM) as HA. set (GX := mat_mul AX D (transpose MX) MX) in *. set (G := mat_mul arithR D (transpose M) M) in *.
  destruct (eigenX GX) as [eX EX]. destruct (eigen G) as [e E]. cbn [fst snd] in *.
  assert (LL : forall k, a_le AX (Fin pinv) (a_abs AX (eX k)) = a_le arithR pinv (a_abs arithR (e k))).
  { intros k. rewrite He. cbn [arithX arithR a_le a_abs x_abs]. apply x_le_fin. }
  split; [|f_equal; f_equal; apply filter_ext; intros k; apply LL].
  assert (HS : fin_mat (fun c r => if (Nat.eqb c r && a_le AX (Fin pinv) (a_abs AX (eX c)))%bool then a_div AX (a_ofZ AX 1) (eX c) else a_ofZ AX 0)
    (fun c r => if (Nat.eqb c r && a_le arithR pinv (a_abs arithR (e c)))%bool then a_div arithR (a_ofZ arithR 1) (e c) else a_ofZ arithR 0)).
  { intros c r. rewrite LL. destruct (Nat.eqb c r); cbn [andb]; [|reflexivity]. destruct (a_le arithR pinv _) eqn:Q; [|reflexivity].
    cbn [arithR a_le a_abs] in Q. apply Rleb_iff in Q. rewrite He. cbn [arithX a_div a_ofZ x_div].
    assert (e c <> 0) by (intros Z; rewrite Z, Rabs_R0 in Q; lra). rewrite (proj2 (Reqb_false (e c) 0)) by auto. reflexivity. }
  assert (HP : fin_vec (fun c => a_div AX (q_sum sX c) (a_ofZ AX (q_count sX))) (fun c => a_div arithR (q_sum s c) (a_ofZ arithR (q_count s)))).
  { intros c. rewrite (f_sum _ _ H), (f_count _ _ H). cbn [arithX a_div a_ofZ x_div]. rewrite (proj2 (Reqb_false (IZR (q_count s)) 0)); [reflexivity|]. apply not_0_IZR. exact Hc. }
  assert (HTE : fin_mat (transpose EX) (transpose E)) by (intros c r; apply HE).
  assert (HPI : fin_mat (mat_mul AX D (mat_mul AX D EX (fun c r => if (Nat.eqb c r && a_le AX (Fin pinv) (a_abs AX (eX c)))%bool then a_div AX (a_ofZ AX 1) (eX c) else a_ofZ AX 0)) (transpose EX))
    (mat_mul arithR D (mat_mul arithR D E (fun c r => if (Nat.eqb c r && a_le arithR pinv (a_abs arithR (e c)))%bool then a_div arithR (a_ofZ arithR 1) (e c) else a_ofZ arithR 0)) (transpose E))).
  { apply mat_mul_fin; [apply mat_mul_fin; [exact HE | exact HS] | exact HTE]. }
  intros c. cbn [fst].
  match goal with |- a_add AX (mat_vec AX D ?aX ?vX c) ?pX = _ => assert (W : fin_vec vX (fun c => a_sub arithR (mat_vec arithR D (transpose M) (fun c => M D c) c) (mat_vec arithR D G (fun c => a_div arithR (q_sum s c) (a_ofZ arithR (q_count s))) c))) end.
  { intros k. rewrite (mat_vec_fin _ _ (fun c => MX D c) (fun c => M D c) HT) by (intros j; apply HM). rewrite (mat_vec_fin _ _ _ _ HA HP). reflexivity. }
  rewrite (mat_vec_fin _ _ _ _ HPI W). rewrite HP. reflexivity.
Qed.

(* ---- histories with finite planes ---- *)
Lemma history_fin : forall hypot copysign msin mcos matan max_rows limit free sX LX k,
  history AX (Fin tiny) hypot copysign msin mcos matan D max_rows limit free sX LX k ->
  (forall l, In l LX -> exists q n, fin_vec (fst l) q /\ fin_vec (snd l) n) -> exists s, fin_solver sX s.
Proof.
  intros hypot copysign msin mcos matan max_rows limit free sX LX k H.
  induction H as [|s L k q n s' k1 H IH E C|s L k d s' k1 H IH E C|s L k s2 L2 k2 d s2' s' k1 k3 H IH H2 IH2 E C2 M C|s L k tune lo hi z s' k1 H IH E C]; intros F.
  - exists (q_new arithR). apply new_fin.
  - destruct IH as (t & Ht); [intros l Hl; apply F, in_or_app; auto|]. destruct (F (q, n)) as (q' & n' & Hq & Hn); [apply in_or_app; right; left; reflexivity|].
    pose proof (add_plane_fin max_rows s t q n q' n' Ht Hq Hn) as P. rewrite E in P. destruct (add_plane arithR tiny D max_rows t q' n') as [t'| | | |]; try contradiction. exists t'. exact P.
  - destruct IH as (t & Ht); [auto|]. pose proof (state_fin limit s t Ht) as P. rewrite E in P. destruct (state arithR tiny D limit t) as [[d' t']| | | |]; try contradiction. exists t'. apply P.
  - destruct IH as (t & Ht); [intros l Hl; apply F, in_or_app; auto|]. destruct IH2 as (t2 & Ht2); [intros l Hl; apply F, in_or_app; auto|].
    pose proof (state_fin limit s2 t2 Ht2) as P. rewrite E in P. destruct (state arithR tiny D limit t2) as [[d' t2']| | | |]; try contradiction. destruct P as [P _].
    pose proof (merge_fin max_rows s t d d' Ht P) as Q. rewrite M in Q. destruct (merge arithR tiny D max_rows t d') as [t'| | | |]; try contradiction. exists t'. exact Q.
  - destruct IH as (t & Ht); [auto|]. pose proof (compress_fin s t Ht) as [H1 H2 H3 H4 H5]. unfold solve in E. destruct (solve_with _ _ _ _ _) as [x dim] in E. injection E as _ <-.
    exists (Solver (q_mat (compress arithR tiny D t)) (q_used (compress arithR tiny D t)) (q_sum (compress arithR tiny D t)) (q_count (compress arithR tiny D t)) dim).
    constructor; cbn [q_mat q_used q_sum q_count q_dim]; auto.
Qed.
End Finite.
