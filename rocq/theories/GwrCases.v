From mathcomp Require Import all_ssreflect all_algebra.
From Verif Require Import Outcome GwrModel GwrSpec GwrProofs.
Set Implicit Arguments. Unset Strict Implicit. Unset Printing Implicit Defensive.
Import Order.TTheory GRing.Theory Num.Theory.
Local Open Scope ring_scope.

Section T.
Variables (F : realFieldType) (n p : nat) (inv : 'M[F]_p -> option 'M[F]_p).
Lemma fit_total_stop storeS storeC lo hi (x : 'M[F]_(n, p)) y W stop :
  (forall i : 'I_n, inv (xtw x (W i) *m x) <> None) ->
  exists s b, fit_core inv storeS storeC lo hi x y W stop = Ok (s, b).
Proof.
move=> H; rewrite /fit_core.
elim: (range n lo hi) (fit0 F n p) => [|i t IH] s0 /=; first by exists s0, false.
case: (stop i); first by exists s0, true.
rewrite {1}/fit_step; case E: (inv _) => [B|]; last by case: (H i).
exact: IH.
Qed.
Lemma cv_total lo hi (x : 'M[F]_(n, p)) y (W : 'I_n -> 'cV[F]_n) :
  (forall i : 'I_n, inv (xtw x (zero_at i (W i)) *m x) <> None) ->
  exists b, cv_core inv lo hi x y W (fun _ => false) = Ok (b, false).
Proof.
move=> H; rewrite /cv_core.
elim: (range n lo hi) (0 : 'M[F]_(p, n)) => [|i t IH] s0 /=; first by exists s0.
rewrite {1}/cv_step; case E: (inv _) => [B|]; last by case: (H i).
exact: IH.
Qed.
End T.

(** Two observations, one regressor; each location weighs the other one half. *)
Definition ex_x : 'M[rat]_(2, 1) := \matrix_(i, _) (if i == ord0 then 1 else 2%:R).
Definition ex_y : 'cV[rat]_2 := \col_i (if i == ord0 then 1 else 3%:R).
Definition ex_W (i : 'I_2) : 'cV[rat]_2 := \col_j (if i == j then 1 else 2%:R^-1).

Lemma unit11 (a : 'M[rat]_1) : a ord0 ord0 != 0 -> exact_inv a <> None.
Proof. by move=> H; rewrite /exact_inv unitmxE det_mx11 unitfE H. Qed.

Lemma ex_inv (x : 'M[rat]_(2, 1)) (w : 'cV[rat]_2) :
  x ord0 ord0 ^+ 2 * w ord0 ord0 + x ord_max ord0 ^+ 2 * w ord_max ord0 != 0 ->
  exact_inv (xtw x w *m x) <> None.
Proof.
move=> H; apply: unit11; rewrite mxE !big_ord_recl big_ord0 !mxE addr0.
rewrite (_ : lift ord0 ord0 = ord_max); last by apply: val_inj.
by rewrite [x ord0 ord0 * _]mulrC [x ord_max ord0 * _]mulrC -!mulrA -!expr2
           [_ * x ord0 ord0 ^+ 2]mulrC [_ * x ord_max ord0 ^+ 2]mulrC.
Qed.

Lemma ex_ok i : exact_inv (xtw ex_x (ex_W i) *m ex_x) <> None.
Proof. by apply: ex_inv; rewrite !mxE; case: i => [[|[|]]]. Qed.
Lemma ex_W0 i j : 0 <= ex_W i j ord0.
Proof. by rewrite mxE; case: ifP. Qed.

Lemma ex_run storeS storeC lo hi y :
  exists s, fit_core (@exact_inv _ _) storeS storeC lo hi ex_x y ex_W (fun _ => false) = Ok (s, false).
Proof. apply: fit_total => i _; exact: ex_ok. Qed.

Lemma ex_cv lo hi y :
  exists b, cv_core (@exact_inv _ _) lo hi ex_x y ex_W (fun _ => false) = Ok (b, false).
Proof. by apply: cv_total => i; apply: ex_inv; rewrite !mxE; case: i => [[|[|]]]. Qed.

(** A half-computed result: stopped before the second location. *)
Lemma ex_half : exists s b,
  fit (@exact_inv _ 1) ex_x ex_y ex_W false (fun i => i == ord_max) Success = Ok (b, s) /\
  s = Terminated /\ b <> 0 /\ row ord_max b = 0.
Proof.
have [f [t E]] := fit_total_stop true false 0 2 ex_y (fun i => i == ord_max) ex_ok.
have Ef : fit (@exact_inv _ 1) ex_x ex_y ex_W false (fun i => i == ord_max) Success
  = Ok ((betas f)^T, if t then Terminated else Success) by rewrite /fit E.
have P := C52_partial_main (@exact_inv_contract _ _) Ef.
do 2 eexists; split; first exact: Ef.
split; first by apply: (C52_stop_main Ef); apply/existsP; exists ord_max.
split; last by have [_] := P ord_max; apply; exists ord_max.
move=> Z; have [H _] := P ord0.
have n0 (j : 'I_2) : (j <= 0)%N -> j != ord_max by case: j => [[|[|]]].
have [+ _] := H n0 (ex_W0 ord0) (const_mx 1).
rewrite Z (_ : row ord0 0 = 0) ?trmx0; last by apply/rowP => j; rewrite !mxE.
by rewrite /wrss !big_ord_recl !big_ord0 !mxE !big_ord_recl !big_ord0 !mxE.
Qed.

Lemma ex_run2 storeS storeC lo hi y :
  exists s, fit_core (@exact_inv _ _) storeS storeC lo hi (ex_x *m (2%:R)%:M) y ex_W (fun _ => false) = Ok (s, false).
Proof.
apply: fit_total => i _; apply: ex_inv.
by rewrite !mxE !big_ord1 !mxE; case: i => [[|[|]]].
Qed.

Lemma ex_run3 storeS storeC lo hi y :
  exists s, fit_core (@exact_inv _ _) storeS storeC lo hi ex_x y (fun i => 5%:R *: ex_W i) (fun _ => false) = Ok (s, false).
Proof. by apply: fit_total => i _; apply: ex_inv; rewrite !mxE; case: i => [[|[|]]]. Qed.

(** Equal weights. *)
Lemma ex_run4 storeS storeC lo hi y :
  exists s, fit_core (@exact_inv _ _) storeS storeC lo hi ex_x y (fun i => const_mx 3%:R) (fun _ => false) = Ok (s, false).
Proof. by apply: fit_total => i _; apply: ex_inv; rewrite !mxE; case: i => [[|[|]]]. Qed.

Lemma ex_two (A B : Type) (P : A -> Prop) (Q : B -> Prop) : (exists s, P s) -> (exists s, Q s) ->
  exists s s', P s /\ Q s'.
Proof. by move=> [s H] [s' H']; exists s, s'. Qed.
Lemma ex_two_unit : (2%:R%:M : 'M[rat]_1) \in unitmx.
Proof. by rewrite unitmxE det_mx11 !mxE. Qed.

(** At location 0 the second observation has weight zero. *)
Definition ex_V (i : 'I_2) : 'cV[rat]_2 := \col_j (if (i == ord0) && (j != ord0) then 0 else 1).
Definition ex_x' : 'M[rat]_(2, 1) := \matrix_(i, _) (if i == ord0 then 1 else 9%:R).
Lemma ex_zero : (exists j, ex_V ord0 j ord0 = 0) /\ exists s s',
  fit_core (@exact_inv _ 1) true false 0 2 ex_x ex_y ex_V (fun _ => false) = Ok (s, false) /\
  fit_core (@exact_inv _ 1) true false 0 2 ex_x' ex_y ex_V (fun _ => false) = Ok (s', false) /\
  (forall j, ex_V ord0 j ord0 <> 0 -> row j ex_x = row j ex_x' /\ ex_y j ord0 = ex_y j ord0) /\
  ex_x <> ex_x'.
Proof.
split; first by exists ord_max; rewrite mxE.
have [s E] : exists s, fit_core (@exact_inv _ 1) true false 0 2 ex_x ex_y ex_V (fun _ => false) = Ok (s, false).
  by apply: fit_total => i _; apply: ex_inv; rewrite !mxE; case: i => [[|[|]]].
have [s' E'] : exists s, fit_core (@exact_inv _ 1) true false 0 2 ex_x' ex_y ex_V (fun _ => false) = Ok (s, false).
  by apply: fit_total => i _; apply: ex_inv; rewrite !mxE; case: i => [[|[|]]].
exists s, s'; split=> //; split=> //; split.
- by move=> j; rewrite mxE => H; split=> //; apply/rowP => a; rewrite !mxE; move: H; case: (j == ord0).
- by move/matrixP/(_ ord_max ord0); rewrite !mxE.
Qed.

Lemma ex_fit_at : exists b,
  fit_at (@exact_inv _ 1) (fun a c : 'I_2 => a == c) (fun d => \col_j (if d j then 1 else 2%:R^-1))
    id ex_x ex_y false (fun _ => false) Success = Ok (b, Success).
Proof.
have [s E] := ex_run true false 0 2 ex_y.
by exists (betas s)^T; rewrite /fit_at /fit -/ex_W E.
Qed.

Lemma cv_value (F : realFieldType) n p (inv : 'M[F]_p -> option 'M[F]_p) (x : 'M[F]_(n, p)) y (W : 'I_n -> 'cV[F]_n) :
  (forall (i : 'I_n) (w : 'cV[F]_n), w i ord0 = 0 -> (forall j, j != i -> w j ord0 = W i j ord0) ->
     inv (x^T *m diag_mx w^T *m x) <> None) ->
  exists v, criterion_cv inv x y W (fun _ => false) false = Some v.
Proof.
move=> H. rewrite /criterion_cv.
have [|b ->] := @cv_total F n p inv 0 n x y W; last by eexists.
move=> i. rewrite xtwE. apply: (H i); first by rewrite mxE eqxx.
by move=> j /negbTE nj; rewrite mxE nj.
Qed.
Lemma ex_cv_value : exists v, criterion_cv (@exact_inv _ 1) ex_x ex_y ex_W (fun _ => false) false = Some v.
Proof. have [b E] := ex_cv 0 2 ex_y. by rewrite /criterion_cv E; eexists. Qed.
