From mathcomp Require Import all_ssreflect all_algebra.
From Verif Require Import Outcome GwrModel GwrSpec GwrProofs GwrCases RidgeFitCases ScaModel ScaSpec ScaProofs.
Set Implicit Arguments. Unset Strict Implicit. Unset Printing Implicit Defensive.
Import Order.TTheory GRing.Theory Num.Theory.
Local Open Scope ring_scope.

(** Kernel value one everywhere, every observation its own only neighbour. *)
Definition gp1 : nat -> rat -> rat := fun _ g => `|g|.
Lemma gp1_0 p g : 0 <= gp1 p g. Proof. exact: normr_ge0. Qed.
Definition own n (i : 'I_n) : seq ('I_n * rat) := [:: (i, 1)].

Lemma own_weight n P (b : rat) (i j : 'I_n) : 0 < b -> sca_weight P gp1 b 0 (own i) j ord0 = (i == j)%:R.
Proof.
move=> b0. rewrite mxE add0r big_mkcond big_seq1 /=. case: eqP => // _.
rewrite -[RHS](share_sum P b0). apply: eq_bigr => p _. case: (_ == _); by rewrite /gp1 ?normr1 mulr1.
Qed.
Lemma own_x n P b (x : 'M[rat]_(n, 1)) (i : 'I_n) : 0 < b ->
  xtw x (sca_weight P gp1 b 0 (own i)) *m x = (x i ord0 ^+ 2)%:M.
Proof.
move=> b0. apply/matrixP => c d. rewrite !ord1 !mxE (bigD1 i) //= big1 ?addr0.
  by rewrite xtw_entry own_weight // eqxx mulr1 mulr1n expr2.
by move=> j ne; rewrite xtw_entry own_weight // eq_sym (negbTE ne) mulr0 mul0r.
Qed.
Lemma own_y n P b (x : 'M[rat]_(n, 1)) (y : 'cV[rat]_n) (i : 'I_n) : 0 < b ->
  xtw x (sca_weight P gp1 b 0 (own i)) *m y = (x i ord0 * y i ord0)%:M.
Proof.
move=> b0. apply/matrixP => c d. rewrite !ord1 !mxE (bigD1 i) //= big1 ?addr0.
  by rewrite xtw_entry own_weight // eqxx mulr1 mulr1n.
by move=> j ne; rewrite xtw_entry own_weight // eq_sym (negbTE ne) mulr0 mul0r.
Qed.
Lemma own_inv n P b (x : 'M[rat]_(n, 1)) (i : 'I_n) : 0 < b -> x i ord0 != 0 ->
  let m := xtw x (sca_weight P gp1 b 0 (own i)) *m x in exact_inv (m^T *m m) = Some ((x i ord0 ^+ 4)^-1%:M).
Proof.
move=> b0 x0 m. rewrite /m own_x //. apply: exact_inv_eq.
by rewrite tr_scalar_mx -!scalar_mxM -exprD mulVf // expf_neq0.
Qed.

Lemma ex_x0 i : ex_x i ord0 != 0.
Proof. by rewrite mxE; case: ifP. Qed.

(** Every observation is fitted exactly, so the hat matrix is the identity; the reported trace is
    1 + 1/4. *)
Lemma ex_trace P : exists r, sca_fit P (@exact_inv _ 1) gp1 ex_x ex_y 1 0 (@own 2) = Ok (Some r) /\
  r.2 = 5%:R / 4%:R /\ (forall y r', sca_fit P (@exact_inv _ 1) gp1 ex_x y 1 0 (@own 2) = Ok (Some r') ->
    \col_i (ex_x *m r'.1 i) i ord0 = 1%:M *m y).
Proof.
have [r [E [H1 H2]]] := fit_main P (@exact_inv _ 1) gp1 ex_x ex_y 0 (@own 2) (ltr01 : 0 < 1).
exists r. split=> //. split.
  rewrite H2 !big_ord_recl big_ord0; cbv zeta; rewrite !own_inv ?ex_x0 // !mxE !big_ord_recl !big_ord0 !mxE !big_ord_recl !big_ord0 !mxE.
  by apply/eqP; vm_compute.
move=> y r' E'. rewrite mul1mx. apply/colP => i. rewrite mxE.
have [r2 [E2 [K1 _]]] := fit_main P (@exact_inv _ 1) gp1 ex_x y 0 (@own 2) (ltr01 : 0 < 1).
rewrite E' in E2. case: E2 => ->. rewrite K1; cbv zeta; rewrite own_inv ?ex_x0 // own_x // own_y // tr_scalar_mx -!scalar_mxM mxE big_ord_recl big_ord0 addr0.
rewrite [X in _ * X]mxE mulr1n. move: (ex_x0 i). move: (ex_x i ord0) => a a0.
transitivity ((a ^+ 4)^-1 * a ^+ 4 * y i ord0); last by rewrite mulVf ?mul1r // expf_neq0.
move: ((a ^+ 4)^-1) => q. by rewrite !exprS expr0 !mulr1 -!mulrA [LHS]mulrCA.
Qed.

Lemma ex_fit P : exists r, sca_fit P (@exact_inv _ 1) gp1 ex_x ex_y 1 0 (@own 2) = Ok (Some r) /\
  (forall i, let w := sca_weight P gp1 1 0 (own i) in exact_inv ((xtw ex_x w *m ex_x)^T *m (xtw ex_x w *m ex_x)) <> None).
Proof.
have [r [E _]] := ex_trace P. exists r. split=> // i; cbv zeta. by rewrite own_inv ?ex_x0.
Qed.
Lemma ex_pred P : exists beta, sca_predict P (@exact_inv _ 1) gp1 ex_x ex_y 1 0 (own (ord0 : 'I_2)) = Ok (Some beta).
Proof.
have [//|[_]] := predict_no_ub P (@exact_inv _ 1) gp1 ex_x ex_y 0 (own (ord0 : 'I_2)) (ltr01 : 0 < 1).
cbv zeta; by rewrite own_inv ?ex_x0.
Qed.

(** Two equal regressors, one observation of one: the fit reports success with coefficients zero. *)
Definition one2 : 'M[rat]_(1, 2) := const_mx 1.
Lemma ex_fail P : exists r, sca_fit P (@exact_inv _ 2) gp1 one2 (const_mx 1) 1 0 (@own 1) = Ok (Some r) /\
  r.1 ord0 = 0 /\ wrss one2 (const_mx 1) (sca_weight P gp1 1 0 (own ord0)) (r.1 ord0) = 1 /\
  wrss one2 (const_mx 1) (sca_weight P gp1 1 0 (own ord0)) (const_mx (2%:R^-1)) = 0.
Proof.
have [r [E [H1 _]]] := fit_main P (@exact_inv _ 2) gp1 one2 (const_mx 1) 0 (@own 1) (ltr01 : 0 < 1).
exists r. split=> //.
have Z : r.1 ord0 = 0.
  rewrite H1; cbv zeta. case EI: (exact_inv _) => [B|] //. exfalso.
  have := exact_inv_contract EI. move/(congr1 (fun M => M *m (\col_(i < 2) (if i == ord0 then 1 else -1)))).
  rewrite mul1mx -!mulmxA.
  have -> : one2 *m (\col_(i < 2) (if i == ord0 then 1 else -1)) = 0.
    by apply/matrixP => i j; rewrite !mxE !big_ord_recl big_ord0 !mxE; apply/eqP; vm_compute.
  rewrite !mulmx0 => /colP /(_ ord0). by rewrite !mxE.
split=> //. split.
  by rewrite Z /wrss big_ord_recl big_ord0 own_weight // eqxx mulmx0 !mxE; apply/eqP; vm_compute.
rewrite /wrss big_ord_recl big_ord0 own_weight // eqxx mxE mxE !big_ord_recl big_ord0 !mxE. by apply/eqP; vm_compute.
Qed.

Definition exact_solve (A : 'M[rat]_1) (c : 'cV[rat]_1) : option 'cV[rat]_1 :=
  if A \in unitmx then Some (invmx A *m c) else None.
Lemma exact_solve_ok A c z : exact_solve A c = Some z -> A *m z = c /\ A \in unitmx.
Proof. rewrite /exact_solve. case: ifP => // U [<-]. by rewrite mulmxA mulmxV // mul1mx. Qed.
Lemma ex_loocv P : exists v, loocv P gp1 exact_solve ex_x ex_y 1 0 (@own 2) = Ok (Some v).
Proof.
rewrite /loocv. have [R0 E] := poly_weights_some P (ltr01 : 0 < (1 : rat)). rewrite E.
have L (i : 'I_2) : exists z, exact_solve (xtw ex_x (sca_weight P gp1 1 0 (own i)) *m ex_x) (xtw ex_x (sca_weight P gp1 1 0 (own i)) *m ex_y) = Some z.
  rewrite /exact_solve unitmxE det_mx11 unitfE own_x // mxE mulr1n expf_neq0 ?ex_x0 //. by eexists.
set f := (X in for_ _ X _).
suff: forall s acc, exists v, for_ s f (Some acc) = Ok (Some v) by apply.
elim => [|i s IH] acc; cbn [for_]; first by eexists.
rewrite {1}/f (local_sums_ok gp1 ex_x ex_y 0 (own i) E). have [z ->] := L i. exact: IH.
Qed.
