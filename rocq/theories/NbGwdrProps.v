(** C174 and C175 for the regression with several dimensions (GWDR.cpp:207-255, 322-366). *)
From mathcomp Require Import all_ssreflect all_algebra.
From Verif Require Import Outcome GwrModel GwrSpec GwrCases GwdrFitModel LevCases LimCases LooGwdr NbGwdr.
Set Implicit Arguments. Unset Strict Implicit. Unset Printing Implicit Defensive.
Import GRing.Theory Num.Theory.
Local Open Scope ring_scope.

(** A neighbour has a weight other than zero in every dimension; each location needs as many as there are coefficients. *)
Theorem C174_dimensions : forall (F : realFieldType) (n p : nat) (inv : 'M[F]_p -> option 'M[F]_p) storeS (x : 'M[F]_(n, p)) (y : 'cV[F]_n)
    (Ws : seq ('I_n -> 'cV[F]_n)) r,
  inverse_contract inv -> gwdr_fit inv storeS x y Ws (fun _ => false) = Ok (r, false) ->
  forall i, (p <= #|[set j | all (fun W : 'I_n -> 'cV[F]_n => W i j ord0 != 0%R) Ws]|)%N.
Proof. exact dims_fit_neighbours. Qed.
Print Assumptions C174_dimensions.
(** Cross-validation leaves out the observation at the location; without enough others there is no score. *)
Theorem C174_dimensions_score : forall (F : realFieldType) (n p : nat) (inv : 'M[F]_p -> option 'M[F]_p) (x : 'M[F]_(n, p)) (y : 'cV[F]_n)
    (Ws : seq ('I_n -> 'cV[F]_n)) t (i : 'I_n),
  inverse_contract inv -> (#|[set j | (j != i) && all (fun W : 'I_n -> 'cV[F]_n => W i j ord0 != 0%R) Ws]| < p)%N ->
  gwdr_cv inv x y Ws (fun _ => false) t = None.
Proof. exact dims_cv_neighbours. Qed.
Print Assumptions C174_dimensions_score.
(** A fit of two dimensions; and one observation only, which leaves no other. *)
Example C174_dimensions_case :
  (exists r, gwdr_fit (@exact_inv _ 1) true ex_x ex_y [:: ex_W; ex_W] (fun _ => false) = Ok (r, false)) /\
  (#|[set j : 'I_1 | (j != ord0) && all (fun W : 'I_1 -> 'cV[rat]_1 => W ord0 j ord0 != 0%R) [:: fun _ => const_mx (1%R : rat)]]| < 1)%N.
Proof. exact dims_neighbours_case. Qed.

(** As the weights of [k] dimensions approach 1 the coefficients at every location approach those [b] of the global regression. *)
Theorem C175_dimensions : forall (F : realFieldType) (n p : nat) k storeS (x : 'M[F]_(n, p)) (y : 'cV[F]_n) (b : 'cV[F]_p) (e : F),
  (forall v : 'cV[F]_p, x *m v = 0 -> v = 0) -> x^T *m (y - x *m b) = 0 -> 0 < e ->
  exists2 d, 0 < d & forall Ws : seq ('I_n -> 'cV[F]_n), size Ws = k ->
    (forall W i j, List.In W Ws -> `|W i j ord0 - 1| <= d) ->
    exists r, gwdr_fit (@exact_inv F p) storeS x y Ws (fun _ => false) = Ok (r, false) /\
      forall (i : 'I_n) a, `|r_betas r a i - b a ord0| <= e.
Proof. exact dims_limit. Qed.
Print Assumptions C175_dimensions.
Example C175_dimensions_case : (forall v : 'cV[rat]_1, one_x _ 4 *m v = 0 -> v = 0) /\
  (one_x [realFieldType of rat] 4)^T *m (\col_j j%:R - one_x [realFieldType of rat] 4 *m const_mx (3%:R / 2%:R)) = 0.
Proof. exact (conj mean_independent mean_case). Qed.
