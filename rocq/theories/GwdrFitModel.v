(** Model of GWDR::fitSerial (GWDR.cpp:207-255) over exact scalars; conventions of GwrModel.v.
    [Ws] are the elements of mSpatialWeights: [nth .. Ws m i] is mSpatialWeights[m].weightVector(i). *)
From mathcomp Require Import all_ssreflect all_algebra.
From Verif Require Import Outcome GwrModel.
Set Implicit Arguments. Unset Strict Implicit. Unset Printing Implicit Defensive.
Import GRing.Theory.
Local Open Scope ring_scope.

Section Gwdr.
Variables (F : realFieldType) (n p : nat).
Variable inv : 'M[F]_p -> option 'M[F]_p.

(** "%" *)
Definition schur (a b : nat) (A B : 'M[F]_(a, b)) : 'M[F]_(a, b) := \matrix_(i, j) (A i j * B i j).
(** 219-224 *)
Definition dims_weight (Ws : seq ('I_n -> 'cV[F]_n)) (i : 'I_n) : 'cV[F]_n :=
  foldl (fun w W => schur w (W i)) (const_mx 1) Ws.

Record gwdr_state := GState {
  g_betas : 'M[F]_(p, n); g_se : 'M[F]_(p, n); g_s1 : 'cV[F]_n; g_s2 : 'cV[F]_n;
  g_qdiag : 'cV[F]_n; g_S : nat -> 'rV[F]_n }.
Definition set_elem (v : 'cV[F]_n) (i : 'I_n) (a : F) : 'cV[F]_n := \col_j (if j == i then a else v j ord0).

(** 216-251 *)
Definition gwdr_step (storeS : bool) (x : 'M[F]_(n, p)) (y : 'cV[F]_n) (Ws : seq ('I_n -> 'cV[F]_n))
    (i : 'I_n) (st : gwdr_state) : outcome gwdr_state :=
  let w := dims_weight Ws i in
  let ws : 'rV[F]_p := const_mx 1 in
  let xtw := (schur x (w *m ws))^T in
  let xtwx := xtw *m x in
  let xtwy := x^T *m schur w y in
  match inv xtwx with
  | None => Throw
  | Some xtwx_inv =>
      let ci := xtwx_inv *m xtw in
      let si := row i x *m ci in
      let onei : 'rV[F]_n := \row_j (if j == i then 1 else 0) in
      let pv := (onei - si)^T in
      Ok (GState (set_col (g_betas st) i (xtwx_inv *m xtwy))
                 (set_col (g_se st) i (schur ci ci *m const_mx 1))
                 (set_elem (g_s1 st) i (si ord0 i))
                 (set_elem (g_s2 st) i (\det (si *m si^T)))
                 (g_qdiag st + schur pv pv)
                 (set_at (g_S st) (if storeS then nat_of_ord i else 0%N) si))
  end.

(** What fitSerial leaves: coefficients and standard errors (before the final transposition),
    shat = {sum(s_hat1), sum(s_hat2)}, qdiag, S. *)
Record gwdr_result := GRes { r_betas : 'M[F]_(p, n); r_se : 'M[F]_(p, n); r_shat : F * F;
  r_qdiag : 'cV[F]_n; r_S : nat -> 'rV[F]_n }.
Definition gwdr_finish (st : gwdr_state) : gwdr_result :=
  GRes (g_betas st) (g_se st) (\sum_i g_s1 st i ord0, \sum_i g_s2 st i ord0) (g_qdiag st) (g_S st).

Definition gwdr_fit storeS x y Ws stop : outcome (gwdr_result * bool) :=
  match loop (gwdr_step storeS x y Ws) stop (enum 'I_n) (GState 0 0 0 0 0 (fun _ => 0)) with
  | Ok (st, stopped) => Ok (gwdr_finish st, stopped)
  | Throw => Throw
  | UB => UB
  end.

(** ** bandwidthCriterionCVSerial (322-366): [None] is DBL_MAX.  [terminated] is mStatus before
    the call; an exception clears the flag and later iterations do nothing. *)
Definition gwdr_cv_step (x : 'M[F]_(n, p)) (y : 'cV[F]_n) Ws (i : 'I_n) (cv : F) : outcome F :=
  let w := set_elem (dims_weight Ws i) i 0 in
  let xtw := (\matrix_(j, a) (x j a * w j ord0))^T in
  match inv (xtw *m x) with
  | None => Throw
  | Some xtwx_inv =>
      let beta := xtwx_inv *m (xtw *m y) in
      let yhat := (row i x *m beta) ord0 ord0 in
      Ok (cv + (y i ord0 - yhat) * (y i ord0 - yhat))
  end.
Definition gwdr_cv x y Ws stop (terminated : bool) : option F :=
  match loop (gwdr_cv_step x y Ws) stop (enum 'I_n) 0 with
  | Ok (cv, stopped) => if terminated || stopped then None else Some cv
  | _ => None
  end.
End Gwdr.
