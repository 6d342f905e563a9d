(** Model of the local weighted regressions of basic GWR (and, with other weights, of
    GTWR).
    Source: GWRBasic.cpp:209-244 (predictSerial, fitBase), 246-289 (fitCoreSerial), 291-318
    (fitCoreCVSerial), 320-351 (fitCoreSHatSerial); GTWR.cpp:116-180, 182-254 contain the
    same statements.
    Scalars are elements of an arbitrary ordered field, so there is no rounding.
    [inv] stands for arma::inv_sympd: [None] is the exception it throws.
    [W i] is the vector mSpatialWeight.weightVector(i).
    [stop i] is the answer of the telegram asked before iteration i. *)
From mathcomp Require Import all_ssreflect all_algebra.
From Verif Require Import Outcome.
Set Implicit Arguments. Unset Strict Implicit. Unset Printing Implicit Defensive.
Import GRing.Theory.
Local Open Scope ring_scope.

Section Gwr.
Variables (F : realFieldType) (n p : nat).
Variable inv : 'M[F]_p -> option 'M[F]_p.

(** "trans(x.each_col() % w)" *)
Definition xtw (x : 'M[F]_(n, p)) (w : 'cV[F]_n) : 'M[F]_(p, n) :=
  \matrix_(a, j) (x j a * w j ord0).

(** "m.col(i) = v" *)
Definition set_col (m : nat) (M : 'M[F]_(p, m)) (i : 'I_m) (v : 'cV[F]_p) : 'M[F]_(p, m) :=
  \matrix_(a, b) if b == i then v a ord0 else M a b.
(** "m.row(k) = v", rows numbered from 0 *)
Definition set_at (T : Type) (S : nat -> T) (k : nat) (v : T) : nat -> T :=
  fun j => if j == k then v else S j.

(** Loop bounds: workRange = [lo, hi), by default [0, n). *)
Definition range (lo hi : nat) : seq 'I_n := [seq i <- enum 'I_n | (lo <= nat_of_ord i < hi)%N].

(** ** fitCoreSerial (246-289) *)
Record fitted_model := Fit {
  betas : 'M[F]_(p, n);          (* before the final transposition *)
  se2 : 'M[F]_(p, n);            (* mBetasSE before fitBase scales it *)
  shat0 : F; shat1 : F;          (* mSHat *)
  qdiag : 'cV[F]_n;              (* mQDiag *)
  rowS : nat -> 'rV[F]_n;        (* mS *)
  sliceC : nat -> 'M[F]_(p, n)   (* mC *)
}.
(** mS of a full run with rows stored, as an n x n matrix *)
Definition stored (s : fitted_model) : 'M[F]_n := \matrix_(i, j) rowS s i ord0 j.
Definition fit0 : fitted_model := Fit 0 0 0 0 0 (fun _ => 0) (fun _ => 0).

Definition fit_step (storeS storeC : bool) (lo : nat) (x : 'M[F]_(n, p)) (y : 'cV[F]_n)
    (W : 'I_n -> 'cV[F]_n) (i : 'I_n) (st : fitted_model) : outcome fitted_model :=
  let xtwi := xtw x (W i) in
  let xtwy := xtwi *m y in
  match inv (xtwi *m x) with
  | None => Throw
  | Some xtwx_inv =>
      let ci := xtwx_inv *m xtwi in
      let si := row i x *m ci in
      let pv := - si^T + \col_j (if j == i then 1 else 0) in
      Ok (Fit (set_col (betas st) i (xtwx_inv *m xtwy))
              (set_col (se2 st) i (\col_a \sum_j ci a j * ci a j))
              (shat0 st + si ord0 i)
              (shat1 st + \det (si *m si^T))
              (qdiag st + \col_j (pv j ord0 * pv j ord0))
              (set_at (rowS st) (if storeS then (i - lo)%N else 0%N) si)
              (set_at (sliceC st) (if storeC then (i - lo)%N else 0%N) ci))
  end.

(** Result of a loop: the state and whether the telegram stopped it. *)
Fixpoint loop (S : Type) (step : 'I_n -> S -> outcome S) (stop : 'I_n -> bool)
    (idx : seq 'I_n) (st : S) : outcome (S * bool) :=
  match idx with
  | [::] => Ok (st, false)
  | i :: t => if stop i then Ok (st, true)
              else match step i st with
                   | Ok st' => loop step stop t st'
                   | Throw => Throw
                   | UB => UB
                   end
  end.

Definition fit_core storeS storeC lo hi x y W stop : outcome (fitted_model * bool) :=
  loop (fit_step storeS storeC lo x y W) stop (range lo hi) fit0.

(** ** fitCoreCVSerial (291-318): the weight of the location itself is zeroed. *)
Definition zero_at (i : 'I_n) (w : 'cV[F]_n) : 'cV[F]_n :=
  \col_j (if j == i then 0 else w j ord0).
Definition cv_step (x : 'M[F]_(n, p)) (y : 'cV[F]_n) (W : 'I_n -> 'cV[F]_n) (i : 'I_n)
    (b : 'M[F]_(p, n)) : outcome 'M[F]_(p, n) :=
  let xtwi := xtw x (zero_at i (W i)) in
  match inv (xtwi *m x) with
  | None => Throw
  | Some xtwx_inv => Ok (set_col b i (xtwx_inv *m (xtwi *m y)))
  end.
Definition cv_core lo hi x y W stop : outcome ('M[F]_(p, n) * bool) :=
  loop (cv_step x y W) stop (range lo hi) 0.

(** ** fitCoreSHatSerial (320-351) *)
Definition shat_step (x : 'M[F]_(n, p)) (y : 'cV[F]_n) (W : 'I_n -> 'cV[F]_n) (i : 'I_n)
    (st : 'M[F]_(p, n) * F * F) : outcome ('M[F]_(p, n) * F * F) :=
  let xtwi := xtw x (W i) in
  match inv (xtwi *m x) with
  | None => Throw
  | Some xtwx_inv =>
      let ci := xtwx_inv *m xtwi in
      let si := row i x *m ci in
      Ok (set_col st.1.1 i (xtwx_inv *m (xtwi *m y)), st.1.2 + si ord0 i, st.2 + \det (si *m si^T))
  end.
Definition shat_core lo hi x y W stop : outcome ('M[F]_(p, n) * F * F * bool) :=
  loop (shat_step x y W) stop (range lo hi) (0, 0, 0).

(** GWRBase.h:41-44, Fitted: row sums of x % betas (betas after transposition). *)
Definition Fitted (x : 'M[F]_(n, p)) (b : 'M[F]_(p, n)) : 'cV[F]_n :=
  \col_i \sum_a x i a * b a i.
(** GWRBase.h:64-70, RSS *)
Definition RSS (x : 'M[F]_(n, p)) (y : 'cV[F]_n) (b : 'M[F]_(p, n)) : F :=
  \sum_i ((y - Fitted x b) i ord0) ^+ 2.

(** ** bandwidthSizeCriterionCV (353-376): DBL_MAX is [None]; isfinite holds for exact
    scalars; [terminated] is mStatus before the call. *)
Definition criterion_cv x y W stop (terminated : bool) : option F :=
  match cv_core 0 n x y W stop with
  | Ok (b, stopped) => if terminated || stopped then None else Some (RSS x y b)
  | _ => None
  end.
End Gwr.

(** ** predictSerial (209-233): [Wl i] is the weight vector of prediction location i. *)
Section Predict.
Variables (F : realFieldType) (n p m : nat).
Variable inv : 'M[F]_p -> option 'M[F]_p.
Definition predict_step (x : 'M[F]_(n, p)) (y : 'cV[F]_n) (Wl : 'I_m -> 'cV[F]_n) (i : 'I_m)
    (b : 'M[F]_(p, m)) : outcome 'M[F]_(p, m) :=
  let xtwi := xtw x (Wl i) in
  match inv (xtwi *m x) with
  | None => Throw
  | Some xtwx_inv => Ok (set_col b i (xtwx_inv *m (xtwi *m y)))
  end.
Definition predict_core x y Wl stop : outcome ('M[F]_(p, m) * bool) :=
  loop (predict_step x y Wl) stop (enum 'I_m) 0.
End Predict.

(** ** fit and predict (62-170, 172-197) without the selection stages: the telegram is
    asked after the initialisation ([stop0]), at every iteration and, in predict only,
    after the loop ([stop1]).  The returned coefficients are one row per location.
    fitBase (235-244) goes on with whatever the loop left. *)
Section Run.
Variables (F : realFieldType) (n p : nat).
Variable inv : 'M[F]_p -> option 'M[F]_p.
Inductive status := Success | Terminated.
Definition fit (x : 'M[F]_(n, p)) (y : 'cV[F]_n) W (stop0 : bool) (stop : 'I_n -> bool) (st : status)
  : outcome ('M[F]_(n, p) * status) :=
  if stop0 then Ok (0, Terminated)
  else match fit_core inv true false 0 n x y W stop with
       | Ok (f, stopped) => Ok ((betas f)^T, if stopped then Terminated else st)
       | Throw => Throw
       | UB => UB
       end.
(** predict returns a matrix of n (not m) rows when it is stopped. *)
Definition predict (m : nat) (x : 'M[F]_(n, p)) (y : 'cV[F]_n) (Wl : 'I_m -> 'cV[F]_n)
    (stop0 : bool) (stop : 'I_m -> bool) (stop1 : bool) (st : status)
  : outcome (('M[F]_(m, p) + 'M[F]_(n, p)) * status) :=
  if stop0 then Ok (inr 0, Terminated)
  else match predict_core inv x y Wl stop with
       | Ok (b, stopped) =>
           if stop1 then Ok (inr 0, Terminated)
           else Ok (inl b^T, if stopped then Terminated else st)
       | Throw => Throw
       | UB => UB
       end.
End Run.

(** ** Where the weights come from: weightVector(i) is the weight functor applied to the
    distances from focus point i to all data points.  createDistanceParameter
    (SpatialMonoscaleAlgorithm.cpp:5-12) makes the data points the focus points,
    createPredictionDistanceParameter (GWRBasic.cpp:200-207) the given locations; both only
    for CRS and Minkowski distances, the only ones covered here. *)
Section Located.
Variables (F : realFieldType) (n p : nat).
Variable inv : 'M[F]_p -> option 'M[F]_p.
Variables (L D : Type) (dist : L -> L -> D) (weight : ('I_n -> D) -> 'cV[F]_n).
Definition weight_vector (m : nat) (focus : 'I_m -> L) (data : 'I_n -> L) (i : 'I_m) : 'cV[F]_n :=
  weight (fun j => dist (focus i) (data j)).
Definition fit_at (coords : 'I_n -> L) x y stop0 stop st :=
  fit inv x y (weight_vector coords coords) stop0 stop st.
Definition predict_at (m : nat) (coords : 'I_n -> L) (locations : 'I_m -> L) x y stop0 stop stop1 st :=
  predict inv x y (weight_vector locations coords) stop0 stop stop1 st.
End Located.
