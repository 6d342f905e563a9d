(** C174: a local fit needs enough neighbours (GWRBasic.cpp:209-233, 246-316, 348-371; BandwidthWeight.h:92-121). *)
From Coq Require Import Reals.
From Coq Require List.
From mathcomp Require Import all_ssreflect all_algebra.
From Verif Require Import Outcome XReal KernelModel KernelSpec GwrModel GwrSpec GwrProofs GwrCases NbMain NbKern NbLink.
Set Implicit Arguments. Unset Strict Implicit. Unset Printing Implicit Defensive.
Import GRing.Theory.
Local Open Scope ring_scope.

(** Each location fitted has at least as many observations of non-zero weight as there are columns. *)
Theorem C174_fit : forall (F : realFieldType) n p (inv : 'M[F]_p -> option 'M[F]_p) storeS storeC lo hi
    (x : 'M[F]_(n, p)) y (W : 'I_n -> 'cV[F]_n) s,
  inverse_contract inv -> fit_core inv storeS storeC lo hi x y W (fun _ => false) = Ok (s, false) ->
  forall i : 'I_n, (lo <= i < hi)%N -> (p <= #|[set j | W i j ord0 != 0%R]|)%N.
Proof. exact (fun F n p inv storeS storeC lo hi x y W s c => @fit_neighbours F n p inv c storeS storeC lo hi x y W s). Qed.
Print Assumptions C174_fit.
Example C174_fit_case : exists s,
  fit_core (@exact_inv _ 1) true true 0 2 (const_mx 1) (\col_j j%:R) pair_W (fun _ => false) = Ok (s, false).
Proof. exact pair_fit. Qed.

(** The same at the locations of a prediction. *)
Theorem C174_predict : forall (F : realFieldType) n p m (inv : 'M[F]_p -> option 'M[F]_p) (x : 'M[F]_(n, p)) y
    (Wl : 'I_m -> 'cV[F]_n) b,
  inverse_contract inv -> predict_core inv x y Wl (fun _ => false) = Ok (b, false) ->
  forall i, (p <= #|[set j | Wl i j ord0 != 0%R]|)%N.
Proof. exact predict_neighbours. Qed.
Print Assumptions C174_predict.
Example C174_predict_case : exists b,
  predict_core (@exact_inv _ 1) (const_mx 1) (\col_j j%:R) pair_W (fun _ => false) = Ok (b, false).
Proof. exact pair_predict. Qed.

(** Cross-validation leaves out the observation at the location: the others must be enough, and otherwise the score is the largest
    double (None). *)
Theorem C174_cross_validation : forall (F : realFieldType) n p (inv : 'M[F]_p -> option 'M[F]_p)
    (x : 'M[F]_(n, p)) y (W : 'I_n -> 'cV[F]_n), inverse_contract inv ->
  (forall lo hi b, cv_core inv lo hi x y W (fun _ => false) = Ok (b, false) ->
     forall i : 'I_n, (lo <= i < hi)%N -> (p <= #|[set j | (j != i) && (W i j ord0 != 0%R)]|)%N) /\
  (forall terminated (i : 'I_n), (#|[set j | (j != i) && (W i j ord0 != 0%R)]| < p)%N ->
     criterion_cv inv x y W (fun _ => false) terminated = None).
Proof. exact cross_validation_main. Qed.
Print Assumptions C174_cross_validation.
Example C174_cross_validation_case :
  (exists b, cv_core (@exact_inv _ 1) 0 2 (const_mx 1) (\col_j j%:R) (fun _ : 'I_2 => const_mx (1 : rat)) (fun _ => false) = Ok (b, false)) /\
  (forall i, (#|[set j | (j != i) && (pair_W i j ord0 != 0%R)]| < 1)%N).
Proof. exact pair_cv. Qed.

(** So a fit with p columns needs a bandwidth of p + 1 neighbours, whatever the data: the weights of the fit are zero where those of
    the bandwidth are. *)
Theorem C174_bandwidth : forall (F : realFieldType) n p (inv : 'M[F]_p -> option 'M[F]_p) k xb m
    (xs : 'I_n -> list xd) (ds rs : 'I_n -> list R) (x : 'M[F]_(n, p)) y (W : 'I_n -> 'cV[F]_n),
  inverse_contract inv -> compact k = true -> xval xb = Some (INR m) -> (m <= n)%N ->
  (forall i, xvals (xs i) (ds i)) -> (forall i, List.length (ds i) = n) -> (forall i, nonneg (ds i)) ->
  (forall i, usable true (INR m) (ds i)) -> (forall i, returns_values (bw_weight k true xb (xs i)) (rs i)) ->
  (forall i j : 'I_n, W i j ord0 = 0 <-> List.nth j (rs i) (IZR 0) = IZR 0) ->
  (forall storeS storeC lo hi s (i : 'I_n), (lo <= i < hi)%N ->
     fit_core inv storeS storeC lo hi x y W (fun _ => false) = Ok (s, false) -> (p < m)%N) /\
  (forall i : 'I_n, List.nth i (ds i) (IZR 0) = IZR 0 ->
     (forall lo hi b, (lo <= i < hi)%N -> cv_core inv lo hi x y W (fun _ => false) = Ok (b, false) -> (p + 1 < m)%N) /\
     (forall terminated, (m <= p + 1)%N -> criterion_cv inv x y W (fun _ => false) terminated = None)).
Proof. exact bandwidth_main. Qed.
Print Assumptions C174_bandwidth.
(** Two observations and two neighbours: enough for a constant, not enough for its cross-validation. *)
Example C174_bandwidth_case :
  [/\ forall i, usable true (INR 2) (pair_ds i), forall i, nonneg (pair_ds i),
      forall i, returns_values (bw_weight Boxcar true (XF (INR 2)) (List.map XF (pair_ds i))) (pair_rs i),
      forall i j : 'I_2, pair_W i j ord0 = 0 <-> List.nth j (pair_rs i) (IZR 0) = IZR 0 &
      forall i : 'I_2, List.nth i (pair_ds i) (IZR 0) = IZR 0].
Proof. exact pair_config. Qed.
