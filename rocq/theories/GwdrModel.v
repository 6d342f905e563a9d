(** Geographically weighted density regression: weights, bandwidth optimisation, prediction.
    /repo/src/gwmodelpp/GWDR.cpp, /repo/include/gwmodelpp/GWDR.h. *)
From Coq Require Import Reals Bool List ZArith.
From Verif Require Import Outcome XReal KernelModel DistModel.
Import ListNotations.
Local Open Scope R_scope.

(** One element of mSpatialWeights with its column of mCoords: a OneDimDistance and a
    BandwidthWeight. *)
Record gdim : Type := mkDim { g_kernel : kernel; g_adaptive : bool; g_bw : xd; g_col : list R }.

(** makeParameter({coords.col(m), coords.col(m)}) (GWDR.cpp 39-42) followed by
    sw.weightVector(i). *)
Definition dim_weight (m : gdim) (i : nat) : outcome (list xd) :=
  let* d := onedim_distance (fst (onedim_makeParameter onedim_new [PVec (g_col m); PVec (g_col m)])) i in
  bw_weight (g_kernel m) (g_adaptive m) (g_bw m) d.

(** "for (auto&& sw : mSpatialWeights) w = w % sw.weightVector(i)": GWDR.cpp 117-121, 137-142,
    219-224, 332-338, 431-437, 568-573 (the criteria apply the BandwidthWeight to the same
    distances).  Vectors of different lengths throw. *)
Fixpoint times (ms : list gdim) (i : nat) (w : list xd) : outcome (list xd) :=
  match ms with
  | [] => Ok w
  | m :: t => let* wm := dim_weight m i in let* w' := vzip xmul w wm in times t i w'
  end.
Definition gwdr_weight (n : nat) (ms : list gdim) (i : nat) : outcome (list xd) :=
  times ms i (repeat (XF 1) n).

(** ** Bandwidth optimisation (GWDR.cpp 67-97, 765-839).  Finite bandwidths as reals. *)

(** GWDR.cpp 74-79: start value. *)
Definition start_bandwidth (lower upper b : R) : R :=
  if Rleb b lower || Rleb upper b then upper * (618 / 1000) else b.

(** GWDR.cpp 787. *)
Definition target (n : nat) (m : bool * R) : R :=
  if fst m then snd m / INR n else snd m.
(** GWDR.cpp 771-775: the bandwidths evaluated for a point of the minimiser. *)
Definition evaluated (n : nat) (x : list R) : list R := map (fun t => Rabs t * INR n) x.
(** std::round of a non-negative number. *)
Definition round_half_up (r : R) : R := IZR (Int_part (r + / 2)).
(** GWDR.cpp 828-833. *)
Definition final (n : nat) (x : list R) : list R := map (fun t => round_half_up (Rabs t * INR n)) x.

(** The GSL minimiser, seen from outside.  Call 0 is gsl_multimin_fminimizer_set, call k >= 1 the
    k-th gsl_multimin_fminimizer_iterate: the points at which the call evaluates the function,
    its status (0 is GSL_SUCCESS), minimizer->x after it, the answer of the size test after it
    (0, GSL_CONTINUE = -2, or an error) and whether GWDR has been told to stop by then.  All
    arbitrary: later points may depend on the criterion values. *)
Record gsl : Type := mkGsl {
  g_points : nat -> list (list R); g_status : nat -> Z; g_x : nat -> list R;
  g_test : nat -> Z; g_stopped : nat -> bool }.

(** GWDR.cpp 798-817: status and number of calls of iterate; None if [fuel] does not suffice
    (which does not happen, C100). *)
Fixpoint opt_loop (fuel : nat) (g : gsl) (maxIter iter : nat) : option (Z * nat) :=
  match fuel with
  | O => None
  | S f =>
      let k := S iter in
      if negb (Z.eqb (g_status g k) 0) && g_stopped g k then Some (g_status g k, k)
      else if Z.eqb (g_test g k) (-2) && Nat.ltb k maxIter then opt_loop f g maxIter k
      else Some (g_test g k, k)
  end.

(** Outcome of optimize: return code, new bandwidths, and a ghost list of the evaluated bandwidths. *)
Record optimised : Type := mkOpt { o_code : Z; o_bws : list R; o_log : list (list R) }.

Definition calls (g : gsl) (k : nat) : list (list R) := concat (map (g_points g) (seq 0 (S k))).

(** GWDR.cpp 779-839; [ms]: adaptive flags and bandwidths.  If the setup fails the bandwidths are
    those of the last evaluation (the criterion function sets them). *)
Definition optimize (g : gsl) (n maxIter : nat) (ms : list (bool * R)) : option optimised :=
  if Z.eqb (g_status g 0) 0 then
    match opt_loop (S maxIter) g maxIter 0 with
    | Some (code, k) => Some (mkOpt code (final n (g_x g k)) (map (evaluated n) (calls g k)))
    | None => None
    end
  else Some (mkOpt (g_status g 0) (last (map (evaluated n) (calls g 0)) (map snd ms)) (map (evaluated n) (calls g 0))).

(** GWDR.cpp 89-97: [stopped] is the telegram asked after the optimisation (then fit returns zeros:
    [Ok None]). *)
Definition fit_bandwidths (g : gsl) (n maxIter : nat) (ms : list (bool * R)) (stopped : bool)
  : outcome (option (list R)) :=
  match optimize g n maxIter ms with
  | None => UB
  | Some o => if stopped then Ok None else if Z.eqb (o_code o) 0 then Ok (Some (o_bws o)) else Throw
  end.

(** ** predict (GWDR.h 323): a matrix of zeros, one row per location. *)
Definition gwdr_predict (locations cols : nat) : list (list R) := repeat (repeat 0 cols) locations.
