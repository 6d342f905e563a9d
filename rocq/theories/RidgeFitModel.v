(** Local ridge regression: ridgelm, fitSerial, predictOmp of
    /repo/src/gwmodelpp/GWRLocalCollinearity.cpp over exact scalars; conventions of GwrModel.v.
    [inv] is arma::inv (None: the exception for a singular matrix), [sq] is the square root,
    [lam i] the local lambda of observation i (RidgeModel.v).  fitSerial and ridgelm see the same
    mX, mY because fit passes them (73). *)
From mathcomp Require Import all_ssreflect all_algebra.
From Verif Require Import Outcome GwrModel.
Set Implicit Arguments. Unset Strict Implicit. Unset Printing Implicit Defensive.
Import GRing.Theory Num.Theory.
Local Open Scope ring_scope.

Section Ridge.
Variables (F : realFieldType) (n p : nat).
Variable inv : 'M[F]_p -> option 'M[F]_p.
Variable sq : F -> F.

(** arma::stddev: square root of the sample variance; 0 for fewer than two elements. *)
Definition variance (v : 'cV[F]_n) : F :=
  let m := (\sum_j v j ord0) / n%:R in
  if (n <= 1)%N then 0 else (\sum_j (v j ord0 - m) ^+ 2) / (n.-1)%:R.
Definition stddev (v : 'cV[F]_n) : F := sq (variance v).

(** 153-154 *)
Definition Xsd (x : 'M[F]_(n, p)) (a : 'I_p) : F := if nat_of_ord a == 0%N then 1 else stddev (col a x).

(** ridgelm (140-171).  mX.cols(1, n_cols-1) throws for fewer than two columns.  [Ok None]: the
    computation meets a square root of a negative number or a division by zero, and whatever
    arma::inv makes of the resulting non-numbers is not modelled. *)
Definition ridgelm (x : 'M[F]_(n, p)) (y : 'cV[F]_n) (w : 'cV[F]_n) (lambda : F) : outcome (option 'cV[F]_p) :=
  if (p <= 1)%N then Throw else
  let Xw : 'M[F]_(n, p) := \matrix_(j, a) (x j a * sq (w j ord0)) in
  let yw : 'cV[F]_n := \col_j (y j ord0 * sq (w j ord0)) in
  let ysd := stddev yw in
  if [exists j, w j ord0 < 0] || (ysd == 0) || [exists a, Xsd x a == 0] then Ok None else
  let Xws : 'M[F]_(n, p) := \matrix_(j, a) (Xw j a / Xsd x a) in
  let yws : 'cV[F]_n := \col_j (yw j ord0 / ysd) in
  let XX := Xws^T *m Xws + lambda *: 1%:M in
  let YY := Xws^T *m yws in
  match inv XX with
  | None => Throw
  | Some B => Ok (Some (\col_a ((B *m YY) a ord0 * ysd / Xsd x a)))
  end.

(** ** fitSerial (330-376): coefficients per observation and the members mTrS, mTrStS (initially 0,
    GWRLocalCollinearity.h:328-329), which are never reset. *)
Record lc_state := LC { lc_betas : 'I_n -> option 'cV[F]_p; lc_trS : F; lc_trStS : F }.

(** 349: x % (wi * ones) *)
Definition x1w (x : 'M[F]_(n, p)) (w : 'cV[F]_n) : 'M[F]_(n, p) := \matrix_(j, a) (x j a * w j ord0).
(** 366-370 *)
Definition hat_row (x : 'M[F]_(n, p)) (w : 'cV[F]_n) (i : 'I_n) (xtwxinv : 'M[F]_p) : 'rV[F]_n :=
  row i (x1w x w) *m xtwxinv *m (x1w x w)^T.

(** One iteration: coefficients and hat row (341-371, 433-462). *)
Definition lc_row (x : 'M[F]_(n, p)) (y : 'cV[F]_n) (W : 'I_n -> 'cV[F]_n) (lam : 'I_n -> F)
    (i : 'I_n) : outcome (option 'cV[F]_p * 'rV[F]_n) :=
  match ridgelm x y (W i) (lam i) with
  | Throw => Throw
  | UB => UB
  | Ok b =>
      match inv ((x1w x (W i))^T *m x) with
      | None => Throw
      | Some xtwxinv => Ok (b, hat_row x (W i) i xtwxinv)
      end
  end.

Definition lc_step (x : 'M[F]_(n, p)) (y : 'cV[F]_n) (W : 'I_n -> 'cV[F]_n) (lam : 'I_n -> F)
    (i : 'I_n) (st : lc_state) : outcome lc_state :=
  match lc_row x y W lam i with
  | Throw => Throw
  | UB => UB
  | Ok (b, hr) =>
      Ok (LC (fun j => if j == i then b else lc_betas st j)
             (lc_trS st + hr ord0 i)
             (lc_trStS st + \sum_j hr ord0 j * hr ord0 j))
  end.

(** One call of fit on an object whose members mTrS, mTrStS are [t]. *)
Definition lc_fit (t : F * F) x y W lam stop : outcome (lc_state * bool) :=
  loop (lc_step x y W lam) stop (enum 'I_n) (LC (fun _ => Some 0) t.1 t.2).

(** fitOmp (419-474), not stopped, on an object with traces [t]: [order] is the order in which the
    iterations happen, [thread i] the thread of iteration i, [k] the number of threads.  Each thread
    adds to its own column of shat_all; at the end the sums overwrite mTrS and mTrStS (470-472).  The
    unsynchronised updates of mTrS and mTrStS at 465-466 are a data race; their values are dead and not
    modelled.  An exception in an iteration ends the program (Throw). *)
Definition omp_step (k : nat) (thread : 'I_n -> 'I_k) x y W lam (i : 'I_n)
    (st : ('I_n -> option 'cV[F]_p) * ('I_k -> F) * ('I_k -> F)) :=
  match lc_row x y W lam i with
  | Throw => Throw
  | UB => UB
  | Ok (b, hr) =>
      let: (bt, s0, s1) := st in
      Ok ((fun j => if j == i then b else bt j),
          (fun h => if h == thread i then s0 h + hr ord0 i else s0 h),
          (fun h => if h == thread i then s1 h + \sum_j hr ord0 j * hr ord0 j else s1 h))
  end.
Definition lc_fit_omp (t : F * F) (k : nat) (thread : 'I_n -> 'I_k) (order : seq 'I_n) x y W lam : outcome lc_state :=
  match loop (omp_step thread x y W lam) (fun _ => false) order ((fun _ => Some 0), (fun _ => 0), (fun _ => 0)) with
  | Throw => Throw
  | UB => UB
  | Ok ((bt, s0, s1), _) => Ok (LC bt (\sum_h s0 h) (\sum_h s1 h))
  end.

(** bandwidthSizeCriterionCVSerial (198-262), not stopped: the weight of the observation itself is
    zero.  [Ok None]: DBL_MAX, as the score is not finite. *)
Fixpoint lc_cv_loop (x : 'M[F]_(n, p)) (y : 'cV[F]_n) (W : 'I_n -> 'cV[F]_n) (lam : 'I_n -> F)
    (idx : seq 'I_n) : outcome (option F) :=
  match idx with
  | [::] => Ok (Some 0)
  | i :: t =>
      match ridgelm x y (\col_j (if j == i then 0 else W i j ord0)) (lam i) with
      | Throw => Throw
      | UB => UB
      | Ok b =>
          match lc_cv_loop x y W lam t with
          | Throw => Throw
          | UB => UB
          | Ok s =>
              Ok match b, s with
                 | Some b', Some s' =>
                     let r := y i ord0 - \sum_a b' a ord0 * x i a in Some (r * r + s')
                 | _, _ => None
                 end
          end
      end
  end.
Definition lc_cv x y W lam : outcome (option F) := lc_cv_loop x y W lam (enum 'I_n).

(** ** predictOmp (476-521), one iteration: "betas.row(i) = trans(ridgelm(...))" where betas has
    mX.size() + 1 columns (478-479); rows of different lengths throw. *)
Definition assign_row (cols : nat) (v : 'cV[F]_p) : outcome unit := if p == cols then Ok tt else Throw.
Definition predict_omp_step (x : 'M[F]_(n, p)) y w lambda : outcome unit :=
  match ridgelm x y w lambda with
  | Throw => Throw
  | UB => UB
  | Ok b => assign_row (n * p + 1) (odflt 0 b)
  end.
(** predictSerial (378-416): betas has mX.n_cols columns. *)
Definition predict_serial_step (x : 'M[F]_(n, p)) y w lambda : outcome unit :=
  match ridgelm x y w lambda with
  | Throw => Throw
  | UB => UB
  | Ok b => assign_row p (odflt 0 b)
  end.
End Ridge.
