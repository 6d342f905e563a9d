(** Model of multiscale GWR: centring, initial hat matrices, bandwidth bookkeeping and
    backfitting.
    Source: GWRMultiscale.cpp:80-291 (fit), 293-385 (backfitting), 387-398 (fitVarBase),
    488-545 (fitVarCoreSerial).
    Scalars are exact.  [inv] is arma::inv_sympd on 1x1 matrices.  The bandwidth selector is
    an arbitrary function [select] of the iteration, the variable, mXi, mYi and the present
    bandwidth (it may throw); weights are an arbitrary function [wt] of variable and
    bandwidth.  The telegram's answers are the arbitrary functions [stop_*], one for each
    place where it is asked.  [root] stands for sqrt. *)
From mathcomp Require Import all_ssreflect all_algebra.
From Verif Require Import Outcome GwrModel.
Set Implicit Arguments. Unset Strict Implicit. Unset Printing Implicit Defensive.
Import GRing.Theory Num.Theory.
Local Open Scope ring_scope.

(** GWRMultiscale.h, BandwidthInitilizeType *)
Inductive init_type := INull | IInitial | ISpecified.
Definition is_specified (t : init_type) : bool := if t is ISpecified then true else false.
Definition is_null (t : init_type) : bool := if t is INull then true else false.

(** GWRMultiscale.h, BackFittingCriterionType *)
Inductive crit_type := CVR | dCVR.

Definition upd (p : nat) (T : Type) (f : 'I_p -> T) (i : 'I_p) (v : T) : 'I_p -> T :=
  fun j => if j == i then v else f j.

Section Ms.
Variables (F : realFieldType) (n p : nat).
Variable inv : 'M[F]_1 -> option 'M[F]_1.

(** ** Centring (fit, 84-95).  [flags] is mPreditorCentered, of length p (isValid). *)
Definition col_mean (x : 'M[F]_(n, p)) (i : 'I_p) : F := (\sum_j x j i) / n%:R.
Definition centre (intercept : bool) (flags : 'I_p -> bool) (x : 'M[F]_(n, p)) : 'M[F]_(n, p) :=
  \matrix_(j, i) if ((if intercept then 1 else 0) <= nat_of_ord i)%N && flags i
                 then x j i - col_mean x i else x j i.

(** ** fitVarCoreSerial (488-545): failures are recorded and thrown after the loop.
    Simplification: S is computed also when mHasHatMatrix is false (it is then unused). *)
Record var_fit := VarFit { vbeta : 'M[F]_(1, n); vS : 'M[F]_n; vfailed : bool }.
Definition set_row (M : 'M[F]_n) (i : 'I_n) (v : 'rV[F]_n) : 'M[F]_n :=
  \matrix_(a, b) if a == i then v ord0 b else M a b.
Definition var_step (x y : 'cV[F]_n) (W : 'I_n -> 'cV[F]_n) (i : 'I_n) (st : var_fit) : outcome var_fit :=
  let xtwi := xtw x (W i) in
  match inv (xtwi *m x) with
  | None => Ok (VarFit (vbeta st) (vS st) true)
  | Some xtwx_inv =>
      let ci := xtwx_inv *m xtwi in
      Ok (VarFit (set_col (vbeta st) i (xtwx_inv *m (xtwi *m y)))
                 (set_row (vS st) i (x i ord0 *: ci)) (vfailed st))
  end.
Definition fit_var_core (x y : 'cV[F]_n) W (stop : 'I_n -> bool) : outcome ('cV[F]_n * 'M[F]_n) :=
  match loop (var_step x y W) stop (enum 'I_n) (VarFit 0 0 false) with
  | Ok (st, _) => if vfailed st then Throw else Ok ((vbeta st)^T, vS st)
  | Throw => Throw
  | UB => UB
  end.

(** ** State of backfitting; [mfits] lists the variables in the order of the calls of mFitVar. *)
Record ms := Ms {
  mbetas : 'M[F]_(n, p);
  mresid : 'cV[F]_n;
  mS0 : 'M[F]_n;
  mSA : 'I_p -> 'M[F]_n;          (* mSArray, one slice per variable *)
  mbw : 'I_p -> F;                (* bandwidth of each mSpatialWeights[i] *)
  minit : 'I_p -> init_type;      (* mBandwidthInitilize *)
  mchg : 'I_p -> nat;             (* bwChangeNo *)
  mfits : seq 'I_p
}.

(** GWRMultiscale.h: Fitted, RSS *)
Definition mfitted (x b : 'M[F]_(n, p)) : 'cV[F]_n := \col_j \sum_i x j i * b j i.
Definition mrss (x b : 'M[F]_(n, p)) (y : 'cV[F]_n) : F := \sum_j ((y - mfitted x b) j ord0) ^+ 2.
(** "betas.col(i) % mX.col(i)" *)
Definition part (x b : 'M[F]_(n, p)) (i : 'I_p) : 'cV[F]_n := \col_j (b j i * x j i).
Definition put_col (b : 'M[F]_(n, p)) (i : 'I_p) (v : 'cV[F]_n) : 'M[F]_(n, p) :=
  \matrix_(j, k) if k == i then v j ord0 else b j k.

Section Run.
Variables (hat : bool) (x : 'M[F]_(n, p)) (y : 'cV[F]_n).
Variable wt : 'I_p -> F -> 'I_n -> 'cV[F]_n.
Variable select : nat -> 'I_p -> 'cV[F]_n -> 'cV[F]_n -> F -> outcome F.
Variables (threshold : 'I_p -> F) (retry : nat).
Variables (stop_iter : nat -> bool) (stop_var stop_sel : nat -> 'I_p -> bool)
          (stop_in : nat -> 'I_p -> 'I_n -> bool).

(** fitVarBase (387-398) together with "betas.col(i) = betai; resid = ..." (366-369) *)
Definition fit_var (it : nat) (i : 'I_p) (yi : 'cV[F]_n) (st : ms) : outcome ms :=
  match fit_var_core (col i x) yi (wt i (mbw st i)) (stop_in it i) with
  | Ok (beta, Sv) =>
      let b := put_col (mbetas st) i beta in
      let SAi := mSA st i - mS0 st in
      let SAnew := Sv *m SAi + Sv in
      Ok (Ms b (y - mfitted x b)
             (if hat then SAnew - SAi else mS0 st)
             (if hat then upd (mSA st) i SAnew else mSA st)
             (mbw st) (minit st) (mchg st) (rcons (mfits st) i))
  | Throw => Throw
  | UB => UB
  end.

(** Bandwidth selection of one variable (318-359) *)
Definition select_var (it : nat) (i : 'I_p) (yi : 'cV[F]_n) (st : ms) : outcome ms :=
  if is_specified (minit st i) then Ok st
  else match select it i (col i x) yi (mbw st i) with
       | Ok bw1 =>
           let changed := threshold i < `|bw1 - mbw st i| in
           let c := if changed then 0%N else (mchg st i).+1 in
           Ok (Ms (mbetas st) (mresid st) (mS0 st) (mSA st) (upd (mbw st) i bw1)
                  (if ~~ changed && (retry <= c)%N then upd (minit st) i ISpecified else minit st)
                  (upd (mchg st) i c) (mfits st))
       | Throw => Throw
       | UB => UB
       end.

(** Body of the loop over variables (311-371); the second component says "break". *)
Definition var_pass (it : nat) (i : 'I_p) (st : ms) : outcome (ms * bool) :=
  if stop_var it i then Ok (st, true)
  else
    let yi := mresid st + part x (mbetas st) i in
    match select_var it i yi st with
    | Ok st1 => if stop_sel it i then Ok (st1, true)
                else match fit_var it i yi st1 with
                     | Ok st2 => Ok (st2, false)
                     | Throw => Throw
                     | UB => UB
                     end
    | Throw => Throw
    | UB => UB
    end.
Fixpoint sweep (it : nat) (vars : seq 'I_p) (st : ms) : outcome ms :=
  match vars with
  | [::] => Ok st
  | i :: t => match var_pass it i st with
              | Ok (st1, true) => Ok st1
              | Ok (st1, false) => sweep it t st1
              | Throw => Throw
              | UB => UB
              end
  end.

(** The loop over iterations (307-379): [k] iterations are left; [crit] = None is the initial
    DBL_MAX, above every threshold. *)
Variables (ctype : crit_type) (cthreshold : F) (root : F -> F).
Definition criterion (rss0 rss1 : F) : F :=
  match ctype with CVR => `|rss1 - rss0| | dCVR => root (`|rss1 - rss0| / rss1) end.
Fixpoint iterate (k it : nat) (rss0 : F) (crit : option F) (st : ms) : outcome (ms * F) :=
  match k with
  | O => Ok (st, rss0)
  | S k' =>
      if (if crit is Some c then cthreshold < c else true) then
        if stop_iter it then Ok (st, rss0)
        else match sweep it (enum 'I_p) st with
             | Ok st1 => let rss1 := mrss x (mbetas st1) y in
                         iterate k' it.+1 rss1 (Some (criterion rss0 rss1)) st1
             | Throw => Throw
             | UB => UB
             end
      else Ok (st, rss0)
  end.
Definition backfitting (maxiter : nat) (st : ms) : outcome (ms * F) :=
  iterate maxiter 1 (mrss x (mbetas st) y) None st.
End Run.

(** ** Initial state (fit 230-246, backfitting 296-306): from the basic GWR [s]. *)
Definition ms_start (x : 'M[F]_(n, p)) (y : 'cV[F]_n) (s : fitted_model F n p)
    (bw : 'I_p -> F) (init : 'I_p -> init_type) : ms :=
  let b := (betas s)^T in
  Ms b (y - mfitted x b) (stored s)
     (fun i => \matrix_(j, k) (x j i * sliceC s j i k)) bw init (fun _ => 0%N) [::].

(** ** Initial bandwidths (fit 190-228): only variables of type Null are selected. *)
Definition init_bandwidth (select0 : 'I_p -> 'cV[F]_n -> 'cV[F]_n -> F -> outcome F)
    (x : 'M[F]_(n, p)) (y : 'cV[F]_n) (init : 'I_p -> init_type) (bw : 'I_p -> F) (i : 'I_p)
  : outcome ('I_p -> F) :=
  if is_null (init i) then
    match select0 i (col i x) y (bw i) with
    | Ok b => Ok (upd bw i b) | Throw => Throw | UB => UB end
  else Ok bw.
Fixpoint init_bandwidths select0 x y init (vars : seq 'I_p) (bw : 'I_p -> F) : outcome ('I_p -> F) :=
  match vars with
  | [::] => Ok bw
  | i :: t => match init_bandwidth select0 x y init bw i with
              | Ok bw1 => init_bandwidths select0 x y init t bw1
              | Throw => Throw | UB => UB end
  end.
End Ms.

(** ** fit without the selection of the initial GWR's bandwidth; W0 are the weights it ends
    up with.  GWRBasic has its own telegram, so it is never stopped. *)
Section Fit.
Variables (F : realFieldType) (n p : nat).
Variables (inv1 : 'M[F]_1 -> option 'M[F]_1) (inv : 'M[F]_p -> option 'M[F]_p).
Definition ms_fit (hat : bool) (intercept : bool) (flags : 'I_p -> bool) (x0 : 'M[F]_(n, p)) (y : 'cV[F]_n)
    (W0 : 'I_n -> 'cV[F]_n) (init : 'I_p -> init_type) (bw0 : 'I_p -> F) select0
    wt select threshold retry stop_iter stop_var stop_sel stop_in ctype cthreshold root maxiter
  : outcome (ms F n p * F) :=
  let x := centre intercept flags x0 in
  match fit_core inv hat hat 0 n x y W0 (fun _ => false) with
  | Ok (s, _) =>
      match init_bandwidths select0 x y init (enum 'I_p) bw0 with
      | Ok bw => backfitting inv1 hat x y wt select threshold retry stop_iter stop_var stop_sel stop_in
                   ctype cthreshold root maxiter (ms_start x y s bw init)
      | Throw => Throw
      | UB => UB
      end
  | Throw => Throw
  | UB => UB
  end.
End Fit.
