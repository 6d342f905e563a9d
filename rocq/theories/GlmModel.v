(** Model of the exponential families and of the scoring loops of generalised GWR.
    Source: PoissonModel.cpp, BinomialModel.cpp, GeneralizedLinearModel.cpp,
    GWRGeneralized.cpp (src/gwmodelpp).
    Vectors of n > 0 observations are functions of the index (min() of an empty vector throws).
    Numbers are extended doubles: exp and log do not round and do not overflow. *)
From Coq Require Import Reals Bool List Arith.
From Verif Require Import Outcome XReal Sums DiagModel OmpModel.
Import ListNotations.
Local Open Scope R_scope.

Definition xvec := nat -> xd.
(** arma::sum of n entries *)
Definition xsum (n : nat) (f : xvec) : xd := fold_left (fun a i => xadd a (f i)) (seq 0 n) (XF 0).

(** ** PoissonModel *)
(** 2.220446e-16 (linkinv 26, muEta 62) *)
Definition eps : R := 2220446 / 10 ^ 22.
(** linkinv (24-34).  res.min() skips NaN, so "res.min() > eps" says that no entry is <= eps. *)
Definition poisson_linkinv (n : nat) (eta : xvec) : xvec :=
  let res i := xexp (eta i) in
  if forallb (fun i => negb (xleb (res i) (XF eps))) (seq 0 n) then res
  else fun i => if xltb (XF eps) (res i) then res i else XF eps.
(** muEta (60-70): the same text *)
Definition poisson_muEta (n : nat) (eta : xvec) : xvec :=
  let res i := xexp (eta i) in
  if forallb (fun i => negb (xleb (res i) (XF eps))) (seq 0 n) then res
  else fun i => if xltb (XF eps) (res i) then res i else XF eps.
(** linkfun (83-86), variance (36-38), initialize (13-17) *)
Definition poisson_linkfun (mu : xvec) : xvec := fun i => xln (mu i).
Definition poisson_variance (mu : xvec) : xvec := mu.
Definition poisson_muStart (y : nat -> R) : xvec := fun i => XF (y i + 1 / 10).
(** devResids (40-53) *)
Definition poisson_devResids (n : nat) (y : nat -> R) (mu w : xvec) : xvec :=
  let term i := xmul (w i) (xsub (xmul (XF (y i)) (xln (xdiv (XF (y i)) (mu i)))) (xsub (XF (y i)) (mu i))) in
  let r := if forallb (fun i => Rltb 0 (y i)) (seq 0 n) then term
           else fun i => if Rltb 0 (y i) then term i else xmul (mu i) (w i) in
  fun i => xmul (XF 2) (r i).

(** ** BinomialModel (one response column) *)
(** linkinv (35-39), muEta (86-90), linkfun (103-107), variance (41-43) *)
Definition binomial_linkinv (eta : xvec) : xvec :=
  fun i => let t := xexp (eta i) in xdiv t (xadd (XF 1) t).
Definition binomial_muEta (eta : xvec) : xvec :=
  fun i => let t := xexp (eta i) in xdiv t (xmul (xadd (XF 1) t) (xadd (XF 1) t)).
Definition binomial_linkfun (mu : xvec) : xvec := fun i => xln (xdiv (mu i) (xsub (XF 1) (mu i))).
Definition binomial_variance (mu : xvec) : xvec := fun i => xmul (mu i) (xsub (XF 1) (mu i)).
(** initialize (13-19) *)
Definition binomial_muStart (y : nat -> R) (w : xvec) : xvec :=
  fun i => xdiv (xadd (xmul (w i) (XF (y i))) (XF (1 / 2))) (xadd (w i) (XF 1)).
(** y_log_y (132-135) *)
Definition y_log_y (y mu : xd) : xd :=
  match xval y with
  | Some r => if Reqb r 0 then XF 0 else xmul y (xln (xdiv y mu))
  | None => xmul y (xln (xdiv y mu))
  end.
(** devResids (45-64) with one mean per observation; the branch for a single mean (57-63) reads
    mu[0], which is the same for n = 1. *)
Definition binomial_devResids (y : nat -> R) (mu w : xvec) : xvec :=
  fun i => xmul (xmul (XF 2) (w i))
             (xadd (y_log_y (XF (y i)) (mu i)) (y_log_y (xsub (XF 1) (XF (y i))) (xsub (XF 1) (mu i)))).

(** ** Deviances computed in GWRGeneralized.cpp *)
(** mGwDev (218-229, the same in 305-316) *)
Definition gw_dev (n : nat) (y : nat -> R) (mu : xvec) : xd :=
  fold_left (fun d i =>
    if Reqb (y i) 0 then xadd d (xmul (XF 2) (mu i))
    else xadd d (xmul (XF 2) (xadd (xmul (XF (y i)) (xsub (xln (xdiv (XF (y i)) (mu i))) (XF 1))) (mu i))))
    (seq 0 n) (XF 0).
(** gwDev of the binomial family (126-127), n being a vector of ones *)
Definition gw_dev_binomial (n : nat) (y : nat -> R) (yhat : xvec) : xd :=
  let e i := xadd (xsub (XF (y i)) (XF 1)) (yhat i) in
  xsum n (fun i => xln (xdiv (XF 1) (xmul (e i) (e i)))).

(** ** Local scoring loops (PoissonWtSerial 763-801, BinomialWtSerial 847-887; the OpenMP
    versions contain the same statements) *)
Inductive family := Poisson | Binomial.
Section Irls.
Variable fam : family.
Variable y : nat -> R.
(** One round of local regressions (lines 780-787, 866-873): working weights mWt2 and adjusted
    response myAdj to Fitted(x, betas); Throw when an inverse fails. *)
Variable regress : xvec -> xvec -> outcome xvec.
(** The log-likelihood of the means (790-791, 876) *)
Variable llik : xvec -> xd.
Variable tol : R.

Record irls := Irls {
  mean : xvec;                        (* returned mu *)
  wt2 : xvec; yadj : xvec;            (* members mWt2, myAdj afterwards *)
  calls : list (xvec * xvec);         (* arguments of the regressions made *)
  converged : bool                    (* left through the break *)
}.
(** myAdj (779; 865) *)
Definition adjusted (nu mu : xvec) : xvec := fun i =>
  match fam with
  | Poisson => xadd (nu i) (xdiv (xsub (XF (y i)) (mu i)) (mu i))
  | Binomial => xadd (nu i) (xdiv (xsub (XF (y i)) (mu i)) (xmul (mu i) (xsub (XF 1) (mu i))))
  end.
(** mu (788; 874) *)
Definition means (nu : xvec) : xvec := fun i =>
  match fam with
  | Poisson => xexp (nu i)
  | Binomial => xdiv (xexp (nu i)) (xadd (XF 1) (xexp (nu i)))
  end.
(** mWt2 (798; 883), n being a vector of ones *)
Definition working (mu : xvec) : xvec := fun i =>
  match fam with
  | Poisson => mu i
  | Binomial => xmul (xmul (XF 1) (mu i)) (xsub (XF 1) (mu i))
  end.
(** [k] is mMaxiter - itCount *)
Fixpoint irls_loop (k : nat) (mu nu w adj : xvec) (ll : xd) (cs : list (xvec * xvec)) : outcome irls :=
  match k with
  | O => Ok (Irls mu w adj cs false)
  | S k' =>
      let adj' := adjusted nu mu in
      let* nu' := regress w adj' in
      let mu' := means nu' in
      let ll' := llik mu' in
      let cs' := cs ++ [(w, adj')] in
      if xltb (xabs (xdiv (xsub ll ll') ll')) (XF tol)
      then Ok (Irls mu' w adj' cs' true)
      else irls_loop k' mu' nu' (working mu') adj' ll' cs'
  end.
(** [adj0] is the value of the member myAdj before the call. *)
Definition irls_run (maxiter : nat) (adj0 : xvec) : outcome irls :=
  let mu0 : xvec := fun i => match fam with Poisson => XF (y i + 1 / 10) | Binomial => XF (1 / 2) end in
  let nu0 : xvec := fun i => match fam with Poisson => xln (mu0 i) | Binomial => XF 0 end in
  irls_loop maxiter mu0 nu0 (fun _ => XF 1) adj0 (XF 0) [].
End Irls.

(** ** Global model: GeneralizedLinearModel::fit (20-107) with at least one variable; unit
    weights, zero offset, intercept (constructor 11-18, setters absent) *)
Section Glm.
Variable fam : family.
Variables (n : nat) (y : nat -> R).
(** Lines 66-71: adjusted response z and weights w to Fitted(mX, start.t()); Throw when the
    inverse fails. *)
Variable wls : xvec -> xvec -> outcome xvec.
Variable maxit : nat.                  (* mMaxit *)
Variable epsilon : R.                  (* mEpsilon *)
Definition ones : xvec := fun _ => XF 1.
Definition linkinv (eta : xvec) : xvec :=
  match fam with Poisson => poisson_linkinv n eta | Binomial => binomial_linkinv eta end.
Definition muEta (eta : xvec) : xvec :=
  match fam with Poisson => poisson_muEta n eta | Binomial => binomial_muEta eta end.
Definition variance (mu : xvec) : xvec :=
  match fam with Poisson => poisson_variance mu | Binomial => binomial_variance mu end.
Definition linkfun (mu : xvec) : xvec :=
  match fam with Poisson => poisson_linkfun mu | Binomial => binomial_linkfun mu end.
Definition muStart : xvec :=
  match fam with Poisson => poisson_muStart y | Binomial => binomial_muStart y ones end.
Definition devResids (mu : xvec) : xvec :=
  match fam with Poisson => poisson_devResids n y mu ones | Binomial => binomial_devResids y mu ones end.
Definition dev_of (mu : xvec) : xd := xsum n (devResids mu).
Definition xisinf (x : xd) : bool := match x with XI _ => true | _ => false end.

(** mDev, the number of regressions, and whether lines 95-105 were reached *)
Record glm_state := Glm { gdev : xd; rounds : nat; complete : bool }.
Fixpoint glm_loop (k iter : nat) (eta mu : xvec) (devold dev : xd) : outcome glm_state :=
  match k with
  | O => Ok (Glm dev iter true)
  | S k' =>
      let z : xvec := fun i => xadd (xsub (eta i) (XF 0)) (xdiv (xsub (XF (y i)) (mu i)) (muEta eta i)) in
      let w : xvec := fun i => xsqrt (xdiv (xmul (XF 1) (xmul (muEta eta i) (muEta eta i))) (variance mu i)) in
      let* eta' := wls z w in
      let mu' := linkinv (fun i => xadd (eta' i) (XF 0)) in
      let dev' := dev_of mu' in
      (* 75-86: the means are not recomputed while halving, so mDev stays infinite and the
         function returns; in the first iteration coefold is still empty and the addition throws *)
      if xisinf dev' then
        match iter with O => Throw | S _ => Ok (Glm dev' (S iter) false) end
      else if xltb (xdiv (xabs (xsub dev' devold)) (xadd (XF (1 / 10)) (xabs dev'))) (XF epsilon)
      then Ok (Glm dev' (S iter) true)
      else glm_loop k' (S iter) eta' mu' dev' dev'
  end.
(** [undef]: an uninitialised member *)
Definition glm_fit (undef : xd) : outcome glm_state :=
  let eta := linkfun muStart in
  let mu := linkinv eta in
  glm_loop maxit 0 eta mu (dev_of mu) undef.
(** mNullDev (95-101): deviance at the mean response *)
Definition null_dev : xd := dev_of (fun _ => xdiv (XF (bigsum n (fun i => 1 * y i))) (XF (bigsum n (fun _ => 1)))).
(** CalGLMModel (185-205): reads nullDev() and dev(); [None] is an uninitialised member. *)
Definition cal_glm (undef : xd) : outcome (option xd * xd) :=
  let* s := glm_fit undef in Ok (if complete s then Some null_dev else None, gdev s).
End Glm.

(** ** AICc of generalised GWR (bandwidthSizeGGWRCriterionAICSerial 671-709, ...AICOmp 712-760) *)
(** 703 and 754, n being converted to double *)
Definition ggwr_aicc (n : nat) (llik trs : R) : xd :=
  xadd (XF (-2 * llik + 2 * trs)) (xdiv (XF (2 * trs * (trs + 1))) (XF (INR n - trs - 1))).
(** [diag i] is S(i,i), None when the inverse of CiMat throws; S finite, not cancelled. *)
Definition as_local (diag : nat -> option R) (i : nat) : option (unit * (nat -> R)) :=
  match diag i with Some s => Some (tt, fun _ => s) | None => None end.
Definition aic_serial (n : nat) (llik : R) (diag : nat -> option R) : outcome xd :=
  let* r := serial_run unit tt (as_local diag) 0 n in Ok (ggwr_aicc n llik (snd r 0%nat)).
Inductive aic_result := Value (v : xd) | Died | Other.
Definition aic_omp (n : nat) (llik : R) (diag : nat -> option R) (threads : nat) (sched : list event) : aic_result :=
  match omp_run unit tt (as_local diag) GWRGeneralized_criterionAICOmp threads sched with
  | Returned _ s => Value (ggwr_aicc n llik (s 0%nat))
  | Terminated => Died
  | _ => Other
  end.
