(** Model of the memory accesses of the OpenMP loops.
    Source: every loop after "#pragma omp parallel for" in src/gwmodelpp (31 loops in
    GWRBasic.cpp, GTWR.cpp, GWDR.cpp, GWDA.cpp, GWRRobust.cpp, GWRMultiscale.cpp,
    GWRLocalCollinearity.cpp, GWRGeneralized.cpp, GWSS.cpp).

    An iteration is the list of the shared memory locations that it reads and writes, in the order
    of the code.  Locations are as large as one statement uses them: a column, row or slice, a thread's
    accumulators, a variable.  Variables declared in the body are private and left out.
    Simplifications: the telegram (stop, progress, messages) synchronises nothing and is itself safe; the
    data, weights and distances are one location [Input] (SpatialWeight.h:380-383 and the
    distance functions called by it only read). *)
From Coq Require Import Reals Bool List Arith.
Import ListNotations.

(** The loops (line of the pragma). *)
Inductive loop :=
| Basic_predict          (* GWRBasic.cpp:427 *)
| Basic_fitCore          (* GWRBasic.cpp:471 *)
| Basic_fitCoreCV        (* GWRBasic.cpp:522 *)
| Basic_fitCoreSHat      (* GWRBasic.cpp:555 *)
| Gtwr_predict           (* GTWR.cpp:289 *)
| Gtwr_fit               (* GTWR.cpp:330 *)
| Gtwr_cv                (* GTWR.cpp:381 *)
| Gtwr_aic               (* GTWR.cpp:427 *)
| Robust_fit             (* GWRRobust.cpp:180 *)
| Gwdr_predict           (* GWDR.cpp:169 *)
| Gwdr_fit               (* GWDR.cpp:270 *)
| Gwdr_aic               (* GWDR.cpp:476 *)
| Gwdr_variable          (* GWDR.cpp:646 *)
| Gwda_weights           (* GWDA.cpp:124 *)
| Ms_fit_hat             (* GWRMultiscale.cpp:626 *)
| Ms_fit                 (* GWRMultiscale.cpp:653 *)
| Ms_cv                  (* GWRMultiscale.cpp:688 *)
| Ms_shat                (* GWRMultiscale.cpp:721 *)
| Ridge_cv               (* GWRLocalCollinearity.cpp:279 *)
| Ridge_fit              (* GWRLocalCollinearity.cpp:428 *)
| Ridge_predict          (* GWRLocalCollinearity.cpp:486 *)
| Poisson_fit_hat        (* GWRGeneralized.cpp:327 *)
| Poisson_fit            (* GWRGeneralized.cpp:371 *)
| Binomial_fit_hat       (* GWRGeneralized.cpp:423 *)
| Binomial_fit           (* GWRGeneralized.cpp:463 *)
| Glm_cv_weights         (* GWRGeneralized.cpp:621 *)
| Glm_cv                 (* GWRGeneralized.cpp:638 *)
| Glm_aic_weights        (* GWRGeneralized.cpp:719 *)
| Glm_aic                (* GWRGeneralized.cpp:736 *)
| Gwss_average           (* GWSS.cpp:182 *)
| Gwss_correlation.      (* GWSS.cpp:221 *)

Inductive loc :=
| Input
| Status                     (* mStatus *)
| Flag                       (* success, flag, isAllCorrect *)
| Except                     (* except *)
| Counter                    (* current (GWRLocalCollinearity.cpp:278) *)
| TrS | TrStS                (* the members mTrS, mTrStS *)
| Own (a i : nat)            (* element, row or column i of the a-th result *)
| PerThread (a t : nat)      (* the part of thread t in the a-th array of accumulators *)
| Row (k : nat)              (* row k of S *)
| Slice (k : nat).           (* slice k of mC *)
Inductive kind := Rd | Wr.
Definition access : Type := loc * kind.

(** The settings that decide where rows are stored: mStoreS, mStoreC, mHasHatMatrix, mCoords.n_rows. *)
Record settings := mkS { storeS : bool; storeC : bool; hat : bool; size : nat }.

(** isStoreS: GWRBasic.h:383 (also GWRRobust), GTWR.h:538, GWDR.h:481-484, GWRGeneralized.cpp:321, 416.
    GWRGeneralized.cpp:747 and GWRMultiscale.cpp:624 store all rows. *)
Definition is_store_s (f : loop) (c : settings) : bool :=
  match f with
  | Basic_fitCore | Robust_fit => if storeS c then true else hat c && Nat.ltb (size c) (2 ^ 13)
  | Gtwr_fit | Gwdr_fit => hat c && Nat.ltb (size c) (2 ^ 13)
  | Poisson_fit_hat | Binomial_fit_hat => Nat.leb (size c) (2 ^ 13)
  | _ => true
  end.

(** Whether the body begins with "if (success)" or "if (flag)". *)
Definition guard (f : loop) : bool :=
  match f with
  | Basic_predict | Basic_fitCore | Basic_fitCoreCV | Basic_fitCoreSHat | Gtwr_predict | Gtwr_fit | Gtwr_cv | Gtwr_aic
  | Robust_fit | Gwdr_predict | Gwdr_fit | Gwdr_aic | Gwdr_variable | Ms_cv | Ms_shat => true
  | _ => false
  end.
(** GWM_LOG_STOP_CONTINUE (Algorithm.h:75) stands in every loop but GWDA.cpp:125-128. *)
Definition asks_stop (f : loop) : bool := match f with Gwda_weights => false | _ => true end.

Definition both (l : loc) : list access := [(l, Rd); (l, Wr)].
Definition stored (b : bool) (lo i : nat) : nat := if b then (i - lo)%nat else 0%nat.

(** A location whose regression succeeds: iteration [i] of a loop from [lo] in thread [t].
    Own 0 is betas (weights, cv, tables), Own 1 betasSE; in the ridge loops Own 0, 1, 2 are localcn,
    locallambda, betas.  PerThread 0 is shat_all (cv_all, trS_all), PerThread 1 qDiag_all. *)
Definition done (f : loop) (c : settings) (lo i t : nat) : list access :=
  (Input, Rd) ::
  match f with
  | Basic_predict | Basic_fitCoreCV | Gtwr_predict | Gwdr_predict | Ms_fit | Ms_cv => [(Own 0 i, Wr)]
  | Basic_fitCore => [(Own 0 i, Wr); (Own 1 i, Wr)] ++ both (PerThread 0 t) ++ both (PerThread 1 t)
                       ++ [(Row (stored (is_store_s f c) lo i), Wr); (Slice (stored (storeC c) lo i), Wr)]
  | Gtwr_fit | Robust_fit | Gwdr_fit => [(Own 0 i, Wr); (Own 1 i, Wr)] ++ both (PerThread 0 t) ++ both (PerThread 1 t)
                       ++ [(Row (stored (is_store_s f c) lo i), Wr)]
  | Basic_fitCoreSHat | Gtwr_aic | Gwdr_aic | Gwdr_variable | Ms_shat => (Own 0 i, Wr) :: both (PerThread 0 t)
  | Gtwr_cv => both (PerThread 0 t)
  | Gwda_weights | Poisson_fit | Binomial_fit | Glm_cv_weights | Glm_cv | Glm_aic_weights => [(Own 0 i, Wr)]
  | Ms_fit_hat => [(Own 0 i, Wr); (Row (stored true lo i), Wr)]
  | Ridge_cv => [(Own 0 i, Wr); (Own 1 i, Wr); (Own 0 i, Rd); (Own 1 i, Rd); (Own 2 i, Wr)] ++ both Counter
  | Ridge_fit => [(Own 0 i, Wr); (Own 1 i, Wr); (Own 0 i, Rd); (Own 1 i, Rd); (Own 2 i, Wr)]
                   ++ both (PerThread 0 t) ++ both TrS ++ both TrStS
  | Ridge_predict => [(Own 0 i, Wr); (Own 1 i, Wr); (Own 0 i, Rd); (Own 1 i, Rd); (Own 2 i, Wr)]
  | Poisson_fit_hat => [(Own 0 i, Wr); (Row (stored (is_store_s f c) lo i), Wr); (Own 1 i, Wr)]
                         ++ both (PerThread 0 t) ++ both (Own 1 i)
  | Binomial_fit_hat => [(Own 0 i, Wr); (Row (stored (is_store_s f c) lo i), Wr); (Own 1 i, Wr)] ++ both (PerThread 0 t)
  | Glm_aic => [(Row (stored true lo i), Wr); (Row (stored true lo i), Rd)] ++ both (PerThread 0 t)
  | Gwss_average => [(Own 0 i, Wr); (Own 0 i, Rd)]
  | Gwss_correlation => [(Own 0 i, Wr); (Own 0 i, Rd)]
  end.

(** A location that fails (in Gtwr_cv: or is not finite): the catch blocks.  Without a try block the
    exception leaves the parallel region and nothing is written. *)
Definition failed (f : loop) : list access :=
  (Input, Rd) ::
  match f with
  | Basic_predict | Basic_fitCore | Gtwr_predict | Gtwr_fit | Robust_fit | Gwdr_predict | Gwdr_aic
  | Ms_fit_hat | Ms_fit | Poisson_fit_hat | Poisson_fit | Binomial_fit_hat | Binomial_fit => [(Except, Wr); (Flag, Wr)]
  | Basic_fitCoreCV | Basic_fitCoreSHat | Gtwr_cv | Gtwr_aic | Gwdr_variable | Ms_cv | Ms_shat => [(Flag, Wr)]
  | Gwdr_fit => [(Except, Wr)]
  | _ => []
  end.
Definition clears (f : loop) : bool :=
  existsb (fun a => match a with (Flag, Wr) => true | _ => false end) (failed f).

(** ** Executions: an iteration begins (asks the telegram, reads the flag) and ends. *)
Inductive event := Begin (i : nat) | End_ (i : nat).
Record state := mkState { flag : bool; runs : nat -> bool }.
Definition set {A : Type} (g : nat -> A) (i : nat) (a : A) : nat -> A := fun j => if Nat.eqb j i then a else g j.

Section Loop.
Variable f : loop.
Variable c : settings.
Variable lo : nat.
(** The thread of an iteration; whether it is told to stop; whether its regression succeeds. *)
Variable thr : nat -> nat.
Variable stop fine : nat -> bool.

Definition stopped (i : nat) : bool := asks_stop f && stop i.
Definition step (s : state) (e : event) : state :=
  match e with
  | Begin i => mkState (flag s) (set (runs s) i (negb (stopped i) && (flag s || negb (guard f))))
  | End_ i => if runs s i && negb (fine i) && clears f then mkState false (runs s) else s
  end.
Definition run (evs : list event) : state := fold_left step evs (mkState true (fun _ => false)).

(** The accesses of iteration [i] in an execution. *)
Definition accesses (evs : list event) (i : nat) : list access :=
  if stopped i then [(Status, Wr)]
  else (if guard f then [(Flag, Rd)] else []) ++
       if runs (run evs) i then (if fine i then done f c lo i (thr i) else failed f) else [].
End Loop.

(** ** A row that is not stored: S.row(0) = si and mC.slice(0) = ci (GWRBasic.cpp:494-495, GTWR.cpp:353,
    GWRRobust.cpp:203, GWDR.cpp:301, GWRGeneralized.cpp:341, 437), element by element. *)
Section Torn.
Local Open Scope R_scope.
Variable value : nat -> nat -> R.    (* element j of the row of iteration i *)
Definition row_after (before : nat -> R) (writes : list (nat * nat)) : nat -> R :=
  fold_left (fun r w => set r (snd w) (value (fst w) (snd w))) writes before.
End Torn.
