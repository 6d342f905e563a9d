(** C135: fitting a multiscale GWR object again. *)
From mathcomp Require Import all_ssreflect all_algebra.
From Verif Require Import Outcome GwrModel MsModel MsCases MsRefitModel MsRefitProofs.
Set Implicit Arguments. Unset Strict Implicit. Unset Printing Implicit Defensive.
Import Order.TTheory GRing.Theory Num.Theory.
Local Open Scope ring_scope.

(** If every bandwidth is specified by the user, fitting the object again gives the same result. *)
Theorem C135_specified_repeats_partial :
  forall (F : realFieldType) (n p : nat) (inv1 : 'M[F]_1 -> option 'M[F]_1) (inv : 'M[F]_p -> option 'M[F]_p)
    hat ic (flags : 'I_p -> bool) (W0 : 'I_n -> 'cV[F]_n) select0 (wt : 'I_p -> F -> 'I_n -> 'cV[F]_n) select threshold retry
    stop_iter stop_var stop_sel stop_in ctype cthreshold root maxiter (ob : ms_object F n p) st r ob',
  (forall i, ob_init ob i = ISpecified) ->
  fit_object inv1 inv hat ic flags W0 select0 wt select threshold retry stop_iter stop_var stop_sel stop_in
    ctype cthreshold root maxiter ob = Ok (st, r, ob') ->
  fit_object inv1 inv hat ic flags W0 select0 wt select threshold retry stop_iter stop_var stop_sel stop_in
    ctype cthreshold root maxiter ob' = Ok (st, r, ob').
Proof. exact (fun F n p inv1 inv hat ic flags W0 select0 wt select threshold retry si sv ss sn ct ch rt mi ob st r ob' =>
  @C135_main F n p inv1 inv hat ic flags W0 select0 wt select threshold retry si sv ss sn ct ch rt mi ob st r ob'). Qed.
Print Assumptions C135_specified_repeats_partial.

(** A bandwidth that converged in one fit is taken as specified in every later fit: whatever the new response, the new
    selectors, kernels, limits and schedule of cancellation, the later fit returns the bandwidth of the first. *)
Theorem C135_bandwidth_stuck :
  forall (F : realFieldType) (n p : nat) (inv1 : 'M[F]_1 -> option 'M[F]_1) (inv : 'M[F]_p -> option 'M[F]_p)
    hat ic (flags : 'I_p -> bool) (W0 : 'I_n -> 'cV[F]_n) select0 (wt : 'I_p -> F -> 'I_n -> 'cV[F]_n) select threshold retry
    stop_iter stop_var stop_sel stop_in ctype cthreshold root maxiter (ob : ms_object F n p) st r ob' i,
  fit_object inv1 inv hat ic flags W0 select0 wt select threshold retry stop_iter stop_var stop_sel stop_in
    ctype cthreshold root maxiter ob = Ok (st, r, ob') ->
  minit st i = ISpecified ->
  forall (y2 : 'cV[F]_n) (W2 : 'I_n -> 'cV[F]_n) select02 (wt2 : 'I_p -> F -> 'I_n -> 'cV[F]_n) select2 threshold2 retry2
    stop_iter2 stop_var2 stop_sel2 stop_in2 ctype2 cthreshold2 root2 maxiter2 st2 r2 ob2,
  fit_object inv1 inv hat ic flags W2 select02 wt2 select2 threshold2 retry2 stop_iter2 stop_var2 stop_sel2 stop_in2
    ctype2 cthreshold2 root2 maxiter2 (set_response y2 ob') = Ok (st2, r2, ob2) ->
  mbw st2 i = mbw st i.
Proof. exact C135_stuck. Qed.
Print Assumptions C135_bandwidth_stuck.

(** Such fits exist: every bandwidth is asked to be selected, and after the fit none would be any more. *)
Theorem C135_selection_lost_refuted : exists y st r ob',
  ex2_fit (ex2_object y) = Ok (st, r, ob') /\
  forall i, ob_init (ex2_object y) i = INull /\ ob_init ob' i = ISpecified.
Proof. exact (ex_intro _ 0 (ex2_converges' 0)). Qed.
Print Assumptions C135_selection_lost_refuted.

(** The design matrix of the object is not the one it was given. *)
Theorem C135_data_refuted : exists st r ob',
  ex2_fit_centred (ex2_object 0) = Ok (st, r, ob') /\ ob_x ob' <> ob_x (ex2_object 0).
Proof. exact C135_centred. Qed.
Print Assumptions C135_data_refuted.

(** An object whose bandwidths are all specified and which can be fitted. *)
Example C135_example : exists st r ob',
  ex2_fit (Object (ex2_x : 'M_(2, 2)) 0 (fun _ => ISpecified) (fun _ => 3%:R)) = Ok (st, r, ob').
Proof. exact ex2_specified. Qed.
