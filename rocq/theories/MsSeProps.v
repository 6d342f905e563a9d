(** C152: standard errors of multiscale GWR. *)
From mathcomp Require Import all_ssreflect all_algebra.
From Verif Require Import Outcome GwrModel GwrSpec MsModel MsSeModel MsSeSpec MsSeProofs.
Set Implicit Arguments. Unset Strict Implicit. Unset Printing Implicit Defensive.
Import Order.TTheory GRing.Theory Num.Theory.
Local Open Scope ring_scope.

(** C152, what is reported: the squared standard errors are the variances of the coefficients C y of the initial
    GWR with weights W0, with the residual variance of that regression. *)
Theorem C152_computed : forall (F : realFieldType) n p (inv1 : 'M[F]_1 -> option 'M[F]_1) (inv : 'M[F]_p -> option 'M[F]_p)
    hat ic flags (x0 : 'M[F]_(n, p)) y (W0 : 'I_n -> 'cV[F]_n) init bw0 select0
    wt select threshold retry stop_iter stop_var stop_sel stop_in ctype cthreshold root maxiter st V,
  inverse_contract inv -> (forall j k, 0 <= W0 j k ord0) ->
  ms_report inv1 inv hat ic flags x0 y W0 init bw0 select0 wt select threshold retry
    stop_iter stop_var stop_sel stop_in ctype cthreshold root maxiter = Ok (st, Some V) ->
  let x := centre ic flags x0 in
  exists C : 'I_n -> 'I_p -> 'rV[F]_n,
    (forall y' j, only_minimiser x y' (W0 j) (\col_i \sum_k C j i ord0 k * y' k ord0)) /\
    let S := hat_of x C in
    let edf := n%:R - 2%:R * (\sum_j S j j) + \sum_j \sum_k S j k ^+ 2 in
    edf <> 0 /\ forall j i, V j i = variance ((\sum_j (y j ord0 - \sum_k S j k * y k ord0) ^+ 2) / edf) C j i.
Proof. exact computed_main. Qed.
Print Assumptions C152_computed.
Example C152_computed_case : exists st V, one_run one_y = Ok (st, Some V) /\ forall j i, V j i = 1.
Proof. exact one_values. Qed.

(** C152 is false: whatever bandwidths, weights, selections and sweeps lead to the final coefficients, the standard
    errors are the same. *)
Theorem C152_unaffected : forall (F : realFieldType) n p (inv1 : 'M[F]_1 -> option 'M[F]_1) (inv : 'M[F]_p -> option 'M[F]_p)
    hat ic flags (x0 : 'M[F]_(n, p)) y W0 init bw0 select0
    wt select threshold retry stop_iter stop_var stop_sel stop_in ctype cthreshold root maxiter st V
    init' bw0' select0' wt' select' threshold' retry' stop_iter' stop_var' stop_sel' stop_in' ctype' cthreshold' root' maxiter' st' V',
  ms_report inv1 inv hat ic flags x0 y W0 init bw0 select0 wt select threshold retry
    stop_iter stop_var stop_sel stop_in ctype cthreshold root maxiter = Ok (st, V) ->
  ms_report inv1 inv hat ic flags x0 y W0 init' bw0' select0' wt' select' threshold' retry'
    stop_iter' stop_var' stop_sel' stop_in' ctype' cthreshold' root' maxiter' = Ok (st', V') -> V = V'.
Proof. exact unaffected_main. Qed.
Print Assumptions C152_unaffected.

(** C152 refuted: a run whose coefficients are C y for every response y, and no residual variance makes the reported
    values the variances of C y. *)
Theorem C152_standard_errors_refuted : exists (C : 'I_2 -> 'I_1 -> 'rV[rat]_2) st V, one_run one_y = Ok (st, Some V) /\
  (forall y, exists st' V', one_run y = Ok (st', V') /\ linear_coefficients C y (mbetas st')) /\
  ~ exists s2, forall j i, V j i = variance s2 C j i.
Proof. exact (ex_intro _ one_C refuted_main). Qed.
Print Assumptions C152_standard_errors_refuted.

(** C152, the part that holds: with a single variable whose weights are those of the initial GWR, the final
    coefficients are C y with the C of that regression, and the reported values are their variances.
    Missing: several variables, or other weights. *)
Theorem C152_one_variable_partial : forall (F : realFieldType) n (inv1 inv : 'M[F]_1 -> option 'M[F]_1),
  inverse_contract inv1 -> inverse_contract inv ->
  forall hat ic flags (x0 : 'M[F]_(n, 1)) (W0 : 'I_n -> 'cV[F]_n) init bw0 select0
    (wt : 'I_1 -> F -> 'I_n -> 'cV[F]_n) select threshold retry stop_iter stop_var stop_sel ctype cthreshold root maxiter,
  (forall i bw, wt i bw = W0) ->
  let run y := ms_report inv1 inv hat ic flags x0 y W0 init bw0 select0 wt select threshold retry
    stop_iter stop_var stop_sel (fun _ _ _ => false) ctype cthreshold root maxiter in
  exists C, (forall y st V, run y = Ok (st, V) -> linear_coefficients C y (mbetas st)) /\
    forall y st V, run y = Ok (st, Some V) -> exists s2, forall j i, V j i = variance s2 C j i.
Proof. exact one_variable_main. Qed.
Print Assumptions C152_one_variable_partial.
Example C152_one_variable_case : exists st V, ms_report (@exact_inv _ 1) (@exact_inv _ 1) true false (fun _ => false) one_x one_y
    (fun _ => const_mx 1) (fun _ => ISpecified) (fun _ => 1)
    (fun _ _ _ b => Ok b) (fun _ _ _ => const_mx 1) (fun _ _ _ _ b => Ok b) (fun _ => 1) 1 (fun _ => false) (fun _ _ => false) (fun _ _ => false)
    (fun _ _ _ => false) CVR 2%:R^-1 id 3 = Ok (st, Some V).
Proof. exact one_same. Qed.
