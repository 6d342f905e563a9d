(** C173: the penalty of AICc. *)
From Coq Require Import Reals Arith.
From Verif Require Import XReal Sums KernelModel DiagModel LevSpec LevAic.
Local Open Scope R_scope.

(** The AICc of a fit with trace s0 exceeds that of an unpenalised likelihood if s0 < n - 2, and is below it if s0 > n - 2. *)
Theorem C173_penalty_partial : forall n p x b y s0 s1, (0 < n)%nat ->
  let d := calc_diagnostic n p x b y s0 s1 in
  0 < RSSv d -> 0 <= s0 ->
  (s0 < INR n - 2 -> exists v, xval (AICc d) = Some v /\ INR n * ln (RSSv d / INR n) + INR n * ln (2 * PI) < v) /\
  (INR n - 2 < s0 -> exists v, xval (AICc d) = Some v /\ v < INR n * ln (RSSv d / INR n) + INR n * ln (2 * PI)).
Proof. exact penalty_main. Qed.
Print Assumptions C173_penalty_partial.
Example C173_penalty_case : (0 < 4)%nat /\ 0 < RSSv (calc_diagnostic 4 1 (fun _ _ => 1) (fun _ _ => 0) (fun _ => 1) 3 3) /\ INR 4 - 2 < 3.
Proof. exact penalty_case. Qed.

(** Refuted: AICc has a minimum over the bandwidths.  Four observations 0, 0, 0, 1 at the corners of a square, a constant model with Gaussian
    weights (coefficients and trace as in C173_local_means): some bandwidth brings AICc below any bound, because the trace passes n - 2. *)
Theorem C173_unbounded_refuted : forall M, exists b w v, 0 < b /\
  (forall i j, (i < 4)%nat -> (j < 4)%nat -> xval (kernel_fn Gaussian (XF (corner_distance i j)) (XF b)) = Some (w i j)) /\
  let beta i (_ : nat) := bigsum 4 (fun j => w i j * (if Nat.eqb j 3 then 1 else 0)) / bigsum 4 (w i) in
  let tr := bigsum 4 (fun i => w i i / bigsum 4 (w i)) in
  xval (base_aicc 4 1 (fun _ _ => 1) beta (fun j => if Nat.eqb j 3 then 1 else 0) tr) = Some v /\ v < M.
Proof. exact unbounded_main. Qed.
Print Assumptions C173_unbounded_refuted.
