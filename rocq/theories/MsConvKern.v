From Coq Require Import Reals Lra.
From Verif Require Import KernelModel KernelSpec.
Local Open Scope R_scope.
Lemma kernel_weights_main : exists h0 h1, 0 < h0 /\ 0 < h1 /\
  (K Boxcar 0 h0 = 1 /\ K Boxcar 1 h0 = 1 /\ K Boxcar 9 h0 = 0 /\ K Boxcar 10 h0 = 0) /\
  (K Bisquare 0 h1 = 1 /\ K Bisquare 1 h1 = 1 / 6 /\ K Bisquare 9 h1 = 0 /\ K Bisquare 10 h1 = 0).
Proof.
  set (s := sqrt (1 / 6)).
  assert (Es : s * s = 1 / 6) by (apply sqrt_sqrt; lra).
  assert (S0 : 0 <= s) by apply sqrt_pos.
  assert (S1 : s < 1 / 2) by nra.
  set (t := sqrt (1 - s)).
  assert (Et : t * t = 1 - s) by (apply sqrt_sqrt; lra).
  assert (T0 : 0 <= t) by apply sqrt_pos.
  assert (S2 : 0 < s) by nra.
  assert (T1 : 1 / 2 < t) by nra.
  assert (T2 : t < 1) by nra.
  exists 2, (/ t).
  assert (I : 0 < / t) by (apply Rinv_0_lt_compat; lra).
  assert (I1 : 1 < / t) by (rewrite <- Rinv_1 at 1; apply Rinv_lt_contravar; lra).
  assert (I2 : / t < 2) by (replace 2 with (/ (1 / 2)) by lra; apply Rinv_lt_contravar; nra).
  unfold K; repeat split; try lra; repeat destruct Rlt_dec; try lra.
  replace (1 / / t) with t by (field; lra). replace (t ^ 2) with (t * t) by ring. rewrite Et.
    replace ((1 - (1 - s)) ^ 2) with (s * s) by ring. exact Es.
Qed.
