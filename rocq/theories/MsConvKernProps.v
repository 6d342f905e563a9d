(** Property C171: the weights of the example of MsConvProps.v ([dv_wt]) are those of points at 0, 1 and 10 on a line,
    with the Boxcar kernel and a bandwidth h0 for the first variable, the Bisquare kernel and a bandwidth h1 for the second.
    Vocabulary: KernelSpec.v. *)
From Coq Require Import Reals.
From Verif Require Import KernelModel KernelSpec MsConvKern.
Local Open Scope R_scope.
Theorem C171_kernel_weights : exists h0 h1, 0 < h0 /\ 0 < h1 /\
  (K Boxcar 0 h0 = 1 /\ K Boxcar 1 h0 = 1 /\ K Boxcar 9 h0 = 0 /\ K Boxcar 10 h0 = 0) /\
  (K Bisquare 0 h1 = 1 /\ K Bisquare 1 h1 = 1 / 6 /\ K Bisquare 9 h1 = 0 /\ K Bisquare 10 h1 = 0).
Proof. exact kernel_weights_main. Qed.
Print Assumptions C171_kernel_weights.
