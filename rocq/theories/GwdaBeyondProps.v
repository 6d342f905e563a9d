(** C94: an object used for linear discriminant analysis and then given fewer observations.

    src/gwmodelpp/GWDA.cpp:37-45 (the prediction points of an earlier run are kept), 303-385 (the analysis).
    [squad] and [mnorm] stand for the solver and the norm, as in GwdaProps.v. *)
From Coq Require Import Reals Bool List Arith String.
From Verif Require Import Outcome XReal GwdaModel GwdaBeyond.
Import ListNotations.
Local Open Scope R_scope.

(** Whatever the two data sets, weights and options and however well the solver works: the second run fails, or, when the prior is local and
    the means and covariances are not, reads beyond the vector of the priors. *)
Theorem C94_fewer_refuted : forall mnorm squad n0 x0 y0 W0 o0 md0 n p x y W o md, (2 <= p)%nat -> y <> [] -> (n < n0)%nat -> isWqda o = false ->
  (forall M d, exists q, squad M d = Ok q) ->
  let s := fst (run mnorm squad n0 p x0 y0 W0 o0 md0 fresh) in
  (hasCov o = true \/ hasMean o = true -> snd (run mnorm squad n p x y W o md s) = Throw) /\
  (hasCov o = false -> hasMean o = false -> hasPrior o = true -> snd (run mnorm squad n p x y W o md s) = UB).
Proof. exact run_fewer. Qed.
Print Assumptions C94_fewer_refuted.
(** Options of each kind; three observations after five. *)
Example C94_fewer_case : (2 <= 2)%nat /\ (3 < 5)%nat /\ ["a"; "b"; "a"]%string <> [] /\
  let o := {| isWqda := false; hasCov := false; hasMean := false; hasPrior := true |} in
  isWqda o = false /\ hasCov o = false /\ hasMean o = false /\ hasPrior o = true.
Proof. repeat split; try discriminate; repeat constructor. Qed.
