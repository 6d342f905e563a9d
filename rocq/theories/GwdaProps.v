(** Properties of geographically weighted discriminant analysis
    (C70-C73, C94-C97). *)
From Coq Require Import Reals Bool List Arith Lia Lra String Permutation.
From Verif Require Import Outcome XReal Sums GwdaModel GwdaSpec GwdaProofs GwdaProofs2 GwdaProofs3 GwdaCases GwdaValues.
Import ListNotations.
Local Open Scope string_scope.
Local Open Scope R_scope.

(** C70: the levels are the distinct labels in order of first appearance. *)
Theorem C70_levels : forall y,
  NoDup (levels y) /\ (forall s, In s (levels y) <-> In s y) /\
  (forall i j a b ka kb, (i < j)%nat -> nth_error (levels y) i = Some a -> nth_error (levels y) j = Some b ->
     first_at y a ka -> first_at y b kb -> (ka < kb)%nat).
Proof. exact levels_spec. Qed.
Print Assumptions C70_levels.
Example C70_levels_case : levels ["b"; "a"; "b"; "c"; "a"] = ["b"; "a"; "c"].
Proof. reflexivity. Qed.

(** C70: splitting by level never throws, gives for each level the rows of that
    level in their original order, and loses or duplicates no row. *)
Theorem C70_split : forall (A : Type) (x : list A) y, List.length x = List.length y ->
  splitX x y = Ok (map (with_label x y) (levels y)) /\
  Permutation (List.concat (map (with_label x y) (levels y))) x.
Proof. exact (@splitX_spec). Qed.
Print Assumptions C70_split.
Example C70_split_case : splitX [1; 2; 3; 4; 5]%nat ["b"; "a"; "b"; "c"; "a"] = Ok [[1; 3]; [2; 5]; [4]]%nat.
Proof. reflexivity. Qed.

(** C70: the table holds the number of occurrences of every label; the counts of
    the levels add up to the number of observations. *)
Theorem C70_table : forall y,
  (forall s, count_of s (ytable y) = count_occ string_dec y s) /\
  fold_right plus 0%nat (map (fun s => count_of s (ytable y)) (levels y)) = List.length y.
Proof. exact (fun y => conj (fun s => ytable_spec s y) (ytable_total y)). Qed.
Print Assumptions C70_table.
Example C70_table_case : count_of "b" (ytable ["b"; "a"; "b"]) = 2%nat.
Proof. reflexivity. Qed.

(** C71, what holds: the reported row adds up to one whenever it is a row of
    numbers, and its entries are in [0, 1] when the score of the last group is
    not negative.  Missing: the entries are not posterior probabilities (see the
    two refutations). *)
Theorem C71_row_partial : forall l rs, row_values l rs -> rs <> [] ->
  lsum (map exp (removelast rs)) + last rs 0 <> 0 ->
  exists ps, row_values (probs_row l) ps /\ lsum ps = 1 /\
    (0 <= last rs 0 -> Forall (fun r => 0 <= r <= 1) ps).
Proof. exact probs_sum. Qed.
Print Assumptions C71_row_partial.
Example C71_row_case : lsum (map exp (removelast [0; 1])) + last [0; 1] 0 <> 0.
Proof. simpl. rewrite exp_0. lra. Qed.

(** C71 is false: a reported probability can be negative (the last column is not
    exponentiated). *)
Theorem C71_distribution_refuted :
  exists l rs ps, row_values l rs /\ row_values (probs_row l) ps /\ exists q, In q ps /\ q < 0.
Proof.
  exact (ex_intro _ bad_row (ex_intro _ [0; - / 2] (ex_intro _ [2; -1]
    (conj eq_refl (conj bad_row_negative (ex_intro _ (-1)
      (conj (or_intror (or_introl eq_refl)) (IZR_lt (-1) 0 eq_refl)))))))).
Qed.
Print Assumptions C71_distribution_refuted.

(** C71 is false: the predicted group (smallest score) need not have the largest
    reported probability. *)
Theorem C71_largest_refuted :
  exists l ps c c' q q', row_values (probs_row l) ps /\ index_min l = c /\
    nth_error ps c = Some q /\ nth_error ps c' = Some q' /\ q < q'.
Proof.
  exact (ex_intro _ odd_row (ex_intro _ [1 / 4; 1 / 2; 1 / 4] (ex_intro _ 0%nat (ex_intro _ 1%nat
    (ex_intro _ (1 / 4) (ex_intro _ (1 / 2) (conj odd_row_probs (conj odd_row_min
      (conj eq_refl (conj eq_refl odd_row_lt)))))))))).
Qed.
Print Assumptions C71_largest_refuted.

(** The sign error in general: among all groups but the last, the better (lower)
    score always gets the smaller reported probability. *)
Theorem C71_order_reversed : forall l rs ps c c' r r' q q', row_values l rs ->
  0 < lsum (map exp (removelast rs)) + last rs 0 -> row_values (probs_row l) ps ->
  (c < List.length rs - 1)%nat -> (c' < List.length rs - 1)%nat ->
  nth_error rs c = Some r -> nth_error rs c' = Some r' -> r < r' ->
  nth_error ps c = Some q -> nth_error ps c' = Some q' -> q < q'.
Proof. exact probs_reversed. Qed.
Print Assumptions C71_order_reversed.
Example C71_order_case : row_values odd_row [0; ln 2; 1] /\ row_values (probs_row odd_row) [1 / 4; 1 / 2; 1 / 4].
Proof. exact (conj eq_refl odd_row_probs). Qed.

(** The predicted group is the first one with the smallest score. *)
Theorem C71_predicted_first_min : forall l rs, row_values l rs -> rs <> [] ->
  exists r, nth_error rs (index_min l) = Some r /\
    (forall c' r', nth_error rs c' = Some r' -> r <= r' /\ ((c' < index_min l)%nat -> r < r')).
Proof. exact index_min_spec. Qed.
Print Assumptions C71_predicted_first_min.
Example C71_predicted_case : index_min odd_row = 0%nat.
Proof. exact odd_row_min. Qed.

(** What a run reports: the first label of smallest score, the rows and their largest entries, the
    entropies, and the fraction of correct predictions.  Weights and prediction variables: the serial
    run of a fresh object leaves out each observation's own weight. *)
Theorem C71_reported : forall mnorm squad n p x y W o md s r, (0 < n)%nat ->
  snd (run mnorm squad n p x y W o md s) = Ok r ->
  exists npr xpr wt cols,
    (npr, xpr) = match st_prX s with None => (n, x) | Some q => q end /\
    (forall k j, wt k j = match md, st_prX s, st_prY s with
                          | Serial, None, None => if (k =? j)%nat then 0 else W k j | _, _, _ => W k j end) /\
    (if isWqda o then wqda mnorm squad n p x y wt npr xpr o else wlda mnorm squad n p x y wt npr xpr o) = Ok cols /\
    List.length (r_group r) = npr /\ (npr <= List.length y)%nat /\
    has_value (r_rate r) (INR (List.length (filter (fun q => String.eqb (fst q) (snd q)) (combine (r_group r) y))) / INR n) /\
    (forall j, (j < npr)%nat ->
       (exists g, nth_error (r_group r) j = Some g /\ nth_error (levels y) (index_min (row_of cols j)) = Some g) /\
       nth_error (r_probs r) j = Some (probs_row (row_of cols j)) /\
       (forall ps, row_values (probs_row (row_of cols j)) ps -> ps <> [] ->
          exists v q, nth_error (r_pmax r) j = Some v /\ has_value v q /\ In q ps /\ forall q', In q' ps -> q' <= q)) /\
    (forall j, (j < n)%nat -> nth_error (r_entropy r) j = Some (entropy_row (row_of cols j))).
Proof. exact C71_reported_main. Qed.
Print Assumptions C71_reported.
(** C73_modes_refuted exhibits such runs. *)

(** C72: Shannon's entropy of a non-negative vector with a positive sum lies
    between 0 and the logarithm of the number of its positive entries. *)
Theorem C72_entropy_bounds : forall l rs, row_values l rs -> Forall (fun r => 0 <= r) rs -> 0 < lsum rs ->
  exists h, has_value (shannonEntropy l) h /\ 0 <= h <= ln (INR (positives rs)) / ln 2.
Proof. exact shannon_bounds. Qed.
Print Assumptions C72_entropy_bounds.
Example C72_entropy_case : Forall (fun r => 0 <= r) [1 / 2; 0; 1 / 2] /\ 0 < lsum [1 / 2; 0; 1 / 2].
Proof. split; [repeat constructor; lra|simpl; lra]. Qed.

(** C72, what holds of the reported value for three or more groups: it is
    non-negative and at most log NV / log (NV - 1).  Missing: the bound 1, which
    is false. *)
Theorem C72_reported_partial : forall l rs, row_values l rs -> (3 <= List.length rs)%nat -> 0 <= last rs 0 ->
  exists h, has_value (entropy_row l) h /\
    0 <= h <= ln (INR (List.length rs)) / ln (INR (List.length rs) - 1).
Proof. exact entropy_partial. Qed.
Print Assumptions C72_reported_partial.
Example C72_reported_case : row_values flat_row [0; 0; 1] /\ 0 <= last [0; 0; 1] 0.
Proof. split; [reflexivity|simpl; lra]. Qed.

(** C72 is false: three equally likely groups have a reported entropy above 1. *)
Theorem C72_above_one_refuted : exists l h, has_value (entropy_row l) h /\ 1 < h.
Proof. exact (ex_intro _ flat_row flat_row_entropy). Qed.
Print Assumptions C72_above_one_refuted.

(** C72 is false: with two groups the reported entropy is never a number (the
    normaliser is log2 1 = 0). *)
Theorem C72_two_groups_refuted : forall l, List.length l = 2%nat -> xval (entropy_row l) = None.
Proof. exact entropy_two_groups. Qed.
Print Assumptions C72_two_groups_refuted.
Example C72_two_groups_case : List.length bad_row = 2%nat.
Proof. reflexivity. Qed.

(** C73, what holds: the two modes agree for every object that already carries a
    prediction set.  Missing: the case of a fresh object. *)
Theorem C73_prediction_set_partial : forall mnorm squad n p x y W o s,
  st_prX s <> None \/ st_prY s <> None ->
  run mnorm squad n p x y W o Serial s = run mnorm squad n p x y W o Omp s.
Proof. exact run_predict_eq. Qed.
Print Assumptions C73_prediction_set_partial.
Example C73_prediction_set_case : st_prX {| st_prX := Some (4%nat, ex_vars); st_prY := None |} <> None
  \/ st_prY {| st_prX := Some (4%nat, ex_vars); st_prY := None |} <> None.
Proof. left; discriminate. Qed.

(** C73 is false on a fresh object: for one data set, whatever the (regular)
    solver and norm, the serial run classifies every observation wrongly and
    reports accuracy 0 while the OpenMP run reports accuracy 1. *)
Theorem C73_modes_refuted : exists n p x y W o, forall mnorm squad Q N,
  (forall M, 0 < N M /\ has_value (mnorm M) (N M)) ->
  (forall M d, exists q, squad M d = Ok q /\ has_value q (Q M d)) ->
  (forall M d d', (forall a, d a = d' a) -> Q M d = Q M d') ->
  exists rs ro, snd (run mnorm squad n p x y W o Serial fresh) = Ok rs /\
    snd (run mnorm squad n p x y W o Omp fresh) = Ok ro /\
    has_value (r_rate rs) 0 /\ has_value (r_rate ro) 1.
Proof.
  exact (ex_intro _ 4%nat (ex_intro _ 2%nat (ex_intro _ ex_vars (ex_intro _ ex_labels (ex_intro _ ex_wts
    (ex_intro _ ex_opts (fun mnorm squad Q N HN HQ HE =>
      match ex_serial mnorm squad Q N HN HQ HE, ex_omp mnorm squad Q N HN HQ HE with
      | ex_intro _ rs (conj A (conj _ B)), ex_intro _ ro (conj C (conj _ D)) =>
          ex_intro _ rs (ex_intro _ ro (conj A (conj C (conj B D))))
      end))))))).
Qed.
Print Assumptions C73_modes_refuted.
Example C73_modes_case : exists (mnorm : (nat -> nat -> xd) -> xd) (squad : (nat -> nat -> xd) -> (nat -> xd) -> outcome xd) Q N,
  (forall M, 0 < N M /\ has_value (mnorm M) (N M)) /\
  (forall M d, exists q, squad M d = Ok q /\ has_value q (Q M d)) /\
  (forall M d d', (forall a, d a = d' a) -> Q M d = Q M d').
Proof.
  exists (fun _ => XF 1), (fun _ d => Ok (XF (match xval (d 0%nat) with Some r => r * r | None => 0 end))),
    (fun _ d => match xval (d 0%nat) with Some r => r * r | None => 0 end), (fun _ => 1).
  repeat split; [lra|intros M d; eexists; split; reflexivity|]. intros M d d' E; rewrite E; reflexivity.
Qed.

(** C94, general form of the failure: running the same object a second time
    serially gives the result of a first OpenMP run, because the first run left
    the training data behind as a prediction set. *)
Theorem C94_second_run : forall mnorm squad n p x y W o md, (2 <= p)%nat ->
  snd (run mnorm squad n p x y W o Serial (fst (run mnorm squad n p x y W o md fresh))) =
  snd (run mnorm squad n p x y W o Omp fresh).
Proof. exact run_again. Qed.
Print Assumptions C94_second_run.
Example C94_second_run_case : (2 <= 2)%nat.
Proof. exact (le_n 2). Qed.

(** C94 is false: the second serial run of an unchanged object reports accuracy 1
    where the first reported 0. *)
Theorem C94_repeatable_refuted : exists n p x y W o, forall mnorm squad Q N,
  (forall M, 0 < N M /\ has_value (mnorm M) (N M)) ->
  (forall M d, exists q, squad M d = Ok q /\ has_value q (Q M d)) ->
  (forall M d d', (forall a, d a = d' a) -> Q M d = Q M d') ->
  exists r1 r2, snd (run mnorm squad n p x y W o Serial fresh) = Ok r1 /\
    snd (run mnorm squad n p x y W o Serial (fst (run mnorm squad n p x y W o Serial fresh))) = Ok r2 /\
    has_value (r_rate r1) 0 /\ has_value (r_rate r2) 1.
Proof.
  exact (ex_intro _ 4%nat (ex_intro _ 2%nat (ex_intro _ ex_vars (ex_intro _ ex_labels (ex_intro _ ex_wts
    (ex_intro _ ex_opts (fun mnorm squad Q N HN HQ HE =>
      match ex_serial mnorm squad Q N HN HQ HE, ex_omp mnorm squad Q N HN HQ HE with
      | ex_intro _ rs (conj A (conj _ B)), ex_intro _ ro (conj C (conj _ D)) =>
          ex_intro _ rs (ex_intro _ ro (conj A (conj
            (eq_trans (run_again mnorm squad 4 2 ex_vars ex_labels ex_wts ex_opts Serial (le_n 2)) C) (conj B D))))
      end))))))).
Qed.
Print Assumptions C94_repeatable_refuted.

(** C95: the local mean of a group is the weighted mean and stays between the
    smallest and largest value of the group. *)
Theorem C95_mean : forall x wt idx j a, (forall k, In k idx -> 0 <= wt k j) ->
  0 < lsum (map (fun k => wt k j) idx) ->
  exists mu, has_value (wMean x wt idx j a) mu /\
    mu * lsum (map (fun k => wt k j) idx) = lsum (map (fun k => wt k j * x k a) idx) /\
    (forall lo hi, (forall k, In k idx -> lo <= x k a <= hi) -> lo <= mu <= hi).
Proof. exact wMean_spec. Qed.
Print Assumptions C95_mean.
Example C95_mean_case : 0 < lsum (map (fun k => ex_wts k 0) [0; 2]%nat).
Proof. unfold ex_wts; simpl; lra. Qed.

(** C95: with at least two observations of positive weight, the local covariance
    matrix is symmetric, positive semidefinite and equal to the unbiased weighted
    covariance about the local mean. *)
Theorem C95_covariance : forall p x wt idx j, (2 <= p)%nat -> (forall k, In k idx -> 0 <= wt k j) ->
  0 < lsum (map (fun k => wt k j) idx) ->
  lsum (map (fun k => wt k j * wt k j) idx)
    < lsum (map (fun k => wt k j) idx) * lsum (map (fun k => wt k j) idx) ->
  exists C, (forall a b, has_value (wVarCov p x wt idx j a b) (C a b)) /\
    (forall a b, C a b = C b a) /\ (forall v, 0 <= quad_form p C v) /\
    (forall a b, exists ma mb, has_value (wMean x wt idx j a) ma /\ has_value (wMean x wt idx j b) mb /\
       C a b * (lsum (map (fun k => wt k j) idx) * lsum (map (fun k => wt k j) idx)
                - lsum (map (fun k => wt k j * wt k j) idx)) =
       lsum (map (fun k => wt k j) idx) * lsum (map (fun k => wt k j * ((x k a - ma) * (x k b - mb))) idx)).
Proof. exact cov_spec. Qed.
Print Assumptions C95_covariance.
Example C95_covariance_case :
  lsum (map (fun k => ex_wts k 0 * ex_wts k 0) [0; 2]%nat)
    < lsum (map (fun k => ex_wts k 0) [0; 2]%nat) * lsum (map (fun k => ex_wts k 0) [0; 2]%nat).
Proof. unfold ex_wts; simpl; lra. Qed.

(** C96: linear analysis predicts, at every location, the first label minimising
    half the quadratic form of its deviation minus the logarithm of the label's
    total local weight; the norm term and the common divisor of the priors have
    no influence.  [pcov], [pdiff]: pooled covariance and deviation from the local
    mean computed by the code. *)
Theorem C96_lda_rule : forall mnorm squad n p x y wt npr xpr o Q N,
  List.length y = n -> (npr <= n)%nat ->
  (forall M, 0 < N M /\ has_value (mnorm M) (N M)) ->
  (forall M d, exists q, squad M d = Ok q /\ has_value q (Q M d)) ->
  let w := if hasPrior o then wt else fun _ _ => 1 in
  let nc := if hasPrior o then n else npr in
  (forall k j, (k < n)%nat -> (j < nc)%nat -> 0 <= w k j) ->
  (forall s j, In s y -> (j < nc)%nat -> 0 < label_weight n y w s j) ->
  exists cols,
  wlda mnorm squad n p x y wt npr xpr o = Ok cols /\
  forall j, (j < npr)%nat -> y <> [] ->
    exists c s, index_min (row_of cols j) = c /\ nth_error (levels y) c = Some s /\
    forall i t, nth_error (levels y) i = Some t ->
      Q (pcov p x y wt o j) (pdiff x y wt xpr o c j) / 2 - ln (label_weight n y w s j) <=
      Q (pcov p x y wt o j) (pdiff x y wt xpr o i j) / 2 - ln (label_weight n y w t j) /\
      ((i < c)%nat ->
       Q (pcov p x y wt o j) (pdiff x y wt xpr o c j) / 2 - ln (label_weight n y w s j) <
       Q (pcov p x y wt o j) (pdiff x y wt xpr o i j) / 2 - ln (label_weight n y w t j)).
Proof. exact lda_rule. Qed.
Print Assumptions C96_lda_rule.
Example C96_lda_rule_case : forall s j, In s ex_labels -> (j < 4)%nat -> 0 < label_weight 4 ex_labels ex_wts s j.
Proof.
  intros s j I L. unfold label_weight, ex_labels, ex_wts; cbn [bigsum nth_error].
  destruct I as [<-|[<-|[<-|[<-|[]]]]]; destruct j as [|[|[|[|?]]]]; try lia; simpl; lra.
Qed.

(** ... where the deviation is taken from the label's locally weighted mean ... *)
Theorem C96_deviation : forall x y wt xpr o i s j, nth_error (levels y) i = Some s ->
  let n := List.length y in
  let w := if hasMean o then wt else fun _ _ => 1 in
  label_sum n y s (fun k => w k j) <> 0 ->
  forall a, has_value (pdiff x y wt xpr o i j a) (xpr j a - label_mean n y x w s j a).
Proof. exact C96_deviation_main. Qed.
Print Assumptions C96_deviation.
(** ... and the covariance is that of the labels averaged by their numbers of observations. *)
Theorem C96_pooled_covariance : forall p x y wt o j, (2 <= p)%nat -> y <> [] ->
  let n := List.length y in
  let w := if hasCov o then wt else fun _ _ => 1 in
  (forall s, In s y -> 0 < label_sum n y s (fun k => w k j)) ->
  (forall s, In s y -> label_sum n y s (fun k => w k j * w k j) < label_sum n y s (fun k => w k j) * label_sum n y s (fun k => w k j)) ->
  forall a b, has_value (pcov p x y wt o j a b)
    (lsum (map (fun s => INR (count_occ string_dec y s) * label_cov n y x w s j a b) (levels y)) / INR n).
Proof. exact C96_pooled_main. Qed.
Print Assumptions C96_pooled_covariance.
Example C96_pooled_case : forall s, In s ex_labels -> 0 < label_sum 4 ex_labels s (fun k => ex_wts k 0) /\
  label_sum 4 ex_labels s (fun k => ex_wts k 0 * ex_wts k 0) < label_sum 4 ex_labels s (fun k => ex_wts k 0) * label_sum 4 ex_labels s (fun k => ex_wts k 0).
Proof.
  intros s I. unfold label_sum, ex_labels, ex_wts; cbn [bigsum nth_error].
  destruct I as [<-|[<-|[<-|[<-|[]]]]]; simpl; lra.
Qed.

(** C97 is false of quadratic analysis: whenever one of the global options is
    chosen the run throws, for every data set with at least one observation. *)
Theorem C97_global_options_refuted : forall mnorm squad n p x y W o md s, y <> [] -> isWqda o = true ->
  hasMean o && hasCov o && hasPrior o = false ->
  snd (run mnorm squad n p x y W o md s) = Throw.
Proof. exact run_wqda_throws. Qed.
Print Assumptions C97_global_options_refuted.
Example C97_global_options_case :
  let o := {| isWqda := true; hasCov := true; hasMean := true; hasPrior := false |} in
  ex_labels <> [] /\ isWqda o = true /\ hasMean o && hasCov o && hasPrior o = false.
Proof. repeat split; discriminate. Qed.

(** C97 holds of linear analysis: no combination of local and global statistics
    throws, for any solver that succeeds. *)
Theorem C97_linear_options : forall mnorm squad n p x y wt npr xpr o (Q : (nat -> nat -> xd) -> (nat -> xd) -> R),
  List.length y = n -> (npr <= n)%nat ->
  (forall M d, exists q, squad M d = Ok q /\ has_value q (Q M d)) ->
  exists cols, wlda mnorm squad n p x y wt npr xpr o = Ok cols.
Proof.
  exact (fun mnorm squad n p x y wt npr xpr o Q L P HQ =>
    ex_intro _ _ (wlda_ok mnorm squad n p x y wt npr xpr o Q L P HQ)).
Qed.
Print Assumptions C97_linear_options.
Example C97_linear_case : List.length ex_labels = 4%nat /\ (4 <= 4)%nat.
Proof. split; [reflexivity|exact (le_n 4)]. Qed.
