(** C160 (and C113): a scalable GWR object over several calls.  Vocabulary: ScaObjSpec.v, ScaNnSpec.v. *)
From Coq Require Import Reals Bool List ZArith Lra Lia.
From Verif Require Import Outcome KernelModel GwssSpec GwssCases ScaNnModel ScaNnSpec ScaOptModel ScaObjModel ScaObjSpec ScaObjProofs ScaObjCases.
Import ListNotations.
Local Open Scope R_scope.

Section C160.
Variable sort_index : list R -> list nat.
Variables (Data Loc Mat Se Diag Tel : Type).
Variables (d_n d_k : Data -> nat) (d_dist : Data -> nat -> list R).
Variables (l_n : Loc -> nat) (l_dist : Data -> Loc -> nat -> list R).
Notation neighbours := (list (list nat * list R)).
Variable optimum : Data -> kernel -> bool -> neighbours -> list R -> Tel -> outcome (option (R * R * R)).
Variable fitting : Data -> kernel -> R -> R -> neighbours -> list R -> Tel -> outcome (Mat * Se).
Variable predicting : Data -> Loc -> kernel -> R -> R -> neighbours -> list R -> Tel -> outcome Mat.
Variable report : Data -> Mat -> Se -> Diag * Se.
Notation object := (object Data Mat Se Diag).
Notation fit := (fit sort_index d_n d_k d_dist optimum fitting report).
Notation predict := (predict sort_index d_n d_dist l_n l_dist optimum predicting).
Notation step := (step sort_index d_n d_k d_dist l_n l_dist optimum fitting predicting report).
Notation run := (run sort_index d_n d_k d_dist l_n l_dist optimum fitting predicting report).
Notation sound := (sound d_n d_dist).

(** C160: what a fit returns and leaves behind: parameters optimised on the lists of the search, coefficients from the
    nearest observations, as many as the bandwidth says and at most n - 1; nothing from earlier calls. *)
Theorem C160_fit_partial : sorts_indices sort_index -> forall (o : object) t,
  sound (o_data o) -> two_kernels (o_kernel o) -> accepted (o_cv o) (o_bw o) (d_n (o_data o)) ->
  let d := o_data o in let n := d_n d in
  exists rows col rows' col', search_lists (o_cv o) (d_dist d) n (o_bw o) rows col /\
    neighbour_lists (d_dist d) n (count (o_bw o) n) rows' col' /\
    forall c b a m se dg se', optimum d (o_kernel o) (o_cv o) rows col t = Ok (Some (c, b, a)) ->
      fitting d (o_kernel o) (b * b) (a * a) rows' col' t = Ok (m, se) -> report d m se = (dg, se') ->
      fit false false false t o =
      (Matrix m, Object d (bandwidth_after (o_bw o) n) (o_kernel o) (o_cv o) (Some c) (b * b) (a * a) m se' dg (o_term o)).
Proof. exact (fun SI => fit_main sort_index SI Data Mat Se Diag Tel d_n d_k d_dist optimum fitting report). Qed.
(** The same for predictions: the neighbours are those of the locations; the diagnostics and standard errors stay. *)
Theorem C160_predict_partial : sorts_indices sort_index -> forall (o : object) l t,
  sound (o_data o) -> (forall i, (i < l_n l)%nat -> length (l_dist (o_data o) l i) = d_n (o_data o)) ->
  two_kernels (o_kernel o) -> accepted (o_cv o) (o_bw o) (d_n (o_data o)) ->
  let d := o_data o in let n := d_n d in
  exists rows col rows' col', search_lists (o_cv o) (d_dist d) n (o_bw o) rows col /\
    neighbour_lists (l_dist d l) (l_n l) (count (o_bw o) n) rows' col' /\
    forall c b a m, optimum d (o_kernel o) (o_cv o) rows col t = Ok (Some (c, b, a)) ->
      predicting d l (o_kernel o) (b * b) (a * a) rows' col' t = Ok m ->
      predict l false false false t o =
      (Matrix m, Object d (bandwidth_after (o_bw o) n) (o_kernel o) (o_cv o) (Some c) (b * b) (a * a) m (o_se o) (o_diag o) (o_term o)).
Proof. exact (fun SI => predict_main sort_index SI Data Loc Mat Se Diag Tel d_n d_dist l_n l_dist optimum predicting). Qed.

(** C160: after any calls, a fit or prediction answers as on any other object with the same data, bandwidth, kernel and
    criterion, if the kernel is one of the two and the criterion is a number.  (Missing: see the refutations.) *)
Theorem C160_again_partial : forall cs (o p : object) c, same_settings (run cs o) p -> is_computation c ->
  two_kernels (o_kernel p) -> (forall rows col t, optimum (o_data p) (o_kernel p) (o_cv p) rows col t <> Ok None) ->
  fst (step c (run cs o)) = fst (step c p).
Proof. exact (history_main sort_index Data Loc Mat Se Diag Tel d_n d_k d_dist l_n l_dist optimum fitting predicting report). Qed.

(** C160: the bandwidth after any calls that do not set it: it never grows, it is the bandwidth set or one less than the number of
    observations of a data set that was used, and below the number of observations of every data set used. *)
Theorem C160_bandwidth : sorts_indices sort_index -> forall cs (o : object),
  (forall c, In c cs -> ~ sets_weight c) -> (forall d, In d (used (o_data o) cs) -> sound d) -> 0 <= o_bw o < IZR (2 ^ 64) ->
  let b := o_bw o in let b' := o_bw (run cs o) in
  0 <= b' <= b /\ (b' = b \/ exists d, In d (used (o_data o) cs) /\ (Z.of_nat (d_n d) <= Int_part b)%Z /\ b' = INR (d_n d) - 1) /\
  forall d, In d (used (o_data o) cs) -> (Int_part b' < Z.of_nat (d_n d))%Z.
Proof. exact (fun SI => bandwidth_main sort_index SI Data Loc Mat Se Diag Tel d_n d_k d_dist l_n l_dist optimum fitting predicting report). Qed.
(** Data, kernel and criterion are those set last; the status is Terminated once a call was cancelled, for good. *)
Theorem C160_settings : forall cs (o : object), let p := run cs o in
  o_data p = last_set sets_data (o_data o) cs /\ o_kernel p = last_set sets_kernel (o_kernel o) cs /\
  o_cv p = last_set sets_criterion (o_cv o) cs.
Proof. exact (settings_main sort_index Data Loc Mat Se Diag Tel d_n d_k d_dist l_n l_dist optimum fitting predicting report). Qed.
Theorem C160_weight : forall b k (o : object), o_bw (snd (step (SetWeight b k) o)) = b.
Proof. exact (weight_main sort_index Data Loc Mat Se Diag Tel d_n d_k d_dist l_n l_dist optimum fitting predicting report). Qed.
Theorem C160_status : forall cs (o : object), o_term (run cs o) = true <->
  o_term o = true \/ exists cs1 c cs2 r q, cs = cs1 ++ c :: cs2 /\ fst (step c (run cs1 o)) = Zeros r q.
Proof. exact (status_main sort_index Data Loc Mat Se Diag Tel d_n d_k d_dist l_n l_dist optimum fitting predicting report). Qed.
(** After one fit or prediction all further ones on the same data have the same settings, ... *)
Theorem C160_settled : sorts_indices sort_index -> forall (o : object) c cs,
  is_computation c -> (forall c', In c' cs -> is_computation c') -> sound (o_data o) -> 0 <= o_bw o < IZR (2 ^ 64) ->
  same_settings (run cs (snd (step c o))) (snd (step c o)).
Proof. exact (fun SI => settled_main sort_index SI Data Loc Mat Se Diag Tel d_n d_k d_dist l_n l_dist optimum fitting predicting report). Qed.
(** ... so that the third fit answers as the second. *)
Theorem C113_third_partial : sorts_indices sort_index -> forall (o : object) c c1 c2,
  is_computation c -> is_computation c1 -> is_computation c2 -> sound (o_data o) -> 0 <= o_bw o < IZR (2 ^ 64) ->
  two_kernels (o_kernel o) -> (forall rows col t, optimum (o_data o) (o_kernel o) (o_cv o) rows col t <> Ok None) ->
  fst (step c (run [c1; c2] o)) = fst (step c (run [c1] o)).
Proof. exact (fun SI => third_main sort_index SI Data Loc Mat Se Diag Tel d_n d_k d_dist l_n l_dist optimum fitting predicting report). Qed.
(** C113, refuted for every data set of up to 51 observations with the CV criterion and a bandwidth of all observations: after
    any fit or prediction every fit and every prediction throws. *)
Theorem C113_throws_refuted : sorts_indices sort_index -> forall (o : object) c c',
  is_computation c -> is_computation c' -> sound (o_data o) -> 0 <= o_bw o < IZR (2 ^ 64) ->
  two_kernels (o_kernel o) -> o_cv o = true -> (Z.of_nat (d_n (o_data o)) <= Int_part (o_bw o))%Z -> (d_n (o_data o) <= 51)%nat ->
  fst (step c' (snd (step c o))) = Threw.
Proof. exact (fun SI => refit_throws_main sort_index SI Data Loc Mat Se Diag Tel d_n d_k d_dist l_n l_dist optimum fitting predicting report). Qed.

(** C160, refuted: with a kernel other than the two, or when the criterion is not a number, fit returns the
    coefficients of an earlier fit, whatever the data was, without an error. *)
Theorem C160_stale_refuted : sorts_indices sort_index -> forall (o : object) t m d2 b k t2,
  fst (fit false false false t o) = Matrix m -> sound d2 -> accepted (o_cv o) b (d_n d2) ->
  ~ two_kernels k \/ (forall rows col u, optimum d2 k (o_cv o) rows col u = Ok None) ->
  fst (fit false false false t2 (run [Fit false false false t; SetData d2; SetWeight b k] o)) = Matrix m.
Proof. exact (fun SI => stale_refuted sort_index SI Data Loc Mat Se Diag Tel d_n d_k d_dist l_n l_dist optimum fitting predicting report). Qed.
(** C160, refuted: the matrix of zeros that a cancelled prediction returns has one column per observation, not per
    coefficient; that of a cancelled fit has the right shape. *)
Theorem C160_shape_refuted : forall (o : object) c r q, fst (step c o) = Zeros r q ->
  match c with
  | Fit _ _ _ _ => r = d_n (o_data o) /\ q = d_k (o_data o)
  | Predict l _ _ _ _ => r = l_n l /\ q = d_n (o_data o)
  | _ => False
  end.
Proof. exact (shape_main sort_index Data Loc Mat Se Diag Tel d_n d_k d_dist l_n l_dist optimum fitting predicting report). Qed.
(** C160, refuted: a fit cancelled at its end returns zeros, but betas() has the coefficients and diagnostic() is still that of
    an earlier fit. *)
Theorem C160_cancelled_refuted : forall (o : object) t m, fst (fit false false false t o) = Matrix m ->
  two_kernels (o_kernel o) -> (forall rows col t, optimum (o_data o) (o_kernel o) (o_cv o) rows col t <> Ok None) ->
  fst (fit false false true t o) = Zeros (d_n (o_data o)) (d_k (o_data o)) /\
  o_betas (snd (fit false false true t o)) = m /\ o_diag (snd (fit false false true t o)) = o_diag o.
Proof. exact (cancelled_main sort_index Data Mat Se Diag Tel d_n d_k d_dist optimum fitting report). Qed.
End C160.
Print Assumptions C160_fit_partial.
Print Assumptions C160_predict_partial.
Print Assumptions C160_again_partial.
Print Assumptions C160_bandwidth.
Print Assumptions C160_settings.
Print Assumptions C160_weight.
Print Assumptions C160_status.
Print Assumptions C160_settled.
Print Assumptions C113_third_partial.
Print Assumptions C113_throws_refuted.
Print Assumptions C160_stale_refuted.
Print Assumptions C160_shape_refuted.
Print Assumptions C160_cancelled_refuted.

(** C113: when a second fit gets through the search for neighbours, if the first did. *)
Theorem C113_refit_partial : forall cv bw n, (2 <= n)%nat -> accepted cv bw n ->
  (accepted cv (bandwidth_after bw n) n <-> ~ (cv = true /\ (Z.of_nat n <= Int_part bw)%Z /\ (n <= 51)%nat)).
Proof. exact refit_main. Qed.
Print Assumptions C113_refit_partial.
Example C113_refit_case : accepted false 5 3 /\ bandwidth_after 5 3 = 2 /\ accepted false 2 3.
Proof. exact (conj (acc5 3) (conj after53 (acc2 3))). Qed.

(** C160, refuted: the bandwidth asked for is lost.  Ten observations with bandwidth 5 get five neighbours on a new object; after
    a fit of three observations they get two. *)
Theorem C160_shrunk_refuted : let o := t_run [Fit false false false tt; SetData 10%nat] (t_new 3 5 Gaussian false) in
  fst (t_fit false false false tt (t_new 10 5 Gaussian false)) = Matrix (10, 5)%nat /\
  fst (t_fit false false false tt o) = Matrix (10, 2)%nat.
Proof. exact t_shrunk. Qed.
Print Assumptions C160_shrunk_refuted.
Example C160_stale_case : let o := t_new 10 5 Gaussian false in
  fst (t_fit false false false tt o) = Matrix (10, 5)%nat /\
  fst (t_fit false false false tt (t_run [Fit false false false tt; SetData 7%nat; SetWeight 5 Bisquare] o)) = Matrix (10, 5)%nat /\
  fst (t_fit false false false tt (t_run [Fit false false false tt; SetData 4%nat; SetWeight 5 Gaussian] o)) = Matrix (10, 5)%nat.
Proof. exact t_stale. Qed.
(** C160, refuted: after a prediction betas() are the coefficients at the locations, while diagnostic() is that of the fit. *)
Theorem C160_betas_refuted : let o := snd (t_fit false false false tt (t_new 10 5 Gaussian false)) in
  o_betas o = (10, 5)%nat /\ o_betas (snd (t_predict 6%nat false false false tt o)) = (6, 5)%nat /\
  o_diag (snd (t_predict 6%nat false false false tt o)) = 10%nat /\
  fst (t_predict 6%nat true false false tt o) = Zeros 6 10.
Proof. exact t_predicted. Qed.
Print Assumptions C160_betas_refuted.
