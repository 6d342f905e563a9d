(** Property of distributed multiscale regression (C166). *)
From Coq Require Import Reals Bool List Arith Lia Lra.
From Verif Require Import Outcome XReal KernelModel MpiModel GoldModel MsMpiModel MsMpiSpec MsMpiNet MsMpiMain MsMpiCases.
Import ListNotations.
Local Open Scope R_scope.

(** Settings of the statements: [n] observations, [w] processes with ranges of [size], the
    same telegram everywhere, which does not stop a loop over locations. *)
Section Statements.
Variables n w size : nat.
Hypothesis Hsize : range_size n w = Ok size.
Variable nvar : nat.
Variables (x : nat -> nat -> R) (y : nat -> R).
Variable hat : bool.
Variable appr : nat -> approach.
Variables lower upper threshold : nat -> R.
Variables retry maxiter : nat.
Variable ctype : crit_type.
Variable cthreshold : R.
Variable loo : nat -> (nat -> R) -> weight -> nat -> option R.
Variable loc : nat -> (nat -> R) -> weight -> nat -> option (R * R).
Variables (b0 : nat -> nat -> R) (w0 : nat -> weight) (i0 : nat -> init_type).
Variable st : place -> bool.
Hypothesis Hst : between st.
Variable sync : nat -> nat -> bool.
Notation dist stop := (program_mpi n nvar x y hat appr lower upper threshold retry maxiter ctype cthreshold loo loc b0 w0 i0 w size stop).
Notation serial loo loc := (program_base n nvar x y hat appr lower upper threshold retry maxiter ctype cthreshold loo loc b0 w0 i0 st).

(** If no coefficient is negative (or there is one process): every execution ends, and
    then every process has returned what one process alone returns. *)
Theorem C166_agrees_partial : forall a, nothing_lost w loo loc -> serial loo loc = Ret a ->
  (exists k c, moves w sync k (start (dist (fun _ => st))) c /\ at_rest w sync c) /\
  exists M, forall k c, moves w sync k (start (dist (fun _ => st))) c -> (k <= M)%nat /\
    (at_rest w sync c -> forall p, (p < w)%nat -> returned c p a).
Proof. exact (C166_agrees_main n w size Hsize nvar x y hat appr lower upper threshold retry maxiter ctype cthreshold loo loc b0 w0 i0 st Hst sync). Qed.

(** In general it is what one process would return if the local regressions gave the positive
    parts of their coefficients. *)
Theorem C166_survivors : forall a, serial (surviving w loo) (surviving2 w loc) = Ret a ->
  (exists k c, moves w sync k (start (dist (fun _ => st))) c /\ at_rest w sync c) /\
  exists M, forall k c, moves w sync k (start (dist (fun _ => st))) c -> (k <= M)%nat /\
    (at_rest w sync c -> forall p, (p < w)%nat -> returned c p a).
Proof. exact (C166_survivors_main n w size Hsize nvar x y hat appr lower upper threshold retry maxiter ctype cthreshold loo loc b0 w0 i0 st Hst sync). Qed.

(** If the selection of a bandwidth fails, it fails in every process. *)
Theorem C166_selection : serial (surviving w loo) (surviving2 w loc) = Err InSelection ->
  (exists k c, moves w sync k (start (dist (fun _ => st))) c /\ at_rest w sync c) /\
  exists M, forall k c, moves w sync k (start (dist (fun _ => st))) c -> (k <= M)%nat /\
    (at_rest w sync c -> forall p, (p < w)%nat -> threw c p InSelection).
Proof. exact (C166_selection_main n w size Hsize nvar x y hat appr lower upper threshold retry maxiter ctype cthreshold loo loc b0 w0 i0 st Hst sync). Qed.

(** If the fit of a variable fails, the processes that own a failing location throw, and all
    others wait for ever. *)
Theorem C166_failure_refuted : forall v yi b, serial (surviving w loo) (surviving2 w loc) = Err (InFit v yi b) ->
  (exists k c, moves w sync k (start (dist (fun _ => st))) c /\ at_rest w sync c) /\
  exists M, forall k c, moves w sync k (start (dist (fun _ => st))) c -> (k <= M)%nat /\
    (at_rest w sync c -> forall p, (p < w)%nat ->
       ((exists i, owns n size p i /\ loc v yi b i = None) -> threw c p (InFit v yi b)) /\
       (~ (exists i, owns n size p i /\ loc v yi b i = None) -> waits c p)).
Proof. exact (C166_failure_main n w size Hsize nvar x y hat appr lower upper threshold retry maxiter ctype cthreshold loo loc b0 w0 i0 st Hst sync). Qed.

(** There is no other end of the serial program. *)
Theorem C166_ends :
  match serial loo loc with
  | Ret _ => True
  | Err (InFit v yi b) => exists i, (i < n)%nat /\ loc v yi b i = None
  | Err InSelection => True
  | _ => False
  end.
Proof. exact (C166_ends_main n loc nvar x y hat appr lower upper threshold retry maxiter ctype cthreshold loo b0 w0 i0 st Hst). Qed.

(** At any moment the calls of the same number belong to the same collective operation. *)
Theorem C166_matched : forall k c p q i a b, moves w sync k (start (dist (fun _ => st))) c -> (p < w)%nat -> (q < w)%nat ->
  entered (c p) i = Some a -> entered (c q) i = Some b -> fits_with a b = true.
Proof. exact (C166_matched_main n w size Hsize nvar x y hat appr lower upper threshold retry maxiter ctype cthreshold loo loc b0 w0 i0 st Hst sync). Qed.

(** A cancellation that reaches one process only, before the initial bandwidths, leaves all others waiting
    for ever. *)
Theorem C166_cancel_refuted : forall q stop, (2 <= w)%nat -> (q < w)%nat -> (0 < nvar)%nat -> i0 0%nat = INull ->
  (forall p a, stop p a = match a with AtReady => Nat.eqb p q | _ => false end) ->
  forall k c, moves w sync k (start (dist stop)) c ->
    returned c q Cancelled /\ forall p, (p < w)%nat -> p <> q -> waits c p.
Proof. exact (fun q => C166_cancel_main n w size loc nvar x y hat appr lower upper threshold retry maxiter ctype cthreshold loo b0 w0 i0 q sync). Qed.
End Statements.

(** Negative coefficients are lost: one process finds -1, two processes find 0. *)
Theorem C166_negative_refuted : exists bt bt',
  program_base 2 1 ones (level (-1)) false (fun _ => CV) zero1 one1 zero1 2 1 CVR 0 (loo_of inv_pos 2 ones even) (loc_of inv_pos 2 ones even)
    zero2 coarse (fun _ => ISpecified) (fun _ => false) = Ret (Fitted bt coarse) /\
  (forall i, (i < 2)%nat -> bt 0%nat i = -1) /\ (forall i, (i < 2)%nat -> bt' 0%nat i = 0) /\
  forall sync,
    let run := program_mpi 2 1 ones (level (-1)) false (fun _ => CV) zero1 one1 zero1 2 1 CVR 0 (loo_of inv_pos 2 ones even) (loc_of inv_pos 2 ones even)
                 zero2 coarse (fun _ => ISpecified) 2 1 (fun _ _ => false) in
    (exists k c, moves 2 sync k (start run) c /\ at_rest 2 sync c) /\
    forall k c, moves 2 sync k (start run) c -> at_rest 2 sync c -> forall p, (p < 2)%nat -> returned c p (Fitted bt' coarse).
Proof. exact C166_negative_main. Qed.

Print Assumptions C166_agrees_partial.
Print Assumptions C166_survivors.
Print Assumptions C166_selection.
Print Assumptions C166_failure_refuted.
Print Assumptions C166_ends.
Print Assumptions C166_matched.
Print Assumptions C166_cancel_refuted.
Print Assumptions C166_negative_refuted.

(** Non-vacuity: two observations of a variable that is 1 everywhere, two processes.  With
    equal weights the bandwidth is selected and the coefficient 1 found (survivors);
    with weights that are all zero at the first location the selection fails, and
    with a specified bandwidth process 0 throws and process 1 waits. *)
Example C166_survivors_nonvacuous : range_size 2 2 = Ok 1%nat /\ between (fun _ => false) /\ exists bt ws,
  program_base 2 1 ones (level 1) false (fun _ => CV) zero1 one1 zero1 2 1 CVR 0
    (surviving 2 (loo_of inv_pos 2 ones even)) (surviving2 2 (loc_of inv_pos 2 ones even)) zero2 coarse (fun _ => INull) (fun _ => false) = Ret (Fitted bt ws) /\
  forall i, (i < 2)%nat -> bt 0%nat i = 1.
Proof. split; [reflexivity|]. split; [exact between_never|exact case_selected]. Qed.
(** The positive parts have lost nothing. *)
Example C166_agrees_nonvacuous : nothing_lost 2 (surviving 2 (loo_of inv_pos 2 ones even)) (surviving2 2 (loc_of inv_pos 2 ones even)).
Proof.
  right. unfold surviving, surviving2, survives. cbn [Nat.leb]. split.
  - intros v yi b i c E. destruct (loo_of _ _ _ _ _ _ _ _); [|discriminate]. injection E as <-. apply Rmax_r.
  - intros v yi b i c h E. destruct (loc_of _ _ _ _ _ _ _ _); [|discriminate]. injection E as <- <-. apply Rmax_r.
Qed.
Example C166_selection_nonvacuous :
  program_base 2 1 ones (level 1) false (fun _ => CV) zero1 one1 zero1 2 1 CVR 0
    (surviving 2 (loo_of inv_pos 2 ones blind)) (surviving2 2 (loc_of inv_pos 2 ones blind)) zero2 coarse (fun _ => INull) (fun _ => false) = Err InSelection.
Proof. exact case_blind_selection. Qed.
Example C166_failure_nonvacuous : exists yi,
  program_base 2 1 ones (level 1) false (fun _ => CV) zero1 one1 zero1 2 1 CVR 0
    (surviving 2 (loo_of inv_pos 2 ones blind)) (surviving2 2 (loc_of inv_pos 2 ones blind)) zero2 coarse (fun _ => ISpecified) (fun _ => false) =
  Err (InFit 0 yi (coarse 0)) /\
  (owns 2 1 0 0 /\ loc_of inv_pos 2 ones blind 0 yi (coarse 0) 0 = None) /\
  ~ (exists i, owns 2 1 1 i /\ loc_of inv_pos 2 ones blind 0 yi (coarse 0) i = None).
Proof.
  destruct case_blind_fit as (yi & E). exists yi. split; [exact E|]. split; [split; [unfold owns; lia|exact (proj1 (blind_loc _ _))]|].
  intros (i & [O Hi] & L). assert (i = 1)%nat by lia. subst i. exact (proj2 (blind_loc _ _) L).
Qed.
(** Process 0 enters its first operation at once. *)
Example C166_matched_nonvacuous : exists a b,
  let c := start (program_mpi 2 1 ones (level 1) false (fun _ => CV) zero1 one1 zero1 2 1 CVR 0 (loo_of inv_pos 2 ones even) (loc_of inv_pos 2 ones even)
                 zero2 coarse (fun _ => INull) 2 1 (fun _ _ => false)) in
  entered (c 0%nat) 0 = Some a /\ entered (c 1%nat) 0 = Some b.
Proof.
  destruct (first_call 2 2 1 (loc_of inv_pos 2 ones even) 1 ones (level 1) false (fun _ => CV) zero1 one1 zero1 2 1 CVR 0 (loo_of inv_pos 2 ones even) zero2 coarse
    (fun _ => INull) (fun _ => false) 0) as (o1 & k1 & E1); try reflexivity; [lia|].
  destruct (first_call 2 2 1 (loc_of inv_pos 2 ones even) 1 ones (level 1) false (fun _ => CV) zero1 one1 zero1 2 1 CVR 0 (loo_of inv_pos 2 ones even) zero2 coarse
    (fun _ => INull) (fun _ => false) 1) as (o2 & k2 & E2); try reflexivity; [lia|].
  exists (AllgatherStatus o1), (AllgatherStatus o2). cbv zeta. unfold entered, start. cbn [fst snd]. rewrite E1, E2. split; reflexivity.
Qed.
