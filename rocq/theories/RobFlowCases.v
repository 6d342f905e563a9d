(** Concrete runs of robust objects. *)
From Coq Require Import Reals Bool List Arith Lra Lia.
From Verif Require Import Outcome XReal XRealFacts Sums KernelModel GoldModel GoldSpec GoldProofs2 VarModel VarSpec VarProofs GlmModel GlmSpec GlmProofs RobModel RobProofs
  FlowModel FlowProofs FlowCases FlowCases2 FlowCases3 FlowExample RobFlowModel RobFlowSpec RobFlowProofs.
Import ListNotations.
Local Open Scope R_scope.

(** 17 observations 0, ..., 0, 1; an intercept only, and all weights 1: the regression is the mean with the mask as weights. *)
Definition spike (i : nat) : R := if Nat.eqb i 16 then 1 else 0.
Definition mean17 (m : xvec) : outcome xd := Ok (xdiv (xsum 17 (fun i => xmul (m i) (XF (spike i)))) (xsum 17 m)).
Definition spike_resid (b : xd) : xvec := fun i => xsub (XF (spike i)) b.
(** GWRRobust.cpp:252-256 with trS = trStS = 1 (sigmaHat = RSS / (17 - 1)) and qDiag = 1 - 1 / 17 *)
Definition spike_stud (b : xd) : xvec := fun i =>
  xdiv (spike_resid b i) (xsqrt (xmul (xdiv (xsum 17 (fun j => xmul (spike_resid b j) (spike_resid b j))) (XF 16)) (XF (16 / 17)))).
Definition spikeW : world nat xd := {|
  w_n := 17; w_maxd := 10; w_stop0 := false; w_stop1 := false; w_stop2 := false;
  w_vfit := fun _ _ _ => (false, Some (XF 1)); w_bfit := fun _ _ _ => (false, Some (XF 1));
  w_final := fun _ _ => let* b := mean17 (fun _ => XF 1) in Ok (b, false) |}.
Definition spikeG : setting nat xd := {|
  s_world := spikeW; s_fit := fun _ _ => mean17; s_resid := fun _ => spike_resid; s_stud := fun _ _ => spike_stud;
  s_zero := XF 0; s_stop := fun _ => false; s_stop_end := false |}.
(** Prediction at the locations of the data *)
Definition spikeP : prediction nat xd := {|
  p_fit := fun _ _ => let* b := mean17 (fun _ => XF 1) in Ok (b, false); p_rows := 17; p_stop0 := false; p_stop1 := false |}.
Definition spikeO (ad : bool) : object nat := {|
  o_x := [5%nat]; o_intercept := true; o_auto_vars := false; o_auto_bw := false; o_threshold := 3;
  o_lower := None; o_upper := None; o_weight := mkWeight Gaussian ad 4;
  o_selected := []; o_vlist := []; o_blist := []; o_terminated := false |}.

Lemma mean_val m ms : numbers 17 m ms -> bigsum 17 ms <> 0 -> exists b, mean17 m = Ok b /\ xval b = Some (bigsum 17 (fun i => ms i * spike i) / bigsum 17 ms).
Proof.
  intros N Z. eexists. split; [reflexivity|]. apply xval_xdiv; [|apply xsum_val; exact N|exact Z].
  apply xsum_val. intros i L. apply xval_xmul; [apply N, L|reflexivity].
Qed.
Lemma spike_stud_val b i : xval b = Some (1 / 17) -> (i < 17)%nat -> xval (spike_stud b i) = Some (if Nat.eqb i 16 then 4 else - (1 / 4)).
Proof.
  intros V L. unfold spike_stud.
  assert (RV : forall j, xval (spike_resid b j) = Some (spike j - 1 / 17)) by (intros j; apply xval_xsub; [reflexivity|exact V]).
  assert (Q : sqrt (16 / 289) = 4 / 17).
  { replace (16 / 289) with ((4 / 17) * (4 / 17)) by field. apply sqrt_square. lra. }
  rewrite (xval_xdiv (spike_resid b i) _ (spike i - 1 / 17) (4 / 17)).
  - unfold spike. destruct (Nat.eqb i 16); f_equal; field.
  - apply RV.
  - rewrite <- Q. apply xval_xsqrt; [|lra].
    replace (16 / 289) with ((16 / 17) / 16 * (16 / 17)) by field. apply xval_xmul; [|reflexivity].
    apply xval_xdiv; [|reflexivity|lra]. rewrite (xsum_val 17 _ (fun j => (spike j - 1 / 17) * (spike j - 1 / 17))).
    + f_equal. unfold bigsum, spike. cbn. field.
    + intros j Lj. apply xval_xmul; apply RV.
  - lra.
Qed.
Lemma spike_fit srt ad : exists b r', robust_fit spikeG srt (mkRobust (spikeO ad) (Some true)) = RReturned (Coefficients b) r' /\ xval b = Some 0 /\ r_base r' = spikeO ad.
Proof.
  destruct (mean_val (fun _ => XF 1) (fun _ => 1)) as (b0 & E0 & V0); [intros i _; reflexivity|unfold bigsum; cbn; lra|].
  assert (V0' : xval b0 = Some (1 / 17)) by (rewrite V0; f_equal; unfold bigsum, spike; cbn; field).
  set (m := outlier_mask (spike_stud b0)).
  destruct (mean_val m (fun i => if Nat.eqb i 16 then 0 else 1)) as (b & E & V).
  - intros i L. unfold m, outlier_mask. assert (SV := spike_stud_val _ _ V0' L). apply xval_xabs in SV.
    rewrite (xltb_val (XF 3) _ 3 _ eq_refl SV). destruct (Nat.eqb i 16).
    + replace (Rltb 3 (Rabs 4)) with true by (symmetry; apply Rltb_true; rewrite Rabs_pos_eq; lra). reflexivity.
    + replace (Rltb 3 (Rabs (- (1 / 4)))) with false by (symmetry; apply Rltb_false; rewrite Rabs_Ropp, Rabs_pos_eq; lra). reflexivity.
  - unfold bigsum; cbn; lra.
  - exists b. eexists. split; [|split].
    + unfold robust_fit. cbn [r_base spikeO o_auto_vars o_auto_bw spikeG s_world spikeW w_stop0].
      unfold robust_regression, calibrate, cali_first. cbn [r_filtered s_fit s_stud spikeG s_stop s_zero s_stop_end].
      change ones_mask with (fun _ : nat => XF 1). rewrite E0. cbn [obind]. fold m. rewrite E. cbn [obind]. reflexivity.
    + rewrite V. f_equal. unfold bigsum, spike; cbn. field.
    + reflexivity.
Qed.
Lemma spike_predict r : exists b r', robust_predict spikeP r = RReturned (Coefficients b) r' /\ xval b = Some (1 / 17).
Proof.
  destruct (mean_val (fun _ => XF 1) (fun _ => 1)) as (b0 & E0 & V0); [intros i _; reflexivity|unfold bigsum; cbn; lra|].
  exists b0. eexists. split.
  - unfold robust_predict. cbn [p_stop0 p_stop1 p_fit spikeP]. rewrite E0. cbn [obind]. reflexivity.
  - rewrite V0; f_equal; unfold bigsum, spike; cbn; field.
Qed.

(** The run of FlowExample.v, with a robust regression *)
Definition demoG : setting nat (list nat * R) := {|
  s_world := demoW; s_fit := fun x w _ => Ok (x, wvalue w); s_resid := fun _ _ _ => XF 0; s_stud := fun _ _ _ _ => XF 0;
  s_zero := ([], 0); s_stop := fun _ => false; s_stop_end := false |}.
Lemma demo_robust ad : exists h r', robust_fit demoG vsort (mkRobust (demoO true true ad) (Some true)) = RReturned (Coefficients ([5; 7]%nat, h)) r' /\
  o_selected (r_base r') = [2%nat] /\ o_x (r_base r') = [5; 7]%nat.
Proof.
  destruct (demo_select true ad) as [vl E].
  unfold robust_fit. cbn [s_world demoG w_stop0 w_stop1 demoW r_base o_auto_vars demoO]. rewrite E.
  cbn [o_auto_bw set_x set_selected demoO]. rewrite robust_bw by reflexivity. unfold bw_stage.
  erewrite (flat_search (bw_criterion demoW (set_x [5; 7]%nat vl (set_selected [2%nat] (demoO true true ad)))) _ _ _ (XF 1));
    [|discriminate|discriminate|intros Q; inversion Q; pose proof dbl_max_big; lra|reflexivity|reflexivity].
  cbn. eauto 10.
Qed.

(** Two histories *)
Definition spike_calls : list (call nat xd) := [SetFiltered false; Predict spikeP; SetFiltered true; Fit spikeG].
Lemma spike_history ad : exists r, run vsort spike_calls (fresh (spikeO ad)) = Some r /\ r_filtered r = Some true /\
  run vsort [Predict spikeP] (fresh (spikeO ad)) <> None.
Proof.
  unfold spike_calls. destruct (spike_predict (mkRobust (spikeO ad) (Some false))) as (b1 & r1 & E1 & _).
  destruct (spike_fit vsort ad) as (b2 & r2 & E2 & _ & BB).
  assert (r1 = mkRobust (spikeO ad) (Some false)).
  { revert E1. unfold robust_predict. cbn [p_stop0 p_stop1 p_fit spikeP]. unfold mean17; cbn [obind]. intros E1; inversion E1. reflexivity. }
  subst r1. exists r2. split; [|split].
  - cbn [run step fresh after r_base]. rewrite E1. cbn [after r_base]. rewrite E2. reflexivity.
  - assert (Q := filtered_step vsort (Fit spikeG) (mkRobust (spikeO ad) (Some true))). cbn [step] in Q. rewrite E2 in Q. exact (Q _ eq_refl).
  - cbn [run step]. destruct (spike_predict (fresh (spikeO ad))) as (b3 & r3 & E3 & _). rewrite E3. discriminate.
Qed.
