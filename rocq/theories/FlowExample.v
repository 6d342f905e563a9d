(** A concrete run of FlowModel.v. *)
From Coq Require Import Reals Bool List Arith Lia Lra.
From Verif Require Import Outcome XReal XRealFacts KernelModel GoldModel GoldSpec GoldProofs2 VarModel VarSpec VarProofs
  FlowModel FlowProofs FlowCases FlowCases2 FlowCases3.
Import ListNotations.
Local Open Scope nat_scope.

(** Columns are labels 5 (intercept), 6 and 7; models with column 7 have criterion 10, others 20;
    every bandwidth has criterion 1; the coefficients are the columns and the bandwidth used. *)
Definition demoW : world nat (list nat * R) := {|
  w_n := 19; w_maxd := 10; w_stop0 := false; w_stop1 := false; w_stop2 := false;
  w_vfit := fun _ x _ => (false, Some (XF (if existsb (Nat.eqb 7) x then 10 else 20)));
  w_bfit := fun _ _ _ => (false, Some (XF 1));
  w_final := fun x w => Ok ((x, wvalue w), false) |}.
Definition demoO (vars bw adaptive : bool) : object nat := {|
  o_x := [5; 6; 7]; o_intercept := true; o_auto_vars := vars; o_auto_bw := bw; o_threshold := 3;
  o_lower := None; o_upper := None; o_weight := mkWeight Gaussian adaptive 4;
  o_selected := []; o_vlist := []; o_blist := []; o_terminated := false |}.

Lemma demo_select bw ad : exists vl, select_stage demoW vsort (demoO true bw ad) =
  Go (set_x [5; 7] vl (set_selected [2] (demoO true bw ad))).
Proof.
  unfold select_stage.
  assert (S : search (var_criterion demoW (demoO true bw ad)) [1; 2] =
    Ok (true, [([0], XF 20); ([1], XF 10); ([1; 0], XF 10)])).
  { unfold search. cbn. replace (Rltb 10 20) with true by (symmetry; apply Rltb_true; lra). cbn. reflexivity. }
  assert (R : sort_groups vsort 2 [([0], XF 20); ([1], XF 10); ([1; 0], XF 10)] =
    Ok [([0], XF 20); ([1], XF 10); ([1; 0], XF 10)]).
  { cbn. replace (Rltb 20 10) with false by (symmetry; apply Rltb_false; lra). reflexivity. }
  assert (V : vs_optimize (var_criterion demoW (demoO true bw ad)) vsort [1; 2] 3 =
    Ok ([2], Some [([0], XF 20); ([1], XF 10); ([1; 0], XF 10)])).
  { unfold vs_optimize. rewrite S; cbn [obind length]. rewrite R; cbn [obind select length Nat.sub select_from nth_error snd].
    unfold xsub. cbn [xopp]. replace (Reqb 10 0) with false by (symmetry; apply Reqb_false; lra). cbn [xadd].
    replace (xleb (XF 3) (XF (10 + - (10)))) with false.
    2:{ symmetry. cbn. apply negb_false_iff, Rltb_true. lra. }
    replace (xleb (XF 3) (XF (20 + - (10)))) with true by (symmetry; apply xleb_fin; lra). reflexivity. }
  change (candidates (demoO true bw ad)) with [1; 2]. change (o_threshold (demoO true bw ad)) with 3%R.
  rewrite V. cbn. eauto.
Qed.

Lemma demo_run ad : exists h o', flow_fit demoW vsort (demoO true true ad) = Returned (Coefficients ([5; 7], h)) o' /\
  o_selected o' = [2] /\ o_x o' = [5; 7] /\ o_terminated o' = false /\ o_auto_vars o' = true.
Proof.
  destruct (demo_select true ad) as [vl E].
  unfold flow_fit, checkpoint. cbn [w_stop0 w_stop1 demoW o_auto_vars demoO]. rewrite E.
  cbn [o_auto_bw set_x set_selected demoO]. unfold bw_stage.
  erewrite (flat_search (bw_criterion demoW (set_x [5; 7] vl (set_selected [2] (demoO true true ad)))) _ _ _ (XF 1));
    [|discriminate|discriminate|intros Q; inversion Q; pose proof dbl_max_big; lra|reflexivity|reflexivity].
  cbn. eauto 10.
Qed.
