From Coq Require Import Reals Bool List Arith Lia Lra Psatz.
From Verif Require Import Outcome XReal XRealFacts Sums GlmModel GlmSpec RobModel RobProofs.
Import ListNotations.
Local Open Scope R_scope.

Lemma ex_residuals : numbers 3 (fun i => XF (INR i)) INR /\ xval (mean_square 3 (fun i => XF (INR i))) = Some (5 / 3).
Proof.
  split; [intros i L; reflexivity|].
  rewrite (mean_square_val 3 _ INR ltac:(lia)); [|intros i L; reflexivity]. f_equal. simpl. field.
Qed.
Lemma C69_filtered_perfect : forall A fit stud stop (zero : A) b, (forall i, stop i = false) ->
  fit (fun _ => XF 1) = Ok b -> (forall i, stud b i = XN) ->
  (forall m m', (forall i, m i = m' i) -> fit m = fit m') ->
  exists ms, cali_first A fit stud stop zero = Ok (b, ms).
Proof.
  intros A fit stud stop zero b NS E St Ext. unfold cali_first. change ones_mask with (fun _ : nat => XF 1).
  rewrite E; cbn [obind]. rewrite !NS. cbv zeta.
  rewrite (Ext (outlier_mask (stud b)) (fun _ => XF 1)).
  - rewrite E. cbn [obind]. eauto.
  - intros i. unfold outlier_mask. rewrite St. reflexivity.
Qed.

(** Two equal residuals: all weights stay 1 and the loop ends after the second fit *)
Definition ex_fit (m : xvec) : outcome nat := Ok 5%nat.
Definition ex_resid (b : nat) : xvec := fun _ => XF 2.
(** A fit that succeeds perfectly unless the first weight is zero *)
Definition ex_pfit (m : xvec) : outcome unit := if xleb (m 0%nat) (XF 0) then Throw else Ok tt.
Lemma ex_robust_runs : (exists r, cali_second nat 2 ex_fit ex_resid (fun _ => false) 0%nat = Ok r /\ length (snd r) = 2%nat) /\
  (exists r, cali_first nat ex_fit ex_resid (fun _ => false) 0%nat = Ok r) /\
  ex_pfit (fun _ => XF 1) = Ok tt /\ ex_pfit (fun _ => XF 0) = Throw /\
  (forall m, (forall i, (i < 3)%nat -> m i = XF 0) -> ex_pfit m = Throw).
Proof.
  assert (P0 : xleb (XF 0) (XF 0) = true) by (rewrite (xleb_val (XF 0) (XF 0) 0 0 eq_refl eq_refl); apply Rleb_true; lra).
  split; [|split; [|split; [|split]]].
  - unfold cali_second, ex_fit. cbn [obind]. cbv zeta.
    set (ms := mean_square 2 (ex_resid 5)).
    assert (V : xval ms = Some 4).
    { unfold ms. rewrite (mean_square_val 2 _ (fun _ => 2) ltac:(lia)); [|intros i L; reflexivity]. f_equal. simpl. field. }
    cbn [second_loop].
    assert (D : xltb (XF delta) (XF 1) = true).
    { rewrite (xltb_val (XF delta) (XF 1) delta 1 eq_refl eq_refl). apply Rltb_true. unfold delta; lra. }
    rewrite D. cbn [obind]. cbv zeta. fold ms.
    assert (D2 : xltb (XF delta) (xdiv (xabs (xsub ms ms)) ms) = false).
    { rewrite (xltb_val (XF delta) _ delta (Rabs (4 - 4) / 4) eq_refl).
      - apply Rltb_false. replace (4 - 4) with 0 by ring. rewrite Rabs_R0. unfold delta; lra.
      - apply xval_xdiv; [apply xval_xabs, xval_xsub; exact V|exact V|lra]. }
    rewrite D2. eexists; split; reflexivity.
  - unfold cali_first, ex_fit. cbn [obind]. eauto.
  - unfold ex_pfit. rewrite (xleb_val (XF 1) (XF 0) 1 0 eq_refl eq_refl).
    destruct (Rleb 1 0) eqn:E; [apply Rleb_true in E; lra|reflexivity].
  - unfold ex_pfit. rewrite P0. reflexivity.
  - intros m Hm. unfold ex_pfit. rewrite Hm by lia. rewrite P0. reflexivity.
Qed.
