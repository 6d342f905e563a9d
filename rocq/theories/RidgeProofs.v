From Coq Require Import Reals Bool List Lra.
From Verif Require Import Outcome XReal XRealFacts RidgeModel.
Import ListNotations.
Local Open Scope R_scope.

Lemma nth_last m (s : list R) : length s = m -> (0 < m)%nat ->
  nth_error (map XF s) (Nat.pred m) = Some (XF (nth (Nat.pred m) s 0)).
Proof.
  intros L H. rewrite nth_error_map. rewrite (nth_error_nth' s 0); [reflexivity|].
  rewrite L. destruct m; [inversion H|]. simpl. auto.
Qed.

Lemma local_lambda_main m adjust lambda c s :
  length s = m -> (0 < m)%nat -> 1 < c ->
  0 <= nth (m - 1) s 0 <= nth 0 s 0 ->
  exists cn l, local_lambda m adjust lambda c (map XF s) = Ok (cn, l) /\
   (adjust = true /\ c * nth (m - 1) s 0 < nth 0 s 0 ->
      exists r, xval l = Some r /\ 0 < r /\ (nth 0 s 0 + r) / (nth (m - 1) s 0 + r) = c) /\
   (~ (adjust = true /\ c * nth (m - 1) s 0 < nth 0 s 0) -> l = XF lambda).
Proof.
  intros L M C B. destruct m as [|m]; [inversion M|].
  replace (S m - 1)%nat with m in * by (simpl; auto with arith).
  pose proof (nth_last _ _ L M) as N. simpl in N.
  destruct s as [|s0 s]; [discriminate|].
  unfold local_lambda. rewrite N. simpl nth_error. simpl (nth 0 _ _) in *.
  set (sm := nth m (s0 :: s) 0) in *.
  eexists; eexists; split; [reflexivity|].
  assert (G : xltb (XF c) (xdiv (XF s0) (XF sm)) = Rltb (c * sm) s0).
  { destruct (Req_dec sm 0) as [Z|Z].
    - unfold xdiv. simpl. rewrite (proj2 (Reqb_true sm 0) Z). destruct (Req_dec s0 0) as [Y|Y].
      + rewrite (proj2 (Reqb_true s0 0) Y). simpl. symmetry. apply Rltb_false. rewrite Z. lra.
      + rewrite (proj2 (Reqb_false s0 0) Y). simpl.
        rewrite (proj2 (Rltb_false s0 0)) by lra. rewrite (proj2 (Rltb_false sm 0)) by lra. simpl.
        symmetry. apply Rltb_true. rewrite Z. lra.
    - rewrite (xltb_val (XF c) _ c (s0 / sm) eq_refl (xval_xdiv (XF s0) (XF sm) _ _ eq_refl eq_refl Z)).
      destruct (Rltb (c * sm) s0) eqn:T.
      + apply Rltb_true in T. apply Rltb_true. apply Rmult_lt_reg_r with sm; [lra|]. unfold Rdiv. rewrite Rmult_assoc, Rinv_l; lra.
      + apply Rltb_false in T. apply Rltb_false. apply Rmult_le_reg_r with sm; [lra|]. unfold Rdiv. rewrite Rmult_assoc, Rinv_l; lra. }
  rewrite G. split.
  - intros [-> T]. rewrite (proj2 (Rltb_true _ _) T). simpl andb. cbv iota.
    exists ((s0 - c * sm) / (c - 1)). split; [|split].
    + apply xval_xdiv; [|reflexivity|lra]. apply xval_xsub; [reflexivity|]. apply (xval_xmul (XF c) (XF sm)); reflexivity.
    + apply Rdiv_lt_0_compat; lra.
    + assert (0 < (s0 - sm) / (c - 1)) by (apply Rdiv_lt_0_compat; nra).
      assert (E : sm + (s0 - c * sm) / (c - 1) = (s0 - sm) / (c - 1)) by (field; lra).
      rewrite E. field. split; [lra|nra].
  - intros H. destruct adjust; simpl; [|reflexivity]. destruct (Rltb (c * sm) s0) eqn:T; [|reflexivity].
    exfalso. apply H. split; [reflexivity|]. apply Rltb_true. exact T.
Qed.
