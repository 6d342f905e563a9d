(** When the criterion of the variable selection is NaN. *)
From Coq Require Import Reals Bool List Arith Lra Psatz.
From Verif Require Import Outcome XReal XRealFacts Sums DiagModel DiagProofs.
Local Open Scope R_scope.

Lemma C126_criterion_main (n p : nat) x b y s0 : (0 < n)%nat -> 0 < INR n + s0 ->
  base_aicc n p x b y s0 = XN <->
  bigsum n (fun i => (y i - bigsum p (fun k => b i k * x i k)) ^ 2) = 0 /\ INR n - 2 = s0.
Proof.
  intros Hn Hs. assert (Pn : 0 < INR n) by (apply lt_0_INR; auto).
  assert (Er : bigsum n (fun i => (y i - bigsum p (fun k => b i k * x i k)) ^ 2) = rss_of n p x b y).
  { unfold rss_of, fitted. apply bigsum_ext. intros; ring. }
  rewrite Er. unfold base_aicc.
  assert (R0 : 0 <= rss_of n p x b y).
  { unfold rss_of; apply bigsum_nonneg; intros i _. apply Rle_0_sqr. }
  set (rss := rss_of n p x b y) in *. clearbody rss.
  assert (L : rss = 0 /\ loglik (INR n) rss = XI true \/ 0 < rss /\ exists q, xval (loglik (INR n) rss) = Some q).
  { destruct (Req_dec rss 0) as [->|N]; [left; split; auto; apply loglik_zero; auto|].
    right. split; [lra|]. eexists. apply loglik_val; lra. }
  set (l := loglik (INR n) rss) in *. clearbody l.
  assert (Q : INR n - 2 = s0 /\ xmul (XF (INR n)) (xdiv (XF (INR n + s0)) (XF (INR n - 2 - s0))) = XI false \/
    INR n - 2 <> s0 /\ exists q, xval (xmul (XF (INR n)) (xdiv (XF (INR n + s0)) (XF (INR n - 2 - s0)))) = Some q).
  { destruct (Req_dec (INR n - 2) s0) as [E|N].
    - left. split; auto. replace (INR n - 2 - s0) with 0 by lra. unfold xdiv. cbn [xval].
      rewrite (proj2 (Reqb_true 0 0) eq_refl), (proj2 (Reqb_false (INR n + s0) 0)) by lra.
      cbn [xsign]. rewrite (proj2 (Rltb_false 0 0) (Rle_refl 0)), (proj2 (Rltb_false (INR n + s0) 0)) by lra.
      cbn [xorb xmul xval xsign]. rewrite (proj2 (Reqb_false (INR n) 0)), (proj2 (Rltb_false (INR n) 0)) by lra. reflexivity.
    - right. split; auto. eexists. apply xval_xmul; [reflexivity|]. apply xval_xdiv; [reflexivity|reflexivity|lra]. }
  set (m := xmul _ _) in *. clearbody m.
  destruct L as [[L1 ->]|[L1 [q Lq]]], Q as [[Q1 ->]|[Q1 [q' Qq]]].
  - split; auto.
  - split; [|tauto]. rewrite (xi_add _ _ Qq). discriminate.
  - split; [|intros [E _]; lra]. destruct l; cbn in Lq; try discriminate; cbn; discriminate.
  - split; [|tauto]. intros E. pose proof (xval_xadd _ _ _ _ Lq Qq) as V. rewrite E in V. discriminate.
Qed.
