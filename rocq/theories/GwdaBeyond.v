(** Discriminant analysis of an object that keeps more prediction points than it now has observations. *)
From Coq Require Import Reals Bool List Arith String Lia.
From Verif Require Import Outcome XReal Sums GwdaModel GwdaSpec GwdaProofs GwdaProofs3.
Import ListNotations.
Local Open Scope R_scope.

Lemma mapO_stop {A B} (f : A -> outcome B) l a t r : l = l -> (forall z, In z l -> exists v, f z = Ok v) -> f a = r ->
  (forall v, r <> Ok v) -> mapO f (l ++ a :: t) = match r with Ok _ => Throw | Throw => Throw | UB => UB end.
Proof.
  intros _ H E N. induction l as [|z l IH]; cbn [app mapO].
  - rewrite E. destruct r; cbn; auto. exfalso; eapply N; eauto.
  - destruct (H z (or_introl eq_refl)) as (v & V). rewrite V. cbn [obind]. rewrite IH by (intros; apply H; right; auto).
    destruct r; cbn; auto.
Qed.
Lemma mapO_total {A B} (f : A -> outcome B) l : (forall z, In z l -> exists v, f z = Ok v) -> exists vs, mapO f l = Ok vs /\ List.length vs = List.length l.
Proof.
  induction l as [|z l IH]; intros H; cbn [mapO]; [exists []; auto|].
  destruct (H z (or_introl eq_refl)) as (v & V). destruct IH as (vs & E & L); [intros; apply H; right; auto|].
  rewrite V. cbn [obind]. rewrite E. exists (v :: vs). cbn. auto.
Qed.
Lemma seq_split a k : (k < a)%nat -> seq 0 a = seq 0 k ++ k :: seq (S k) (a - S k).
Proof. intros L. replace a with (k + S (a - S k))%nat at 1 by lia. rewrite seq_app. reflexivity. Qed.

Section B.
Variables (mnorm : (nat -> nat -> xd) -> xd) (squad : (nat -> nat -> xd) -> (nat -> xd) -> outcome xd).
Variables (n p : nat) (x : nat -> nat -> R) (y : list string) (wt : nat -> nat -> R) (npr : nat) (xpr : nat -> nat -> R) (o : opts).
Hypothesis HQ : forall M d, exists q, squad M d = Ok q.
Hypothesis Ly : y <> [].
Hypothesis More : (n < npr)%nat.
Lemma levels_some : exists k, m y = S k.
Proof.
  unfold m. destruct (levels y) eqn:E; [|cbn; eauto]. exfalso. destruct y as [|s t]; [congruence|].
  assert (I : In s (levels (s :: t))) by (apply (proj1 (proj2 (levels_spec (s :: t)))); left; reflexivity). rewrite E in I. destruct I.
Qed.
Lemma pooled_global j : hasCov o = false -> (j < npr)%nat -> exists v, pooled_cov_at n p x y wt npr o j = Ok v.
Proof.
  intros C L. unfold pooled_cov_at.
  destruct (mapO_total (fun i => group_cov_at n p x y wt npr o i j) (seq 0 (m y))) as (vs & E & _).
  { intros i _. unfold group_cov_at, pick_cols. rewrite C. rewrite (proj2 (Nat.ltb_lt j npr)) by exact L. eauto. }
  rewrite E. cbn [obind]. eauto.
Qed.
Lemma covs_global : hasCov o = false -> exists covs, mapO (pooled_cov_at n p x y wt npr o) (seq 0 npr) = Ok covs /\ List.length covs = npr.
Proof.
  intros C. destruct (mapO_total (pooled_cov_at n p x y wt npr o) (seq 0 npr)) as (vs & E & L).
  { intros j I. apply in_seq in I. apply pooled_global; [exact C|lia]. }
  rewrite seq_length in L. eauto.
Qed.
Lemma scored cov mean pr j : exists v, score mnorm squad y xpr cov mean pr j = Ok v.
Proof. unfold score. destruct (HQ cov (fun a => xsub (XF (xpr j a)) (mean a))) as (q & ->). cbn. eauto. Qed.
Lemma early i j covs : List.length covs = npr -> (j < n)%nat -> exists v,
  (let* mean := mean_at n x y wt npr o i j in
   match nth_error covs j with Some cov => let* pr := prior_at n y wt npr o i j in score mnorm squad y xpr cov mean pr j | None => Throw end) = Ok v.
Proof.
  intros L J. assert (C : forall b, (j <? pick_cols n npr b)%nat = true) by (intros b; apply Nat.ltb_lt; unfold pick_cols; destruct b; lia).
  unfold mean_at, prior_at. rewrite !C. cbn [obind].
  destruct (nth_error covs j) as [cov|] eqn:E; [|apply nth_error_None in E; lia]. apply scored.
Qed.
Lemma beyond_prior : hasCov o = false -> hasMean o = false -> hasPrior o = true -> wlda mnorm squad n p x y wt npr xpr o = UB.
Proof.
  intros C M P. unfold wlda. destruct (covs_global C) as (covs & E & L). rewrite E. cbn [obind].
  destruct levels_some as (k & K). rewrite K. cbn [seq mapO]. rewrite (seq_split npr n More).
  erewrite mapO_stop with (r := UB); [reflexivity|reflexivity|..|discriminate].
  - intros j I. apply in_seq in I. apply early; [exact L|lia].
  - cbv beta. unfold mean_at, prior_at, pick_cols. rewrite M, P. rewrite (proj2 (Nat.ltb_lt n npr)) by exact More. cbn [obind].
    destruct (nth_error covs n) eqn:N; [|apply nth_error_None in N; lia]. rewrite Nat.ltb_irrefl. reflexivity.
Qed.
Lemma beyond_mean : hasCov o = false -> hasMean o = true -> wlda mnorm squad n p x y wt npr xpr o = Throw.
Proof.
  intros C M. unfold wlda. destruct (covs_global C) as (covs & E & L). rewrite E. cbn [obind].
  destruct levels_some as (k & K). rewrite K. cbn [seq mapO]. rewrite (seq_split npr n More).
  erewrite mapO_stop with (r := Throw); [reflexivity|reflexivity|..|discriminate].
  - intros j I. apply in_seq in I. apply early; [exact L|lia].
  - cbv beta. unfold mean_at, pick_cols. rewrite M. rewrite Nat.ltb_irrefl. reflexivity.
Qed.
Lemma beyond_cov : hasCov o = true -> wlda mnorm squad n p x y wt npr xpr o = Throw.
Proof.
  intros C. unfold wlda. rewrite (seq_split npr n More).
  erewrite mapO_stop with (r := Throw); [reflexivity|reflexivity|..|discriminate].
  - intros j I. apply in_seq in I. unfold pooled_cov_at.
    destruct (mapO_total (fun i => group_cov_at n p x y wt npr o i j) (seq 0 (m y))) as (vs & E & _).
    { intros i _. unfold group_cov_at, pick_cols. rewrite C. rewrite (proj2 (Nat.ltb_lt j n)) by lia. eauto. }
    rewrite E. cbn [obind]. eauto.
  - unfold pooled_cov_at. destruct levels_some as (k & K). rewrite K. cbn [seq mapO]. unfold group_cov_at, pick_cols. rewrite C, Nat.ltb_irrefl. reflexivity.
Qed.
End B.

Lemma run_beyond mnorm squad n p x y W o md npr xpr prY : (2 <= p)%nat -> y <> [] -> (n < npr)%nat -> isWqda o = false ->
  (forall M d, exists q, squad M d = Ok q) ->
  snd (run mnorm squad n p x y W o md {| st_prX := Some (npr, xpr); st_prY := prY |}) =
  if hasCov o || hasMean o then Throw else if hasPrior o then UB
  else snd (run mnorm squad n p x y W o md {| st_prX := Some (npr, xpr); st_prY := prY |}).
Proof.
  intros P Y M L HQ. destruct (hasCov o) eqn:C; cbn [orb].
  - unfold run. rewrite (proj2 (Nat.ltb_ge p 2)) by lia. cbn [snd fst st_prX]. unfold logPf. rewrite L. rewrite beyond_cov by auto. reflexivity.
  - destruct (hasMean o) eqn:E.
    + unfold run. rewrite (proj2 (Nat.ltb_ge p 2)) by lia. cbn [snd fst st_prX]. unfold logPf. rewrite L. rewrite beyond_mean by auto. reflexivity.
    + destruct (hasPrior o) eqn:Q; [|reflexivity].
      unfold run. rewrite (proj2 (Nat.ltb_ge p 2)) by lia. cbn [snd fst st_prX]. unfold logPf. rewrite L. rewrite beyond_prior by auto. reflexivity.
Qed.
Lemma run_fewer mnorm squad n0 x0 y0 W0 o0 md0 n p x y W o md : (2 <= p)%nat -> y <> [] -> (n < n0)%nat -> isWqda o = false ->
  (forall M d, exists q, squad M d = Ok q) ->
  let s := fst (run mnorm squad n0 p x0 y0 W0 o0 md0 fresh) in
  (hasCov o = true \/ hasMean o = true -> snd (run mnorm squad n p x y W o md s) = Throw) /\
  (hasCov o = false -> hasMean o = false -> hasPrior o = true -> snd (run mnorm squad n p x y W o md s) = UB).
Proof.
  intros P Y M L HQ s. assert (S : s = {| st_prX := Some (n0, x0); st_prY := Some y0 |}).
  { unfold s, run. rewrite (proj2 (Nat.ltb_ge p 2)) by lia. reflexivity. }
  rewrite S. split.
  - intros H. rewrite run_beyond by auto. destruct H as [-> | ->]; [reflexivity|]. destruct (hasCov o); reflexivity.
  - intros A B C. rewrite run_beyond by auto. rewrite A, B, C. reflexivity.
Qed.
