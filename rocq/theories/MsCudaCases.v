(** Ranges, group sizes, criteria, and concrete runs. *)
From Coq Require Import Reals Bool List Arith Lra Lia.
From Verif Require Import Outcome XReal XRealFacts Sums DiagModel CudaModel CudaProofs MsCritModel MsCritSpec MsCritProofs MsCudaModel MsCudaSpec MsCudaProofs MsCudaMain.
Import ListNotations.
Local Open Scope R_scope.

(** ** A range that does not start at the first location *)
Lemma dloop_throw body last : (forall i st, body i st <> UB) -> (forall st, body last st = Throw) ->
  forall is st, In last is -> dloop body (fun _ => false) is st = Throw.
Proof.
  intros NU TL. induction is as [|i t IH]; intros st I; [destruct I|]. cbn. destruct I as [->|I]; [rewrite TL; reflexivity|].
  destruct (body i st) eqn:E; [apply IH, I|reflexivity|exfalso; eapply NU; exact E].
Qed.
Lemma offset_main dinv n x y w lo hi G : (0 < G)%nat -> (0 < lo < hi)%nat -> (hi <= n)%nat ->
  fit_var_cuda dinv n x y w true lo hi G (fun _ => false) = Throw.
Proof.
  intros P L Hn. assert (Lh : (lo <= hi)%nat) by lia. unfold fit_var_cuda. rewrite (count_eq lo hi G P). cbn [obind].
  assert (Q : dloop (fun i st => if (i <? count lo hi G)%nat then fit_var_group dinv n x y w true lo hi G i st else Throw) (fun _ => false) (seq 0 (count lo hi G)) (device0 G) = Throw).
  { assert (C : (0 < count lo hi G)%nat) by (apply (count_spec lo hi G P Lh); lia).
    apply (dloop_throw _ (count lo hi G - 1)).
    - intros i st. destruct (Nat.ltb_spec i (count lo hi G)); [|discriminate].
      destruct (glength_eq lo hi G P Lh i H) as (A & B & _). unfold fit_var_group. destruct (inverses _ _ _ _); [|discriminate].
      replace (Nat.ltb n (gbegin lo G i + glength lo hi G i)) with false by (symmetry; apply Nat.ltb_ge; rewrite A, B; unfold upto; lia).
      destruct (Nat.ltb (hi - lo) _); discriminate.
    - intros st. destruct (Nat.ltb_spec (count lo hi G - 1) (count lo hi G)); [|lia].
      destruct (glength_eq lo hi G P Lh _ H) as (A & B & _). unfold fit_var_group. destruct (inverses _ _ _ _); [|reflexivity].
      replace (S (count lo hi G - 1)) with (count lo hi G) in B by lia. rewrite (upto_count lo hi G P Lh) in B.
      replace (Nat.ltb n (gbegin lo G (count lo hi G - 1) + glength lo hi G (count lo hi G - 1))) with false by (symmetry; apply Nat.ltb_ge; rewrite A, B; lia).
      replace (Nat.ltb (hi - lo) (gbegin lo G (count lo hi G - 1) + glength lo hi G (count lo hi G - 1))) with true by (symmetry; apply Nat.ltb_lt; rewrite A, B; lia). reflexivity.
    - apply in_seq. lia. }
  assert (E : forall is st, (forall i, In i is -> (i < count lo hi G)%nat) ->
    dloop (fun i st => if (i <? count lo hi G)%nat then fit_var_group dinv n x y w true lo hi G i st else Throw) (fun _ => false) is st =
    dloop (fit_var_group dinv n x y w true lo hi G) (fun _ => false) is st).
  { induction is as [|i t IH]; intros st H; [reflexivity|]. cbn [dloop]. rewrite (proj2 (Nat.ltb_lt i _)) by (apply H; left; reflexivity).
    destruct (fit_var_group _ _ _ _ _ _ _ _ _ _ _); auto. apply IH. intros j I; apply H; right; exact I. }
  rewrite E in Q by (intros i I; apply in_seq in I; lia). rewrite Q. reflexivity.
Qed.

(** ** Groups larger than the range *)
Lemma large_main dinv n x y w hat lo hi G stop : device_inverse dinv -> (0 < hi - lo < G)%nat -> stop 0%nat = false ->
  fit_var_cuda dinv n x y w hat lo hi G stop = Throw /\
  (exists b, cv_cuda dinv n x y w lo hi G stop = Ok (b, false) /\ forall k, b k = 0) /\
  (exists b, shat_var_cuda dinv n x y w lo hi G stop = Ok (b, 0, 0, false) /\ forall k, b k = 0).
Proof.
  intros DI L NS. assert (P : (0 < G)%nat) by lia. assert (Lh : (lo <= hi)%nat) by lia.
  unfold fit_var_cuda, cv_cuda, shat_var_cuda. rewrite (groups_one _ _ L). cbn [obind seq dloop dloop_quiet]. rewrite NS.
  unfold fit_var_group, cv_group, shat_var_group, device0. cbn [d_xtw]. change (fun _ : nat => 0) with zero_row.
  rewrite !(small_strides dinv DI n x _ lo hi G P Lh L). cbn. split; [reflexivity|]. split; eexists; split; reflexivity.
Qed.
Lemma zero_main dinv n x y w hat lo hi stop : fit_var_cuda dinv n x y w hat lo hi 0 stop = UB /\ cv_cuda dinv n x y w lo hi 0 stop = UB /\ shat_var_cuda dinv n x y w lo hi 0 stop = UB.
Proof. repeat split. Qed.

(** ** The criteria *)
Lemma cv_criterion_main dinv n x y w G : device_inverse dinv -> (0 < G <= n)%nat -> (forall e, (e < n)%nat -> squares_without n x w e <> 0) ->
  cv_criterion dinv n x y w false G (fun _ => false) = Ok (XF (rss n x y (loo_slope n x y w))).
Proof.
  intros DI [P L] H. unfold cv_criterion.
  destruct (cv_main dinv DI n x y w 0 n G (le_n _) (fun _ => false) n) as (A & _); [lia|auto|intros e Le _; apply H; lia|].
  destruct A as (b & -> & B); [nia|]. cbn [obind snd fst orb negb]. f_equal. f_equal. apply cv_of_rss. intros i Li. rewrite B. unfold only.
  destruct (Nat.ltb_spec i n); [reflexivity|lia].
Qed.
Lemma aic_criterion_main inv1 dinv n x y w G : device_inverse dinv -> inverts inv1 -> (0 < G <= n)%nat -> (forall e, (e < n)%nat -> squares n x w e <> 0 /\ inv1 (squares n x w e) <> None) ->
  aic_criterion dinv n x y w false G (fun _ => false) = Ok (aic_base inv1 n x y w false (fun _ => false)).
Proof.
  intros DI I1 [P L] H. unfold aic_criterion.
  destruct (shat_main dinv DI n x y w 0 n G (le_n _) (fun _ => false) n) as (A & _); [lia|auto|intros e Le _; apply H; lia|].
  destruct A as (b & t & s & -> & B & T & _); [nia|]. cbn [obind snd fst orb negb andb]. cbv zeta. f_equal.
  rewrite (aic_base_eq inv1 n x y w I1) by (intros i Li; apply H, Li). cbv zeta.
  rewrite (aic_rss n x y b (slope n x y w)).
  2:{ intros i Li. rewrite B. unfold only. destruct (Nat.ltb_spec i n); [reflexivity|lia]. }
  replace t with (hat_trace n x w); [reflexivity|]. rewrite T. unfold hat_trace, sum_from. rewrite Nat.sub_0_r. apply bigsum_ext. intros i Li.
  unfold hat_row, Rdiv. cbn [Nat.add]. ring.
Qed.

(** ** Concrete runs *)
Definition dinv0 (a : R) : option R := if Reqb a 0 then None else Some (/ a).
Lemma dinv0_ok : device_inverse dinv0.
Proof.
  split; unfold dinv0.
  - destruct (Reqb 0 0) eqn:E; [reflexivity|]. apply Reqb_false in E. congruence.
  - intros a H. destruct (Reqb a 0) eqn:E; [apply Reqb_true in E; congruence|reflexivity].
Qed.
Definition ones2 : nat -> R := fun _ => 1.
Definition alternating : nat -> R := fun i => if Nat.eqb i 0 then 1 else - 1.
(** Each location sees only itself; and all locations. *)
Definition own_weight : nat -> nat -> R := fun i j => if Nat.eqb i j then 1 else 0.
Definition all_weight : nat -> nat -> R := fun _ _ => 1.
Lemma preferred_main : (forall i, (i < 2)%nat -> squares_without 2 ones2 own_weight i = 0) /\
  (forall i, (i < 2)%nat -> squares_without 2 ones2 all_weight i <> 0) /\
  cv_criterion dinv0 2 ones2 alternating own_weight false 1 (fun _ => false) = Ok (XF 2) /\
  cv_criterion dinv0 2 ones2 alternating all_weight false 1 (fun _ => false) = Ok (XF 8) /\
  cv_base dinv0 2 ones2 alternating own_weight false (fun _ => false) = XF DBL_MAX.
Proof.
  assert (Z : forall i, (i < 2)%nat -> squares_without 2 ones2 own_weight i = 0).
  { intros i L. unfold squares_without, sum_without, own_weight, ones2. destruct i as [|[|]]; cbn; lra || lia. }
  assert (A : forall i, (i < 2)%nat -> squares_without 2 ones2 all_weight i <> 0).
  { intros i L. unfold squares_without, sum_without, all_weight, ones2. destruct i as [|[|]]; cbn; lra || lia. }
  split; [exact Z|]. split; [exact A|]. split; [|split].
  - unfold cv_criterion. destruct (cv_main dinv0 dinv0_ok 2 ones2 alternating own_weight 0 2 1 (le_n _) (fun _ => false) 0) as (_ & _ & C); [lia|lia|intros; lia|].
    destruct C as (b & -> & B); [lia|reflexivity|exists 0%nat; split; [lia|]; split; [lia|apply Z; lia]|].
    cbn [obind snd fst orb negb]. f_equal. f_equal. unfold cv_of. cbn [bigsum]. rewrite !B. unfold only, ones2, alternating. cbn. lra.
  - rewrite cv_criterion_main; [|apply dinv0_ok|lia|intros; apply A; lia]. f_equal. f_equal. unfold rss, loo_slope, sum_without, ones2, alternating, all_weight. cbn. field.
  - apply C131_cv_unusable_main. right. exists 0%nat. split; [lia|]. right. change (sum_without 2 0 (fun j => own_weight 0 j * ones2 j ^ 2)) with (squares_without 2 ones2 own_weight 0).
    rewrite Z by lia. apply dinv0_ok.
Qed.
(** Three locations in groups of two: the second group is incomplete. *)
Lemma stale_main : exists b t s, shat_var_cuda dinv0 3 ones2 ones2 own_weight 0 3 2 (fun _ => false) = Ok (b, t, s, false) /\
  t = 3 /\ s = 4 /\ sum_from 0 3 (hat_square 3 ones2 own_weight) = 3.
Proof.
  destruct (shat_main dinv0 dinv0_ok 3 ones2 ones2 own_weight 0 3 2 (le_n _) (fun _ => false) 2) as (A & _); [lia|auto| |].
  { intros e L _. unfold squares, own_weight, ones2. destruct e as [|[|[|]]]; cbn; try lra; lia. }
  destruct A as (b & t & s & E & _ & T & _ & S1); [lia|]. exists b, t, s. split; [exact E|].
  assert (Q : forall i, (i < 3)%nat -> hat_square 3 ones2 own_weight i = 1).
  { intros i L. unfold hat_square, hat_row, own_weight, ones2. destruct i as [|[|[|]]]; cbn; try field; lia. }
  split; [|split].
  - rewrite T. unfold sum_from, hat_row, own_weight, ones2. cbn. field.
  - rewrite (S1 1%nat) by lia. unfold sum_from. cbn [Nat.sub Nat.add Nat.mul bigsum]. rewrite !Q by lia. lra.
  - unfold sum_from. cbn [Nat.sub Nat.add bigsum]. rewrite !Q by lia. lra.
Qed.
Lemma good_case : (0 < 2 <= 3 - 0)%nat /\ (forall e, (0 <= e < 3)%nat -> squares 3 ones2 own_weight e <> 0) /\
  exists b s, fit_var_cuda dinv0 3 ones2 alternating own_weight true 0 3 2 (fun _ => false) = Ok (b, s, false) /\ b 2%nat = - 1 /\ s 2%nat 2%nat = 1.
Proof.
  assert (R : forall e, (0 <= e < 3)%nat -> squares 3 ones2 own_weight e <> 0).
  { intros e L. unfold squares, own_weight, ones2. destruct e as [|[|[|]]]; cbn; try lra; lia. }
  split; [lia|]. split; [exact R|].
  destruct (fit_main dinv0 dinv0_ok 3 ones2 alternating own_weight 0 3 2 (le_n _) (fun _ => false) true 2) as (A & _); [lia|auto|auto|intros e L _; apply R, L|].
  destruct A as (b & s & E & B & S1); [lia|]. exists b, s. split; [exact E|]. rewrite B, S1. unfold only, slope, hat_row, own_weight, ones2, alternating. cbn. split; field.
Qed.

(** ** The arrays *)
Lemma leak_main l : info_arrays l = (fits l, fits l).
Proof.
  unfold info_arrays. assert (Q : forall l a, fold_left (fun held c => let (host, dev) := (S (fst held), S (snd held)) in
     match c with FitVar => (host, dev) | _ => (pred host, pred dev) end) l (a, a) = (a + fits l, a + fits l)%nat).
  { induction l0 as [|c t IH]; intros a; cbn [fold_left fits]; [rewrite Nat.add_0_r; reflexivity|]. destruct c; cbn [fst snd pred]; rewrite IH; f_equal; lia. }
  apply (Q l 0%nat).
Qed.
Lemma cancelled_main dinv n x y w G stop m t : device_inverse dinv -> (0 < G <= n)%nat -> (m * G < n)%nat ->
  (forall i, (i < m)%nat -> stop i = false) -> stop m = true ->
  (forall e, (e < m * G)%nat -> squares n x w e <> 0 /\ squares_without n x w e <> 0) ->
  cv_criterion dinv n x y w t G stop = Ok (XF DBL_MAX) /\ aic_criterion dinv n x y w t G stop = Ok (XF DBL_MAX).
Proof.
  intros DI HG Hm Hs Hst Hr. split.
  - unfold cv_criterion. destruct (cv_main dinv DI n x y w 0 n G (le_n n) stop m) as [_ [H _]]; [rewrite Nat.sub_0_r; exact HG|exact Hs| |].
    { intros e _ He. apply Hr. exact He. }
    destruct (H Hm Hst) as [b [-> _]]. cbn [obind snd]. rewrite orb_true_r. reflexivity.
  - unfold aic_criterion. destruct (shat_main dinv DI n x y w 0 n G (le_n n) stop m) as [_ [H _]]; [rewrite Nat.sub_0_r; exact HG|exact Hs| |].
    { intros e _ He. apply Hr. exact He. }
    destruct (H Hm Hst) as [b [u [v [-> _]]]]. cbn [obind snd fst]. cbv zeta. rewrite orb_true_r. reflexivity.
Qed.
