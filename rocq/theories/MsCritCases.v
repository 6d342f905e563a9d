From Coq Require Import Reals Bool List Arith Lia Lra.
From Verif Require Import Outcome XReal XRealFacts Sums DiagModel DiagProofs OmpModel OmpSpec OmpProofs MpiModel MpiProofs
  MsCritModel MsCritSpec MsCritProofs.
Import ListNotations.
Local Open Scope R_scope.

(** ** MPI *)
Section Mpi.
Variable inv1 : R -> option R.
Variable n : nat.
Variables (x y : nat -> R) (w : nat -> nat -> R).
Hypothesis contract : inverts inv1.
Variables workers size : nat.
Hypothesis Hsize : range_size n workers = Ok size.
Notation rg s := (work_range n size s).

Lemma collect_some (A : Type) (f : nat -> option A) : forall l, (forall s, In s l -> f s <> None) ->
  exists parts, collect (map f l) = Some parts /\ map f l = map Some parts.
Proof.
  intros l; induction l as [|s t IH]; intros H; [exists []; split; reflexivity|].
  destruct (IH (fun s' I => H s' (or_intror I))) as (parts & E & M).
  cbn [map collect]. destruct (f s) as [a|] eqn:F; [|exfalso; exact (H s (or_introl eq_refl) F)].
  rewrite E. exists (a :: parts). cbn [map]. rewrite M. split; reflexivity.
Qed.
Lemma max_over_map (f : nat -> nat -> R) k i :
  max_over (map f (seq 0 (S k))) i = fold_left (fun acc s => Rmax acc (f s i)) (seq 1 k) (f 0%nat i).
Proof.
  cbn [seq map max_over]. generalize (f 0%nat i). generalize (seq 1 k). intros l; induction l as [|s t IH]; intros a; [reflexivity|].
  cbn [map fold_left]. apply IH.
Qed.
Definition pad (b : nat -> R) (s i : nat) : R :=
  if ((fst (rg s) <=? i)%nat && (i <? snd (rg s))%nat)%bool then b i else 0.
Lemma max_over_ext (l l' : list (nat -> R)) i : length l = length l' ->
  (forall k d, nth k l d i = nth k l' d i) -> max_over l i = max_over l' i.
Proof.
  destruct l as [|h t], l' as [|h' t']; cbn [length]; intros L E; try discriminate; [reflexivity|].
  cbn [max_over]. pose proof (E 0%nat (fun _ => 0)) as E0. cbn [nth] in E0. rewrite E0.
  assert (ET : forall k d, nth k t d i = nth k t' d i) by (intros k d; exact (E (S k) d)).
  assert (LT : length t = length t') by lia. clear - ET LT. generalize (h' i). revert t' ET LT.
  induction t as [|a t IH]; intros [|a' t'] ET LT r; cbn [length] in LT; try discriminate; [reflexivity|].
  cbn [fold_left]. pose proof (ET 0%nat (fun _ => 0)) as E0. cbn [nth] in E0. rewrite E0.
  apply IH; [intros k d; exact (ET (S k) d)|lia].
Qed.
Lemma max_over_pad b i : (2 <= workers)%nat -> (i < n)%nat -> max_over (map (pad b) (seq 0 workers)) i = Rmax (b i) 0.
Proof.
  intros W2 I. pose proof (max_main b n size workers Hsize W2) as M.
  apply (f_equal (fun l => nth i l 0)) in M. unfold max_mpi in M.
  rewrite !nth_map_seq in M by exact I. cbn [Nat.add] in M. rewrite <- M.
  replace workers with (S (workers - 1)) at 1 by lia. rewrite max_over_map.
  assert (P : forall s, nth i (padded b n size s) 0 = pad b s i).
  { intros s. unfold padded. rewrite nth_map_seq by exact I. reflexivity. }
  rewrite P. generalize (pad b 0 i). generalize (seq 1 (workers - 1)). intros l; induction l as [|s t IH]; intros a; [reflexivity|].
  cbn [fold_left]. rewrite P. apply IH.
Qed.
Lemma max_over_pad1 b i : workers = 1%nat -> (i < n)%nat -> max_over (map (pad b) (seq 0 workers)) i = b i.
Proof.
  intros W1 I. rewrite W1. cbn [seq map max_over fold_left]. unfold pad.
  pose proof (size_covers _ _ _ Hsize) as C. rewrite W1 in C. unfold work_range; cbn [fst snd Nat.mul].
  replace (i <? Nat.min (0 + size) n)%nat with true by (symmetry; apply Nat.ltb_lt; lia). reflexivity.
Qed.
Lemma rg_le s : (snd (rg s) <= n)%nat.
Proof. unfold work_range; cbn [snd]; lia. Qed.
Lemma parts_of (run : nat -> nat -> option ((nat -> R) * (nat -> R) * bool)) (b : nat -> R) :
  (forall lo hi, (hi <= n)%nat -> exists bb s, run lo hi = Some (bb, s, false) /\
     forall i, bb i = if ((lo <=? i)%nat && (i <? hi)%nat)%bool then b i else 0) ->
  exists parts, on_ranges n run workers = Ok (Some parts) /\
    map (fun s => run (fst (rg s)) (snd (rg s))) (seq 0 workers) = map Some parts /\
    forall i, max_over (map (fun p => fst (fst p)) parts) i = max_over (map (pad b) (seq 0 workers)) i.
Proof.
  intros H. destruct (collect_some _ (fun s => run (fst (rg s)) (snd (rg s))) (seq 0 workers)) as (parts & E & M).
  { intros s _. destruct (H (fst (rg s)) (snd (rg s)) (rg_le s)) as (bb & c & -> & _). discriminate. }
  exists parts. unfold on_ranges. rewrite Hsize. cbn [obind]. rewrite E. split; [reflexivity|split; [exact M|]].
  intros i. apply max_over_ext.
  - rewrite !map_length. apply (f_equal (@length _)) in M. rewrite !map_length in M. lia.
  - intros k d. assert (LP : length parts = workers).
    { apply (f_equal (@length _)) in M. rewrite !map_length, seq_length in M. lia. }
    destruct (le_lt_dec workers k) as [G|G].
    { rewrite !nth_overflow; [reflexivity| |]; rewrite map_length; [rewrite seq_length|]; lia. }
    apply (f_equal (fun l => nth_error l k)) in M.
    rewrite nth_error_map_seq in M by exact G. rewrite nth_error_map in M. cbn [Nat.add] in M.
    destruct (H (fst (rg k)) (snd (rg k)) (rg_le k)) as (bb & c & R0 & B). rewrite R0 in M.
    destruct (nth_error parts k) as [p|] eqn:P; [|discriminate M]. cbn [option_map] in M. injection M as <-.
    rewrite (nth_indep _ d ((fun p : (nat -> R) * (nat -> R) * bool => fst (fst p)) (bb, c, false))) by (rewrite map_length; lia).
    rewrite (map_nth (fun p : (nat -> R) * (nat -> R) * bool => fst (fst p))).
    rewrite (nth_error_nth parts k _ P). cbn [fst].
    rewrite (nth_indep _ d (pad b 0)) by (rewrite map_length, seq_length; lia).
    rewrite (map_nth (pad b)), seq_nth by exact G. cbn [Nat.add]. rewrite B. reflexivity.
Qed.

Lemma cv_mpi_value c : (forall i, (i < n)%nat -> max_over (map (pad (loo_slope n x y w)) (seq 0 workers)) i = c i) ->
  cv_ok inv1 n x w -> cv_mpi inv1 n x y w workers = Ok (XF (rss n x y c)).
Proof.
  intros C A. unfold cv_mpi.
  destruct (parts_of (fun lo hi => fit_var_cv inv1 n x y w lo hi (fun _ => false)) (loo_slope n x y w)) as (parts & E & _ & M).
  { intros lo hi H. exact (cv_range inv1 n x y w contract lo hi H A). }
  rewrite E. cbn [obind]. f_equal. f_equal. apply cv_of_rss. intros i I. rewrite M. apply C, I.
Qed.
Lemma C132_cv_mpi_main : (2 <= workers)%nat -> cv_ok inv1 n x w ->
  cv_mpi inv1 n x y w workers = Ok (XF (rss n x y (fun i => Rmax (loo_slope n x y w i) 0))).
Proof. intros W2. apply cv_mpi_value. intros i I. apply max_over_pad; assumption. Qed.
Lemma C132_cv_mpi_one : workers = 1%nat -> cv_ok inv1 n x w ->
  cv_mpi inv1 n x y w workers = Ok (cv_base inv1 n x y w false (fun _ => false)).
Proof.
  intros W1 A. rewrite (C131_cv_main _ _ _ _ _ contract A). apply cv_mpi_value; [|exact A].
  intros i I. apply max_over_pad1; assumption.
Qed.
(** The traces add up. *)
Lemma trace_parts (g : nat -> R) (parts : list ((nat -> R) * (nat -> R) * bool)) :
  map (fun s => fit_var_shat inv1 n x y w (fst (rg s)) (snd (rg s)) (fun _ => false)) (seq 0 workers) = map Some parts ->
  (forall lo hi b s st, (hi <= n)%nat -> fit_var_shat inv1 n x y w lo hi (fun _ => false) = Some (b, s, st) ->
     s 0%nat = lsum (map g (seq lo (hi - lo)))) ->
  lsum (map (fun p => snd (fst p) 0%nat) parts) = bigsum n g.
Proof.
  intros M H. rewrite bigsum_seq, sumloop_lsum, <- (C35_concat n workers size Hsize).
  revert parts M. generalize (seq 0 workers). intros l; induction l as [|s t IH]; intros [|p parts] M; try discriminate; [reflexivity|].
  cbn [map] in M. assert (M0 : fit_var_shat inv1 n x y w (fst (rg s)) (snd (rg s)) (fun _ => false) = Some p) by congruence.
  assert (M1 : map (fun s => fit_var_shat inv1 n x y w (fst (rg s)) (snd (rg s)) (fun _ => false)) t = map Some parts) by congruence.
  cbn [map flat_map]. rewrite map_app, lsum_app, <- (IH _ M1). cbn [lsum fold_right].
  destruct p as [[b c] st]. cbn [fst snd]. rewrite (H _ _ _ _ _ (rg_le s) M0). reflexivity.
Qed.
Lemma aic_mpi_value c : (forall i, (i < n)%nat -> max_over (map (pad (slope n x y w)) (seq 0 workers)) i = c i) ->
  fit_ok inv1 n x w ->
  aic_mpi inv1 n x y w workers =
  Ok (let v := xadd (loglik (INR n) (rss n x y c))
        (xmul (XF (INR n)) (xdiv (XF (INR n + hat_trace n x w)) (XF (INR n - 2 - hat_trace n x w)))) in
      if is_finite v then v else XF DBL_MAX).
Proof.
  intros C A. unfold aic_mpi.
  destruct (parts_of (fun lo hi => fit_var_shat inv1 n x y w lo hi (fun _ => false)) (slope n x y w)) as (parts & E & P & M).
  { intros lo hi H. destruct (shat_range inv1 n x y w contract lo hi H A) as (b & s & Q & B & _). exists b, s; split; assumption. }
  rewrite E. cbn [obind]. f_equal.
  rewrite (aic_rss n x y (max_over (map (fun p => fst (fst p)) parts)) c) by (intros i I; rewrite M; apply C, I).
  rewrite (trace_parts (fun i => w i i * x i ^ 2 / bigsum n (fun j => w i j * x j ^ 2)) parts P); [reflexivity|].
  intros lo hi b s st H Q. destruct (shat_range inv1 n x y w contract lo hi H A) as (b' & s' & Q' & _ & T).
  rewrite Q' in Q. injection Q as <- <- <-. exact T.
Qed.
Lemma C132_aic_mpi_main : (2 <= workers)%nat -> fit_ok inv1 n x w -> (0 < n)%nat ->
  let r := rss n x y (fun i => Rmax (slope n x y w i) 0) in
  0 < r -> INR n - 2 - hat_trace n x w <> 0 ->
  exists v, aic_mpi inv1 n x y w workers = Ok v /\
    xval v = Some (INR n * ln (r / INR n) + INR n * ln (2 * PI)
                   + INR n * ((INR n + hat_trace n x w) / (INR n - 2 - hat_trace n x w))).
Proof.
  intros W2 A N r P D. rewrite (aic_mpi_value (fun i => Rmax (slope n x y w i) 0)).
  - eexists; split; [reflexivity|]. cbv zeta. destruct (aic_finite_value n _ _ N P D) as (v & E & F & V). fold r. rewrite E, F. exact V.
  - intros i I. apply max_over_pad; assumption.
  - exact A.
Qed.
Lemma C132_mpi_fails_main : (exists i, (i < n)%nat /\ inv1 (sum_without n i (fun j => w i j * x j ^ 2)) = None) ->
  cv_mpi inv1 n x y w workers = Ok (XF DBL_MAX).
Proof.
  intros (i & I & F). unfold cv_mpi, on_ranges. rewrite Hsize. cbn [obind].
  assert (L : cv_local inv1 n x y w i = None) by (unfold cv_local; rewrite xtwx_zeroed, F; reflexivity).
  destruct (proj2 (C35_main n workers size Hsize) i I) as (s & (S & V) & _).
  assert (N : collect (map (fun id => fit_var_cv inv1 n x y w (fst (rg id)) (snd (rg id)) (fun _ => false)) (seq 0 workers)) = None).
  { assert (IS : In s (seq 0 workers)) by (apply in_seq; lia). revert IS. generalize (seq 0 workers).
    intros l; induction l as [|a t IH]; intros IS; [destruct IS|]. cbn [map collect].
    destruct (Nat.eq_dec a s) as [->|D].
    - unfold fit_var_cv at 1. rewrite core_none; [reflexivity|reflexivity|]. exists i; split; [exact V|exact L].
    - destruct (fit_var_cv inv1 n x y w (fst (rg a)) (snd (rg a)) (fun _ => false)); [|reflexivity].
      rewrite IH; [reflexivity|]. destruct IS as [E|IS]; [congruence|exact IS]. }
  rewrite N. reflexivity.
Qed.
End Mpi.

(** ** Witnesses *)
Definition real_inv (a : R) : option R := if Req_EM_T a 0 then None else Some (/ a).
Lemma real_inv_inverts : inverts real_inv.
Proof. intros a b. unfold real_inv. destruct (Req_EM_T a 0); [discriminate|]. intros H; injection H as <-. field; assumption. Qed.
Lemma real_inv_ok a : a <> 0 -> real_inv a <> None.
Proof. unfold real_inv. destruct (Req_EM_T a 0); [contradiction|discriminate]. Qed.
Lemma real_inv_0 : real_inv 0 = None.
Proof. unfold real_inv. destruct (Req_EM_T 0 0); [reflexivity|contradiction]. Qed.
Lemma DBL_MAX_big : 1000 < DBL_MAX.
Proof. unfold DBL_MAX. apply IZR_lt. reflexivity. Qed.

Definition one (_ _ : nat) : R := 1.
(** A failing location: x is 1 at location 0 and 0 at location 1. *)
Definition fx (i : nat) : R := match i with O => 1 | _ => 0 end.
Lemma C132_omp_witness : exists inv1 n x y w threads sched v,
  inverts inv1 /\ schedule threads 0 n sched /\ v < DBL_MAX /\
  cv_omp inv1 n x y w threads sched = Some (XF v) /\
  cv_base inv1 n x y w false (fun _ => false) = XF DBL_MAX.
Proof.
  exists real_inv, 2%nat, fx, (fun _ => 1), one, 2%nat, overlap, 2.
  split; [exact real_inv_inverts|split; [exact overlap_schedule|split; [pose proof DBL_MAX_big; lra|split]]].
  - assert (L0 : cv_local real_inv 2 fx (fun _ => 1) one 0 = None).
    { unfold cv_local. rewrite xtwx_zeroed. unfold sum_without, one, fx; cbn.
      replace (0 + 0 + 1 * (0 * (0 * 1))) with 0 by ring. rewrite real_inv_0; reflexivity. }
    assert (L1 : exists a c, cv_local real_inv 2 fx (fun _ => 1) one 1 = Some (a, c)).
    { destruct (cv_local real_inv 2 fx (fun _ => 1) one 1) as [[a c]|] eqn:E; [eauto|exfalso].
      unfold cv_local in E. rewrite xtwx_zeroed in E. unfold sum_without, one, fx in E; cbn in E.
      destruct (real_inv (0 + 1 * (1 * (1 * 1)) + 0)) eqn:Q; [discriminate E|]. revert Q. apply real_inv_ok. lra. }
    destruct L1 as (a & c & L1). unfold cv_omp, omp_run, overlap.
    cbn [fold_left step p0 started flag update Nat.eqb guarded negb orb policy_of]. rewrite L1.
    cbn [started flag betas acc dead update Nat.eqb negb orb policy_of]. rewrite L0.
    cbn [started flag betas acc dead update Nat.eqb negb orb policy_of]. cbn [p0 dead betas]. f_equal. f_equal.
    unfold cv_of, update, fx; cbn. ring.
  - apply C131_cv_unusable_main. right. exists 0%nat; split; [lia|right]. unfold sum_without, one, fx; cbn.
    replace (0 + 0 + 1 * (0 * (0 * 1))) with 0 by ring. exact real_inv_0.
Qed.
(** Negative slopes. *)
Lemma C132_mpi_witness : exists inv1 n x y w workers v v',
  inverts inv1 /\ cv_mpi inv1 n x y w workers = Ok (XF v) /\
  cv_base inv1 n x y w false (fun _ => false) = XF v' /\ v' < v < DBL_MAX.
Proof.
  exists real_inv, 2%nat, (fun _ => 1), (fun _ => -1), one, 2%nat.
  assert (A : cv_ok real_inv 2 (fun _ => 1) one).
  { intros i I. apply real_inv_ok. unfold sum_without, one. destruct i as [|[|i]]; [cbn; lra|cbn; lra|lia]. }
  assert (S0 : loo_slope 2 (fun _ => 1) (fun _ => -1) one 0 = -1) by (unfold loo_slope, sum_without, one; cbn; field).
  assert (S1 : loo_slope 2 (fun _ => 1) (fun _ => -1) one 1 = -1) by (unfold loo_slope, sum_without, one; cbn; field).
  exists 2, 0. split; [exact real_inv_inverts|split; [|split; [|pose proof DBL_MAX_big; lra]]].
  - rewrite (C132_cv_mpi_main real_inv 2 _ _ one real_inv_inverts 2 1 eq_refl (le_n _) A). f_equal. f_equal.
    unfold rss; cbn [bigsum]. rewrite S0, S1. rewrite Rmax_right by lra. ring.
  - rewrite (C131_cv_main real_inv 2 _ _ one real_inv_inverts A). f_equal. unfold rss; cbn [bigsum]. rewrite S0, S1. ring.
Qed.

(** ** The penalty of AICc *)
Lemma C133_main : forall inv1 n x x' y y' w w',
  inverts inv1 -> fit_ok inv1 n x w -> fit_ok inv1 n x' w' -> (2 <= n)%nat ->
  let r := rss n x y (slope n x y w) in let r' := rss n x' y' (slope n x' y' w') in
  0 < r <= r' -> 0 <= hat_trace n x w <= hat_trace n x' w' -> hat_trace n x' w' < INR n - 2 ->
  exists v v', xval (aic_base inv1 n x y w false (fun _ => false)) = Some v /\
    xval (aic_base inv1 n x' y' w' false (fun _ => false)) = Some v' /\ v <= v' /\
    (r < r' \/ hat_trace n x w < hat_trace n x' w' -> v < v').
Proof.
  intros inv1 n x x' y y' w w' C A A' N r r' R T D.
  assert (NR : 2 <= INR n) by (change 2 with (INR 2); apply le_INR; exact N).
  assert (N0 : (0 < n)%nat) by lia.
  rewrite (C131_aic_main inv1 n x y w C A N0); [|fold r; lra|lra].
  rewrite (C131_aic_main inv1 n x' y' w' C A' N0); [|fold r'; lra|lra].
  fold r r'. set (t := hat_trace n x w) in *. set (t' := hat_trace n x' w') in *.
  do 2 eexists; split; [reflexivity|split; [reflexivity|]].
  assert (L : ln (r / INR n) <= ln (r' / INR n)).
  { destruct (Req_dec r r') as [->|E]; [lra|left]. apply ln_increasing; [apply Rdiv_lt_0_compat; lra|].
    apply Rmult_lt_compat_r; [apply Rinv_0_lt_compat; lra|lra]. }
  assert (Ls : r < r' -> ln (r / INR n) < ln (r' / INR n)).
  { intros E. apply ln_increasing; [apply Rdiv_lt_0_compat; lra|].
    apply Rmult_lt_compat_r; [apply Rinv_0_lt_compat; lra|lra]. }
  assert (Q : (INR n + t') / (INR n - 2 - t') - (INR n + t) / (INR n - 2 - t) =
    (2 * INR n - 2) * (t' - t) / ((INR n - 2 - t') * (INR n - 2 - t))) by (field; lra).
  assert (DP : 0 < (INR n - 2 - t') * (INR n - 2 - t)) by (apply Rmult_lt_0_compat; lra).
  assert (P : (INR n + t) / (INR n - 2 - t) <= (INR n + t') / (INR n - 2 - t')).
  { assert (0 <= (2 * INR n - 2) * (t' - t) / ((INR n - 2 - t') * (INR n - 2 - t))); [|lra].
    apply Rmult_le_pos; [apply Rmult_le_pos; lra|left; apply Rinv_0_lt_compat; exact DP]. }
  assert (Ps : t < t' -> (INR n + t) / (INR n - 2 - t) < (INR n + t') / (INR n - 2 - t')).
  { intros E. assert (0 < (2 * INR n - 2) * (t' - t) / ((INR n - 2 - t') * (INR n - 2 - t))); [|lra].
    apply Rmult_lt_0_compat; [apply Rmult_lt_0_compat; lra|apply Rinv_0_lt_compat; exact DP]. }
  split.
  - apply Rplus_le_compat; [apply Rplus_le_compat_r|]; apply Rmult_le_compat_l; lra.
  - intros [E|E].
    + apply Rplus_lt_le_compat; [apply Rplus_lt_compat_r|]; [apply Rmult_lt_compat_l; [lra|exact (Ls E)]|apply Rmult_le_compat_l; lra].
    + apply Rplus_le_lt_compat; [apply Rplus_le_compat_r; apply Rmult_le_compat_l; lra|apply Rmult_lt_compat_l; [lra|exact (Ps E)]].
Qed.

Lemma ln_upper z : 0 < z -> ln z <= z - 1.
Proof.
  intros Z. destruct (Req_dec (ln z) 0) as [E|E].
  - rewrite E. apply (f_equal exp) in E. rewrite exp_ln, exp_0 in E by exact Z. lra.
  - pose proof (exp_ineq1 (ln z) E) as H. rewrite exp_ln in H by exact Z. lra.
Qed.
(** Too local: three effective parameters for four observations. *)
Definition lw (i j : nat) : R := if Nat.eqb j i then 1 else 1 / 9.
Definition ly (i : nat) : R := match i with 3%nat => 1 | _ => 0 end.
Lemma C133_witness : exists inv1 n x y w w' v v', inverts inv1 /\
  INR n - 2 < hat_trace n x w /\ hat_trace n x w' = 1 /\
  xval (aic_base inv1 n x y w false (fun _ => false)) = Some v /\
  xval (aic_base inv1 n x y w' false (fun _ => false)) = Some v' /\ v < v'.
Proof.
  exists real_inv, 4%nat, (fun _ => 1), ly, lw, one.
  assert (T : hat_trace 4 (fun _ => 1) lw = 3) by (unfold hat_trace, lw; cbn; field).
  assert (T' : hat_trace 4 (fun _ => 1) one = 1) by (unfold hat_trace, one; cbn; field).
  assert (A : fit_ok real_inv 4 (fun _ => 1) lw).
  { intros i I. apply real_inv_ok. unfold lw. destruct i as [|[|[|[|i]]]]; try lia; cbn; lra. }
  assert (A' : fit_ok real_inv 4 (fun _ => 1) one).
  { intros i I. apply real_inv_ok. unfold one. cbn; lra. }
  assert (RS : rss 4 (fun _ => 1) ly (slope 4 (fun _ => 1) ly lw) = 1 / 12) by (unfold rss, slope, lw, ly; cbn; field).
  assert (RS' : rss 4 (fun _ => 1) ly (slope 4 (fun _ => 1) ly one) = 3 / 4) by (unfold rss, slope, one, ly; cbn; field).
  assert (I4 : INR 4 = 4) by (cbn; lra).
  assert (H1 := C131_aic_main real_inv 4 (fun _ => 1) ly lw real_inv_inverts A ltac:(lia)).
  assert (H2 := C131_aic_main real_inv 4 (fun _ => 1) ly one real_inv_inverts A' ltac:(lia)).
  rewrite RS, T, I4 in H1. rewrite RS', T', I4 in H2.
  specialize (H1 ltac:(lra) ltac:(lra)). specialize (H2 ltac:(lra) ltac:(lra)).
  do 2 eexists. split; [exact real_inv_inverts|split; [rewrite T, I4; lra|split; [exact T'|split; [exact H1|split; [exact H2|]]]]].
  assert (L : ln (1 / 12 / 4) < ln (3 / 4 / 4)) by (apply ln_increasing; lra). lra.
Qed.
(** A perfect fit counts as the worst. *)
Definition pw (i j : nat) : R := if Bool.eqb (i <? 3)%nat (j <? 3)%nat then 1 else 0.
Definition py (i : nat) : R := if (i <? 3)%nat then 0 else 1.
Lemma C131_perfect_witness : exists inv1 n x y w w' v, inverts inv1 /\
  (forall i, (i < n)%nat -> y i = x i * slope n x y w i) /\ INR n - 2 - hat_trace n x w <> 0 /\
  fit_ok inv1 n x w /\
  aic_base inv1 n x y w false (fun _ => false) = XF DBL_MAX /\
  xval (aic_base inv1 n x y w' false (fun _ => false)) = Some v /\ v < DBL_MAX.
Proof.
  exists real_inv, 5%nat, (fun _ => 1), py, pw, one.
  assert (T : hat_trace 5 (fun _ => 1) pw = 2) by (unfold hat_trace, pw; cbn; field).
  assert (T' : hat_trace 5 (fun _ => 1) one = 1) by (unfold hat_trace, one; cbn; field).
  assert (A : fit_ok real_inv 5 (fun _ => 1) pw).
  { intros i I. apply real_inv_ok. unfold pw. destruct i as [|[|[|[|[|i]]]]]; try lia; cbn; lra. }
  assert (A' : fit_ok real_inv 5 (fun _ => 1) one) by (intros i I; apply real_inv_ok; unfold one; cbn; lra).
  assert (F : forall i, (i < 5)%nat -> py i = 1 * slope 5 (fun _ => 1) py pw i).
  { intros i I. unfold slope, pw, py. destruct i as [|[|[|[|[|i]]]]]; try lia; cbn; field. }
  assert (RS' : rss 5 (fun _ => 1) py (slope 5 (fun _ => 1) py one) = 6 / 5) by (unfold rss, slope, one, py; cbn; field).
  assert (I5 : INR 5 = 5) by (cbn; lra).
  assert (H2 := C131_aic_main real_inv 5 (fun _ => 1) py one real_inv_inverts A' ltac:(lia)).
  rewrite RS', T', I5 in H2. specialize (H2 ltac:(lra) ltac:(lra)).
  eexists. split; [exact real_inv_inverts|split; [exact F|split; [rewrite T, I5; lra|split; [exact A|split; [|split; [exact H2|]]]]]].
  - apply C131_aic_not_finite; [exact real_inv_inverts|exact A|lia|left].
    unfold rss. rewrite (bigsum_ext 5 _ (fun _ => 0)); [apply bigsum_0|]. intros i I. rewrite <- (F i I). ring.
  - pose proof DBL_MAX_big. pose proof (ln_upper (6 / 5 / 5) ltac:(lra)). pose proof PI_RGT_0. pose proof PI_4.
    pose proof (ln_upper (2 * PI) ltac:(lra)). lra.
Qed.

(** ** Diagnostics *)
Lemma trace2_frob n S0 : trace2 n S0 = bigsum n (fun i => bigsum n (fun k => S0 i k ^ 2)).
Proof. apply bigsum_ext; intros i _; apply bigsum_ext; intros k _; ring. Qed.
Lemma C134_main : forall n y S0 r, let d := ms_diag true n y S0 r in
  let tr := bigsum n (fun i => S0 i i) in let fro := bigsum n (fun i => bigsum n (fun k => S0 i k ^ 2)) in
  d_RSS d = r /\ d_ENP d = 2 * tr - fro /\ d_EDF d = INR n - d_ENP d /\
  ((0 < n)%nat -> 0 < r -> INR n - 2 - tr <> 0 ->
   xval (d_AICc d) = Some (INR n * ln (r / INR n) + INR n * ln (2 * PI) + INR n * ((INR n + tr) / (INR n - 2 - tr)))) /\
  (let tss := bigsum n (fun i => (y i - bigsum n y / INR n) ^ 2) in tss <> 0 ->
   xval (d_R2 d) = Some (1 - r / tss) /\
   (d_EDF d <> 1 -> xval (d_R2adj d) = Some (1 - r / tss * (INR n - 1) / (d_EDF d - 1)))).
Proof.
  intros n y S0 r d tr fro. unfold d, ms_diag, ms_calc. rewrite trace2_frob. fold fro.
  change (trace1 n S0) with tr. cbn [d_RSS d_ENP d_EDF d_AICc d_R2 d_R2adj RSSv ENP EDF AICc R2 R2adj diag_from].
  split; [reflexivity|split; [reflexivity|split; [ring|split]]].
  - intros N P D. destruct (aic_finite_value n r tr N P D) as (v & E & _ & V). rewrite E. exact V.
  - set (tss := bigsum n (fun i => (y i - bigsum n y / INR n) ^ 2)). intros TN.
    assert (Y : yss_of n y = tss) by (apply bigsum_ext; intros i _; unfold mean; ring).
    rewrite Y.
    assert (V2 : xval (xsub (XF 1) (xdiv (XF r) (XF tss))) = Some (1 - r / tss)).
    { apply xval_xsub; [reflexivity|]. refine (xval_xdiv (XF _) (XF _) _ _ eq_refl eq_refl _). exact TN. }
    split; [exact V2|]. intros E1.
    apply xval_xsub; [reflexivity|].
    replace (r / tss * (INR n - 1) / (INR n - 2 * tr + fro - 1)) with ((1 - (1 - r / tss)) * (INR n - 1) / (INR n - 2 * tr + fro - 1)) by (field; split; [exact TN|intros Z; apply E1; lra]).
    apply xval_xdiv; [apply xval_xmul; [apply xval_xsub; [reflexivity|exact V2]|reflexivity]|reflexivity|intros Z; apply E1; lra].
Qed.
Lemma C134_no_hat : forall n y S r, let d := ms_diag false n y S r in d_ENP d = 0 /\ d_EDF d = INR n.
Proof. intros n y S r d. unfold d, ms_diag, ms_calc, diag_from. cbn [d_ENP d_EDF ENP EDF]. split; ring. Qed.
Lemma MsCrit_case : inverts real_inv /\
  (forall i, (i < 4)%nat -> real_inv (sum_without 4 i (fun j => one i j * 1 ^ 2)) <> None) /\
  (forall i, (i < 4)%nat -> real_inv (bigsum 4 (fun j => one i j * 1 ^ 2)) <> None) /\
  0 < rss 4 (fun _ => 1) ly (slope 4 (fun _ => 1) ly one) /\ 0 <= hat_trace 4 (fun _ => 1) one < INR 4 - 2 /\
  range_size 4 2 = Ok 2%nat /\ schedule 2 0 2 overlap.
Proof.
  split; [exact real_inv_inverts|split; [|split; [|split; [|split; [|split]]]]].
  - intros i I. apply real_inv_ok. unfold sum_without, one. destruct i as [|[|[|[|i]]]]; try lia; cbn; lra.
  - intros i I. apply real_inv_ok. unfold one. cbn; lra.
  - unfold rss, slope, one, ly; cbn. lra.
  - assert (T' : hat_trace 4 (fun _ => 1) one = 1) by (unfold hat_trace, one; cbn; field).
    rewrite T'. cbn; lra.
  - reflexivity.
  - exact overlap_schedule.
Qed.

Lemma C134_hat_matters : exists n y S r, d_ENP (ms_diag true n y S r) <> d_ENP (ms_diag false n y S r).
Proof.
  exists 1%nat, ly, one, 1. unfold ms_diag, ms_calc, diag_from, trace1, trace2, one. cbn [d_ENP ENP bigsum]. lra.
Qed.
