(** What the CUDA loops of multiscale GWR return. *)
From Coq Require Import Reals Bool List Arith Lra Lia.
From Verif Require Import Outcome XReal XRealFacts Sums DiagModel CudaModel CudaProofs MsCritModel MsCritSpec MsCritProofs MsCudaModel MsCudaSpec MsCudaProofs.
Import ListNotations.
Local Open Scope R_scope.

Section V.
Variable n : nat.
Variables (x y : nat -> R) (w : nat -> nat -> R).
Lemma den_full e : times_x n x (diagmul x (w e)) = squares n x w e.
Proof. apply bigsum_ext; intros j _; unfold diagmul; ring. Qed.
Lemma num_full e : times_y n y (diagmul x (w e)) = bigsum n (fun j => w e j * x j * y j).
Proof. apply bigsum_ext; intros j _; unfold diagmul; ring. Qed.
Lemma den_cv e : times_x n x (diagmul x (zeroed e (w e))) = squares_without n x w e.
Proof. apply bigsum_ext; intros j _; unfold diagmul, zeroed. destruct (Nat.eqb j e); ring. Qed.
Lemma num_cv e : times_y n y (diagmul x (zeroed e (w e))) = sum_without n e (fun j => w e j * x j * y j).
Proof. apply bigsum_ext; intros j _; unfold diagmul, zeroed. destruct (Nat.eqb j e); ring. Qed.
Lemma bval_eq e : bval n x y w e = slope n x y w e.
Proof. unfold bval. rewrite den_full, num_full. unfold slope, squares, Rdiv. ring. Qed.
Lemma sval_eq e k : sval n x w e k = hat_row n x w e k.
Proof. unfold sval. rewrite den_full. unfold hat_row, squares, diagmul, Rdiv. ring. Qed.
Lemma cval_eq e : cval n x y w e = loo_slope n x y w e.
Proof. unfold cval. rewrite den_cv, num_cv. unfold loo_slope, squares_without, Rdiv. ring. Qed.
Lemma qval_eq e : qval n x w e = hat_square n x w e.
Proof. apply bigsum_ext; intros j _. rewrite sval_eq. ring. Qed.
End V.
Lemma only_ext lo hi f g k : (forall e, f e = g e) -> only lo hi f k = only lo hi g k.
Proof. intros E. unfold only. rewrite E. reflexivity. Qed.
Lemma sum_from_eq lo hi f : lsum (map f (seq lo (hi - lo))) = sum_from lo hi f.
Proof.
  unfold sum_from. rewrite bigsum_seq, sumloop_lsum. f_equal. generalize (hi - lo)%nat as m. intros m.
  assert (Q : forall a, seq (lo + a) m = map (fun i => lo + i)%nat (seq a m)).
  { induction m as [|m IH]; intros a; cbn; [reflexivity|]. f_equal. rewrite <- IH. f_equal. lia. }
  specialize (Q 0%nat). rewrite Nat.add_0_r in Q. rewrite Q. apply map_map.
Qed.

Section M.
Variable dinv : R -> option R.
Hypothesis DI : device_inverse dinv.
Variable n : nat.
Variables (x y : nat -> R) (w : nat -> nat -> R).
Variables lo hi G : nat.
Hypothesis Hn : (hi <= n)%nat.
Variable stop : nat -> bool.

Lemma count_le m : (0 < G)%nat -> (lo <= hi)%nat -> (hi <= lo + m * G)%nat -> (count lo hi G <= m)%nat.
Proof. intros P L H. destruct (Nat.le_gt_cases (count lo hi G) m) as [A|A]; [exact A|]. apply (count_spec lo hi G P L) in A. lia. Qed.

Lemma fit_main hat m : (0 < G <= hi - lo)%nat -> (hat = true -> lo = 0%nat) ->
  (forall i, (i < m)%nat -> stop i = false) -> (forall e, (lo <= e < hi)%nat -> (e < lo + m * G)%nat -> squares n x w e <> 0) ->
  let run := fit_var_cuda dinv n x y w hat lo hi G stop in
  let done upto flag := exists b s, run = Ok (b, s, flag) /\ (forall k, b k = only lo upto (slope n x y w) k) /\
    (forall k j, s k j = if hat then only lo upto (fun e => hat_row n x w e j) k else 0) in
  ((hi <= lo + m * G)%nat -> done hi false) /\
  ((lo + m * G < hi)%nat -> stop m = true -> done (lo + m * G)%nat true) /\
  ((lo + m * G < hi)%nat -> stop m = false -> (exists e, (lo + m * G <= e < lo + S m * G)%nat /\ (e < hi)%nat /\ squares n x w e = 0) -> run = Throw).
Proof.
  intros [P GL] H0 NS RG run done. assert (Lh : (lo <= hi)%nat) by lia. set (c := count lo hi G).
  assert (GEN : forall m', (m' <= c)%nat -> (m' <= m)%nat -> exists st, dloop (fit_var_group dinv n x y w hat lo hi G) stop (seq 0 m') (device0 G) = Ok (st, false) /\ fit_inv n x y w lo hi G hat m' st).
  { intros m' L1 L2. apply (fit_run dinv DI n x y w lo hi G P Lh Hn GL stop hat H0); [exact L1|intros i L; apply NS; lia|].
    intros e Le. rewrite den_full. unfold upto in Le. apply RG; [lia|]. nia. }
  assert (RES : forall st fl up, dloop (fit_var_group dinv n x y w hat lo hi G) stop (seq 0 c) (device0 G) = Ok (st, fl) ->
     (forall k, d_beta st k = only lo up (bval n x y w) k) -> (forall k j, d_S st k j = if hat then only lo up (fun e => sval n x w e j) k else 0) -> done up fl).
  { intros st fl up E B S0. exists (d_beta st), (d_S st). unfold run, fit_var_cuda. rewrite (count_eq lo hi G P). cbn [obind]. fold c. rewrite E. cbn [obind fst snd].
    split; [reflexivity|]. split; [intros k; rewrite B; apply only_ext; intros; apply bval_eq|].
    intros k j. rewrite S0. destruct hat; [|reflexivity]. apply only_ext. intros; apply sval_eq. }
  split; [|split].
  - intros H. assert (L := count_le m P Lh H). destruct (GEN c (le_n _) L) as (st & E & (_ & B & S0)). unfold c in B, S0. rewrite (upto_count lo hi G P Lh) in B, S0.
    eapply RES; eauto.
  - intros H S1. assert (L : (m < c)%nat) by (apply (count_spec lo hi G P Lh); exact H). destruct (GEN m ltac:(lia) (le_n _)) as (st & E & (_ & B & S0)).
    destruct (ends_loud n lo hi G P Lh Hn GL stop _ m st E) as (_ & Q & _). replace (lo + m * G)%nat with (upto lo hi G m) by (unfold upto; lia). eapply RES; eauto.
  - intros H S1 (e & Le & Lt & Z). assert (L : (m < c)%nat) by (apply (count_spec lo hi G P Lh); exact H). destruct (GEN m ltac:(lia) (le_n _)) as (st & E & _).
    destruct (ends_loud n lo hi G P Lh Hn GL stop _ m st E) as (_ & _ & Q). unfold run, fit_var_cuda. rewrite (count_eq lo hi G P). cbn [obind]. fold c. unfold c. rewrite Q; auto.
    apply fit_bad; auto. exists e. rewrite den_full. split; [|exact Z]. unfold upto. cbn in Le |- *. lia.
Qed.

Lemma cv_main m : (0 < G <= hi - lo)%nat ->
  (forall i, (i < m)%nat -> stop i = false) -> (forall e, (lo <= e < hi)%nat -> (e < lo + m * G)%nat -> squares_without n x w e <> 0) ->
  let done upto flag := exists b, cv_cuda dinv n x y w lo hi G stop = Ok (b, flag) /\ (forall k, b k = only lo upto (loo_slope n x y w) k) in
  ((hi <= lo + m * G)%nat -> done hi false) /\
  ((lo + m * G < hi)%nat -> stop m = true -> done (lo + m * G)%nat true) /\
  ((lo + m * G < hi)%nat -> stop m = false -> (exists e, (lo + m * G <= e < lo + S m * G)%nat /\ (e < hi)%nat /\ squares_without n x w e = 0) -> done (lo + m * G)%nat false).
Proof.
  intros [P GL] NS RG done. assert (Lh : (lo <= hi)%nat) by lia. set (c := count lo hi G).
  assert (GEN : forall m', (m' <= c)%nat -> (m' <= m)%nat -> exists st, dloop (cv_group dinv n x y w lo hi G) stop (seq 0 m') (device0 G) = Ok (st, false) /\ cv_inv n x y w lo hi G m' st).
  { intros m' L1 L2. apply (cv_run dinv DI n x y w lo hi G P Lh Hn GL stop); [exact L1|intros i L; apply NS; lia|].
    intros e Le. rewrite den_cv. unfold upto in Le. apply RG; [lia|]. nia. }
  assert (RES : forall st fl up, dloop_quiet (cv_group dinv n x y w lo hi G) stop (seq 0 c) (device0 G) = Ok (st, fl) ->
     (forall k, d_beta st k = only lo up (cval n x y w) k) -> done up fl).
  { intros st fl up E B. exists (d_beta st). unfold cv_cuda. rewrite (count_eq lo hi G P). cbn [obind]. fold c. rewrite E. cbn [obind fst snd].
    split; [reflexivity|]. intros k; rewrite B; apply only_ext; intros; apply cval_eq. }
  split; [|split].
  - intros H. assert (L := count_le m P Lh H). destruct (GEN c (le_n _) L) as (st & E & (_ & B)). unfold c in B. rewrite (upto_count lo hi G P Lh) in B.
    destruct (ends_quiet n lo hi G P Lh Hn GL stop _ c st E) as (Q & _). eapply RES; eauto.
  - intros H S1. assert (L : (m < c)%nat) by (apply (count_spec lo hi G P Lh); exact H). destruct (GEN m ltac:(lia) (le_n _)) as (st & E & (_ & B)).
    destruct (ends_quiet n lo hi G P Lh Hn GL stop _ m st E) as (_ & Q & _). replace (lo + m * G)%nat with (upto lo hi G m) by (unfold upto; lia). eapply RES; eauto.
  - intros H S1 (e & Le & Lt & Z). assert (L : (m < c)%nat) by (apply (count_spec lo hi G P Lh); exact H). destruct (GEN m ltac:(lia) (le_n _)) as (st & E & (_ & B)).
    destruct (ends_quiet n lo hi G P Lh Hn GL stop _ m st E) as (_ & _ & Q). replace (lo + m * G)%nat with (upto lo hi G m) by (unfold upto; lia). eapply RES; [apply Q; auto|exact B].
    apply cv_bad; auto. exists e. rewrite den_cv. split; [|exact Z]. unfold upto. cbn in Le |- *. lia.
Qed.

Lemma shat_main m : (0 < G <= hi - lo)%nat ->
  (forall i, (i < m)%nat -> stop i = false) -> (forall e, (lo <= e < hi)%nat -> (e < lo + m * G)%nat -> squares n x w e <> 0) ->
  let done upto flag := exists b t s, shat_var_cuda dinv n x y w lo hi G stop = Ok (b, t, s, flag) /\ (forall k, b k = only lo upto (slope n x y w) k) /\
    t = sum_from lo upto (fun e => hat_row n x w e e) /\
    ((upto = lo + m * G)%nat -> s = sum_from lo upto (hat_square n x w)) /\
    (forall j, (lo + j * G < upto < lo + S j * G)%nat -> s = sum_from lo upto (hat_square n x w) + sum_from (upto - G) (lo + j * G) (hat_square n x w)) in
  ((hi <= lo + m * G)%nat -> done hi false) /\
  ((lo + m * G < hi)%nat -> stop m = true -> done (lo + m * G)%nat true) /\
  ((lo + m * G < hi)%nat -> stop m = false -> (exists e, (lo + m * G <= e < lo + S m * G)%nat /\ (e < hi)%nat /\ squares n x w e = 0) -> done (lo + m * G)%nat false).
Proof.
  intros [P GL] NS RG done. assert (Lh : (lo <= hi)%nat) by lia. set (c := count lo hi G).
  assert (GEN : forall m', (m' <= c)%nat -> (m' <= m)%nat -> exists st, dloop (shat_var_group dinv n x y w lo hi G) stop (seq 0 m') (device0 G) = Ok (st, false) /\ shat_inv n x y w lo hi G m' st).
  { intros m' L1 L2. apply (shat_run dinv DI n x y w lo hi G P Lh Hn GL stop); [exact L1|intros i L; apply NS; lia|].
    intros e Le. rewrite den_full. unfold upto in Le. apply RG; [lia|]. nia. }
  assert (RES : forall st fl m', dloop_quiet (shat_var_group dinv n x y w lo hi G) stop (seq 0 c) (device0 G) = Ok (st, fl) ->
     shat_inv n x y w lo hi G m' st -> (m' <= c)%nat -> done (upto lo hi G m') fl).
  { intros st fl m' E (_ & B & T & F1 & F2) MM. exists (d_beta st), (d_tr st), (d_ss st). unfold shat_var_cuda. rewrite (count_eq lo hi G P). cbn [obind]. fold c. rewrite E. cbn [obind fst snd].
    split; [reflexivity|]. split; [intros k; rewrite B; apply only_ext; intros; apply bval_eq|].
    split; [rewrite T, sum_from_eq; apply bigsum_ext; intros; apply sval_eq|].
    assert (QE : forall a b, lsum (map (qval n x w) (seq a (b - a))) = sum_from a b (hat_square n x w)).
    { intros a b. rewrite sum_from_eq. apply bigsum_ext; intros; apply qval_eq. }
    split.
    - intros U. destruct (Nat.le_gt_cases (lo + m' * G) hi) as [A|A].
      + destruct (F1 A) as (_ & ->). apply QE.
      + exfalso. assert (upto lo hi G m' = hi) by (unfold upto; lia). assert (m < m')%nat by nia.
        assert (K : (m < c)%nat) by lia. apply (count_spec lo hi G P Lh) in K. lia.
    - intros j U. destruct (Nat.le_gt_cases (lo + m' * G) hi) as [A|A].
      + exfalso. assert (upto lo hi G m' = lo + m' * G)%nat by (unfold upto; lia). rewrite H in U. assert (j < m' < S j)%nat by nia. lia.
      + destruct (F2 A) as (j' & EJ & ->). assert (UH : upto lo hi G m' = hi) by (unfold upto; lia). rewrite UH in *.
        assert (j' = j).
        { assert (K : (j' < c)%nat) by lia. apply (count_spec lo hi G P Lh) in K. subst m'. nia. }
        subst j'. rewrite !QE. reflexivity. }
  split; [|split].
  - intros H. assert (L := count_le m P Lh H). destruct (GEN c (le_n _) L) as (st & E & I).
    destruct (ends_quiet n lo hi G P Lh Hn GL stop _ c st E) as (Q & _). pose proof (RES st false c (Q eq_refl) I (le_n _)) as K. unfold c in K. rewrite (upto_count lo hi G P Lh) in K. exact K.
  - intros H S1. assert (L : (m < c)%nat) by (apply (count_spec lo hi G P Lh); exact H). destruct (GEN m ltac:(lia) (le_n _)) as (st & E & I).
    destruct (ends_quiet n lo hi G P Lh Hn GL stop _ m st E) as (_ & Q & _). replace (lo + m * G)%nat with (upto lo hi G m) by (unfold upto; lia). eapply RES; [apply Q; auto|exact I|lia].
  - intros H S1 (e & Le & Lt & Z). assert (L : (m < c)%nat) by (apply (count_spec lo hi G P Lh); exact H). destruct (GEN m ltac:(lia) (le_n _)) as (st & E & I).
    destruct (ends_quiet n lo hi G P Lh Hn GL stop _ m st E) as (_ & _ & Q). replace (lo + m * G)%nat with (upto lo hi G m) by (unfold upto; lia). eapply RES; [apply Q; auto|exact I|lia].
    apply shat_bad; auto. exists e. rewrite den_full. split; [|exact Z]. unfold upto. cbn in Le |- *. lia.
Qed.
End M.
