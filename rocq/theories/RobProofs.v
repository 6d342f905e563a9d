From Coq Require Import Reals Bool List Arith Lia Lra Psatz.
From Verif Require Import Outcome XReal XRealFacts Sums DiagModel DiagProofs GlmModel GlmSpec GlmProofs RobModel.
Import ListNotations.
Local Open Scope R_scope.

(** ** Filter *)
Definition fw (r : R) : R :=
  if Rleb r 2 then 1 else if Rltb r 3 then (1 - (r - 2) * (r - 2)) * (1 - (r - 2) * (r - 2)) else 0.
Lemma fw_low : forall r, r <= 2 -> fw r = 1.
Proof. intros r H; unfold fw. now rewrite (proj2 (Rleb_true r 2) H). Qed.
Lemma fw_high : forall r, 3 <= r -> fw r = 0.
Proof.
  intros r H; unfold fw. destruct (Rleb r 2) eqn:E; [apply Rleb_true in E; lra|].
  destruct (Rltb r 3) eqn:E'; [apply Rltb_true in E'; lra|reflexivity].
Qed.
Lemma fw_mid : forall r, 2 <= r <= 3 -> fw r = (1 - (r - 2) * (r - 2)) * (1 - (r - 2) * (r - 2)).
Proof.
  intros r H. unfold fw. destruct (Rleb r 2) eqn:E.
  - apply Rleb_true in E. replace r with 2 by lra. ring.
  - destruct (Rltb r 3) eqn:E'; [reflexivity|]. apply Rltb_false in E'. replace r with 3 by lra. ring.
Qed.
Lemma fw_range : forall r, 0 <= fw r <= 1.
Proof.
  intros r. destruct (Rle_dec r 2); [rewrite fw_low by assumption; lra|].
  destruct (Rle_dec 3 r); [rewrite fw_high by assumption; lra|].
  rewrite fw_mid by lra. assert (0 <= (r - 2) * (r - 2) <= 1) by nra. nra.
Qed.
Lemma fw_pos : forall r, r < 3 -> 0 < fw r.
Proof.
  intros r H. destruct (Rle_dec r 2); [rewrite fw_low by assumption; lra|].
  rewrite fw_mid by lra. assert (0 <= (r - 2) * (r - 2) < 1) by nra. nra.
Qed.
Lemma fw_decr : forall r s, r <= s -> fw s <= fw r.
Proof.
  intros r s H. destruct (Rle_dec r 2); [rewrite (fw_low r) by assumption; apply fw_range|].
  destruct (Rle_dec 3 s); [rewrite (fw_high s) by assumption; apply fw_range|].
  rewrite !fw_mid by lra. 
  assert (P : (r - 2) * (r - 2) <= (s - 2) * (s - 2)) by nra. assert ((s - 2) * (s - 2) <= 1) by nra. nra.
Qed.
(** max/min form, for continuity *)
Definition clampf (r : R) : R := Rmin (Rmax (r - 2) 0) 1.
Lemma fw_clamp : forall r, fw r = (1 - clampf r * clampf r) * (1 - clampf r * clampf r).
Proof.
  intros r. unfold clampf. destruct (Rle_dec r 2).
  - rewrite fw_low by assumption. rewrite Rmax_right by lra. rewrite Rmin_left by lra. ring.
  - rewrite (Rmax_left (r - 2) 0) by lra. destruct (Rle_dec 3 r).
    + rewrite fw_high by assumption. rewrite Rmin_right by lra. ring.
    + rewrite fw_mid by lra. rewrite Rmin_left by lra. ring.
Qed.
Lemma clamp_lip : forall r s, Rabs (clampf r - clampf s) <= Rabs (r - s).
Proof.
  intros r s. unfold clampf, Rmax. destruct (Rle_dec (r - 2) 0), (Rle_dec (s - 2) 0); unfold Rmin;
  repeat match goal with |- context [Rle_dec ?a ?b] => destruct (Rle_dec a b) end;
    unfold Rabs; repeat match goal with |- context [Rcase_abs ?a] => destruct (Rcase_abs a) end; lra.
Qed.
Lemma clamp_cont : continuity clampf.
Proof.
  intros r e He. exists e. split; [exact He|]. intros s [_ Hs]. simpl in *. unfold R_dist in *.
  eapply Rle_lt_trans; [apply clamp_lip|exact Hs].
Qed.
Lemma fw_cont : continuity fw.
Proof.
  assert (C : continuity (fun r => (1 - clampf r * clampf r) * (1 - clampf r * clampf r))).
  { assert (Q : continuity (fun r => 1 - clampf r * clampf r)).
    { apply (continuity_minus (fun _ => 1) (fun r => clampf r * clampf r)).
      - apply continuity_const. intros a b; reflexivity.
      - apply (continuity_mult clampf clampf); apply clamp_cont. }
    apply (continuity_mult _ _ Q Q). }
  intros r e He. destruct (C r e He) as [d [Pd D]]. exists d. split; [exact Pd|]. intros s Hs.
  specialize (D s Hs). rewrite !fw_clamp. exact D.
Qed.
Lemma filt_val : forall x r, xval x = Some r -> 0 <= r -> xval (filt_one x) = Some (fw r).
Proof.
  intros x r V P. unfold filt_one, fw. rewrite (xleb_val _ (XF 2) r 2 V eq_refl).
  destruct (Rleb r 2) eqn:E; [reflexivity|].
  rewrite (xltb_val (XF 2) _ 2 r eq_refl V), (xltb_val _ (XF 3) r 3 V eq_refl).
  assert (L : Rltb 2 r = true) by (apply Rltb_true; apply Rleb_false in E; lra). rewrite L. cbn [andb].
  destruct (Rltb r 3); [|reflexivity]. cbv zeta.
  assert (S1 := xval_xsub x (XF 2) r 2 V eq_refl).
  assert (S2 := xval_xsub (XF 1) _ 1 _ eq_refl (xval_xmul _ _ _ _ S1 S1)).
  apply xval_xmul; exact S2.
Qed.
Lemma filtWeight_val : forall n e es mse m, numbers n e es -> xval mse = Some m -> 0 < m ->
  numbers n (filtWeight e mse) (fun i => fw (Rabs (es i / sqrt m))).
Proof.
  intros n e es mse m H V P i L. unfold filtWeight. apply filt_val; [|apply Rabs_pos].
  apply xval_xabs, xval_xdiv; [apply H; exact L|apply xval_xsqrt; [exact V|lra]|].
  apply Rgt_not_eq, sqrt_lt_R0; exact P.
Qed.
Lemma mean_square_val : forall n e es, (0 < n)%nat -> numbers n e es ->
  xval (mean_square n e) = Some (bigsum n (fun i => es i * es i) / INR n).
Proof.
  intros n e es Ln H. unfold mean_square. apply xval_xdiv; [|reflexivity|apply not_0_INR; lia].
  apply xsum_val. intros i L. apply xval_xmul; apply H; exact L.
Qed.
Lemma C68_main : exists g : R -> R,
  (forall n e es mse m, numbers n e es -> xval mse = Some m -> 0 < m ->
     numbers n (filtWeight e mse) (fun i => g (Rabs (es i) / sqrt m))) /\
  (forall r, 0 <= g r <= 1) /\ (forall r, r <= 2 -> g r = 1) /\ (forall r, 3 <= r -> g r = 0) /\
  (forall r, r < 3 -> 0 < g r) /\
  (forall r s, r <= s -> g s <= g r) /\ continuity g /\ (forall r, 2 <= r <= 3 -> g r = (1 - (r - 2) ^ 2) ^ 2).
Proof.
  exists fw. split; [|split; [exact fw_range|split; [exact fw_low|split; [exact fw_high|split; [exact fw_pos|split; [exact fw_decr|split; [exact fw_cont|]]]]]]].
  2:{ intros r H. rewrite fw_mid by exact H. ring. }
  intros n e es mse m H V P i L. rewrite (filtWeight_val n e es mse m H V P i L). do 2 f_equal.
  unfold Rdiv. rewrite Rabs_mult. f_equal. apply Rabs_right. apply Rle_ge, Rlt_le, Rinv_0_lt_compat, sqrt_lt_R0, P.
Qed.

(** ** How many observations lose weight *)
Lemma count_bound : forall (P : nat -> bool) (es : nat -> R) c n, (forall i, (i < n)%nat -> P i = true -> c <= es i * es i) ->
  INR (length (filter P (seq 0 n))) * c <= bigsum n (fun i => es i * es i).
Proof.
  intros P es c n; induction n as [|n IH]; intros H; [simpl; lra|].
  assert (IH' := IH (fun i L => H i ltac:(lia))).
  rewrite seq_S, filter_app, app_length, plus_INR. cbn [bigsum].
  assert (B : INR (length (filter P [(0 + n)%nat])) * c <= es n * es n).
  { simpl. destruct (P n) eqn:E; simpl; [assert (A := H n ltac:(lia) E); lra|]. nra. }
  lra.
Qed.
Lemma scaled_square : forall e m k, 0 < m -> 0 <= k -> k <= Rabs (e / sqrt m) -> k * k * m <= e * e.
Proof.
  intros e m k P K H. assert (Q : 0 < sqrt m) by (apply sqrt_lt_R0; exact P).
  assert (S : sqrt m * sqrt m = m) by (apply sqrt_sqrt; lra).
  assert (A : k * sqrt m <= Rabs e).
  { unfold Rdiv in H. rewrite Rabs_mult, (Rabs_right (/ sqrt m)) in H by (apply Rle_ge, Rlt_le, Rinv_0_lt_compat; exact Q).
    apply (Rmult_le_compat_r (sqrt m)) in H; [|lra]. rewrite Rmult_assoc, Rinv_l in H by lra. lra. }
  assert (B : e * e = Rabs e * Rabs e) by (unfold Rabs; destruct (Rcase_abs e); ring).
  rewrite B. replace (k * k * m) with (k * sqrt m * (k * sqrt m)) by (rewrite <- S at 3; ring).
  assert (0 <= k * sqrt m) by (apply Rmult_le_pos; lra). nra.
Qed.
Lemma C92_main : forall n e es, (0 < n)%nat -> numbers n e es -> (exists i, (i < n)%nat /\ es i <> 0) ->
  let w := filtWeight e (mean_square n e) in
  exists ws, numbers n w ws /\
  forall discarded reduced, NoDup discarded -> (forall i, In i discarded -> (i < n)%nat /\ ws i = 0) ->
    NoDup reduced -> (forall i, In i reduced -> (i < n)%nat /\ ws i < 1) ->
    (9 * length discarded <= n /\ 4 * length reduced <= n)%nat.
Proof.
  intros n e es Ln H (j & Lj & Nj) w.
  set (m := bigsum n (fun i => es i * es i) / INR n).
  assert (PN : 0 < INR n) by (apply lt_0_INR; exact Ln).
  assert (NN : forall i, (i < n)%nat -> 0 <= es i * es i) by (intros; nra).
  assert (PS : 0 < bigsum n (fun i => es i * es i)).
  { destruct (Rle_lt_or_eq_dec _ _ (bigsum_nonneg n _ NN)) as [A|A]; [exact A|].
    assert (B := bigsum_zero n _ NN (eq_sym A) j Lj). cbv beta in B. exfalso. apply Nj. nra. }
  assert (Pm : 0 < m) by (apply Rmult_lt_0_compat; [exact PS|apply Rinv_0_lt_compat; exact PN]).
  assert (Vm : xval (mean_square n e) = Some m) by (apply mean_square_val; assumption).
  exists (fun i => fw (Rabs (es i / sqrt m))). split; [apply filtWeight_val; assumption|].
  assert (Em : bigsum n (fun i => es i * es i) = INR n * m) by (unfold m; field; lra).
  assert (G : forall k l, (1 <= k)%nat -> NoDup l -> (forall i, In i l -> (i < n)%nat /\ INR k <= Rabs (es i / sqrt m)) ->
    (k * k * length l <= n)%nat).
  { intros k l K ND Hl. set (P := fun i => if in_dec Nat.eq_dec i l then true else false).
    assert (C := count_bound P es (INR k * INR k * m) n).
    assert (C' : forall i, (i < n)%nat -> P i = true -> INR k * INR k * m <= es i * es i).
    { intros i Li Pi. unfold P in Pi. destruct (in_dec Nat.eq_dec i l) as [I|]; [|discriminate].
      apply scaled_square; [exact Pm|apply pos_INR|apply Hl; exact I]. }
    specialize (C C'). rewrite Em in C.
    assert (LE : (length l <= length (filter P (seq 0 n)))%nat).
    { apply NoDup_incl_length; [exact ND|]. intros i I. apply filter_In. split.
      - apply in_seq. assert (A := proj1 (Hl i I)). lia.
      - unfold P. destruct (in_dec Nat.eq_dec i l); [reflexivity|contradiction]. }
    apply INR_le. rewrite !mult_INR. apply le_INR in LE.
    assert (KK : 0 <= INR k * INR k) by (apply Rmult_le_pos; apply pos_INR).
    assert (LL : INR (length (filter P (seq 0 n))) * (INR k * INR k) <= INR n).
    { apply Rmult_le_reg_r with m; [exact Pm|]. lra. }
    nra. }
  intros discarded reduced Nd Hd Nr Hr. split.
  - apply (G 3%nat discarded); [lia|exact Nd|]. intros i I. destruct (Hd i I) as [Li Wi]. split; [exact Li|].
    destruct (Rlt_dec (Rabs (es i / sqrt m)) 3) as [A|A]; [apply fw_pos in A; lra|]. simpl; lra.
  - apply (G 2%nat reduced); [lia|exact Nr|]. intros i I. destruct (Hr i I) as [Li Wi]. split; [exact Li|].
    destruct (Rle_dec (Rabs (es i / sqrt m)) 2) as [A|A]; [apply fw_low in A; lra|]. simpl; lra.
Qed.

(** ** Calibrations *)
Section Cal.
Variables (A : Type) (n : nat) (fit : xvec -> outcome A) (resid stud : A -> xvec) (stop : nat -> bool) (zero : A).
Lemma second_loop_ok : forall k b m mse diff made r,
  second_loop A n fit resid stop zero k b m mse diff made = Ok r -> made <> [] ->
  (exists last, fit (List.last made ones_mask) = Ok last /\ last = b) ->
  (length made <= length (snd r) <= length made + k)%nat /\
  exists b', fit (List.last (snd r) ones_mask) = Ok b' /\ (fst r = b' \/ fst r = zero) /\
  ((forall i, stop i = false) -> fst r = b').
Proof.
  induction k as [|k IH]; intros b m mse diff made r H NE (l & El & ->); cbn [second_loop] in H.
  - injection H as <-. simpl. split; [lia|]. exists b. auto.
  - destruct (xltb (XF delta) diff).
    + destruct (fit m) as [b'| |] eqn:E; cbn [obind] in H; try discriminate.
      cbv zeta in H. destruct (stop (length made)) eqn:St.
      * injection H as <-. cbn [snd fst]. rewrite app_length. simpl length. split; [lia|]. exists b'.
        rewrite last_last. split; [exact E|]. split; [now right|]. intros NS. rewrite NS in St. discriminate.
      * apply IH in H.
        -- rewrite app_length in H. simpl length in H. destruct H as [B C]. split; [lia|exact C].
        -- destruct made; discriminate.
        -- exists b'. rewrite last_last. auto.
    + injection H as <-. simpl. split; [lia|]. exists b. auto.
Qed.
Lemma C69_second_main : forall r, cali_second A n fit resid stop zero = Ok r ->
  (1 <= length (snd r) <= 21)%nat /\
  exists b', fit (List.last (snd r) ones_mask) = Ok b' /\ (fst r = b' \/ fst r = zero) /\
  ((forall i, stop i = false) -> fst r = b').
Proof.
  intros r H. unfold cali_second in H. destruct (fit ones_mask) as [b| |] eqn:E; cbn [obind] in H; try discriminate.
  destruct (stop 0%nat) eqn:St.
  - injection H as <-. simpl. split; [lia|]. exists b. auto.
  - cbv zeta in H. apply second_loop_ok in H; [|discriminate|exists b; auto].
    simpl length in H. destruct H as [B C]. split; [lia|exact C].
Qed.
Lemma C69_first_main : forall r, (forall i, stop i = false) -> cali_first A fit stud stop zero = Ok r ->
  exists b m, fit (fun _ => XF 1) = Ok b /\ snd r = [fun _ => XF 1; m] /\ fit m = Ok (fst r) /\
  forall i, (m i = XF 0 /\ xltb (XF 3) (xabs (stud b i)) = true) \/ (m i = XF 1 /\ xltb (XF 3) (xabs (stud b i)) = false).
Proof.
  intros r NS H. unfold cali_first in H. rewrite !NS in H. change (fun _ : nat => XF 1) with ones_mask.
  destruct (fit ones_mask) as [b| |] eqn:E; cbn [obind] in H; try discriminate. cbv zeta in H.
  destruct (fit (outlier_mask (stud b))) as [b'| |] eqn:E'; cbn [obind] in H; try discriminate.
  injection H as <-. exists b, (outlier_mask (stud b)). cbn [fst snd].
  split; [reflexivity|]. split; [reflexivity|]. split; [exact E'|].
  intros i. unfold outlier_mask. destruct (xltb _ _); auto.
Qed.
(** Perfect fit *)
Lemma perfect_mse : forall e, (0 < n)%nat -> numbers n e (fun _ => 0) ->
  xval (mean_square n e) = Some 0.
Proof.
  intros e Ln H. rewrite (mean_square_val n e _ Ln H). f_equal.
  rewrite (bigsum_ext n _ (fun _ => 0)) by (intros; ring). rewrite bigsum_0. unfold Rdiv; ring.
Qed.
Lemma xsqrt_zero : forall x, xval x = Some 0 -> xval (xsqrt x) = Some 0.
Proof. intros x H. rewrite (xval_xsqrt x 0 H) by lra. now rewrite sqrt_0. Qed.
Lemma zero_over_zero : forall x y, xval x = Some 0 -> xval y = Some 0 -> xdiv x y = XN.
Proof.
  intros x y Hx Hy. assert (Z : Reqb 0 0 = true) by (apply Reqb_true; reflexivity).
  destruct x; try discriminate Hx; destruct y; try discriminate Hy;
    cbn [xval] in *; try (injection Hx as ->); try (injection Hy as ->); cbn; now rewrite Z.
Qed.
Lemma perfect_mask : forall e, (0 < n)%nat -> numbers n e (fun _ => 0) ->
  forall i, (i < n)%nat -> filtWeight e (mean_square n e) i = XF 0.
Proof.
  intros e Ln H i L. unfold filtWeight. rewrite (zero_over_zero (e i)).
  - reflexivity.
  - apply H; exact L.
  - apply xsqrt_zero, perfect_mse; assumption.
Qed.
Lemma C69_perfect_main : forall b, (0 < n)%nat -> fit (fun _ => XF 1) = Ok b -> numbers n (resid b) (fun _ => 0) ->
  (forall m, (forall i, (i < n)%nat -> m i = XF 0) -> fit m = Throw) -> stop 0%nat = false ->
  cali_second A n fit resid stop zero = Throw.
Proof.
  intros b Ln E R0 T St. unfold cali_second. change ones_mask with (fun _ : nat => XF 1). rewrite E. cbn [obind]. rewrite St. cbv zeta.
  cbn [second_loop].
  assert (D : xltb (XF delta) (XF 1) = true).
  { rewrite (xltb_val (XF delta) (XF 1) delta 1 eq_refl eq_refl). apply Rltb_true. unfold delta; lra. }
  rewrite D, T; [reflexivity|]. intros i L. apply perfect_mask; assumption.
Qed.
End Cal.
