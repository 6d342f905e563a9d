From Coq Require Import Reals Bool List Arith Lia Lra FunctionalExtensionality.
From Verif Require Import Outcome XReal XRealFacts Sums DiagModel DiagProofs OmpModel OmpSpec OmpProofs MpiModel MpiSpec MpiProofs
  MsCritModel MsCritSpec.
Import ListNotations.
Local Open Scope R_scope.

Section P.
Variable inv1 : R -> option R.
Variable n : nat.
Variables (x y : nat -> R) (w : nat -> nat -> R).

Lemma xtwx_zeroed i : xtwx n x (zeroed i (w i)) = sum_without n i (fun j => w i j * x j ^ 2).
Proof. apply bigsum_ext; intros j _; unfold zeroed. destruct (Nat.eqb j i); ring. Qed.
Lemma xtwy_zeroed i : xtwy n x y (zeroed i (w i)) = sum_without n i (fun j => w i j * x j * y j).
Proof. apply bigsum_ext; intros j _; unfold zeroed. destruct (Nat.eqb j i); ring. Qed.
Lemma xtwx_full i : xtwx n x (w i) = bigsum n (fun j => w i j * x j ^ 2).
Proof. apply bigsum_ext; intros j _; ring. Qed.
Lemma xtwy_full i : xtwy n x y (w i) = bigsum n (fun j => w i j * x j * y j).
Proof. apply bigsum_ext; intros j _; ring. Qed.

(** ** The serial loop *)
Lemma core_none local stop : (forall i, stop i = false) -> forall idx b s, (exists i, In i idx /\ local i = None) ->
  core local stop idx b s = None.
Proof.
  intros NS idx; induction idx as [|j t IH]; intros b s (i & I & L); [destruct I|].
  cbn [core]. rewrite NS. destruct (local j) as [[b1 s1]|] eqn:E; [|reflexivity].
  apply IH. exists i; split; [|exact L]. destruct I as [->|I]; [congruence|exact I].
Qed.
Lemma core_some local : forall idx b s, NoDup idx -> (forall i, In i idx -> local i <> None) ->
  exists b' s', core local (fun _ => false) idx b s = Some (b', s', false) /\
    (forall i, b' i = if in_dec Nat.eq_dec i idx then match local i with Some (v, _) => v | None => 0 end else b i) /\
    (forall k, s' k = s k + lsum (map (fun i => match local i with Some (_, c) => c k | None => 0 end) idx)).
Proof.
  intros idx; induction idx as [|j t IH]; intros b s ND A.
  - exists b, s. split; [reflexivity|split]; [intros i; reflexivity|intros k; simpl; lra].
  - inversion ND as [|? ? NI ND']; subst. cbn [core].
    destruct (local j) as [[b1 s1]|] eqn:E; [|exfalso; exact (A j (or_introl eq_refl) E)].
    destruct (IH (update b j b1) (fun k => s k + s1 k) ND' (fun i I => A i (or_intror I))) as (b' & s' & E' & B & S').
    exists b', s'. split; [exact E'|split].
    + intros i. rewrite B. destruct (in_dec Nat.eq_dec i t) as [I|I].
      * destruct (in_dec Nat.eq_dec i (j :: t)) as [I'|I']; [reflexivity|exfalso; apply I'; right; exact I].
      * destruct (Nat.eq_dec i j) as [->|D].
        -- rewrite update_same. destruct (in_dec Nat.eq_dec j (j :: t)) as [I'|I']; [rewrite E; reflexivity|exfalso; apply I'; left; reflexivity].
        -- rewrite update_other by exact D. destruct (in_dec Nat.eq_dec i (j :: t)) as [I'|I']; [|reflexivity].
           exfalso. destruct I' as [->|I']; [apply D; reflexivity|apply I; exact I'].
    + intros k. rewrite S'. cbn [map lsum fold_right]. rewrite E. unfold lsum; lra.
Qed.
(** A loop that meets a stop, or a failure, ends with nothing usable. *)
Lemma core_unusable local stop : forall idx b s, (exists i, In i idx /\ (stop i = true \/ local i = None)) ->
  match core local stop idx b s with None => True | Some (_, _, stopped) => stopped = true end.
Proof.
  intros idx; induction idx as [|j t IH]; intros b s (i & I & L); [destruct I|].
  cbn [core]. destruct (stop j) eqn:SJ; [reflexivity|].
  destruct (local j) as [[b1 s1]|] eqn:E; [|exact Logic.I].
  apply IH. exists i; split; [|exact L]. destruct I as [->|I]; [|exact I].
  destruct L as [L|L]; congruence.
Qed.
Lemma in_range i m : (i < m)%nat -> In i (seq 0 (m - 0)).
Proof. intros H; apply in_seq; lia. Qed.
Lemma lsum_bigsum (f : nat -> R) m : lsum (map f (seq 0 m)) = bigsum m f.
Proof. rewrite bigsum_seq, sumloop_lsum; reflexivity. Qed.

(** ** Values at a location *)
Hypothesis contract : inverts inv1.
Lemma cv_local_value i v s : cv_local inv1 n x y w i = Some (v, s) -> v = loo_slope n x y w i.
Proof.
  unfold cv_local. rewrite xtwx_zeroed, xtwy_zeroed. destruct (inv1 _) as [a|] eqn:E; [|discriminate].
  intros H; injection H as <- _. apply contract in E. unfold loo_slope, Rdiv.
  set (D := sum_without n i (fun j => w i j * x j ^ 2)) in *.
  assert (D <> 0) by (intros Z; rewrite Z in E; lra).
  apply (Rmult_eq_reg_r D); [|assumption]. field_simplify; [|assumption].
  replace (a * sum_without n i (fun j => w i j * x j * y j) * D) with ((a * D) * sum_without n i (fun j => w i j * x j * y j)) by ring.
  rewrite E; ring.
Qed.
Lemma shat_local_value i v s : shat_local inv1 n x y w i = Some (v, s) ->
  v = slope n x y w i /\ s 0%nat = w i i * x i ^ 2 / bigsum n (fun j => w i j * x j ^ 2).
Proof.
  unfold shat_local. rewrite xtwx_full, xtwy_full. destruct (inv1 _) as [a|] eqn:E; [|discriminate].
  intros H; injection H as <- <-. apply contract in E. unfold slope, shat_row, Rdiv.
  set (D := bigsum n (fun j => w i j * x j ^ 2)) in *.
  assert (D <> 0) by (intros Z; rewrite Z in E; lra).
  assert (A : a = / D) by (apply (Rmult_eq_reg_r D); [rewrite E; field; assumption|assumption]).
  rewrite A; split; ring.
Qed.
End P.

Section Q.
Variable inv1 : R -> option R.
Variable n : nat.
Variables (x y : nat -> R) (w : nat -> nat -> R).
Hypothesis contract : inverts inv1.
Notation cvl := (cv_local inv1 n x y w).
Notation shl := (shat_local inv1 n x y w).
Definition cv_ok := forall i, (i < n)%nat -> inv1 (sum_without n i (fun j => w i j * x j ^ 2)) <> None.
Definition fit_ok := forall i, (i < n)%nat -> inv1 (bigsum n (fun j => w i j * x j ^ 2)) <> None.
Lemma cvl_some i : (inv1 (sum_without n i (fun j => w i j * x j ^ 2)) <> None) <-> cvl i <> None.
Proof. unfold cv_local. rewrite xtwx_zeroed. destruct (inv1 _); split; congruence. Qed.
Lemma shl_some i : (inv1 (bigsum n (fun j => w i j * x j ^ 2)) <> None) <-> shl i <> None.
Proof. unfold shat_local. rewrite xtwx_full. destruct (inv1 _); split; congruence. Qed.
Lemma cv_of_rss b b' : (forall i, (i < n)%nat -> b i = b' i) -> cv_of n x y b = rss n x y b'.
Proof. intros E; apply bigsum_ext; intros i I; rewrite (E i I); ring. Qed.
Lemma cv_range lo hi : (hi <= n)%nat -> cv_ok ->
  exists b s, fit_var_cv inv1 n x y w lo hi (fun _ => false) = Some (b, s, false) /\
    forall i, b i = if ((lo <=? i)%nat && (i <? hi)%nat)%bool then loo_slope n x y w i else 0.
Proof.
  intros H A. destruct (core_some cvl (seq lo (hi - lo)) (fun _ => 0) (fun _ => 0) (seq_NoDup _ _)) as (b & s & E & B & _).
  { intros i I. apply in_seq in I. apply cvl_some, A. lia. }
  exists b, s; split; [exact E|]. intros i. rewrite B.
  destruct (in_dec Nat.eq_dec i _) as [I|I].
  - apply in_seq in I. rewrite (proj2 (Nat.leb_le lo i)), (proj2 (Nat.ltb_lt i hi)) by lia. cbn [andb].
    destruct (cvl i) as [[v c]|] eqn:L; [exact (cv_local_value _ _ _ _ _ contract _ _ _ L)|].
    exfalso. assert (cvl i <> None) by (apply cvl_some, A; lia). congruence.
  - destruct (Nat.leb_spec lo i), (Nat.ltb_spec i hi); cbn [andb]; try reflexivity.
    exfalso; apply I, in_seq; lia.
Qed.
Lemma shat_range lo hi : (hi <= n)%nat -> fit_ok ->
  exists b s, fit_var_shat inv1 n x y w lo hi (fun _ => false) = Some (b, s, false) /\
    (forall i, b i = if ((lo <=? i)%nat && (i <? hi)%nat)%bool then slope n x y w i else 0) /\
    s 0%nat = lsum (map (fun i => w i i * x i ^ 2 / bigsum n (fun j => w i j * x j ^ 2)) (seq lo (hi - lo))).
Proof.
  intros H A. destruct (core_some shl (seq lo (hi - lo)) (fun _ => 0) (fun _ => 0) (seq_NoDup _ _)) as (b & s & E & B & T).
  { intros i I. apply in_seq in I. apply shl_some, A. lia. }
  exists b, s; split; [exact E|split].
  - intros i. rewrite B.
    destruct (in_dec Nat.eq_dec i _) as [I|I].
    + apply in_seq in I. rewrite (proj2 (Nat.leb_le lo i)), (proj2 (Nat.ltb_lt i hi)) by lia. cbn [andb].
      destruct (shl i) as [[v c]|] eqn:L; [exact (proj1 (shat_local_value _ _ _ _ _ contract _ _ _ L))|].
      exfalso. assert (shl i <> None) by (apply shl_some, A; lia). congruence.
    + destruct (Nat.leb_spec lo i), (Nat.ltb_spec i hi); cbn [andb]; try reflexivity.
      exfalso; apply I, in_seq; lia.
  - rewrite T, Rplus_0_l. f_equal. apply map_ext_in. intros i I. apply in_seq in I.
    destruct (shl i) as [[v c]|] eqn:L; [exact (proj2 (shat_local_value _ _ _ _ _ contract _ _ _ L))|].
    exfalso. assert (shl i <> None) by (apply shl_some, A; lia). congruence.
Qed.
Lemma C131_cv_main : cv_ok ->
  cv_base inv1 n x y w false (fun _ => false) = XF (rss n x y (loo_slope n x y w)).
Proof.
  intros A. unfold cv_base. destruct (cv_range 0 n (le_n _) A) as (b & s & -> & B). cbn [orb negb].
  f_equal. apply cv_of_rss. intros i I. rewrite B. rewrite (proj2 (Nat.ltb_lt i n) I). reflexivity.
Qed.
(** AICc as a number or not *)
Lemma aic_rss b b' tr : (forall i, (i < n)%nat -> b i = b' i) -> 
  aic_of n x y b tr = xadd (loglik (INR n) (rss n x y b'))
    (xmul (XF (INR n)) (xdiv (XF (INR n + tr)) (XF (INR n - 2 - tr)))).
Proof.
  intros E. unfold aic_of, base_aicc. f_equal. f_equal. apply bigsum_ext. intros i I.
  unfold fitted; cbn [bigsum]. rewrite (E i I); ring.
Qed.
Lemma aic_finite_value r tr : (0 < n)%nat -> 0 < r -> INR n - 2 - tr <> 0 ->
  exists v, xadd (loglik (INR n) r) (xmul (XF (INR n)) (xdiv (XF (INR n + tr)) (XF (INR n - 2 - tr)))) = v /\
    is_finite v = true /\
    xval v = Some (INR n * ln (r / INR n) + INR n * ln (2 * PI) + INR n * ((INR n + tr) / (INR n - 2 - tr))).
Proof.
  intros N P D. eexists; split; [reflexivity|].
  assert (0 < INR n) by (apply lt_0_INR; lia).
  assert (V : xval (xadd (loglik (INR n) r) (xmul (XF (INR n)) (xdiv (XF (INR n + tr)) (XF (INR n - 2 - tr))))) =
    Some (INR n * ln (r / INR n) + INR n * ln (2 * PI) + INR n * ((INR n + tr) / (INR n - 2 - tr)))).
  { apply xval_xadd.
    - apply xval_xadd.
      + apply xval_xmul; [reflexivity|].
        assert (E : xdiv (XF r) (XF (INR n)) = XF (r / INR n)).
        { cbn [xdiv xval]. assert (Q : Reqb (INR n) 0 = false) by (apply Reqb_false; lra). rewrite Q.
          unfold xfin. assert (Q' : Reqb (r / INR n) 0 = false); [|rewrite Q'; reflexivity].
          apply Reqb_false. assert (0 < r / INR n) by (apply Rdiv_lt_0_compat; assumption). lra. }
        rewrite E. assert (0 < r / INR n) by (apply Rdiv_lt_0_compat; assumption).
        cbn [xln]. assert (Q1 : Reqb (r / INR n) 0 = false) by (apply Reqb_false; lra).
        assert (Q2 : Rltb (r / INR n) 0 = false) by (apply Rltb_false; lra). rewrite Q1, Q2. reflexivity.
      + apply xval_xmul; [reflexivity|]. cbn [xln]. assert (0 < 2 * PI) by (pose proof PI_RGT_0; lra).
        assert (Q1 : Reqb (2 * PI) 0 = false) by (apply Reqb_false; lra).
        assert (Q2 : Rltb (2 * PI) 0 = false) by (apply Rltb_false; lra). rewrite Q1, Q2. reflexivity.
    - apply xval_xmul; [reflexivity|]. refine (xval_xdiv (XF _) (XF _) _ _ eq_refl eq_refl _). exact D. }
  split; [|exact V]. destruct (xadd _ _); [reflexivity|reflexivity|discriminate V|discriminate V].
Qed.
Lemma aic_not_finite r tr : (0 < n)%nat -> 0 <= r -> r = 0 \/ INR n - 2 - tr = 0 ->
  is_finite (xadd (loglik (INR n) r) (xmul (XF (INR n)) (xdiv (XF (INR n + tr)) (XF (INR n - 2 - tr))))) = false.
Proof.
  intros N P D. assert (NP : 0 < INR n) by (apply lt_0_INR; lia).
  assert (Q : Reqb (INR n) 0 = false) by (apply Reqb_false; lra).
  assert (L : r = 0 -> loglik (INR n) r = XI true).
  { intros ->. unfold loglik.
    assert (E : xdiv (XF 0) (XF (INR n)) = XF 0 \/ xdiv (XF 0) (XF (INR n)) = XNZ).
    { cbn [xdiv xval]. rewrite Q. unfold xfin. replace (0 / INR n) with 0 by (field; lra).
      assert (Q0 : Reqb 0 0 = true) by (apply Reqb_true; reflexivity). rewrite Q0. destruct (xorb _ _); [right|left]; reflexivity. }
    assert (LN : xln (xdiv (XF 0) (XF (INR n))) = XI true).
    { destruct E as [-> | ->]; cbn [xln]; [|reflexivity].
      assert (Q0 : Reqb 0 0 = true) by (apply Reqb_true; reflexivity). rewrite Q0. reflexivity. }
    rewrite LN. cbn [xmul xval]. rewrite Q. cbn [xsign].
    assert (Q2 : Rltb (INR n) 0 = false) by (apply Rltb_false; lra). rewrite Q2. cbn [xorb].
    pose proof PI_RGT_0 as HP. cbn [xln]. assert (Q3 : Reqb (2 * PI) 0 = false) by (apply Reqb_false; lra).
    assert (Q4 : Rltb (2 * PI) 0 = false) by (apply Rltb_false; lra). rewrite Q3, Q4.
    cbn [xmul xval]. unfold xfin. repeat match goal with |- context [if ?c then _ else _] => destruct c end; reflexivity. }
  destruct (Req_dec r 0) as [Z|Z].
  { rewrite (L Z). destruct (xmul _ _) as [v| |sg|]; try reflexivity. destruct sg; reflexivity. }
  destruct D as [D|D]; [contradiction|].
  set (u := xmul (XF (INR n)) (xdiv (XF (INR n + tr)) (XF (INR n - 2 - tr)))).
  assert (U : (exists sg, u = XI sg) \/ u = XN).
  { unfold u. cbn [xdiv xval]. assert (QD : Reqb (INR n - 2 - tr) 0 = true) by (apply Reqb_true; exact D). rewrite QD.
    destruct (Reqb (INR n + tr) 0); [right; reflexivity|left]. cbn [xmul xval]. rewrite Q. eexists; reflexivity. }
  destruct U as [[sg ->]| ->]; destruct (loglik (INR n) r) as [v| |sg'|]; try reflexivity;
    cbn [xadd]; destruct (Bool.eqb _ _); reflexivity.
Qed.
Lemma aic_base_eq : fit_ok ->
  aic_base inv1 n x y w false (fun _ => false) =
  (let v := xadd (loglik (INR n) (rss n x y (slope n x y w)))
     (xmul (XF (INR n)) (xdiv (XF (INR n + hat_trace n x w)) (XF (INR n - 2 - hat_trace n x w)))) in
   if is_finite v then v else XF DBL_MAX).
Proof.
  intros A. unfold aic_base. destruct (shat_range 0 n (le_n _) A) as (b & s & -> & B & T). cbn [orb negb andb].
  rewrite (aic_rss b (slope n x y w)).
  2:{ intros i I. rewrite B. rewrite (proj2 (Nat.ltb_lt i n) I). reflexivity. }
  rewrite T, Nat.sub_0_r, lsum_bigsum. reflexivity.
Qed.
Lemma C131_aic_main : fit_ok -> (0 < n)%nat -> 0 < rss n x y (slope n x y w) -> INR n - 2 - hat_trace n x w <> 0 ->
  xval (aic_base inv1 n x y w false (fun _ => false)) =
  Some (INR n * ln (rss n x y (slope n x y w) / INR n) + INR n * ln (2 * PI)
        + INR n * ((INR n + hat_trace n x w) / (INR n - 2 - hat_trace n x w))).
Proof.
  intros A N P D. rewrite (aic_base_eq A). cbv zeta.
  destruct (aic_finite_value _ _ N P D) as (v & E & F & V). rewrite E, F. exact V.
Qed.
Lemma rss_nonneg b : 0 <= rss n x y b.
Proof. apply bigsum_nonneg. intros i _. apply pow2_ge_0. Qed.
Lemma C131_aic_not_finite : fit_ok -> (0 < n)%nat ->
  rss n x y (slope n x y w) = 0 \/ INR n - 2 - hat_trace n x w = 0 ->
  aic_base inv1 n x y w false (fun _ => false) = XF DBL_MAX.
Proof.
  intros A N D. rewrite (aic_base_eq A). cbv zeta.
  rewrite (aic_not_finite _ _ N (rss_nonneg _) D). reflexivity.
Qed.
End Q.

Lemma C131_cv_unusable_main : forall inv1 n x y w terminated stop,
  (terminated = true \/ exists i, (i < n)%nat /\
     (stop i = true \/ inv1 (sum_without n i (fun j => w i j * x j ^ 2)) = None)) ->
  cv_base inv1 n x y w terminated stop = XF DBL_MAX.
Proof.
  intros inv1 n x y w t stop [->|(i & I & H)]; unfold cv_base, fit_var_cv.
  - destruct (core _ _ _ _ _) as [[[b s] st]|]; reflexivity.
  - pose proof (core_unusable (cv_local inv1 n x y w) stop (seq 0 (n - 0)) (fun _ => 0) (fun _ => 0)) as U.
    destruct (core _ _ _ _ _) as [[[b s] st]|]; [|reflexivity].
    rewrite U, orb_true_r; [reflexivity|]. exists i; split; [apply in_range; exact I|].
    destruct H as [H|H]; [left; exact H|right]. unfold cv_local. rewrite xtwx_zeroed, H. reflexivity.
Qed.
Lemma C131_aic_unusable_main : forall inv1 n x y w terminated stop,
  (terminated = true \/ exists i, (i < n)%nat /\
     (stop i = true \/ inv1 (bigsum n (fun j => w i j * x j ^ 2)) = None)) ->
  aic_base inv1 n x y w terminated stop = XF DBL_MAX.
Proof.
  intros inv1 n x y w t stop [->|(i & I & H)]; unfold aic_base, fit_var_shat.
  - destruct (core _ _ _ _ _) as [[[b s] st]|]; reflexivity.
  - pose proof (core_unusable (shat_local inv1 n x y w) stop (seq 0 (n - 0)) (fun _ => 0) (fun _ => 0)) as U.
    destruct (core _ _ _ _ _) as [[[b s] st]|]; [|reflexivity].
    rewrite U, orb_true_r; [reflexivity|]. exists i; split; [apply in_range; exact I|].
    destruct H as [H|H]; [left; exact H|right]. unfold shat_local. rewrite xtwx_full, H. reflexivity.
Qed.

(** Slopes minimise. *)
Lemma quad_min : forall (m : nat) (v x y : nat -> R), (forall j, (j < m)%nat -> 0 <= v j) ->
  bigsum m (fun j => v j * x j ^ 2) <> 0 ->
  forall b, bigsum m (fun j => v j * (y j - x j * (bigsum m (fun j => v j * x j * y j) / bigsum m (fun j => v j * x j ^ 2))) ^ 2)
    <= bigsum m (fun j => v j * (y j - x j * b) ^ 2).
Proof.
  intros m v x y P D b. set (A := bigsum m (fun j => v j * x j ^ 2)) in *. set (B := bigsum m (fun j => v j * x j * y j)).
  assert (AP : 0 < A).
  { assert (0 <= A); [|lra]. apply bigsum_nonneg. intros j J. apply Rmult_le_pos; [apply P; exact J|apply pow2_ge_0]. }
  assert (E : forall c, bigsum m (fun j => v j * (y j - x j * c) ^ 2) =
    bigsum m (fun j => v j * y j ^ 2) + (-2 * c) * B + c ^ 2 * A).
  { intros c. unfold A, B. rewrite <- !bigsum_scal, <- !bigsum_plus. apply bigsum_ext. intros; ring. }
  rewrite !E. assert (Q : 0 <= A * (b - B / A) ^ 2) by (apply Rmult_le_pos; [lra|apply pow2_ge_0]).
  replace (A * (b - B / A) ^ 2) with (-2 * b * B + b ^ 2 * A - (-2 * (B / A) * B + (B / A) ^ 2 * A)) in Q by (field; lra).
  lra.
Qed.
Lemma sum_without_eq n i (v f : nat -> R) : sum_without n i (fun j => v j * f j) = bigsum n (fun j => (if Nat.eqb j i then 0 else v j) * f j).
Proof. apply bigsum_ext; intros j _; destruct (Nat.eqb j i); ring. Qed.
Lemma loo_slope_min : forall n x y w i, (forall j, (j < n)%nat -> 0 <= w i j) ->
  sum_without n i (fun j => w i j * x j ^ 2) <> 0 ->
  forall b, sum_without n i (fun j => w i j * (y j - x j * loo_slope n x y w i) ^ 2) <=
            sum_without n i (fun j => w i j * (y j - x j * b) ^ 2).
Proof.
  intros n x y w i P D b. unfold loo_slope.
  assert (E1 : sum_without n i (fun j => w i j * x j * y j) = bigsum n (fun j => (if Nat.eqb j i then 0 else w i j) * x j * y j)).
  { apply bigsum_ext; intros j _; destruct (Nat.eqb j i); ring. }
  rewrite E1. rewrite !sum_without_eq. rewrite sum_without_eq in D. apply quad_min; [|exact D].
  intros j J. destruct (Nat.eqb j i); [lra|apply P; exact J].
Qed.

(** ** OpenMP *)
Section Omp.
Variable inv1 : R -> option R.
Variable n : nat.
Variables (x y : nat -> R) (w : nat -> nat -> R).
Lemma core_serial local : forall idx b s, core local (fun _ => false) idx b s =
  match serial_from R local idx b s with Ok (b', s') => Some (b', s', false) | _ => None end.
Proof.
  intros idx; induction idx as [|j t IH]; intros b s; [reflexivity|]. cbn [core serial_from].
  destruct (local j) as [[b1 s1]|]; [apply IH|reflexivity].
Qed.
Lemma core_run local : core local (fun _ => false) (seq 0 (n - 0)) (fun _ => 0) (fun _ => 0) =
  match serial_run R 0 local 0 n with Ok (b', s') => Some (b', s', false) | _ => None end.
Proof. apply core_serial. Qed.
Lemma cv_of_ext b b' : (forall i, b i = b' i) -> cv_of n x y b = cv_of n x y b'.
Proof. intros E; apply bigsum_ext; intros i _; rewrite E; reflexivity. Qed.
Lemma aic_of_ext b b' t t' : (forall i, b i = b' i) -> t = t' -> aic_of n x y b t = aic_of n x y b' t'.
Proof.
  intros E ->. unfold aic_of, base_aicc. f_equal. f_equal. apply bigsum_ext; intros i _. unfold fitted; cbn [bigsum]. rewrite E; reflexivity.
Qed.
Lemma C132_cv_omp_main : forall threads sched, schedule threads 0 n sched ->
  (forall i, (i < n)%nat -> inv1 (sum_without n i (fun j => w i j * x j ^ 2)) <> None) ->
  cv_omp inv1 n x y w threads sched = Some (cv_base inv1 n x y w false (fun _ => false)).
Proof.
  intros threads sched S A. unfold cv_omp, cv_base, fit_var_cv. rewrite core_run.
  destruct (serial_total R 0 (cv_local inv1 n x y w) 0 n) as [T|(b & s & T)].
  { exfalso. apply serial_throw_iff in T. destruct T as (i & I & F). red in F.
    revert F. apply cvl_some, A. lia. }
  rewrite T.
  destruct (C39_main R 0 (cv_local inv1 n x y w) threads 0 n GWRMultiscale_fitVarCoreCVOmp sched b s ltac:(discriminate) S T)
    as (b' & s' & -> & B & _). cbn [orb negb]. f_equal. f_equal. apply cv_of_ext; exact B.
Qed.
Lemma C132_aic_omp_main : forall threads sched, schedule threads 0 n sched ->
  (forall i, (i < n)%nat -> inv1 (bigsum n (fun j => w i j * x j ^ 2)) <> None) ->
  aic_omp inv1 n x y w threads sched = Some (aic_base inv1 n x y w false (fun _ => false)).
Proof.
  intros threads sched S A. unfold aic_omp, aic_base, fit_var_shat. rewrite core_run.
  destruct (serial_total R 0 (shat_local inv1 n x y w) 0 n) as [T|(b & s & T)].
  { exfalso. apply serial_throw_iff in T. destruct T as (i & I & F). red in F.
    revert F. apply shl_some, A. lia. }
  rewrite T.
  destruct (C39_main R 0 (shat_local inv1 n x y w) threads 0 n GWRMultiscale_fitVarCoreSHatOmp sched b s ltac:(discriminate) S T)
    as (b' & s' & -> & B & C). cbn [orb negb andb]. rewrite (aic_of_ext b' b _ _ B (C 0%nat)). reflexivity.
Qed.
End Omp.
