(** Proofs about discriminant analysis: local statistics, scores, runs. *)
From Coq Require Import Reals Bool List Arith Lia Lra Psatz String.
From Verif Require Import Outcome XReal XRealFacts Sums DiagModel DiagProofs
  GwdaModel GwdaSpec GwdaProofs GwdaProofs2.
Import ListNotations.
Local Open Scope R_scope.

(** ** Local mean *)

Lemma colw_vals : forall wt idx j, xvals (colw wt idx j) (map (fun k => wt k j) idx).
Proof. intros; unfold colw. rewrite <- (map_map (fun k => wt k j) XF). apply xvals_map_XF. Qed.

Lemma normw_vals : forall wt idx j, lsum (map (fun k => wt k j) idx) <> 0 ->
  xvals (normw wt idx j) (map (fun k => wt k j / lsum (map (fun k => wt k j) idx)) idx).
Proof.
  intros wt idx j N. unfold normw. pose proof (colw_vals wt idx j) as V.
  rewrite <- (map_map (fun k => wt k j) (fun r => r / lsum (map (fun k => wt k j) idx))).
  apply xvals_div; [exact V|apply xlsum_val, V|exact N].
Qed.

Lemma rprod_maps : forall (f g : nat -> R) idx, rprod (map f idx) (map g idx) = map (fun k => f k * g k) idx.
Proof. intros f g idx; unfold rprod; induction idx as [|k t IH]; [reflexivity|]; simpl; rewrite IH; reflexivity. Qed.

Lemma lsum_scal_r : forall (f g : nat -> R) s idx,
  lsum (map (fun k => f k / s * g k) idx) = lsum (map (fun k => f k * g k) idx) / s.
Proof. intros f g s idx; induction idx as [|k t IH]; simpl; [lra|]; rewrite IH; lra. Qed.

Definition rmean (x wt : nat -> nat -> R) (idx : list nat) (j a : nat) : R :=
  lsum (map (fun k => wt k j * x k a) idx) / lsum (map (fun k => wt k j) idx).

Lemma wMean_val : forall x wt idx j a, lsum (map (fun k => wt k j) idx) <> 0 ->
  xval (wMean x wt idx j a) = Some (rmean x wt idx j a).
Proof.
  intros x wt idx j a N. unfold wMean, rmean.
  rewrite (xdotl_val _ _ _ (map (fun k => x k a) idx) (normw_vals wt idx j N)).
  - rewrite rprod_maps, (lsum_scal_r (fun k => wt k j) (fun k => x k a)). reflexivity.
  - rewrite <- (map_map (fun k => x k a) XF). apply xvals_map_XF.
Qed.

Lemma lsum_le_map : forall (f g : nat -> R) idx, (forall k, In k idx -> f k <= g k) ->
  lsum (map f idx) <= lsum (map g idx).
Proof.
  intros f g idx; induction idx as [|k t IH]; intros H; simpl; [lra|].
  pose proof (H k (or_introl eq_refl)). specialize (IH (fun k' I => H k' (or_intror I))). lra.
Qed.

Lemma lsum_map_scal : forall c (f : nat -> R) idx, lsum (map (fun k => c * f k) idx) = c * lsum (map f idx).
Proof. intros c f idx; induction idx as [|k t IH]; simpl; [lra|]; rewrite IH; lra. Qed.

Lemma wMean_spec : forall x wt idx j a, (forall k, In k idx -> 0 <= wt k j) ->
  0 < lsum (map (fun k => wt k j) idx) ->
  exists mu, has_value (wMean x wt idx j a) mu /\
    mu * lsum (map (fun k => wt k j) idx) = lsum (map (fun k => wt k j * x k a) idx) /\
    (forall lo hi, (forall k, In k idx -> lo <= x k a <= hi) -> lo <= mu <= hi).
Proof.
  intros x wt idx j a W T. exists (rmean x wt idx j a); split; [apply wMean_val; lra|].
  unfold rmean. set (s := lsum (map (fun k => wt k j) idx)) in *.
  set (t := lsum (map (fun k => wt k j * x k a) idx)).
  split; [field; lra|]. intros lo hi B.
  assert (L : lo * s <= t).
  { unfold s, t; rewrite <- (lsum_map_scal lo (fun k => wt k j)). apply lsum_le_map. intros k I.
    specialize (W k I); destruct (B k I); nra. }
  assert (H : t <= hi * s).
  { unfold s, t; rewrite <- (lsum_map_scal hi (fun k => wt k j)). apply lsum_le_map. intros k I.
    specialize (W k I); destruct (B k I); nra. }
  split; apply Rmult_le_reg_r with s; try exact T; unfold Rdiv; rewrite Rmult_assoc, Rinv_l by lra; lra.
Qed.

(** ** Local covariance *)

Definition rcov (x wt : nat -> nat -> R) (idx : list nat) (j a b : nat) : R :=
  let s := lsum (map (fun k => wt k j) idx) in
  s * lsum (map (fun k => wt k j * ((x k a - rmean x wt idx j a) * (x k b - rmean x wt idx j b))) idx)
  / (s * s - lsum (map (fun k => wt k j * wt k j) idx)).

Lemma cov_val : forall p x wt idx j a b, (2 <= p)%nat ->
  0 < lsum (map (fun k => wt k j) idx) ->
  lsum (map (fun k => wt k j * wt k j) idx)
    < lsum (map (fun k => wt k j) idx) * lsum (map (fun k => wt k j) idx) ->
  xval (wVarCov p x wt idx j a b) = Some (rcov x wt idx j a b).
Proof.
  intros p x wt idx j a b P T Q. unfold wVarCov. replace (2 <=? p)%nat with true by (symmetry; apply Nat.leb_le, P).
  unfold rcov. cbv zeta. set (s := lsum (map (fun k => wt k j) idx)) in *.
  set (qq := lsum (map (fun k => wt k j * wt k j) idx)) in *.
  unfold covwtmat. cbv zeta.
  pose proof (normw_vals wt idx j ltac:(fold s; lra)) as V. fold s in V.
  pose proof (xlsum_val _ _ V) as S1.
  assert (E1 : lsum (map (fun k => wt k j / s) idx) = 1).
  { rewrite <- (map_map (fun k => wt k j) (fun r => r / s)), lsum_div. fold s; field; lra. }
  rewrite E1 in S1.
  pose proof (xdotl_val _ _ _ _ V V) as S2. rewrite rprod_maps in S2.
  assert (E2 : lsum (map (fun k => wt k j / s * (wt k j / s)) idx) = qq / (s * s)).
  { transitivity (lsum (map (fun k => wt k j * wt k j) idx) / (s * s)); [|reflexivity].
    clear - T; clearbody s; induction idx as [|k t IH]; simpl; [unfold Rdiv; lra|]. rewrite IH; field; lra. }
  rewrite E2 in S2.
  assert (COL : forall v, xvals (map (fun r : nat -> R => XF (r v)) (map x idx)) (map (fun k => x k v) idx)).
  { intros v. rewrite map_map, <- (map_map (fun k => x k v) XF). apply xvals_map_XF. }
  assert (AV : forall v, xval (xdiv (xdotl (map (fun r : nat -> R => XF (r v)) (map x idx)) (normw wt idx j))
                                    (xlsum (normw wt idx j))) = Some (rmean x wt idx j v)).
  { intros v. pose proof (xdotl_val _ _ _ _ (COL v) V) as D. rewrite rprod_maps in D.
    rewrite (xval_xdiv _ _ _ _ D S1) by lra. f_equal. unfold rmean. fold s.
    clear; clearbody s; induction idx as [|k t IH]; simpl; [unfold Rdiv; lra|]. lra. }
  assert (CE : forall v, xvals (map (fun q => xsub q (xdiv (xdotl (map (fun r : nat -> R => XF (r v)) (map x idx))
                 (normw wt idx j)) (xlsum (normw wt idx j)))) (map (fun r : nat -> R => XF (r v)) (map x idx)))
               (map (fun k => x k v - rmean x wt idx j v) idx)).
  { intros v. rewrite <- (map_map (fun k => x k v) (fun r => r - rmean x wt idx j v)).
    apply xvals_map; [apply COL|]. intros; apply xval_xsub; [assumption|apply AV]. }
  pose proof (xprod_val _ _ _ _ (CE a) (CE b)) as PR. rewrite rprod_maps in PR.
  pose proof (xdotl_val _ _ _ _ V PR) as D. rewrite rprod_maps in D.
  assert (QS : 0 < s * s) by nra.
  assert (QB : qq / (s * s) < 1).
  { apply Rmult_lt_reg_r with (s * s); [exact QS|]. unfold Rdiv; rewrite Rmult_assoc, Rinv_l by lra; lra. }
  pose proof (xval_xsub _ _ _ _ (xval_xmul _ _ _ _ S1 S1) S2) as DEN.
  pose proof (xval_xdiv _ _ _ _ S1 DEN ltac:(lra)) as C.
  rewrite (xval_xmul _ _ _ _ C D). f_equal.
  rewrite (lsum_scal_r (fun k => wt k j)). field. repeat split; lra.
Qed.

Lemma bigsum_scal_r : forall n c f, bigsum n (fun i => f i * c) = bigsum n f * c.
Proof. intros n c f; induction n; simpl; [lra|]; rewrite IHn; lra. Qed.

Lemma quad_rank1 : forall p v w (d : nat -> R),
  quad_form p (fun a b => w * (d a * d b)) v = w * (bigsum p (fun a => v a * d a) * bigsum p (fun a => v a * d a)).
Proof.
  intros p v w d. unfold quad_form.
  transitivity (bigsum p (fun a => (v a * d a) * (w * bigsum p (fun b => v b * d b)))).
  - apply bigsum_ext; intros a _. rewrite <- !bigsum_scal. apply bigsum_ext; intros; ring.
  - rewrite bigsum_scal_r. ring.
Qed.

Lemma quad_plus : forall p v c c', quad_form p (fun a b => c a b + c' a b) v = quad_form p c v + quad_form p c' v.
Proof.
  intros p v c c'; unfold quad_form. rewrite <- bigsum_plus. apply bigsum_ext; intros a _.
  rewrite <- bigsum_plus. apply bigsum_ext; intros b _; ring.
Qed.

Lemma quad_scal : forall p v k c, quad_form p (fun a b => k * c a b) v = k * quad_form p c v.
Proof.
  intros p v k c; unfold quad_form. rewrite <- bigsum_scal. apply bigsum_ext; intros a _.
  rewrite <- bigsum_scal. apply bigsum_ext; intros b _; ring.
Qed.

Lemma quad_ext : forall p v c c', (forall a b, c a b = c' a b) -> quad_form p c v = quad_form p c' v.
Proof. intros p v c c' E; unfold quad_form; apply bigsum_ext; intros; apply bigsum_ext; intros; rewrite E; reflexivity. Qed.

Lemma quad_lsum_nonneg : forall p v (w : nat -> R) (d : nat -> nat -> R) idx, (forall k, In k idx -> 0 <= w k) ->
  0 <= quad_form p (fun a b => lsum (map (fun k => w k * (d k a * d k b)) idx)) v.
Proof.
  intros p v w d idx; induction idx as [|k t IH]; intros W; simpl.
  - unfold quad_form. right. symmetry. transitivity (bigsum p (fun _ => 0)); [|apply bigsum_0].
    apply bigsum_ext; intros. transitivity (bigsum p (fun _ => 0)); [|apply bigsum_0].
    apply bigsum_ext; intros; ring.
  - rewrite (quad_plus p v (fun a b => w k * (d k a * d k b))
              (fun a b => lsum (map (fun k0 => w k0 * (d k0 a * d k0 b)) t))).
    rewrite (quad_rank1 p v (w k) (d k)).
    specialize (IH (fun k' I => W k' (or_intror I))). pose proof (W k (or_introl eq_refl)).
    set (B := bigsum p (fun a => v a * d k a)). assert (0 <= B * B) by nra. nra.
Qed.

Lemma cov_spec : forall p x wt idx j, (2 <= p)%nat -> (forall k, In k idx -> 0 <= wt k j) ->
  0 < lsum (map (fun k => wt k j) idx) ->
  lsum (map (fun k => wt k j * wt k j) idx)
    < lsum (map (fun k => wt k j) idx) * lsum (map (fun k => wt k j) idx) ->
  exists C, (forall a b, has_value (wVarCov p x wt idx j a b) (C a b)) /\
    (forall a b, C a b = C b a) /\ (forall v, 0 <= quad_form p C v) /\
    (forall a b, exists ma mb, has_value (wMean x wt idx j a) ma /\ has_value (wMean x wt idx j b) mb /\
       C a b * (lsum (map (fun k => wt k j) idx) * lsum (map (fun k => wt k j) idx)
                - lsum (map (fun k => wt k j * wt k j) idx)) =
       lsum (map (fun k => wt k j) idx) * lsum (map (fun k => wt k j * ((x k a - ma) * (x k b - mb))) idx)).
Proof.
  intros p x wt idx j P W T Q. exists (rcov x wt idx j).
  split; [intros; apply cov_val; assumption|split; [|split]].
  - intros a b; unfold rcov; cbv zeta. f_equal. f_equal. f_equal. apply map_ext; intros; ring.
  - intros v.
    set (s := lsum (map (fun k => wt k j) idx)) in *. set (qq := lsum (map (fun k => wt k j * wt k j) idx)) in *.
    rewrite (quad_ext p v _ (fun a b => (s / (s * s - qq)) *
        lsum (map (fun k => wt k j * ((x k a - rmean x wt idx j a) * (x k b - rmean x wt idx j b))) idx))).
    + rewrite quad_scal. apply Rmult_le_pos; [left; apply Rdiv_lt_0_compat; lra|].
      apply (quad_lsum_nonneg p v (fun k => wt k j) (fun k a => x k a - rmean x wt idx j a)). exact W.
    + intros a b; unfold rcov; cbv zeta; fold s; fold qq. field; lra.
  - intros a b. exists (rmean x wt idx j a), (rmean x wt idx j b).
    split; [apply wMean_val; lra|split; [apply wMean_val; lra|]].
    unfold rcov; cbv zeta. field. lra.
Qed.

(** ** Class weights *)

Lemma findSame_weight : forall y s (f : nat -> R) ,
  lsum (map f (findSameString y s)) =
  bigsum (List.length y) (fun k => match nth_error y k with
                     | Some t => if String.eqb t s then f k else 0 | None => 0 end).
Proof.
  intros y s f. unfold findSameString. rewrite bigsum_seq, sumloop_lsum.
  generalize (seq 0 (List.length y)); intros l; induction l as [|k l IH]; [reflexivity|].
  cbn [filter map]. destruct (nth_error y k) as [t|]; [destruct (String.eqb t s)|];
  cbn [map lsum fold_right] in *; unfold lsum in *; rewrite ?IH; cbn [fold_right]; lra.
Qed.

Lemma label_weight_members : forall y wt s j, 
  lsum (map (fun k => wt k j) (findSameString y s)) = label_weight (List.length y) y wt s j.
Proof. intros; unfold label_weight; apply (findSame_weight y s (fun k => wt k j)). Qed.

Lemma flat_map_lsum : forall (f : nat -> list R) l,
  lsum (flat_map f l) = lsum (map (fun j => lsum (f j)) l).
Proof. intros f l; induction l as [|a l IH]; [reflexivity|]; simpl; rewrite lsum_app, IH; reflexivity. Qed.

Lemma accu_val : forall nr nc wt, xval (accu nr nc wt) = Some (bigsum nc (fun j => bigsum nr (fun k => wt k j))).
Proof.
  intros nr nc wt. unfold accu.
  rewrite (xlsum_val _ (flat_map (fun j => map (fun k => wt k j) (seq 0 nr)) (seq 0 nc))).
  - f_equal. rewrite flat_map_lsum, bigsum_seq, sumloop_lsum. f_equal. apply map_ext; intros j.
    rewrite bigsum_seq, sumloop_lsum. reflexivity.
  - generalize (seq 0 nc); intros l; induction l as [|j l IH]; [reflexivity|]. simpl.
    apply xvals_app; [|exact IH]. rewrite <- (map_map (fun k => wt k j) XF). apply xvals_map_XF.
Qed.

(** ** Scores *)

Section Lda.
Variable mnorm : (nat -> nat -> xd) -> xd.
Variable squad : (nat -> nat -> xd) -> (nat -> xd) -> outcome xd.
Variables n p : nat.
Variable x : nat -> nat -> R.
Variable y : list string.
Variable wt : nat -> nat -> R.
Variable npr : nat.
Variable xpr : nat -> nat -> R.
Variable o : opts.
Variable Q : (nat -> nat -> xd) -> (nat -> xd) -> R.
Variable N : (nat -> nat -> xd) -> R.
Hypothesis Ly : List.length y = n.
Hypothesis Lpr : (npr <= n)%nat.
Hypothesis HN : forall M, 0 < N M /\ xval (mnorm M) = Some (N M).
Hypothesis HQ : forall M d, exists q, squad M d = Ok q /\ xval q = Some (Q M d).
Let w := pick wt (hasPrior o).
Let nc := pick_cols n npr (hasPrior o).
Hypothesis Wpos : forall k j, (k < n)%nat -> (j < nc)%nat -> 0 <= w k j.
Hypothesis Spos : forall s j, In s y -> (j < nc)%nat -> 0 < label_weight n y w s j.

Definition pcov (j a b : nat) : xd :=
  xdiv (xdotl (map (fun s => XF (INR (count_of s (ytable y)))) (levels y))
              (map (fun c : nat -> nat -> xd => c a b)
                   (map (fun i a b => wVarCov p x (pick wt (hasCov o)) (members y i) j a b) (seq 0 (m y)))))
       (xlsum (map (fun s => XF (INR (count_of s (ytable y)))) (levels y))).
Definition pmean (i j a : nat) : xd := wMean x (pick wt (hasMean o)) (members y i) j a.
Definition pdiff (i j a : nat) : xd := xsub (XF (xpr j a)) (pmean i j a).
Definition pval (s : string) (j : nat) : R :=
  label_weight n y w s j / bigsum nc (fun j => bigsum n (fun k => w k j)).

Lemma cols_ge : forall b j, (j < npr)%nat -> (j <? pick_cols n npr b)%nat = true.
Proof. intros b j L; apply Nat.ltb_lt; unfold pick_cols; destruct b; lia. Qed.

Lemma pooled_ok : forall j, (j < npr)%nat -> pooled_cov_at n p x y wt npr o j = Ok (pcov j).
Proof.
  intros j L. unfold pooled_cov_at.
  rewrite (mapO_ok _ (fun i a b => wVarCov p x (pick wt (hasCov o)) (members y i) j a b)).
  - reflexivity.
  - intros i _. unfold group_cov_at. rewrite cols_ge by exact L. reflexivity.
Qed.

Lemma mean_ok : forall i j, (j < npr)%nat -> mean_at n x y wt npr o i j = Ok (pmean i j).
Proof. intros i j L; unfold mean_at; rewrite cols_ge by exact L; reflexivity. Qed.

Lemma total_pos : forall s j, In s y -> (j < nc)%nat -> 0 < bigsum nc (fun j => bigsum n (fun k => w k j)).
Proof.
  intros s j I L. pose proof (Spos s j I L) as P.
  assert (C : forall j', (j' < nc)%nat -> 0 <= bigsum n (fun k => w k j')).
  { intros j' L'. rewrite <- (bigsum_0 n). apply bigsum_le; intros; apply Wpos; assumption. }
  assert (A : label_weight n y w s j <= bigsum n (fun k => w k j)).
  { unfold label_weight. apply bigsum_le; intros k K.
    pose proof (Wpos k j K L). destruct (nth_error y k) as [t|]; [destruct (String.eqb t s)|]; lra. }
  assert (B : bigsum n (fun k => w k j) <= bigsum nc (fun j => bigsum n (fun k => w k j))).
  { pose proof (bigsum_single nc (fun j' => if (j' =? j)%nat then bigsum n (fun k => w k j') else 0) j L) as E.
    cbv beta in E. rewrite Nat.eqb_refl in E. rewrite <- E.
    - apply bigsum_le; intros i Li. pose proof (C i Li). destruct (i =? j)%nat; lra.
    - intros i _ D; apply Nat.eqb_neq in D; rewrite D; reflexivity. }
  lra.
Qed.

Definition pprior (i j : nat) : xd :=
  wPrior w (members y i) (accu n nc w) j.

Lemma prior_ok : forall i j, (j < npr)%nat -> prior_at n y wt npr o i j = Ok (pprior i j).
Proof. intros i j L; unfold prior_at; rewrite cols_ge by exact L; reflexivity. Qed.

Lemma level_in : forall i s, nth_error (levels y) i = Some s -> In s y.
Proof. intros i s E. apply (proj1 (proj2 (levels_spec y))). eapply nth_error_In; eauto. Qed.

Lemma pprior_val : forall i j s, nth_error (levels y) i = Some s -> (j < nc)%nat ->
  xval (pprior i j) = Some (pval s j).
Proof.
  intros i j s E L. unfold pprior, wPrior, members. rewrite E.
  assert (V := xlsum_val _ _ (colw_vals w (findSameString y s) j)).
  rewrite label_weight_members, Ly in V.
  apply xval_xdiv; [exact V|apply accu_val|].
  apply Rgt_not_eq, (total_pos s j); [eapply level_in; eauto|exact L].
Qed.

Definition pscore (i j : nat) : xd :=
  match squad (pcov j) (pdiff i j) with
  | Ok q => xsub (xadd (xmul (XF (INR (m y / 2)%nat)) (xln (mnorm (pcov j)))) (xmul (XF (1 / 2)) q)) (xln (pprior i j))
  | _ => XN
  end.

Lemma wlda_ok : wlda mnorm squad n p x y wt npr xpr o =
  Ok (map (fun i => map (fun j => pscore i j) (seq 0 npr)) (seq 0 (m y))).
Proof.
  unfold wlda. rewrite (mapO_ok _ pcov); [cbn [obind]|intros j I; apply in_seq in I; apply pooled_ok; lia].
  apply mapO_ok. intros i _. apply mapO_ok. intros j I. apply in_seq in I.
  rewrite mean_ok by lia. cbn [obind].
  rewrite nth_error_map, (nth_error_nth' (seq 0 npr) 0%nat) by (rewrite seq_length; lia).
  rewrite seq_nth by lia. cbn [option_map plus]. rewrite prior_ok by lia. cbn [obind].
  unfold score, pscore. change (fun a => xsub (XF (xpr j a)) (pmean i j a)) with (pdiff i j).
  destruct (HQ (pcov j) (pdiff i j)) as [q [E _]]. rewrite E. reflexivity.
Qed.

Definition rscore (i j : nat) (s : string) : R :=
  INR (m y / 2) * ln (N (pcov j)) + 1 / 2 * Q (pcov j) (pdiff i j) - ln (pval s j).

Lemma pscore_val : forall i j s, nth_error (levels y) i = Some s -> (j < nc)%nat ->
  xval (pscore i j) = Some (rscore i j s).
Proof.
  intros i j s E L. unfold pscore. destruct (HQ (pcov j) (pdiff i j)) as [q [Eq V]]. rewrite Eq.
  destruct (HN (pcov j)) as [NP NV].
  apply xval_xsub; [apply xval_xadd; apply xval_xmul; try reflexivity; [|exact V]; apply xln_pos; assumption|].
  apply xln_pos; [apply pprior_val; assumption|].
  pose proof (level_in i s E) as I. apply Rdiv_lt_0_compat; [apply Spos; assumption|eapply total_pos; eauto].
Qed.

Lemma row_of_wlda : forall j, (j < npr)%nat ->
  row_of (map (fun i => map (fun j => pscore i j) (seq 0 npr)) (seq 0 (m y))) j =
  map (fun i => pscore i j) (seq 0 (m y)).
Proof.
  intros j L. unfold row_of. rewrite map_map. apply map_ext; intros i.
  rewrite nth_indep with (d' := (fun j => pscore i j) 0%nat) by (rewrite map_length, seq_length; exact L).
  rewrite (map_nth (fun j => pscore i j)), seq_nth by exact L. reflexivity.
Qed.

Definition rrow (j : nat) : list R :=
  map (fun q => rscore (snd q) j (fst q)) (combine (levels y) (seq 0 (m y))).

Lemma combine_nth_error : forall {A} (l : list A) s i a, nth_error l i = Some a ->
  nth_error (combine l (seq s (List.length l))) i = Some (a, (s + i)%nat).
Proof.
  intros A l; induction l as [|b l IH]; intros s [|i] a E; simpl in *; try discriminate.
  - rewrite Nat.add_0_r; congruence.
  - rewrite (IH (S s) i a E). replace (s + S i)%nat with (S s + i)%nat by lia. reflexivity.
Qed.

Lemma rrow_nth : forall j i s, nth_error (levels y) i = Some s -> nth_error (rrow j) i = Some (rscore i j s).
Proof.
  intros j i s E. unfold rrow. rewrite nth_error_map. unfold m.
  rewrite (combine_nth_error _ 0 i s E). reflexivity.
Qed.

Lemma rrow_vals : forall j, (j < nc)%nat -> xvals (map (fun i => pscore i j) (seq 0 (m y))) (rrow j).
Proof.
  intros j L. unfold rrow.
  assert (G : forall l s, (forall i a, nth_error l i = Some a -> nth_error (levels y) (s + i)%nat = Some a) ->
     xvals (map (fun i => pscore i j) (seq s (List.length l)))
           (map (fun q => rscore (snd q) j (fst q)) (combine l (seq s (List.length l))))).
  { induction l as [|a l IH]; intros s H; [reflexivity|]. simpl.
    apply xvals_cons.
    - apply pscore_val; [|exact L]. rewrite <- (Nat.add_0_r s). apply (H 0%nat a eq_refl).
    - apply IH. intros i b E. rewrite Nat.add_succ_comm. apply (H (S i) b E). }
  apply (G (levels y) 0%nat). intros i a E; exact E.
Qed.

(** The predicted label minimises half the quadratic form minus the logarithm
    of the local class weight. *)
Lemma lda_rule : exists cols,
  wlda mnorm squad n p x y wt npr xpr o = Ok cols /\
  forall j, (j < npr)%nat -> y <> [] ->
    exists c s, index_min (row_of cols j) = c /\ nth_error (levels y) c = Some s /\
    forall i t, nth_error (levels y) i = Some t ->
      Q (pcov j) (pdiff c j) / 2 - ln (label_weight n y w s j) <=
      Q (pcov j) (pdiff i j) / 2 - ln (label_weight n y w t j) /\
      ((i < c)%nat ->
       Q (pcov j) (pdiff c j) / 2 - ln (label_weight n y w s j) <
       Q (pcov j) (pdiff i j) / 2 - ln (label_weight n y w t j)).
Proof.
  eexists; split; [apply wlda_ok|]. intros j L Ny.
  rewrite row_of_wlda by exact L.
  assert (Lc : (j < nc)%nat) by (unfold nc, pick_cols; destruct (hasPrior o); lia).
  assert (NE : rrow j <> []).
  { destruct y as [|s0 y'] eqn:Y; [congruence|].
    assert (I : In s0 (levels y)) by (apply (proj1 (proj2 (levels_spec y))); rewrite Y; left; reflexivity).
    apply In_nth_error in I as [i I]. rewrite <- Y in *. intros Z. pose proof (rrow_nth j i s0 I) as R0. rewrite Z in R0.
    destruct i; discriminate. }
  destruct (index_min_spec _ _ (rrow_vals j Lc) NE) as [r [C M]].
  set (c := index_min (map (fun i => pscore i j) (seq 0 (m y)))) in *.
  assert (Cl : (c < List.length (levels y))%nat).
  { assert (c < List.length (rrow j))%nat by (apply nth_error_Some; congruence).
    unfold rrow in H. rewrite map_length, combine_length, seq_length in H. unfold m in H. lia. }
  destruct (nth_error (levels y) c) as [s|] eqn:Es; [|apply nth_error_None in Es; lia].
  exists c, s; split; [reflexivity|split; [exact Es|]]. intros i t Et.
  rewrite (rrow_nth j c s Es) in C. injection C as <-.
  destruct (M i _ (rrow_nth j i t Et)) as [M1 M2].
  unfold rscore in *.
  assert (LN : forall k u, nth_error (levels y) k = Some u ->
     ln (pval u j) = ln (label_weight n y w u j) - ln (bigsum nc (fun j => bigsum n (fun k => w k j)))).
  { intros k u E. pose proof (level_in k u E) as I. unfold pval. unfold Rdiv.
    pose proof (total_pos u j I Lc) as TP. pose proof (Spos u j I Lc) as SP.
    rewrite ln_mult by (try apply Rinv_0_lt_compat; assumption). rewrite ln_Rinv by assumption. lra. }
  rewrite (LN c s Es), (LN i t Et) in *. split; [lra|]. intros T; specialize (M2 T); lra.
Qed.
End Lda.
