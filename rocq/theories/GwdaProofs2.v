(** Proofs about discriminant analysis: probabilities and entropy. *)
From Coq Require Import Reals Bool List Arith Lia Lra String.
From Verif Require Import Outcome XReal XRealFacts Sums DiagModel DiagProofs GwdaModel GwdaSpec.
Import ListNotations.
Local Open Scope R_scope.

(** ** Sums of vectors of numbers *)

Lemma xlsum_acc : forall l rs a r, xvals l rs -> xval a = Some r ->
  xval (fold_left xadd l a) = Some (r + lsum rs).
Proof.
  induction l as [|v l IH]; intros [|q rs] a r V A; try discriminate.
  - simpl; rewrite Rplus_0_r; exact A.
  - apply xvals_inv in V as [V1 V2]. cbn [fold_left].
    rewrite (IH rs (xadd a v) (r + q) V2 (xval_xadd _ _ _ _ A V1)). simpl; f_equal; lra.
Qed.

Lemma xlsum_val : forall l rs, xvals l rs -> xval (xlsum l) = Some (lsum rs).
Proof. intros l rs V; unfold xlsum; rewrite (xlsum_acc l rs (XF 0) 0 V eq_refl), Rplus_0_l; reflexivity. Qed.

Definition rprod (u v : list R) : list R := map (fun q => fst q * snd q) (combine u v).

Lemma xprod_val : forall u v ru rv, xvals u ru -> xvals v rv ->
  xvals (map (fun q => xmul (fst q) (snd q)) (combine u v)) (rprod ru rv).
Proof.
  induction u as [|a u IH]; intros [|b v] [|ra ru] [|rb rv] U V; try discriminate; try reflexivity.
  apply xvals_inv in U as [U1 U2]. apply xvals_inv in V as [V1 V2].
  apply xvals_cons; [apply xval_xmul; assumption|]. apply IH; assumption.
Qed.

Lemma xdotl_val : forall u v ru rv, xvals u ru -> xvals v rv ->
  xval (xdotl u v) = Some (lsum (rprod ru rv)).
Proof. intros; unfold xdotl; apply xlsum_val, xprod_val; assumption. Qed.

Lemma xvals_div : forall l rs d t, xvals l rs -> xval d = Some t -> t <> 0 ->
  xvals (map (fun v => xdiv v d) l) (map (fun r => r / t) rs).
Proof. intros l rs d t V D N; apply xvals_map; [exact V|]. intros; apply xval_xdiv; assumption. Qed.

Lemma xvals_app : forall l k rs qs, xvals l rs -> xvals k qs -> xvals (l ++ k) (rs ++ qs).
Proof. intros l k rs qs L K; unfold xvals in *; rewrite !map_app, L, K; reflexivity. Qed.

Lemma lsum_div : forall rs t, lsum (map (fun r => r / t) rs) = lsum rs / t.
Proof. induction rs as [|r rs IH]; intros t; simpl; [lra|rewrite IH; lra]. Qed.

Lemma lsum_nonneg : forall rs, Forall (fun r => 0 <= r) rs -> 0 <= lsum rs.
Proof. intros rs F; induction F; simpl; lra. Qed.

Lemma In_le_lsum : forall rs r, Forall (fun r => 0 <= r) rs -> In r rs -> r <= lsum rs.
Proof.
  intros rs r F; induction F as [|q rs Q F IH]; intros I; [contradiction|].
  pose proof (lsum_nonneg rs F). destruct I as [->|I]; simpl; [lra|]. specialize (IH I); lra.
Qed.

(** ** index_min *)

Definition im_step (acc q : xd * nat) : xd * nat := if xltb (fst q) (fst acc) then q else acc.

Lemma combine_seq_snoc : forall (l : list xd) v,
  combine (l ++ [v]) (seq 0 (List.length (l ++ [v]))) =
  combine l (seq 0 (List.length l)) ++ [(v, List.length l)].
Proof.
  intros l v; rewrite app_length; simpl List.length. rewrite Nat.add_1_r, seq_S; simpl plus.
  generalize 0%nat at 1 2. intros s.
  assert (G : forall (k : list nat) u, List.length k = List.length l ->
             combine (l ++ [v]) (k ++ [u]) = combine l k ++ [(v, u)]).
  { induction l as [|a l IH]; intros [|b k] u L; try discriminate; [reflexivity|].
    simpl; rewrite IH; [reflexivity|]. injection L; auto. }
  apply G, seq_length.
Qed.

Lemma index_min_inv : forall l rs, xvals l rs -> rs <> [] ->
  exists c r, fold_left im_step (combine l (seq 0 (List.length l))) (XI false, 0%nat) = (nth c l XN, c) /\
    nth_error rs c = Some r /\
    (forall c' r', nth_error rs c' = Some r' -> r <= r' /\ ((c' < c)%nat -> r < r')).
Proof.
  intros l; induction l as [|v l IH] using rev_ind; intros rs V N.
  - destruct rs; [congruence|discriminate].
  - destruct rs as [|q rs] using rev_ind; [congruence|]. clear IHrs.
    unfold xvals in V; rewrite !map_app in V; simpl in V. apply app_inj_tail in V as [V1 V2].
    fold (xvals l rs) in V1.
    pose proof (xvals_length _ _ V1) as LL.
    rewrite combine_seq_snoc, fold_left_app. simpl fold_left at 1.
    destruct l as [|l0 l'].
    + destruct rs; [|discriminate]. exists 0%nat, q; split; [|split; [reflexivity|]].
      * simpl. unfold im_step; simpl. destruct v; simpl in *; try discriminate; reflexivity.
      * intros [|[|c']] r' E; simpl in E; try discriminate. injection E as <-; split; [lra|lia].
    + destruct (IH rs V1) as [c [r [F [C M]]]]; [destruct rs; discriminate|].
      remember (l0 :: l') as l.
      assert (Lc : (c < List.length rs)%nat) by (apply nth_error_Some; congruence).
      cbn [fold_left]. rewrite F. unfold im_step at 1; simpl fst.
      destruct (xvals_nth _ _ _ _ V1 C) as [w [W1 W2]].
      assert (E : nth c l XN = w) by (apply nth_error_nth; exact W1).
      rewrite E, (xltb_val _ _ _ _ V2 W2).
      destruct (Rltb q r) eqn:T.
      * apply Rltb_true in T. exists (List.length l), q. split; [|split].
        -- rewrite app_nth2 by lia. rewrite Nat.sub_diag; reflexivity.
        -- rewrite nth_error_app2 by lia. rewrite LL, Nat.sub_diag; reflexivity.
        -- intros c' r' E'. destruct (lt_dec c' (List.length rs)) as [L|L].
           ++ rewrite nth_error_app1 in E' by exact L. destruct (M c' r' E'); split; [lra|intros; lra].
           ++ rewrite nth_error_app2 in E' by lia. destruct (c' - List.length rs)%nat as [|[|k]] eqn:K; simpl in E'; try discriminate.
              injection E' as <-; split; [lra|intros; lia].
      * apply Rltb_false in T. exists c, r. split; [|split].
        -- rewrite app_nth1 by lia. rewrite E; reflexivity.
        -- rewrite nth_error_app1 by lia. exact C.
        -- intros c' r' E'. destruct (lt_dec c' (List.length rs)) as [L|L].
           ++ rewrite nth_error_app1 in E' by exact L. apply (M c' r' E').
           ++ rewrite nth_error_app2 in E' by lia. destruct (c' - List.length rs)%nat as [|[|k]] eqn:K; simpl in E'; try discriminate.
              injection E' as <-; split; [lra|intros; lia].
Qed.

Lemma index_min_spec : forall l rs, xvals l rs -> rs <> [] ->
  exists r, nth_error rs (index_min l) = Some r /\
    (forall c' r', nth_error rs c' = Some r' -> r <= r' /\ ((c' < index_min l)%nat -> r < r')).
Proof.
  intros l rs V N. destruct (index_min_inv l rs V N) as [c [r [F [C M]]]].
  unfold index_min. unfold im_step in F. rewrite F; simpl. exists r; split; assumption.
Qed.

(** ** Probabilities *)

Definition tmpv (rs : list R) : list R := map exp (removelast rs) ++ [last rs 0].

Lemma tmp_row_val : forall l rs, xvals l rs -> rs <> [] -> xvals (tmp_row l) (tmpv rs).
Proof.
  intros l rs V N. destruct rs as [|q rs] using rev_ind; [congruence|]. clear IHrs.
  destruct l as [|v l] using rev_ind; [destruct rs; discriminate|]. clear IHl.
  unfold xvals in V; rewrite !map_app in V; simpl in V. apply app_inj_tail in V as [V1 V2].
  unfold tmp_row, tmpv. rewrite !removelast_last, last_last, app_length.
  simpl List.length. rewrite Nat.add_sub, skipn_app, skipn_all, Nat.sub_diag. simpl.
  apply xvals_app; [apply xvals_map; [exact V1|intros; apply xval_xexp; assumption]|].
  apply xvals_cons; [exact V2|reflexivity].
Qed.

Lemma probs_val : forall l rs, xvals l rs -> rs <> [] -> lsum (tmpv rs) <> 0 ->
  xvals (probs_row l) (map (fun r => r / lsum (tmpv rs)) (tmpv rs)).
Proof.
  intros l rs V N T. pose proof (tmp_row_val l rs V N) as H.
  unfold probs_row. apply xvals_div; [exact H|apply xlsum_val, H|exact T].
Qed.

Lemma tmpv_sum : forall rs, lsum (tmpv rs) = lsum (map exp (removelast rs)) + last rs 0.
Proof. intros; unfold tmpv; rewrite lsum_app; simpl; lra. Qed.

Lemma exps_nonneg : forall rs, Forall (fun r => 0 <= r) (map exp rs).
Proof. induction rs; constructor; [left; apply exp_pos|assumption]. Qed.

Lemma tmpv_nonneg : forall rs, 0 <= last rs 0 -> Forall (fun r => 0 <= r) (tmpv rs).
Proof. intros rs L; unfold tmpv; apply Forall_app; split; [apply exps_nonneg|constructor; [exact L|constructor]]. Qed.

Lemma probs_sum : forall l rs, row_values l rs -> rs <> [] ->
  lsum (map exp (removelast rs)) + last rs 0 <> 0 ->
  exists ps, row_values (probs_row l) ps /\ lsum ps = 1 /\
    (0 <= last rs 0 -> Forall (fun r => 0 <= r <= 1) ps).
Proof.
  intros l rs V N T. rewrite <- tmpv_sum in T.
  exists (map (fun r => r / lsum (tmpv rs)) (tmpv rs)); split; [apply probs_val; assumption|split].
  - rewrite lsum_div; field; exact T.
  - intros L. pose proof (tmpv_nonneg rs L) as F. pose proof (lsum_nonneg _ F).
    assert (P : 0 < lsum (tmpv rs)) by lra.
    apply Forall_map, Forall_forall. intros r I.
    pose proof (In_le_lsum _ _ F I). rewrite Forall_forall in F. specialize (F r I).
    split; [apply Rmult_le_pos; [exact F|left; apply Rinv_0_lt_compat, P]|].
    apply Rmult_le_reg_r with (lsum (tmpv rs)); [exact P|]. unfold Rdiv; rewrite Rmult_assoc, Rinv_l by lra; lra.
Qed.

Lemma removelast_nth : forall (rs : list R) c, (c < List.length rs - 1)%nat ->
  nth_error (removelast rs) c = nth_error rs c.
Proof.
  intros rs c L. destruct rs as [|q rs] using rev_ind; [simpl in L; lia|].
  rewrite app_length in L; simpl in L. rewrite removelast_last, nth_error_app1 by lia. reflexivity.
Qed.

Lemma removelast_length : forall (rs : list R), List.length (removelast rs) = (List.length rs - 1)%nat.
Proof.
  intros rs; destruct rs as [|q rs] using rev_ind; [reflexivity|].
  rewrite removelast_last, app_length; simpl; lia.
Qed.

Lemma probs_nth : forall rs c r, (c < List.length rs - 1)%nat -> nth_error rs c = Some r ->
  nth_error (map (fun r => r / lsum (tmpv rs)) (tmpv rs)) c = Some (exp r / lsum (tmpv rs)).
Proof.
  intros rs c r L E. rewrite nth_error_map. unfold tmpv at 2.
  rewrite nth_error_app1 by (rewrite map_length, removelast_length; exact L).
  rewrite nth_error_map, removelast_nth, E by exact L. reflexivity.
Qed.

Lemma probs_reversed : forall l rs ps c c' r r' q q', row_values l rs ->
  0 < lsum (map exp (removelast rs)) + last rs 0 -> row_values (probs_row l) ps ->
  (c < List.length rs - 1)%nat -> (c' < List.length rs - 1)%nat ->
  nth_error rs c = Some r -> nth_error rs c' = Some r' -> r < r' ->
  nth_error ps c = Some q -> nth_error ps c' = Some q' -> q < q'.
Proof.
  intros l rs ps c c' r r' q q' V T P L L' E E' O Q Q'. rewrite <- tmpv_sum in T.
  assert (N : rs <> []) by (intros ->; simpl in L; lia).
  assert (X : ps = map (fun r => r / lsum (tmpv rs)) (tmpv rs)).
  { eapply xvals_inj; [exact P|]. apply probs_val; [exact V|exact N|lra]. }
  subst ps. rewrite (probs_nth rs c r L E) in Q. rewrite (probs_nth rs c' r' L' E') in Q'.
  injection Q as <-; injection Q' as <-. apply Rmult_lt_compat_r; [apply Rinv_0_lt_compat, T|].
  apply exp_increasing, O.
Qed.

(** ** Entropy *)

Definition nentropy (qs : list R) : R := - lsum (rprod (map (fun q => ln q / ln 2) qs) qs).

Lemma ln2_pos : 0 < ln 2.
Proof. rewrite <- ln_1; apply ln_increasing; lra. Qed.

Lemma rprod_map : forall (f : R -> R) qs, rprod (map f qs) qs = map (fun q => f q * q) qs.
Proof. intros f qs; unfold rprod; induction qs as [|q qs IH]; [reflexivity|]; simpl; rewrite IH; reflexivity. Qed.

Lemma ln_le_sub1 : forall t, 0 < t -> ln t <= t - 1.
Proof.
  intros t P. destruct (Req_dec (ln t) 0) as [Z|Z].
  - assert (t = 1) by (apply ln_inv; [exact P|lra|rewrite ln_1; exact Z]). subst; rewrite ln_1; lra.
  - pose proof (exp_ineq1 (ln t) Z) as H. rewrite exp_ln in H by exact P. lra.
Qed.

Lemma nentropy_nonneg : forall qs, Forall (fun q => 0 < q <= 1) qs -> 0 <= nentropy qs.
Proof.
  intros qs F; unfold nentropy; rewrite rprod_map.
  induction F as [|q qs [P L] F IH]; simpl; [lra|].
  assert (ln q <= 0) by (rewrite <- ln_1; destruct (Rle_lt_or_eq_dec _ _ L) as [T| ->]; [left; apply ln_increasing; lra|lra]).
  pose proof ln2_pos. assert (ln q / ln 2 <= 0).
  { unfold Rdiv. assert (0 < / ln 2) by (apply Rinv_0_lt_compat; assumption). nra. }
  nra.
Qed.

(** Gibbs' inequality against the uniform distribution. *)
Lemma gibbs : forall k qs, 0 < k -> Forall (fun q => 0 < q) qs ->
  - lsum (map (fun q => ln q * q) qs) <= lsum qs * ln k + (INR (List.length qs) / k - lsum qs).
Proof.
  intros k qs K F; induction F as [|q qs P F IH].
  - simpl; unfold Rdiv; lra.
  - assert (H : - (ln q * q) <= q * ln k + (/ k - q)).
    { assert (Q : 0 < / (k * q)) by (apply Rinv_0_lt_compat, Rmult_lt_0_compat; assumption).
      pose proof (ln_le_sub1 _ Q) as G.
      rewrite ln_Rinv, ln_mult in G by (try apply Rmult_lt_0_compat; assumption).
      apply (Rmult_le_compat_l q) in G; [|lra].
      replace (q * (/ (k * q) - 1)) with (/ k - q) in G by (field; lra). nra. }
    simpl List.length. rewrite S_INR. simpl lsum.
    replace ((INR (List.length qs) + 1) / k) with (INR (List.length qs) / k + / k) by (field; lra).
    lra.
Qed.

Lemma nentropy_ln : forall qs, nentropy qs = - lsum (map (fun q => ln q * q) qs) / ln 2.
Proof.
  intros qs; unfold nentropy; rewrite rprod_map. pose proof ln2_pos.
  induction qs as [|q qs IH]; simpl; [unfold Rdiv; lra|].
  assert (G : lsum (map (fun q => ln q / ln 2 * q) qs) = lsum (map (fun q => ln q * q) qs) / ln 2) by lra.
  rewrite G; field; lra.
Qed.

Lemma nentropy_le : forall qs, Forall (fun q => 0 < q) qs -> lsum qs = 1 ->
  nentropy qs <= ln (INR (List.length qs)) / ln 2.
Proof.
  intros qs F E. rewrite nentropy_ln. apply Rmult_le_compat_r; [left; apply Rinv_0_lt_compat, ln2_pos|].
  assert (K : 0 < INR (List.length qs)).
  { destruct qs; [simpl in E; lra|]. apply lt_0_INR; simpl; lia. }
  pose proof (gibbs _ qs K F) as G. rewrite E in G.
  replace (INR (List.length qs) / INR (List.length qs)) with 1 in G by (field; lra). lra.
Qed.

Lemma xlmin_nonneg : forall l rs a, xvals l rs -> Forall (fun r => 0 <= r) rs ->
  xltb a (XF 0) = false -> xltb (fold_left (fun b v => if xltb v b then v else b) l a) (XF 0) = false.
Proof.
  induction l as [|v l IH]; intros [|q rs] a V F A; try discriminate; [exact A|].
  apply xvals_inv in V as [V1 V2]. inversion F; subst. cbn [fold_left].
  apply (IH rs); [exact V2|assumption|]. destruct (xltb v a); [|exact A].
  rewrite (xltb_val v (XF 0) q 0 V1 eq_refl). apply Rltb_false; assumption.
Qed.

Lemma filter_vals : forall l rs, xvals l rs ->
  xvals (filter (fun v => xltb (XF 0) v) l) (filter (fun r => Rltb 0 r) rs).
Proof.
  induction l as [|v l IH]; intros [|q rs] V; try discriminate; [reflexivity|].
  apply xvals_inv in V as [V1 V2]. cbn [filter]. rewrite (xltb_val (XF 0) v 0 q eq_refl V1).
  destruct (Rltb 0 q); [apply xvals_cons; [exact V1|]|]; apply IH, V2.
Qed.

Lemma xlog2_vals : forall l qs, xvals l qs -> Forall (fun q => 0 < q) qs ->
  xvals (map xlog2 l) (map (fun q => ln q / ln 2) qs).
Proof.
  induction l as [|v l IH]; intros [|q qs] V F; try discriminate; [reflexivity|].
  apply xvals_inv in V as [V1 V2]. inversion F; subst. cbn [map].
  apply xvals_cons; [|apply IH; assumption]. unfold xlog2.
  apply xval_xdiv; [apply xln_pos; assumption|reflexivity|]. pose proof ln2_pos; lra.
Qed.

Definition normalised (rs : list R) : list R := map (fun r => r / lsum rs) (filter (fun r => Rltb 0 r) rs).

Lemma shannon_val : forall l rs, xvals l rs -> Forall (fun r => 0 <= r) rs -> 0 < lsum rs ->
  xval (shannonEntropy l) = Some (nentropy (normalised rs)).
Proof.
  intros l rs V F T. unfold shannonEntropy.
  pose proof (xlsum_val l rs V) as S0.
  unfold xlmin. rewrite (xlmin_nonneg l rs (XI false) V F eq_refl).
  rewrite (xleb_val _ (XF 0) _ 0 S0 eq_refl).
  replace (Rleb (lsum rs) 0) with false by (symmetry; apply Rleb_false; exact T).
  cbn [orb]. cbv zeta.
  assert (Q : xvals (map (fun v => xdiv v (xlsum l)) (filter (fun v => xltb (XF 0) v) l)) (normalised rs)).
  { unfold normalised. apply xvals_div; [apply filter_vals, V|exact S0|lra]. }
  apply xval_xopp. apply xdotl_val; [|exact Q]. apply xlog2_vals; [exact Q|].
  unfold normalised. apply Forall_map, Forall_forall. intros r I.
  apply filter_In in I as [_ I]. apply Rltb_true in I. apply Rdiv_lt_0_compat; assumption.
Qed.

Lemma filter_lsum : forall rs, Forall (fun r => 0 <= r) rs ->
  lsum (filter (fun r => Rltb 0 r) rs) = lsum rs.
Proof.
  intros rs F; induction F as [|q rs Q F IH]; [reflexivity|]. simpl.
  destruct (Rltb 0 q) eqn:E; simpl; rewrite IH; [reflexivity|]. apply Rltb_false in E; lra.
Qed.

Lemma normalised_facts : forall rs, Forall (fun r => 0 <= r) rs -> 0 < lsum rs ->
  Forall (fun q => 0 < q <= 1) (normalised rs) /\ lsum (normalised rs) = 1.
Proof.
  intros rs F T; split.
  - unfold normalised; apply Forall_map, Forall_forall. intros r I.
    apply filter_In in I as [I P]. apply Rltb_true in P. split; [apply Rdiv_lt_0_compat; assumption|].
    pose proof (In_le_lsum _ _ F I). apply Rmult_le_reg_r with (lsum rs); [exact T|].
    unfold Rdiv; rewrite Rmult_assoc, Rinv_l by lra; lra.
  - unfold normalised. rewrite lsum_div, filter_lsum by exact F. field; lra.
Qed.

Lemma shannon_bounds : forall l rs, row_values l rs -> Forall (fun r => 0 <= r) rs -> 0 < lsum rs ->
  exists h, has_value (shannonEntropy l) h /\ 0 <= h <= ln (INR (positives rs)) / ln 2.
Proof.
  intros l rs V F T. exists (nentropy (normalised rs)); split; [apply shannon_val; assumption|].
  destruct (normalised_facts rs F T) as [N E]. split; [apply nentropy_nonneg, N|].
  replace (positives rs) with (List.length (normalised rs)) by (unfold normalised, positives; apply map_length).
  apply nentropy_le; [|exact E]. eapply Forall_impl; [|exact N]. intros; simpl in *; lra.
Qed.

Lemma filter_length_le : forall {A} (f : A -> bool) l, (List.length (filter f l) <= List.length l)%nat.
Proof. intros A f l; induction l; simpl; [lia|]. destruct (f a); simpl; lia. Qed.

(** Uniform vectors reach the bound. *)
Lemma repeat_lsum : forall k a, lsum (repeat a k) = INR k * a.
Proof. induction k; intros a; [simpl; lra|]. rewrite S_INR; simpl repeat; simpl lsum; rewrite IHk; lra. Qed.

Lemma filter_repeat : forall k a, 0 < a -> filter (fun r => Rltb 0 r) (repeat a k) = repeat a k.
Proof.
  intros k a P; induction k; [reflexivity|]. simpl.
  replace (Rltb 0 a) with true by (symmetry; apply Rltb_true, P). rewrite IHk; reflexivity.
Qed.

Lemma map_repeat' : forall {A B} (f : A -> B) a k, map f (repeat a k) = repeat (f a) k.
Proof. intros A B f a k; induction k; [reflexivity|]; simpl; rewrite IHk; reflexivity. Qed.

Lemma uniform_entropy : forall k l a, (0 < k)%nat -> 0 < a -> xvals l (repeat a k) ->
  xval (shannonEntropy l) = Some (ln (INR k) / ln 2).
Proof.
  intros k l a K P V. pose proof (lt_0_INR k K) as Kp.
  assert (T : 0 < lsum (repeat a k)) by (rewrite repeat_lsum; nra).
  rewrite (shannon_val l _ V); [|apply Forall_forall; intros r I; apply repeat_spec in I; subst; lra|exact T].
  f_equal. unfold normalised. rewrite filter_repeat, map_repeat', repeat_lsum by exact P.
  rewrite nentropy_ln. rewrite map_repeat', repeat_lsum.
  assert (E : a / (INR k * a) = / INR k) by (field; split; lra). rewrite E, ln_Rinv by exact Kp.
  pose proof ln2_pos. field; split; lra.
Qed.

Lemma entMax_val : forall nv, (2 <= nv)%nat -> xval (entMax nv) = Some (ln (INR nv - 1) / ln 2).
Proof.
  intros nv L. assert (E : INR (nv - 1) = INR nv - 1) by (rewrite minus_INR by lia; reflexivity).
  assert (P : 0 < INR nv - 1) by (rewrite <- E; apply lt_0_INR; lia).
  unfold entMax. rewrite (uniform_entropy (nv - 1) _ (1 / (INR nv - 1))).
  - rewrite E; reflexivity.
  - lia.
  - apply Rdiv_lt_0_compat; lra.
  - rewrite <- map_repeat' with (f := fun r => r / (INR nv - 1)).
    apply xvals_div with (t := INR nv - 1); [|reflexivity|lra].
    rewrite <- (map_repeat' XF). apply xvals_map_XF.
Qed.

Lemma entropy_partial : forall l rs, row_values l rs -> (3 <= List.length rs)%nat -> 0 <= last rs 0 ->
  exists h, has_value (entropy_row l) h /\
    0 <= h <= ln (INR (List.length rs)) / ln (INR (List.length rs) - 1).
Proof.
  intros l rs V L P.
  assert (N : rs <> []) by (intros ->; simpl in L; lia).
  assert (T : 0 < lsum (tmpv rs)).
  { rewrite tmpv_sum. destruct rs as [|a [|b t]]; simpl in L; try lia.
    change (removelast (a :: b :: t)) with (a :: removelast (b :: t)). cbn [map lsum fold_right].
    pose proof (exp_pos a). pose proof (lsum_nonneg _ (exps_nonneg (removelast (b :: t)))). unfold lsum in *; lra. }
  assert (V' := probs_val l rs V N ltac:(lra)).
  pose proof (tmpv_nonneg rs P) as F.
  assert (F' : Forall (fun r => 0 <= r) (map (fun r => r / lsum (tmpv rs)) (tmpv rs))).
  { apply Forall_map. eapply Forall_impl; [|exact F]. intros r R0; simpl.
    apply Rmult_le_pos; [exact R0|left; apply Rinv_0_lt_compat, T]. }
  assert (S1 : lsum (map (fun r => r / lsum (tmpv rs)) (tmpv rs)) = 1) by (rewrite lsum_div; field; lra).
  destruct (shannon_bounds _ _ V' F' ltac:(lra)) as [h [H B]].
  pose proof (xvals_length _ _ V) as LL.
  assert (N3 : 3 <= INR (List.length rs)) by (replace 3 with (INR 3) by (simpl; lra); apply le_INR; exact L).
  pose proof (entMax_val (List.length l) ltac:(lia)) as E. rewrite LL in E.
  pose proof ln2_pos as L2.
  assert (L1 : 0 < ln (INR (List.length rs) - 1)) by (rewrite <- ln_1; apply ln_increasing; lra).
  exists (h / (ln (INR (List.length rs) - 1) / ln 2)); split.
  - unfold has_value, entropy_row. rewrite LL. apply xval_xdiv; [exact H|exact E|].
    apply Rgt_not_eq, Rdiv_lt_0_compat; lra.
  - assert (B2 : h <= ln (INR (List.length rs)) / ln 2).
    { eapply Rle_trans; [apply B|]. apply Rmult_le_compat_r; [left; apply Rinv_0_lt_compat, L2|].
      set (ps := map (fun r => r / lsum (tmpv rs)) (tmpv rs)) in *.
      assert (PL : (positives ps <= List.length rs)%nat).
      { unfold positives. eapply le_trans; [apply filter_length_le|]. unfold ps.
        rewrite map_length. unfold tmpv. rewrite app_length, map_length, removelast_length. simpl; lia. }
      assert (P0 : (0 < positives ps)%nat).
      { unfold positives. destruct (filter (fun r => Rltb 0 r) ps) eqn:Q; [|simpl; lia].
        pose proof (filter_lsum ps F') as Z. rewrite Q, S1 in Z. simpl in Z; lra. }
      destruct (le_lt_or_eq _ _ PL) as [Q| ->]; [|lra]. left. apply ln_increasing; [apply lt_0_INR, P0|apply lt_INR, Q]. }
    replace (h / (ln (INR (List.length rs) - 1) / ln 2)) with (h * ln 2 / ln (INR (List.length rs) - 1)) by (field; lra).
    split.
    + apply Rmult_le_pos; [nra|left; apply Rinv_0_lt_compat, L1].
    + apply Rmult_le_compat_r; [left; apply Rinv_0_lt_compat, L1|].
      apply (Rmult_le_compat_r (ln 2)) in B2; [|lra].
      unfold Rdiv in B2; rewrite Rmult_assoc, Rinv_l in B2 by lra; lra.
Qed.

(** Two groups: the normaliser is zero. *)
Lemma entMax_two : entMax 2 = XF 0 \/ entMax 2 = XNZ.
Proof.
  pose proof (entMax_val 2 ltac:(lia)) as H. replace (INR 2 - 1) with 1 in H by (simpl; lra).
  rewrite ln_1 in H. unfold Rdiv in H; rewrite Rmult_0_l in H.
  destruct (entMax 2); simpl in H; try discriminate; [left; congruence|right; reflexivity].
Qed.

Lemma xdiv_zero_not_number : forall v z, z = XF 0 \/ z = XNZ -> xval (xdiv v z) = None.
Proof.
  intros v z [->| ->]; destruct v; cbn [xdiv xval]; try reflexivity;
  rewrite (proj2 (Reqb_true 0 0) eq_refl); try match goal with |- context [if ?b then _ else _] => destruct b end; reflexivity.
Qed.

Lemma entropy_two_groups : forall l, List.length l = 2%nat -> xval (entropy_row l) = None.
Proof. intros l L; unfold entropy_row; rewrite L; apply xdiv_zero_not_number, entMax_two. Qed.
