(** Proofs about the bandwidth weighting functions. *)
From Coq Require Import Reals Bool List ZArith Lra Lia Psatz Permutation Sorted.
From Verif Require Import Outcome XReal XRealFacts KernelModel KernelSpec RSort.
Import ListNotations.
Local Open Scope R_scope.

(** ** Kernels as real functions *)

Ltac xv :=
  repeat first
    [ eassumption
    | reflexivity
    | apply xval_xexp | apply xval_xmul | apply xval_xsub | apply xval_xopp
    | apply xval_xofbool | apply xval_xdiv ].

Lemma kernel_val k x y d h : xval x = Some d -> xval y = Some h -> 0 < h ->
  xval (kernel_fn k x y) = Some (K k d h).
Proof.
  intros Hx Hy Hh. assert (h * h <> 0) by nra. assert (h * h * h <> 0) by nra.
  destruct k; simpl.
  - unfold k_gaussian. erewrite xval_xexp; [|eapply xval_xdiv; [eapply xval_xmul; eauto
      |eapply xval_xmul; [reflexivity|eapply xval_xmul; eauto]|nra]].
    f_equal. f_equal. field. lra.
  - unfold k_exponential. erewrite xval_xexp; [|eapply xval_xdiv; [eapply xval_xopp; eauto|eauto|lra]].
    f_equal. f_equal. field. lra.
  - unfold k_bisquare. rewrite (xltb_val _ _ _ _ Hx Hy).
    erewrite xval_xmul; [|apply xval_xofbool|eapply xval_xmul; eapply xval_xsub; try reflexivity;
      eapply xval_xdiv; try (eapply xval_xmul; eauto); eauto].
    unfold Rltb. destruct (Rlt_dec d h); f_equal; [field; lra|lra].
  - unfold k_tricube. rewrite (xltb_val _ _ _ _ Hx Hy).
    erewrite xval_xmul; [|apply xval_xofbool|eapply xval_xmul; [eapply xval_xmul|];
      eapply xval_xsub; try reflexivity; eapply xval_xdiv;
      try (eapply xval_xmul; [eapply xval_xmul|]; eauto); eauto].
    unfold Rltb. destruct (Rlt_dec d h); f_equal; [field; lra|lra].
  - unfold k_boxcar. rewrite (xltb_val _ _ _ _ Hx Hy).
    erewrite xval_xmul; [|apply xval_xofbool|reflexivity].
    unfold Rltb. destruct (Rlt_dec d h); f_equal; lra.
Qed.

Lemma ratio_range d h : 0 <= d -> 0 < h -> d < h -> 0 <= d / h < 1.
Proof.
  intros. split.
  - apply Rmult_le_reg_r with h; auto. unfold Rdiv; rewrite Rmult_assoc, Rinv_l; lra.
  - apply Rmult_lt_reg_r with h; auto. unfold Rdiv; rewrite Rmult_assoc, Rinv_l; lra.
Qed.
Lemma ratio_nonneg d h : 0 <= d -> 0 < h -> 0 <= d / h.
Proof.
  intros. apply Rmult_le_reg_r with h; auto. unfold Rdiv; rewrite Rmult_assoc, Rinv_l; lra.
Qed.
Lemma ratio_mono d d' h h' : 0 <= d -> d <= d' -> 0 < h' -> h' <= h -> d / h <= d' / h'.
Proof.
  intros. unfold Rdiv. apply Rmult_le_compat; try lra.
  - left; apply Rinv_0_lt_compat; lra.
  - apply Rinv_le_contravar; lra.
Qed.
Lemma exp_le x y : x <= y -> exp x <= exp y.
Proof. intros [H| ->]; [left; apply exp_increasing; auto|right; auto]. Qed.

Lemma cube_mono x y : 0 <= x -> x <= y -> x ^ 3 <= y ^ 3.
Proof. intros; apply pow_incr; lra. Qed.

(** Kernels decrease when the distance grows or the bandwidth shrinks. *)
Lemma K_mono k d d' h h' : 0 <= d -> d <= d' -> 0 < h' -> h' <= h ->
  K k d' h' <= K k d h.
Proof.
  intros Hd Hdd Hh' Hh.
  pose proof (ratio_mono d d' h h' Hd Hdd Hh' Hh) as R.
  pose proof (ratio_nonneg d h Hd ltac:(lra)) as R0.
  pose proof (ratio_nonneg d' h' ltac:(lra) Hh') as R0'.
  destruct k; simpl.
  - apply exp_le. nra.
  - apply exp_le. lra.
  - destruct (Rlt_dec d' h'), (Rlt_dec d h); try lra.
    + pose proof (ratio_range d' h' ltac:(lra) Hh' r). 
      pose proof (ratio_range d h ltac:(lra) ltac:(lra) r0).
      set (u := d / h) in *; set (v := d' / h') in *.
      assert (u * (u * 1) <= v * (v * 1)) by nra.
      assert (v * (v * 1) <= 1) by nra.
      nra.
    + pose proof (pow2_ge_0 (1 - (d / h) ^ 2)). simpl in *. lra.
  - destruct (Rlt_dec d' h'), (Rlt_dec d h); try lra.
    + pose proof (ratio_range d' h' ltac:(lra) Hh' r). 
      pose proof (ratio_range d h ltac:(lra) ltac:(lra) r0).
      pose proof (cube_mono (d / h) (d' / h') R0 R).
      assert ((d' / h') ^ 3 <= 1). { replace 1 with (1 ^ 3) by ring. apply pow_incr. lra. }
      apply (pow_incr (1 - (d' / h') ^ 3) (1 - (d / h) ^ 3) 3). lra.
    + pose proof (ratio_range d h ltac:(lra) ltac:(lra) r).
      assert ((d / h) ^ 3 <= 1). { replace 1 with (1 ^ 3) by ring. apply pow_incr. lra. }
      apply (pow_le (1 - (d / h) ^ 3) 3). lra.
  - destruct (Rlt_dec d' h'), (Rlt_dec d h); lra.
Qed.

Lemma K_zero k h : 0 < h -> K k 0 h = 1.
Proof.
  intros. assert (0 / h = 0) as E by (field; lra).
  destruct k; simpl; rewrite ?E; try (destruct (Rlt_dec 0 h); [|lra]); try ring.
  - replace (- (0 * (0 * 1)) / 2) with 0 by field. apply exp_0.
  - replace (- 0) with 0 by ring. apply exp_0.
Qed.

Lemma K_nonneg k d h : 0 <= d -> 0 < h -> 0 <= K k d h.
Proof.
  intros. destruct k; simpl; try (left; apply exp_pos); destruct (Rlt_dec d h); try lra.
  - apply (pow2_ge_0 (1 - (d / h) ^ 2)).
  - pose proof (ratio_range d h H H0 r).
    assert ((d / h) ^ 3 <= 1). { replace 1 with (1 ^ 3) by ring. apply pow_incr. lra. }
    apply (pow_le (1 - (d / h) ^ 3) 3). lra.
Qed.

Lemma K_le_1 k d h : 0 <= d -> 0 < h -> K k d h <= 1.
Proof. intros. rewrite <- (K_zero k h H0). apply K_mono; lra. Qed.

Lemma K_compact k d h : compact k = true -> 0 <= d -> 0 < h -> (K k d h = 0 <-> h <= d).
Proof.
  intros C Hd Hh. destruct k; try discriminate; simpl; destruct (Rlt_dec d h); split; intros; try lra.
  - pose proof (ratio_range d h Hd Hh r). set (u := d / h) in *.
    exfalso. assert (0 < 1 - u * (u * 1)) by nra. nra.
  - pose proof (ratio_range d h Hd Hh r).
    assert (0 < 1 - (d / h) ^ 3).
    { assert ((d / h) ^ 3 < 1); [|lra]. simpl. set (u := d / h) in *.
      assert (0 <= u * u < 1) by nra. nra. }
    pose proof (pow_lt _ 3 H1). simpl in *. lra.
Qed.

Lemma K_smooth k d h : compact k = false -> 0 < K k d h.
Proof. destruct k; try discriminate; intros _; apply exp_pos. Qed.

Lemma K_scale k d h c : 0 < c -> 0 < h -> K k (c * d) (c * h) = K k d h.
Proof.
  intros. assert (c * d / (c * h) = d / h) as E by (field; lra).
  destruct k; simpl; rewrite ?E; auto;
    destruct (Rlt_dec (c * d) (c * h)), (Rlt_dec d h); auto; exfalso; nra.
Qed.

(** ** The adaptive bandwidth *)

Lemma Int_part_spec r : IZR (Int_part r) <= r < IZR (Int_part r) + 1.
Proof. destruct (base_Int_part r). lra. Qed.

Lemma Int_part_unique r z : IZR z <= r < IZR z + 1 -> Int_part r = z.
Proof.
  intros H. pose proof (Int_part_spec r).
  assert (IZR z < IZR (Int_part r + 1)) by (rewrite plus_IZR; lra).
  assert (IZR (Int_part r) < IZR (z + 1)) by (rewrite plus_IZR; lra).
  apply lt_IZR in H1, H2. lia.
Qed.

Lemma arma_at_val xs rs i r : xvals xs rs -> nth_error rs i = Some r ->
  exists x, arma_at xs (Z.of_nat i) = Ok x /\ xval x = Some r.
Proof.
  intros H E. destruct (xvals_nth _ _ _ _ H E) as (x & Ex & Vx).
  exists x; split; auto. unfold arma_at.
  destruct (Z.of_nat i <? 0)%Z eqn:F; [apply Z.ltb_lt in F; lia|].
  rewrite Nat2Z.id, Ex. auto.
Qed.

Lemma nth_rsort_ex l i : (i < length l)%nat -> exists x, nth_error (rsort l) i = Some x.
Proof.
  intros. destruct (nth_error (rsort l) i) eqn:E; eauto.
  apply nth_error_None in E. rewrite rsort_length in E. lia.
Qed.

(** max over the list is the n-th smallest. *)
Lemma xmax_fold xs rs m0 : xvals xs rs -> forall r0, xval m0 = Some r0 ->
  exists m, fold_left (fun m x => if xltb m x then x else m) xs m0 = m /\
   exists r, xval m = Some r /\ (r = r0 \/ In r rs) /\ r0 <= r /\ Forall (fun s => s <= r) rs.
Proof.
  revert rs m0; induction xs; intros [|s rs] m0 H r0 H0; try discriminate; simpl.
  - exists m0; split; auto. exists r0; repeat split; auto. lra.
  - apply xvals_inv in H as [H1 H2]. rewrite (xltb_val _ _ _ _ H0 H1).
    destruct (Rltb r0 s) eqn:E.
    + apply Rltb_true in E. destruct (IHxs rs a H2 s H1) as (m & Em & r & Vr & I & L & F).
      exists m; split; auto. exists r; repeat split; auto; try lra.
      destruct I; auto.
    + apply Rltb_false in E. destruct (IHxs rs m0 H2 r0 H0) as (m & Em & r & Vr & I & L & F).
      exists m; split; auto. exists r; repeat split; auto; try lra.
      destruct I; auto. constructor; auto; lra.
Qed.

Lemma arma_max_val xs rs : xvals xs rs -> rs <> [] ->
  exists m r, arma_max xs = Ok m /\ xval m = Some r /\ In r rs /\ Forall (fun s => s <= r) rs.
Proof.
  destruct xs, rs as [|s rs]; intros H N; try discriminate; try congruence.
  apply xvals_inv in H as [H1 H2]. assert (arma_max (x :: xs) = Ok (fold_left (fun m x => if xltb m x then x else m) xs x)) as ->
    by (destruct x; simpl in *; auto; discriminate).
  destruct (xmax_fold _ _ x H2 s H1) as (m & Em & r & Vr & I & L & F).
  exists m, r; repeat split; auto.
  - congruence.
  - destruct I; [subst; left; auto|right; auto].
Qed.

Lemma max_is_kth l m : In m l -> Forall (fun s => s <= m) l -> kth_smallest (length l) l m.
Proof.
  intros I F. split; auto. split.
  - unfold count_lt. destruct (in_split _ _ I) as (l1 & l2 & ->).
    rewrite filter_app. simpl. destruct (Rlt_dec m m); [lra|].
    rewrite !app_length. simpl.
    pose proof (filter_length_le' (fun x => if Rlt_dec x m then true else false) l1).
    pose proof (filter_length_le' (fun x => if Rlt_dec x m then true else false) l2). lia.
  - assert (filter (fun x => if Rle_dec x m then true else false) l = l) as E.
    { clear I. induction F; simpl; auto. destruct (Rle_dec x m); [f_equal; auto|lra]. }
    unfold count_le. rewrite E. lia.
Qed.

Lemma INR_pos_length {A} (l : list A) : l <> [] -> 0 < INR (length l).
Proof. destruct l; [congruence|]. intros. apply lt_0_INR. simpl; lia. Qed.

Lemma div_lt_1 b n : 0 < n -> (b / n < 1 <-> b < n).
Proof.
  intros. split; intros.
  - apply Rmult_lt_compat_r with (r := n) in H0; auto. unfold Rdiv in H0.
    rewrite Rmult_assoc, Rinv_l in H0; lra.
  - apply Rmult_lt_reg_r with n; auto. unfold Rdiv. rewrite Rmult_assoc, Rinv_l; lra.
Qed.

Lemma fixbw_val xb b xs ds : xval xb = Some b -> xvals xs ds -> ds <> [] -> 1 <= b ->
  exists x h, adaptive_fixbw xb xs = Ok x /\ xval x = Some h /\ adaptive_bandwidth b ds h.
Proof.
  intros Hb H N B1. pose proof (INR_pos_length _ N) as Pn.
  unfold adaptive_fixbw. rewrite (xvals_length _ _ H).
  assert (xval (xdiv xb (XF (INR (length ds)))) = Some (b / INR (length ds))) as Vd
    by (apply xval_xdiv; [exact Hb|reflexivity|lra]).
  rewrite (xltb_val _ (XF 1) _ 1 Vd eq_refl).
  destruct (Rltb (b / INR (length ds)) 1) eqn:E.
  - apply Rltb_true, (div_lt_1 _ _ Pn) in E.
    unfold arma_sort. rewrite (xvals_no_nan _ _ H). simpl.
    unfold floor_int. rewrite Hb. simpl.
    pose proof (Int_part_spec b) as IP. set (z := Int_part b) in *.
    assert (1 <= z)%Z.
    { assert (0 < z)%Z; [|lia]. apply lt_IZR. lra. }
    pose proof (Z2Nat.id z ltac:(lia)) as Zk. set (k := Z.to_nat z) in *.
    assert (IZR z = INR k) as Ek by (rewrite INR_IZR_INZ; f_equal; lia).
    assert (k < length ds)%nat as Lk by (apply INR_lt; lra).
    destruct (nth_rsort_ex ds (k - 1) ltac:(lia)) as (dk & E0).
    destruct (nth_rsort_ex ds k ltac:(lia)) as (dk1 & E1).
    destruct (arma_at_val _ _ _ _ (xisort_val _ _ H) E0) as (x0 & A0 & V0).
    destruct (arma_at_val _ _ _ _ (xisort_val _ _ H) E1) as (x1 & A1 & V1).
    replace (z - 1)%Z with (Z.of_nat (k - 1)) by lia.
    rewrite Zk in A1.
    rewrite A0. simpl. rewrite A1. simpl.
    eexists; exists (dk + (dk1 - dk) * (b - IZR z)); split; [reflexivity|].
    split.
    { apply xval_xadd; auto. apply xval_xmul; [apply xval_xsub; auto|apply xval_xsub; auto]. }
    apply rsort_kth in E0, E1. replace (S (k - 1)) with k in E0 by lia.
    split; [|lra]. intros _. exists k, dk, dk1. rewrite <- Ek. repeat split; try apply E0; try apply E1; try lra.
  - apply Rltb_false in E. assert (INR (length ds) <= b) as E'.
    { destruct (Rle_dec (INR (length ds)) b); auto. exfalso.
      assert (b / INR (length ds) < 1) by (apply div_lt_1; lra). lra. }
    destruct (arma_max_val _ _ H N) as (m & r & Em & Vm & I & F). rewrite Em. simpl.
    eexists; exists (b / INR (length ds) * r); split; [reflexivity|]. split.
    { apply xval_xmul; auto. }
    split; [lra|]. intros _. exists r; split; auto. apply max_is_kth; auto.
Qed.

Lemma kfloor_unique b k k' : INR k <= b < INR k + 1 -> INR k' <= b < INR k' + 1 -> k = k'.
Proof.
  intros. assert (INR k < INR (S k')) by (rewrite S_INR; lra).
  assert (INR k' < INR (S k)) by (rewrite S_INR; lra).
  apply INR_lt in H1, H2. lia.
Qed.

Lemma adaptive_bandwidth_unique b ds h h' : adaptive_bandwidth b ds h ->
  adaptive_bandwidth b ds h' -> h = h'.
Proof.
  intros [A B] [A' B']. destruct (Rlt_dec b (INR (length ds))).
  - destruct (A r) as (k & d & e & L & P & Q & ->).
    destruct (A' r) as (k' & d' & e' & L' & P' & Q' & ->).
    assert (k = k') by (eapply kfloor_unique; eauto). subst.
    rewrite (kth_unique _ _ _ _ P P'), (kth_unique _ _ _ _ Q Q'). auto.
  - destruct (B ltac:(lra)) as (d & P & ->). destruct (B' ltac:(lra)) as (d' & P' & ->).
    rewrite (kth_unique _ _ _ _ P P'). auto.
Qed.

Lemma adaptive_bandwidth_mono b b' ds h h' : ds <> [] -> nonneg ds -> 1 <= b -> b <= b' ->
  adaptive_bandwidth b ds h -> adaptive_bandwidth b' ds h' -> h <= h'.
Proof.
  intros N NN B1 BB [A B] [A' B']. pose proof (INR_pos_length _ N).
  destruct (Rlt_dec b (INR (length ds))) as [Lb|Lb].
  - destruct (A Lb) as (k & d & e & L & P & Q & ->). pose proof (kth_mono k (S k) ds d e ltac:(lia) P Q).
    destruct (Rlt_dec b' (INR (length ds))) as [Lb'|Lb'].
    + destruct (A' Lb') as (k' & d' & e' & L' & P' & Q' & ->).
      assert (k <= k')%nat as KK.
      { assert (k < S k')%nat; [|lia]. apply INR_lt. rewrite S_INR. lra. }
      pose proof (kth_mono k' (S k') ds d' e' ltac:(lia) P' Q').
      destruct (Nat.eq_dec k k') as [->|Ne].
      * rewrite (kth_unique _ _ _ _ P P'), (kth_unique _ _ _ _ Q Q') in *. nra.
      * pose proof (kth_mono (S k) k' ds e d' ltac:(lia) Q P'). nra.
    + destruct (B' ltac:(lra)) as (m & P' & ->).
      assert (k < length ds)%nat by (apply INR_lt; lra).
      pose proof (kth_mono (S k) (length ds) ds e m ltac:(lia) Q P').
      assert (0 <= m). { destruct P' as [I _]. unfold nonneg in NN. rewrite Forall_forall in NN; auto. }
      assert (1 <= b' / INR (length ds)).
      { apply Rmult_le_reg_r with (INR (length ds)); auto. unfold Rdiv.
        rewrite Rmult_assoc, Rinv_l; lra. }
      nra.
  - destruct (B ltac:(lra)) as (m & P & ->). destruct (B' ltac:(lra)) as (m' & P' & ->).
    rewrite (kth_unique _ _ _ _ P P') in *.
    assert (0 <= m'). { destruct P' as [I _]. unfold nonneg in NN. rewrite Forall_forall in NN; auto. }
    apply Rmult_le_compat_r; auto. unfold Rdiv. apply Rmult_le_compat_r; auto.
    left; apply Rinv_0_lt_compat; auto.
Qed.

Lemma count_zero_le0 ds : nonneg ds -> count_zero ds = count_le 0 ds.
Proof.
  unfold count_zero, count_le. induction 1; simpl; auto.
  destruct (Req_EM_T x 0), (Rle_dec x 0); simpl; auto; try lra; exfalso; apply n; lra.
Qed.

Lemma kth_pos_iff k ds x : nonneg ds -> kth_smallest k ds x ->
  (0 < x <-> (count_zero ds < k)%nat).
Proof.
  intros NN [I [A B]]. rewrite (count_zero_le0 _ NN). split; intros.
  - pose proof (count_le_lt 0 x ds H). lia.
  - unfold nonneg in NN. rewrite Forall_forall in NN. specialize (NN _ I).
    destruct NN as [?|E]; auto. subst. lia.
Qed.

Lemma adaptive_bandwidth_nonneg b ds h : ds <> [] -> nonneg ds -> 1 <= b ->
  adaptive_bandwidth b ds h -> 0 <= h.
Proof.
  intros N NN B1 [A B]. pose proof (INR_pos_length _ N).
  unfold nonneg in NN; rewrite Forall_forall in NN.
  destruct (Rlt_dec b (INR (length ds))) as [Lb|Lb].
  - destruct (A Lb) as (k & d & e & L & P & Q & ->). pose proof (kth_mono k (S k) ds d e ltac:(lia) P Q).
    pose proof (NN _ (proj1 P)). nra.
  - destruct (B ltac:(lra)) as (m & P & ->). pose proof (NN _ (proj1 P)).
    apply Rmult_le_pos; auto. apply ratio_nonneg; lra.
Qed.

Lemma adaptive_bandwidth_pos b ds h : ds <> [] -> nonneg ds -> 1 <= b ->
  adaptive_bandwidth b ds h ->
  (0 < h <-> INR (count_zero ds) < b /\ (count_zero ds < length ds)%nat).
Proof.
  intros N NN B1 AB. pose proof (adaptive_bandwidth_nonneg _ _ _ N NN B1 AB) as Hnn.
  destruct AB as [A B]. pose proof (INR_pos_length _ N).
  assert (count_zero ds <= length ds)%nat by apply filter_length_le'.
  destruct (Rlt_dec b (INR (length ds))) as [Lb|Lb].
  - destruct (A Lb) as (k & d & e & L & P & Q & ->). pose proof (kth_mono k (S k) ds d e ltac:(lia) P Q).
    assert (k < length ds)%nat by (apply INR_lt; lra).
    pose proof (kth_pos_iff _ _ _ NN P) as Pd. pose proof (kth_pos_iff _ _ _ NN Q) as Pe.
    unfold nonneg in NN; rewrite Forall_forall in NN.
    pose proof (NN _ (proj1 P)). pose proof (NN _ (proj1 Q)).
    split.
    + intros Hp. destruct (lt_dec (count_zero ds) k) as [Lz|Lz].
      { split; [|lia]. apply lt_INR in Lz. lra. }
      assert (d = 0). { destruct H3; auto. exfalso. apply Lz, Pd; auto. } subst.
      assert (0 < e) by nra. assert (0 < b - INR k) by nra.
      apply Pe in H5. assert (count_zero ds = k) by lia. rewrite H7. split; [lra|lia].
    + intros [Z1 Z2]. destruct (lt_dec (count_zero ds) k) as [Lz|Lz].
      { apply Pd in Lz. nra. }
      assert (count_zero ds < S k)%nat as Lz'.
      { apply INR_lt. rewrite S_INR. lra. }
      assert (count_zero ds = k) by lia. apply Pe in Lz'. rewrite H5 in Z1.
      assert (d = 0). { destruct H3; auto. exfalso. apply Lz, Pd; auto. } subst d. nra.
  - destruct (B ltac:(lra)) as (m & P & ->).
    pose proof (kth_pos_iff _ _ _ NN P) as Pd.
    assert (0 < b / INR (length ds)).
    { unfold Rdiv. apply Rmult_lt_0_compat; [lra|apply Rinv_0_lt_compat; lra]. }
    unfold nonneg in NN; rewrite Forall_forall in NN. pose proof (NN _ (proj1 P)).
    split.
    + intros Hp. assert (0 < m) by nra. apply Pd in H3. split; [|auto].
      apply lt_INR in H3. lra.
    + intros [_ Z2]. apply Pd in Z2. nra.
Qed.

(** ** The weight function *)

(** Effective distance bandwidth, fixed or adaptive. *)
Definition effective (adaptive : bool) (b : R) (ds : list R) (h : R) : Prop :=
  if adaptive then adaptive_bandwidth b ds h else h = b.

Lemma usable_nonempty b ds : usable true b ds -> ds <> [].
Proof. intros (_ & _ & H) ->. simpl in H. lia. Qed.

Lemma usable_pos adaptive b ds h : nonneg ds -> usable adaptive b ds ->
  effective adaptive b ds h -> 0 < h.
Proof.
  destruct adaptive; simpl.
  - intros NN U AB. pose proof (usable_nonempty _ _ U). destruct U as (B1 & U).
    apply (adaptive_bandwidth_pos b ds h); auto.
  - intros _ U ->; auto.
Qed.

Lemma weight_val k adaptive xb b xs ds : xval xb = Some b -> xvals xs ds -> nonneg ds ->
  usable adaptive b ds ->
  exists ws h, bw_weight k adaptive xb xs = Ok ws /\ effective adaptive b ds h /\ 0 < h /\
    xvals ws (map (fun d => K k d h) ds).
Proof.
  intros Hb H NN U. destruct adaptive.
  - pose proof (usable_nonempty _ _ U) as N.
    destruct (fixbw_val _ _ _ _ Hb H N (proj1 U)) as (x & h & E & V & AB).
    pose proof (usable_pos true b ds h NN U AB).
    simpl. rewrite E. simpl. eexists; exists h; repeat split; auto; try apply AB.
    eapply xvals_map; eauto. intros. apply kernel_val; auto.
  - simpl. eexists; exists b; repeat split; auto. simpl in U.
    eapply xvals_map; eauto. intros. apply kernel_val; auto.
Qed.

Lemma nonneg_perm ds ds' : Permutation ds ds' -> nonneg ds -> nonneg ds'.
Proof. unfold nonneg; intros; eapply Permutation_Forall; eauto. Qed.

Lemma effective_perm adaptive b ds ds' h : Permutation ds ds' ->
  effective adaptive b ds h -> effective adaptive b ds' h.
Proof.
  intros P. destruct adaptive; simpl; auto.
  unfold adaptive_bandwidth, kth_smallest.
  rewrite (Permutation_length P). intros [A B]. split.
  - intros L. destruct (A L) as (k & d & e & L' & [I P'] & [I' Q'] & E).
    exists k, d, e.
    rewrite (count_lt_perm _ _ _ P), (count_le_perm _ _ _ P) in P'.
    rewrite (count_lt_perm _ _ _ P), (count_le_perm _ _ _ P) in Q'.
    repeat split; try apply L'; try apply P'; try apply Q'; auto;
    eapply Permutation_in; eauto.
  - intros L. destruct (B L) as (d & [I P'] & E). exists d.
    rewrite (count_lt_perm _ _ _ P), (count_le_perm _ _ _ P) in P'.
    repeat split; try apply P'; auto; eapply Permutation_in; eauto.
Qed.

Lemma effective_unique adaptive b ds h h' : effective adaptive b ds h -> effective adaptive b ds h' -> h = h'.
Proof. destruct adaptive; simpl; [apply adaptive_bandwidth_unique|congruence]. Qed.

Lemma usable_perm adaptive b ds ds' : Permutation ds ds' -> usable adaptive b ds -> usable adaptive b ds'.
Proof.
  intros P; destruct adaptive; simpl; auto.
  rewrite (count_zero_perm _ _ P), (Permutation_length P); auto.
Qed.

Lemma count_lt_scale c t l : 0 < c -> count_lt (c * t) (map (Rmult c) l) = count_lt t l.
Proof.
  intros; unfold count_lt; induction l; simpl; auto.
  destruct (Rlt_dec (c * a) (c * t)), (Rlt_dec a t); simpl; auto; exfalso; nra.
Qed.
Lemma count_le_scale c t l : 0 < c -> count_le (c * t) (map (Rmult c) l) = count_le t l.
Proof.
  intros; unfold count_le; induction l; simpl; auto.
  destruct (Rle_dec (c * a) (c * t)), (Rle_dec a t); simpl; auto; exfalso; nra.
Qed.
Lemma count_zero_scale c l : 0 < c -> count_zero (map (Rmult c) l) = count_zero l.
Proof.
  intros; unfold count_zero; induction l; simpl; auto.
  destruct (Req_EM_T (c * a) 0), (Req_EM_T a 0); simpl; auto; exfalso.
  - apply Rmult_integral in e. lra.
  - subst. apply n. ring.
Qed.
Lemma kth_scale c k l x : 0 < c -> kth_smallest k l x -> kth_smallest k (map (Rmult c) l) (c * x).
Proof.
  intros Hc [I P]. split; [apply in_map; auto|].
  rewrite count_lt_scale, count_le_scale; auto.
Qed.
Lemma adaptive_bandwidth_scale c b ds h : 0 < c -> adaptive_bandwidth b ds h ->
  adaptive_bandwidth b (map (Rmult c) ds) (c * h).
Proof.
  intros Hc [A B]. unfold adaptive_bandwidth. rewrite map_length. split; intros L.
  - destruct (A L) as (k & d & e & L' & P & Q & ->). exists k, (c * d), (c * e).
    split; auto. repeat split; try (apply kth_scale; auto); try (apply (kth_scale c k ds d); auto);
      try (apply (kth_scale c (S k) ds e); auto). ring.
  - destruct (B L) as (d & P & ->). exists (c * d). split; [|ring].
    apply (kth_scale c _ ds d); auto.
Qed.
Lemma nonneg_scale c ds : 0 < c -> nonneg ds -> nonneg (map (Rmult c) ds).
Proof.
  intros Hc H. apply Forall_map. eapply Forall_impl; [|exact H]. simpl; intros; nra.
Qed.

Lemma nth_error_map' {A B} (f : A -> B) l i : nth_error (map f l) i = option_map f (nth_error l i).
Proof. revert i; induction l; intros [|i]; simpl; auto. Qed.
