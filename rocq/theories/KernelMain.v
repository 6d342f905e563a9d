(** Final lemmas of the weighting properties C01-C11. *)
From Coq Require Import Reals Bool List ZArith Lra Lia Psatz Permutation Sorted.
From Verif Require Import Outcome XReal XRealFacts KernelModel KernelSpec RSort KernelProofs.
Import ListNotations.
Local Open Scope R_scope.

Section Common.
Variables (k : kernel) (adaptive : bool) (xb : xd) (b : R) (xs : list xd) (ds : list R).
Hypothesis Hb : xval xb = Some b.
Hypothesis Hxs : xvals xs ds.
Hypothesis Hnn : nonneg ds.
Hypothesis Hu : usable adaptive b ds.

Lemma main_values : exists h, effective adaptive b ds h /\ 0 < h /\
  returns_values (bw_weight k adaptive xb xs) (map (fun d => K k d h) ds).
Proof.
  destruct (weight_val k adaptive xb b xs ds Hb Hxs Hnn Hu) as (ws & h & E & F & P & V).
  exists h; repeat split; auto. exists ws; auto.
Qed.

Lemma C01_main : exists rs, returns_values (bw_weight k adaptive xb xs) rs /\
  length rs = length ds /\ Forall (fun w => 0 <= w <= 1) rs.
Proof.
  destruct main_values as (h & _ & P & V). eexists; split; [exact V|].
  split; [apply map_length|]. apply Forall_map. eapply Forall_impl; [|exact Hnn].
  simpl; intros. split; [apply K_nonneg|apply K_le_1]; auto.
Qed.

Lemma C02_main : exists rs, returns_values (bw_weight k adaptive xb xs) rs /\
  forall i j di dj, nth_error ds i = Some di -> nth_error ds j = Some dj -> di <= dj ->
    exists wi wj, nth_error rs i = Some wi /\ nth_error rs j = Some wj /\ wj <= wi.
Proof.
  destruct main_values as (h & _ & P & V). eexists; split; [exact V|].
  intros i j di dj Ei Ej L. exists (K k di h), (K k dj h).
  rewrite !nth_error_map', Ei, Ej. simpl. repeat split; auto.
  apply K_mono; try lra. unfold nonneg in Hnn; rewrite Forall_forall in Hnn.
  apply Hnn. eapply nth_error_In; eauto.
Qed.

Lemma C03_main : exists rs, returns_values (bw_weight k adaptive xb xs) rs /\
  (forall i, nth_error ds i = Some 0 -> nth_error rs i = Some 1) /\ Forall (fun w => w <= 1) rs.
Proof.
  destruct main_values as (h & _ & P & V). eexists; split; [exact V|]. split.
  - intros i Ei. rewrite nth_error_map', Ei. simpl. rewrite K_zero; auto.
  - apply Forall_map. eapply Forall_impl; [|exact Hnn]. simpl; intros; apply K_le_1; auto.
Qed.

Lemma C04_main : exists h rs, (if adaptive then adaptive_bandwidth b ds h else h = b) /\
  returns_values (bw_weight k adaptive xb xs) rs /\
  forall i d, nth_error ds i = Some d -> exists w, nth_error rs i = Some w /\
    (if compact k then (w = 0 <-> h <= d) else 0 < w).
Proof.
  destruct main_values as (h & F & P & V). exists h; eexists; split; [exact F|]. split; [exact V|].
  intros i d Ei. exists (K k d h). rewrite nth_error_map', Ei. split; auto.
  destruct (compact k) eqn:C.
  - apply K_compact; auto. unfold nonneg in Hnn; rewrite Forall_forall in Hnn.
    apply Hnn. eapply nth_error_In; eauto.
  - apply K_smooth; auto.
Qed.
End Common.

Lemma C05_main : forall k xb b xs ds, xval xb = Some b -> xvals xs ds -> nonneg ds ->
  usable true b ds ->
  exists h, adaptive_bandwidth b ds h /\ (forall h', adaptive_bandwidth b ds h' -> h' = h) /\
    (forall m, b = INR m -> (m <= length ds)%nat -> kth_smallest m ds h) /\
    returns_values (bw_weight k true xb xs) (map (fun d => K k d h) ds).
Proof.
  intros k xb b xs ds Hb Hxs Hnn Hu.
  destruct (main_values k true xb b xs ds Hb Hxs Hnn Hu) as (h & F & P & V).
  exists h. split; auto. split; [intros; eapply adaptive_bandwidth_unique; eauto|]. split; auto.
  intros m -> L. destruct F as [A B]. pose proof (INR_pos_length _ (usable_nonempty _ _ Hu)).
  destruct (Nat.eq_dec m (length ds)) as [->|N].
  - destruct B as (d & Q & ->); [lra|]. replace (INR (length ds) / INR (length ds) * d) with d; auto.
    field; lra.
  - destruct A as (k' & d & e & L' & Q & Q' & ->); [apply lt_INR; lia|].
    assert (k' = m) by (eapply kfloor_unique; eauto; lra). subst.
    replace (d + (INR m - INR m) * (e - d)) with d by ring. auto.
Qed.

Lemma usable_mono adaptive b b' ds : b <= b' -> usable adaptive b ds -> usable adaptive b' ds.
Proof. destruct adaptive; simpl; intros; [repeat split; try lra; tauto|lra]. Qed.

Lemma effective_mono adaptive b b' ds h h' : nonneg ds -> usable adaptive b ds -> b <= b' ->
  effective adaptive b ds h -> effective adaptive b' ds h' -> h <= h'.
Proof.
  intros NN U L. destruct adaptive; simpl.
  - apply adaptive_bandwidth_mono; auto. eapply usable_nonempty; eauto. apply U.
  - intros -> ->; auto.
Qed.

Lemma C06_main : forall k adaptive xb xb' b b' xs ds,
  xval xb = Some b -> xval xb' = Some b' -> xvals xs ds -> nonneg ds ->
  usable adaptive b ds -> b <= b' ->
  exists rs rs', returns_values (bw_weight k adaptive xb xs) rs /\
    returns_values (bw_weight k adaptive xb' xs) rs' /\ Forall2 Rle rs rs'.
Proof.
  intros k adaptive xb xb' b b' xs ds Hb Hb' Hxs Hnn Hu L.
  destruct (main_values k adaptive xb b xs ds Hb Hxs Hnn Hu) as (h & F & P & V).
  destruct (main_values k adaptive xb' b' xs ds Hb' Hxs Hnn (usable_mono _ _ _ _ L Hu)) as (h' & F' & P' & V').
  do 2 eexists; split; [exact V|split; [exact V'|]].
  pose proof (effective_mono _ _ _ _ _ _ Hnn Hu L F F').
  clear -Hnn P H. induction Hnn; simpl; constructor; auto. apply K_mono; lra.
Qed.

Lemma pick_perm ds p : Permutation p (seq 0 (length ds)) -> Permutation (pick ds p) ds.
Proof.
  intros P. unfold pick. rewrite P. clear.
  assert (map (fun i => nth i ds 0) (seq 0 (length ds)) = ds) as ->; auto.
  induction ds; simpl; auto. f_equal. rewrite <- seq_shift, map_map. auto.
Qed.

Lemma pick_map f ds p : Forall (fun i => (i < length ds)%nat) p ->
  pick (map f ds) p = map f (pick ds p).
Proof.
  unfold pick. induction 1; simpl; auto. f_equal; auto.
  rewrite nth_indep with (d' := f 0); [apply map_nth|rewrite map_length; auto].
Qed.

Lemma C07_main : forall k adaptive xb b xs xs' ds p,
  xval xb = Some b -> xvals xs ds -> nonneg ds -> usable adaptive b ds ->
  Permutation p (seq 0 (length ds)) -> xvals xs' (pick ds p) ->
  exists rs, returns_values (bw_weight k adaptive xb xs) rs /\
    returns_values (bw_weight k adaptive xb xs') (pick rs p).
Proof.
  intros k adaptive xb b xs xs' ds p Hb Hxs Hnn Hu Hp Hxs'.
  pose proof (Permutation_sym (pick_perm _ _ Hp)) as PP.
  destruct (main_values k adaptive xb b xs ds Hb Hxs Hnn Hu) as (h & F & P & V).
  destruct (main_values k adaptive xb b xs' (pick ds p) Hb Hxs' (nonneg_perm _ _ PP Hnn)
    (usable_perm _ _ _ _ PP Hu)) as (h' & F' & P' & V').
  apply (effective_perm _ _ _ _ _ PP) in F. assert (h = h') by (eapply effective_unique; eauto). subst.
  eexists; split; [exact V|]. rewrite pick_map; auto.
  apply Forall_forall. intros i I. apply (Permutation_in _ Hp) in I. apply in_seq in I. lia.
Qed.

Lemma C08_main : forall k (adaptive : bool) c xb xb' b xs xs' ds,
  0 < c -> xval xb = Some b -> xval xb' = Some (if adaptive then b else c * b) ->
  xvals xs ds -> xvals xs' (map (Rmult c) ds) -> nonneg ds -> usable adaptive b ds ->
  exists rs, returns_values (bw_weight k adaptive xb xs) rs /\
    returns_values (bw_weight k adaptive xb' xs') rs.
Proof.
  intros k adaptive c xb xb' b xs xs' ds Hc Hb Hb' Hxs Hxs' Hnn Hu.
  destruct (main_values k adaptive xb b xs ds Hb Hxs Hnn Hu) as (h & F & P & V).
  assert (usable adaptive (if adaptive then b else c * b) (map (Rmult c) ds)) as Hu'.
  { destruct adaptive; simpl in *; [rewrite count_zero_scale, map_length; auto|nra]. }
  destruct (main_values k adaptive xb' _ xs' _ Hb' Hxs' (nonneg_scale _ _ Hc Hnn) Hu') as (h' & F' & P' & V').
  assert (h' = c * h).
  { destruct adaptive; simpl in *.
    - eapply adaptive_bandwidth_unique; eauto. apply adaptive_bandwidth_scale; auto.
    - subst; auto. }
  subst. eexists; split; [exact V|].
  rewrite map_map in V'. erewrite map_ext; [exact V'|]. intros; simpl. rewrite K_scale; auto.
Qed.

(** ** C09: which calls fail *)
Lemma Int_part_lt1 b : b < 1 -> (Int_part b < 1)%Z.
Proof. intros. pose proof (Int_part_spec b). apply lt_IZR. lra. Qed.

Lemma C09_main : forall k adaptive xb b xs ds, xval xb = Some b -> xvals xs ds -> 0 < b ->
  (bw_weight k adaptive xb xs = Throw /\ adaptive = true /\ (b < 1 \/ ds = [])) \/
  (exists ws, bw_weight k adaptive xb xs = Ok ws /\ length ws = length ds /\
     (adaptive = false \/ (1 <= b /\ ds <> []))).
Proof.
  intros k adaptive xb b xs ds Hb Hxs Hp. destruct adaptive.
  - simpl. destruct ds as [|d0 ds0] eqn:Ed.
    + left. apply xvals_nil_inv in Hxs. subst. split; auto.
      unfold adaptive_fixbw. simpl.
      destruct xb; simpl in Hb; inversion Hb; subst; simpl; try lra.
      unfold Reqb. destruct (Req_EM_T 0 0); [|lra]. destruct (Req_EM_T b 0); [lra|].
      assert (Rltb b 0 = false) as -> by (apply Rltb_false; lra).
      assert (Rltb 0 0 = false) as -> by (apply Rltb_false; lra). reflexivity.
    + rewrite <- Ed in *. assert (ds <> []) as N by congruence. destruct (Rlt_dec b 1).
      * left. split; auto. unfold adaptive_fixbw. rewrite (xvals_length _ _ Hxs).
        pose proof (INR_pos_length _ N).
        assert (xval (xdiv xb (XF (INR (length ds)))) = Some (b / INR (length ds))) as Vd
          by (apply xval_xdiv; [exact Hb|reflexivity|lra]).
        rewrite (xltb_val _ (XF 1) _ 1 Vd eq_refl).
        assert (1 <= INR (length ds)) by (subst; simpl length; rewrite S_INR; pose proof (pos_INR (length ds0)); lra).
        assert (Rltb (b / INR (length ds)) 1 = true) as -> by (apply Rltb_true, div_lt_1; lra).
        unfold arma_sort. rewrite (xvals_no_nan _ _ Hxs). simpl.
        unfold floor_int. rewrite Hb. simpl.
        unfold arma_at. pose proof (Int_part_lt1 b r).
        destruct (Z.ltb_spec (Int_part b - 1) 0); auto. lia.
      * right. destruct (fixbw_val xb b xs ds Hb Hxs N ltac:(lra)) as (x & h & E & _).
        rewrite E. simpl. eexists; split; [reflexivity|]. rewrite map_length.
        split; [apply xvals_length; auto|]. right; split; auto; lra.
  - right. simpl. eexists; split; [reflexivity|]. rewrite map_length.
    split; [apply xvals_length; auto|auto].
Qed.

(** ** C10: finiteness *)
Lemma xdiv_zero_zero x y : xval x = Some 0 -> xval y = Some 0 -> xdiv x y = XN.
Proof.
  assert (Reqb 0 0 = true) as E by (apply Reqb_true; auto).
  destruct x, y; simpl; intros H H'; inversion H; inversion H'; subst; rewrite ?E; auto.
Qed.

Lemma kernel_zero_zero k x y : k <> Boxcar -> xval x = Some 0 -> xval y = Some 0 -> kernel_fn k x y = XN.
Proof.
  intros Hk Hx Hy.
  assert (xval (xmul x x) = Some 0) by (erewrite xval_xmul; eauto; f_equal; ring).
  assert (xval (xmul y y) = Some 0) by (erewrite xval_xmul; eauto; f_equal; ring).
  assert (xval (xmul (xmul x x) x) = Some 0) by (erewrite xval_xmul; eauto; f_equal; ring).
  assert (xval (xmul (xmul y y) y) = Some 0) by (erewrite xval_xmul; eauto; f_equal; ring).
  destruct k; try congruence; simpl.
  - unfold k_gaussian. rewrite xdiv_zero_zero; auto.
    erewrite xval_xmul; [|reflexivity|eauto]. f_equal; ring.
  - unfold k_exponential. rewrite xdiv_zero_zero; auto.
    erewrite xval_xopp; eauto. f_equal; ring.
  - unfold k_bisquare. rewrite xdiv_zero_zero; auto. destruct (xofbool (xltb x y)); reflexivity.
  - unfold k_tricube. rewrite xdiv_zero_zero; auto. destruct (xofbool (xltb x y)); reflexivity.
Qed.

Lemma map_xval_nan xs rs : existsb xisnan xs = true -> xvals xs rs -> False.
Proof. intros E V. rewrite (xvals_no_nan _ _ V) in E. discriminate. Qed.

Lemma degenerate_zero b ds h : ds <> [] -> nonneg ds -> 1 <= b -> adaptive_bandwidth b ds h ->
  ~ usable true b ds -> h = 0 /\ In 0 ds.
Proof.
  intros N NN B1 AB U.
  pose proof (adaptive_bandwidth_nonneg _ _ _ N NN B1 AB).
  pose proof (adaptive_bandwidth_pos _ _ _ N NN B1 AB) as PI.
  assert (h = 0). { destruct H; auto. apply PI in H. exfalso. apply U. simpl; tauto. }
  split; auto.
  assert (~ (INR (count_zero ds) < b /\ (count_zero ds < length ds)%nat)) as NU by (simpl in U; tauto).
  assert (0 < count_zero ds)%nat as Z.
  { destruct (count_zero ds) eqn:E; [|lia]. exfalso. apply NU. simpl.
    split; [lra|destruct ds; [congruence|simpl; lia]]. }
  unfold count_zero in Z. destruct (filter _ ds) as [|x l] eqn:E; [simpl in Z; lia|].
  assert (In x (filter (fun x => if Req_EM_T x 0 then true else false) ds)) as I by (rewrite E; simpl; auto).
  apply filter_In in I as [I F]. destruct (Req_EM_T x 0); [subst; auto|discriminate].
Qed.

Lemma C10_main : forall k xb b xs ds, k <> Boxcar -> xval xb = Some b -> xvals xs ds ->
  nonneg ds -> ds <> [] -> 1 <= b ->
  ((exists rs, returns_values (bw_weight k true xb xs) rs) <->
   (INR (count_zero ds) < b /\ (count_zero ds < length ds)%nat)).
Proof.
  intros k xb b xs ds Hk Hb Hxs Hnn N B1. split.
  - intros (rs & ws & E & V).
    destruct (fixbw_val xb b xs ds Hb Hxs N B1) as (x & h & E' & Vh & AB).
    simpl in E. rewrite E' in E. simpl in E. inversion E; subst; clear E.
    destruct (Rlt_dec 0 h) as [P|P]; [apply (adaptive_bandwidth_pos b ds h); auto|].
    exfalso.
    assert (~ usable true b ds) as NU.
    { intros U. apply P. eapply (usable_pos true); eauto. }
    destruct (degenerate_zero _ _ _ N Hnn B1 AB NU) as [-> I].
    apply In_nth_error in I as [i I]. destruct (xvals_nth _ _ _ _ Hxs I) as (y & Ey & Vy).
    eapply map_xval_nan; [|exact V]. apply existsb_exists. exists XN; split; auto.
    replace XN with (kernel_fn k y x) by (apply kernel_zero_zero; auto).
    apply in_map_iff. exists y; split; auto. eapply nth_error_In; eauto.
  - intros U. destruct (main_values k true xb b xs ds Hb Hxs Hnn) as (h & _ & _ & V); [simpl; tauto|].
    eexists; exact V.
Qed.

Lemma C10_boxcar_main : forall xb b xs ds, xval xb = Some b -> xvals xs ds ->
  nonneg ds -> ds <> [] -> 1 <= b -> ~ usable true b ds ->
  returns_values (bw_weight Boxcar true xb xs) (map (fun _ => 0) ds).
Proof.
  intros xb b xs ds Hb Hxs Hnn N B1 U.
  destruct (fixbw_val xb b xs ds Hb Hxs N B1) as (x & h & E' & Vh & AB).
  destruct (degenerate_zero _ _ _ N Hnn B1 AB U) as [-> I].
  simpl. rewrite E'. simpl. eexists; split; [reflexivity|].
  eapply xvals_map; eauto. intros y r Ir Vy. unfold k_boxcar. rewrite (xltb_val _ _ _ _ Vy Vh).
  unfold nonneg in Hnn; rewrite Forall_forall in Hnn. specialize (Hnn _ Ir).
  assert (Rltb r 0 = false) as -> by (apply Rltb_false; auto).
  erewrite xval_xmul; [|reflexivity|reflexivity]. f_equal; ring.
Qed.

(** ** C11: CUDA *)
Lemma cu_kernel_val k x y d h : xval x = Some d -> xval y = Some h -> 0 < h ->
  xval (cu_kernel_fn k x y) =
  Some (match k with Boxcar => if Rle_dec d h then 1 else 0 | _ => K k d h end).
Proof.
  intros Hx Hy Hh. assert (h * h <> 0) by nra. assert (h * h * h <> 0) by nra.
  pose proof (kernel_val k x y d h Hx Hy Hh) as KV.
  destruct k; simpl; try exact KV.
  - unfold cu_bisquare. rewrite (xltb_val _ _ _ _ Hy Hx). unfold Rltb.
    assert (xval (xsub (XF 1) (xdiv (xmul x x) (xmul y y))) = Some (1 - d * d / (h * h))) as Q.
    { apply xval_xsub; [reflexivity|]. apply xval_xdiv; auto; apply xval_xmul; auto. }
    destruct (Rlt_dec h d), (Rlt_dec d h); try lra; simpl; auto;
      (erewrite xval_xmul; [|exact Q|exact Q]).
    + f_equal; field; lra.
    + assert (d = h) by lra. subst. f_equal; field; lra.
  - unfold cu_tricube. rewrite (xltb_val _ _ _ _ Hy Hx). unfold Rltb.
    assert (xval (xsub (XF 1) (xdiv (xmul (xmul x x) x) (xmul (xmul y y) y))) = Some (1 - d * d * d / (h * h * h))) as Q.
    { eapply xval_xsub; [reflexivity|]. eapply xval_xdiv; auto; eapply xval_xmul; auto; eapply xval_xmul; auto. }
    destruct (Rlt_dec h d), (Rlt_dec d h); try lra; simpl; auto;
      (erewrite xval_xmul; [|eapply xval_xmul; exact Q|exact Q]).
    + f_equal; field; lra.
    + assert (d = h) by lra. subst. f_equal; field; lra.
  - unfold cu_boxcar. rewrite (xltb_val _ _ _ _ Hy Hx). unfold Rltb.
    destruct (Rlt_dec h d), (Rle_dec d h); try lra; auto.
Qed.


Lemma cu_weight_fixed k xb b xs ds : xval xb = Some b -> xvals xs ds -> 0 < b -> b <> DBL_MAX ->
  returns_values (cu_weight k false xb xs) (map (fun d => cu_K k d b) ds).
Proof.
  intros Hb Hxs P NM. unfold cu_weight.
  assert ((match xb with XF r => Reqb r DBL_MAX | _ => false end) = false) as ->.
  { destruct xb; auto. simpl in Hb. inversion Hb; subst. apply Reqb_false; auto. }
  eexists; split; [reflexivity|]. eapply xvals_map; eauto.
  intros. apply cu_kernel_val; auto.
Qed.


Lemma trunc_nat x m : xval x = Some (INR m) -> trunc_int x = Ok (Z.of_nat m).
Proof.
  intros E. unfold trunc_int. rewrite E. pose proof (pos_INR m).
  assert (Rltb (INR m) 0 = false) as -> by (apply Rltb_false; auto).
  f_equal. apply Int_part_unique. rewrite <- INR_IZR_INZ. lra.
Qed.

Lemma cu_weight_adaptive k xb m xs ds h : xval xb = Some (INR m) -> xvals xs ds ->
  INR m <> DBL_MAX -> (1 <= m <= length ds)%nat -> kth_smallest m ds h -> 0 < h ->
  returns_values (cu_weight k true xb xs) (map (fun d => cu_K k d h) ds).
Proof.
  intros Hb Hxs NM L Q P. unfold cu_weight.
  assert ((match xb with XF r => Reqb r DBL_MAX | _ => false end) = false) as ->.
  { destruct xb; auto. simpl in Hb. inversion Hb; subst. apply Reqb_false; auto. }
  rewrite (xvals_length _ _ Hxs).
  assert (xval (if xltb xb (XF (INR (length ds))) then xb else XF (INR (length ds))) = Some (INR m)) as V.
  { rewrite (xltb_val _ (XF (INR (length ds))) _ (INR (length ds)) Hb eq_refl).
    destruct (Rltb (INR m) (INR (length ds))) eqn:E; auto.
    apply Rltb_false, INR_le in E. simpl. f_equal. f_equal. lia. }
  rewrite (trunc_nat _ _ V). simpl.
  pose proof (kth_nth m ds h ltac:(lia) Q) as E.
  destruct (xvals_nth _ _ _ _ (xisort_val _ _ Hxs) E) as (x & Ex & Vx).
  unfold raw_at. destruct (Z.ltb_spec (Z.of_nat m - 1) 0); [lia|].
  replace (Z.to_nat (Z.of_nat m - 1)) with (m - 1)%nat by lia. rewrite Ex. simpl.
  eexists; split; [reflexivity|]. eapply xvals_map; eauto.
  intros. apply cu_kernel_val; auto.
Qed.

Lemma cu_values k xb b xs ds m h : xval xb = Some b -> xvals xs ds -> b <> DBL_MAX -> (1 <= m)%nat ->
  (m = length ds /\ INR m <= b \/ (m < length ds)%nat /\ INR m <= b < INR m + 1) -> kth_smallest m ds h -> 0 < h ->
  returns_values (cu_weight k true xb xs) (map (fun d => cu_K k d h) ds).
Proof.
  intros Hb Hxs NM L1 C Q P. unfold cu_weight.
  assert ((match xb with XF r => Reqb r DBL_MAX | _ => false end) = false) as ->.
  { destruct xb; auto. simpl in Hb. inversion Hb; subst. apply Reqb_false; auto. }
  rewrite (xvals_length _ _ Hxs).
  assert (trunc_int (if xltb xb (XF (INR (length ds))) then xb else XF (INR (length ds))) = Ok (Z.of_nat m)) as ->.
  { rewrite (xltb_val _ (XF (INR (length ds))) _ (INR (length ds)) Hb eq_refl).
    destruct (Rltb b (INR (length ds))) eqn:E.
    - apply Rltb_true in E. destruct C as [[-> C]|[_ C]]; [lra|].
      unfold trunc_int. rewrite Hb. pose proof (pos_INR m).
      assert (Rltb b 0 = false) as -> by (apply Rltb_false; lra).
      f_equal. apply Int_part_unique. rewrite <- INR_IZR_INZ. lra.
    - apply Rltb_false in E. destruct C as [[-> C]|[C1 C]]; [apply trunc_nat; reflexivity|].
      apply lt_INR in C1. assert (m + 1 <= length ds)%nat as G by (apply INR_lt in C1; lia).
      apply le_INR in G. rewrite plus_INR in G. simpl in G. lra. }
  simpl.
  pose proof (kth_nth m ds h ltac:(lia) Q) as E.
  destruct (xvals_nth _ _ _ _ (xisort_val _ _ Hxs) E) as (x & Ex & Vx).
  unfold raw_at. destruct (Z.ltb_spec (Z.of_nat m - 1) 0); [lia|].
  replace (Z.to_nat (Z.of_nat m - 1)) with (m - 1)%nat by lia. rewrite Ex. simpl.
  eexists; split; [reflexivity|]. eapply xvals_map; eauto.
  intros. apply cu_kernel_val; auto.
Qed.
Lemma returns_values_unique o rs rs' : returns_values o rs -> returns_values o rs' -> rs = rs'.
Proof. intros (ws & E & V) (ws' & E' & V'). rewrite E in E'. inversion E'; subst. eapply xvals_inj; eauto. Qed.

Lemma fixed_main : forall k xb b xs ds, xval xb = Some b -> xvals xs ds -> nonneg ds -> 0 < b ->
  returns_values (bw_weight k false xb xs) (map (fun d => K k d b) ds).
Proof.
  intros k xb b xs ds Hb Hxs NN P.
  destruct (main_values k false xb b xs ds Hb Hxs NN P) as (h & F & _ & V). simpl in F. subst h. exact V.
Qed.
Lemma cu_fixed_main : forall k xb b xs ds, xval xb = Some b -> xvals xs ds -> 0 < b -> b <> DBL_MAX ->
  returns_values (cu_weight k false xb xs) (map (fun d => cu_K k d b) ds).
Proof. exact cu_weight_fixed. Qed.
Lemma cu_unweighted : forall k adaptive xs, cu_weight k adaptive (XF DBL_MAX) xs = Ok (map (fun _ => XF 1) xs).
Proof. intros. unfold cu_weight. assert (Reqb DBL_MAX DBL_MAX = true) as -> by (apply Reqb_true; auto). reflexivity. Qed.

Lemma C11_agree_main : forall k adaptive xb b xs ds,
  k <> Boxcar -> xval xb = Some b -> xvals xs ds -> nonneg ds -> usable adaptive b ds ->
  b <> DBL_MAX ->
  (adaptive = true -> exists m, b = INR m /\ (m <= length ds)%nat) ->
  exists rs, returns_values (bw_weight k adaptive xb xs) rs /\
             returns_values (cu_weight k adaptive xb xs) rs.
Proof.
  intros k adaptive xb b xs ds Hk Hb Hxs Hnn Hu NM HI.
  destruct adaptive.
  - destruct (HI eq_refl) as (m & -> & L).
    destruct (C05_main k xb _ xs ds Hb Hxs Hnn Hu) as (h & AB & _ & Q & V).
    eexists; split; [exact V|].
    assert (1 <= m)%nat. { apply INR_le. simpl. apply Hu. }
    pose proof (cu_weight_adaptive k xb m xs ds h Hb Hxs NM ltac:(lia) (Q m eq_refl L)
      (usable_pos true _ _ _ Hnn Hu AB)) as W.
    unfold cu_K in W. destruct k; try congruence; exact W.
  - destruct (main_values k false xb b xs ds Hb Hxs Hnn Hu) as (h & F & P & V). simpl in F. subst h.
    eexists; split; [exact V|].
    pose proof (cu_weight_fixed k xb b xs ds Hb Hxs P NM) as W.
    unfold cu_K in W. destruct k; try congruence; exact W.
Qed.

Lemma C11_boxcar_main : forall xb m xs ds,
  xval xb = Some (INR m) -> xvals xs ds -> nonneg ds -> usable true (INR m) ds ->
  (m <= length ds)%nat -> INR m <> DBL_MAX ->
  exists rs rs' i, returns_values (bw_weight Boxcar true xb xs) rs /\
    returns_values (cu_weight Boxcar true xb xs) rs' /\
    nth_error rs i = Some 0 /\ nth_error rs' i = Some 1.
Proof.
  intros xb m xs ds Hb Hxs Hnn Hu L NM.
  destruct (C05_main Boxcar xb _ xs ds Hb Hxs Hnn Hu) as (h & AB & _ & Q & V).
  assert (1 <= m)%nat. { apply INR_le. simpl. apply Hu. }
  specialize (Q m eq_refl L).
  pose proof (cu_weight_adaptive Boxcar xb m xs ds h Hb Hxs NM ltac:(lia) Q
      (usable_pos true _ _ _ Hnn Hu AB)) as W.
  destruct Q as [I _]. apply In_nth_error in I as [i Ei].
  do 2 eexists; exists i; split; [exact V|split; [exact W|]].
  rewrite !nth_error_map', Ei. simpl. destruct (Rlt_dec h h), (Rle_dec h h); try lra; auto.
Qed.
