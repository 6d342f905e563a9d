(** Proofs about GWDR. *)
From Coq Require Import Reals Bool List ZArith Lia Lra Psatz Permutation.
From Verif Require Import Outcome XReal XRealFacts KernelModel KernelSpec KernelProofs KernelMain DistModel GwdrModel GwdrSpec.
Import ListNotations.
Local Open Scope R_scope.

Lemma gaps_nonneg : forall m i, nonneg (gaps m i).
Proof. intros; unfold nonneg, gaps. apply Forall_forall. intros x I. apply in_map_iff in I as [c [<- _]]. apply Rabs_pos. Qed.

Lemma gaps_nth : forall m i j, (j < length (g_col m))%nat -> nth j (gaps m i) 0 = Rabs (nth j (g_col m) 0 - nth i (g_col m) 0).
Proof.
  intros m i j L. unfold gaps.
  rewrite (nth_indep _ 0 (Rabs (0 - nth i (g_col m) 0))) by (rewrite map_length; exact L).
  apply (map_nth (fun c => Rabs (c - nth i (g_col m) 0))).
Qed.

Lemma gaps_nth_nonneg : forall m i j, 0 <= nth j (gaps m i) 0.
Proof.
  intros m i j. destruct (Nat.lt_ge_cases j (length (g_col m))) as [L|L].
  - rewrite gaps_nth by exact L. apply Rabs_pos.
  - rewrite nth_overflow; [lra|]. unfold gaps; rewrite map_length; exact L.
Qed.

Lemma map_nth_seq : forall {A} (l : list A) d, map (fun j => nth j l d) (seq 0 (length l)) = l.
Proof.
  induction l; intros d; simpl; [reflexivity|]. f_equal. rewrite <- seq_shift, map_map. apply IHl.
Qed.

Lemma dim_values : forall n i m, (i < n)%nat -> dim_ok n i m ->
  exists h, 0 < h /\ dim_bandwidth i m h /\
    returns_values (dim_weight m i) (map (fun j => K (g_kernel m) (nth j (gaps m i) 0) h) (seq 0 n)).
Proof.
  intros n i m Li [L [b [Hb U]]].
  assert (E : dim_weight m i = bw_weight (g_kernel m) (g_adaptive m) (g_bw m) (map XF (gaps m i))).
  { unfold dim_weight, onedim_makeParameter. cbn [get_vec fst onedim_distance].
    rewrite (nth_error_nth' _ 0) by lia. cbn [obind]. unfold gaps. rewrite map_map. reflexivity. }
  destruct (main_values (g_kernel m) (g_adaptive m) (g_bw m) b (map XF (gaps m i)) (gaps m i) Hb (xvals_map_XF _)
             (gaps_nonneg m i) U) as (h & Ef & P & V).
  exists h. split; [exact P|]. split; [exists b; split; [exact Hb|exact Ef]|].
  rewrite E. replace (seq 0 n) with (seq 0 (length (gaps m i))) by (unfold gaps; rewrite map_length, L; reflexivity).
  rewrite <- (map_map (fun j => nth j (gaps m i) 0) (fun d => K (g_kernel m) d h)), map_nth_seq. exact V.
Qed.

Lemma vzip_mul : forall l k rs qs, xvals l rs -> xvals k qs -> length l = length k ->
  exists w, vzip xmul l k = Ok w /\ xvals w (map (fun p => fst p * snd p) (combine rs qs)).
Proof.
  induction l as [|x l IH]; intros [|y k] rs qs A B L; try discriminate.
  - destruct rs; [|apply xvals_length in A; discriminate]. exists []; split; reflexivity.
  - destruct rs as [|r rs]; [apply xvals_length in A; discriminate|].
    destruct qs as [|q qs]; [apply xvals_length in B; discriminate|].
    apply xvals_inv in A as [A0 A]. apply xvals_inv in B as [B0 B]. injection L as L.
    destruct (IH k rs qs A B L) as (w & E & V). exists (xmul x y :: w). cbn [vzip]. rewrite E. split; [reflexivity|].
    cbn [combine map fst snd]. apply xvals_cons; [apply xval_xmul; assumption|exact V].
Qed.

Lemma combine_map_seq : forall {A B} (f : nat -> A) (g : nat -> B) l,
  combine (map f l) (map g l) = map (fun j => (f j, g j)) l.
Proof. induction l; simpl; congruence. Qed.

Lemma times_values : forall n i ms, (i < n)%nat -> Forall (dim_ok n i) ms ->
  exists hs, Forall (fun h => 0 < h) hs /\ Forall2 (dim_bandwidth i) ms hs /\
  forall w f, xvals w (map f (seq 0 n)) ->
    returns_values (times ms i w) (map (fun j => f j * product_weight ms hs i j) (seq 0 n)).
Proof.
  intros n i ms Li F; induction F as [|m ms M F IH].
  - exists []. split; [constructor|]. split; [constructor|]. intros w f V. exists w. split; [reflexivity|].
    erewrite map_ext; [exact V|]. intros j. unfold product_weight; simpl. ring.
  - destruct IH as (hs & P & D & IH). destruct (dim_values n i m Li M) as (h & Ph & Dh & [wm [Em Vm]]).
    exists (h :: hs). split; [constructor; assumption|]. split; [constructor; assumption|].
    intros w f V. cbn [times]. rewrite Em. cbn [obind].
    destruct (vzip_mul w wm _ _ V Vm) as (w' & E' & V').
    { rewrite (xvals_length _ _ V), (xvals_length _ _ Vm), !map_length. reflexivity. }
    rewrite E'. cbn [obind]. rewrite combine_map_seq, map_map in V'. cbn [fst snd] in V'.
    destruct (IH w' _ V') as [ws [Es Vs]]. exists ws. split; [exact Es|].
    erewrite map_ext; [exact Vs|]. intros j. unfold product_weight. cbn [combine map prod fst snd]. ring.
Qed.

Lemma gwdr_values : forall n i ms, (i < n)%nat -> Forall (dim_ok n i) ms ->
  exists hs, Forall (fun h => 0 < h) hs /\ Forall2 (dim_bandwidth i) ms hs /\
    returns_values (gwdr_weight n ms i) (map (product_weight ms hs i) (seq 0 n)).
Proof.
  intros n i ms Li F. destruct (times_values n i ms Li F) as (hs & P & D & T). exists hs. split; [exact P|]. split; [exact D|].
  destruct (T (repeat (XF 1) n) (fun _ => 1)) as [ws [E V]].
  { clear. generalize 0%nat. induction n; intros s; [reflexivity|]. simpl. apply xvals_cons; [reflexivity|apply IHn]. }
  exists ws. split; [exact E|]. erewrite map_ext; [exact V|]. intros j; simpl; ring.
Qed.

Lemma product_main : forall n i ms, (i < n)%nat -> Forall (dim_ok n i) ms ->
  exists hs, Forall2 (dim_bandwidth i) ms hs /\
    returns_values (gwdr_weight n ms i) (map (product_weight ms hs i) (seq 0 n)).
Proof. intros n i ms L F. destruct (gwdr_values n i ms L F) as (hs & _ & D & V). eauto. Qed.

Lemma prod_unit : forall l, Forall (fun r => 0 <= r <= 1) l -> 0 <= prod l <= 1.
Proof. intros l F; induction F; simpl; [lra|]. split; [apply Rmult_le_pos; lra|]. nra. Qed.

Lemma product_unit : forall ms hs i j, Forall (fun h => 0 < h) hs -> 0 <= product_weight ms hs i j <= 1.
Proof.
  intros ms hs i j P. apply prod_unit. apply Forall_forall. intros r I. apply in_map_iff in I as [[m h] [<- I]].
  cbn [fst snd]. apply in_combine_r in I. rewrite Forall_forall in P. specialize (P h I).
  split; [apply K_nonneg|apply K_le_1]; auto; apply gaps_nth_nonneg.
Qed.

Lemma product_mono : forall ms hs i j k, Forall (fun h => 0 < h) hs ->
  (forall m, In m ms -> nth j (gaps m i) 0 <= nth k (gaps m i) 0) ->
  product_weight ms hs i k <= product_weight ms hs i j.
Proof.
  induction ms as [|m ms IH]; intros [|h hs] i j k P D; unfold product_weight; cbn [combine map prod fst snd]; try lra.
  inversion P; subst. fold (product_weight ms hs i j) (product_weight ms hs i k).
  assert (A := IH hs i j k H2 (fun m I => D m (or_intror I))).
  assert (B : K (g_kernel m) (nth k (gaps m i) 0) h <= K (g_kernel m) (nth j (gaps m i) 0) h).
  { apply K_mono; try lra; [apply gaps_nth_nonneg|]. apply D; left; reflexivity. }
  pose proof (product_unit ms hs i k H2). pose proof (product_unit ms hs i j H2).
  pose proof (K_nonneg (g_kernel m) _ h (gaps_nth_nonneg m i k) H1).
  apply Rmult_le_compat; lra.
Qed.

Lemma product_self : forall n ms hs i, (i < n)%nat -> Forall (dim_ok n i) ms -> Forall (fun h => 0 < h) hs ->
  product_weight ms hs i i = 1.
Proof.
  intros n ms hs i Li F; revert hs; induction F as [|m ms [L _] F IH]; intros [|h hs] P;
    unfold product_weight; cbn [combine map prod fst snd]; try reflexivity.
  inversion P; subst. fold (product_weight ms hs i i). rewrite IH by assumption.
  rewrite gaps_nth by lia. rewrite Rminus_diag_eq, Rabs_R0, K_zero by auto. ring.
Qed.

Lemma dim_bandwidth_unique : forall i m h h', dim_bandwidth i m h -> dim_bandwidth i m h' -> h = h'.
Proof.
  intros i m h h' [b [E A]] [b' [E' A']]. assert (b' = b) by congruence. subst.
  destruct (g_adaptive m); [|congruence]. eapply adaptive_bandwidth_unique; eauto.
Qed.

Lemma perm_product : forall ms ms' i, Permutation ms ms' -> forall hs, Forall2 (dim_bandwidth i) ms hs ->
  forall hs', Forall2 (dim_bandwidth i) ms' hs' -> forall j, product_weight ms hs i j = product_weight ms' hs' i j.
Proof.
  intros ms ms' i P; induction P; intros hs F hs' F' j.
  - inversion F; inversion F'; subst; reflexivity.
  - inversion F; inversion F'; subst. rewrite (dim_bandwidth_unique i x _ _ H1 H6).
    unfold product_weight; cbn [combine map prod]. f_equal. apply (IHP _ H3 _ H8).
  - inversion F as [|? a ? t1 A F1]; subst. inversion F1 as [|? b ? t2 B F2]; subst.
    inversion F' as [|? a' ? t3 A' F1']; subst. inversion F1' as [|? b' ? t4 B' F2']; subst.
    rewrite (dim_bandwidth_unique i _ _ _ A B'), (dim_bandwidth_unique i _ _ _ B A').
    unfold product_weight; cbn [combine map prod fst snd].
    assert (G : t2 = t4). { clear - F2 F2'. revert t4 F2'. induction F2; intros k K2; inversion K2; subst; auto.
      f_equal; [eapply dim_bandwidth_unique; eauto|apply IHF2; assumption]. }
    subst. ring.
  - assert (exists hs1, Forall2 (dim_bandwidth i) l' hs1) as [hs1 F1].
    { clear - P1 F. revert hs F; induction P1; intros hs F.
      - exists []; constructor.
      - inversion F; subst. destruct (IHP1 _ H3) as [k K]. exists (y :: k); constructor; auto.
      - inversion F as [|? a ? t1 A F1]; subst. inversion F1 as [|? b ? t2 B F2]; subst. exists (b :: a :: t2). repeat constructor; auto.
      - destruct (IHP1_1 _ F) as [k K]. eauto. }
    rewrite (IHP1 _ F _ F1). apply IHP2; assumption.
Qed.

Lemma weights_main : forall n ms i, (i < n)%nat -> Forall (dim_ok n i) ms ->
  exists rs, returns_values (gwdr_weight n ms i) rs /\ length rs = n /\
    Forall (fun w => 0 <= w <= 1) rs /\ nth_error rs i = Some 1 /\
    (forall ms', Permutation ms ms' -> returns_values (gwdr_weight n ms' i) rs) /\
    (forall j k wj wk, nth_error rs j = Some wj -> nth_error rs k = Some wk ->
       (forall m, In m ms -> nth j (gaps m i) 0 <= nth k (gaps m i) 0) -> wk <= wj).
Proof.
  intros n ms i L F. destruct (gwdr_values n i ms L F) as (hs & P & D & V).
  eexists; split; [exact V|]. rewrite map_length, seq_length. split; [reflexivity|].
  assert (N : forall f j, (j < n)%nat -> nth_error (map f (seq 0 n)) j = Some (f j : R)).
  { intros f j Lj. rewrite nth_error_map'. rewrite (nth_error_nth' _ 0%nat) by (rewrite seq_length; exact Lj).
    rewrite seq_nth by exact Lj. reflexivity. }
  assert (NI : forall f j w, nth_error (map f (seq 0 n)) j = Some (w : R) -> (j < n)%nat).
  { intros f j w E. assert (H : nth_error (map f (seq 0 n)) j <> None) by congruence.
    apply nth_error_Some in H. rewrite map_length, seq_length in H. exact H. }
  split; [|split; [|split]].
  - apply Forall_forall. intros r I. apply in_map_iff in I as [j [<- _]]. apply product_unit; exact P.
  - rewrite N by exact L. rewrite (product_self n) by assumption. reflexivity.
  - intros ms' Pm. destruct (gwdr_values n i ms' L) as (hs' & P' & D' & V').
    { eapply Permutation_Forall; eauto. }
    erewrite map_ext; [exact V'|]. intros j. apply perm_product; assumption.
  - intros j k wj wk Ej Ek H. rewrite N in Ej by eauto. rewrite N in Ek by eauto.
    injection Ej as <-. injection Ek as <-. apply product_mono; assumption.
Qed.

(** ** Optimiser *)

Lemma opt_loop_ok : forall g maxIter fuel iter, (maxIter - iter < fuel)%nat -> 
  exists code k, opt_loop fuel g maxIter iter = Some (code, k) /\ (iter < k)%nat /\ (k <= Nat.max (S iter) maxIter)%nat /\
   (forall j, (iter < j < k)%nat -> g_test g j = (-2)%Z) /\
   ((code = g_status g k /\ code <> 0%Z /\ g_stopped g k = true) \/
    (code = g_test g k /\ (code = (-2)%Z -> (maxIter <= k)%nat))).
Proof.
  intros g maxIter; induction fuel as [|f IH]; intros iter L; [lia|]. cbn [opt_loop].
  destruct (negb (g_status g (S iter) =? 0)%Z && g_stopped g (S iter)) eqn:A.
  - apply andb_prop in A as [A B]. apply negb_true_iff, Z.eqb_neq in A.
    eexists _, _; split; [reflexivity|]. repeat split; try lia. left; auto.
  - destruct ((g_test g (S iter) =? -2)%Z && (S iter <? maxIter)%nat) eqn:T.
    + apply andb_prop in T as [T1 T2]. apply Z.eqb_eq in T1. apply Nat.ltb_lt in T2.
      destruct (IH (S iter) ltac:(lia)) as (code & k & E & L1 & L2 & U & C).
      exists code, k. split; [exact E|]. repeat split; try lia; [|exact C].
      intros j Lj. destruct (Nat.eq_dec j (S iter)) as [->|]; [exact T1|apply U; lia].
    + eexists _, _; split; [reflexivity|]. repeat split; try lia. right; split; [reflexivity|].
      intros E. rewrite E in T. simpl in T. apply Nat.ltb_ge in T. exact T.
Qed.

Lemma optimize_total : forall g n maxIter ms, exists o, optimize g n maxIter ms = Some o.
Proof.
  intros. unfold optimize. destruct (g_status g 0 =? 0)%Z; [|eauto].
  destruct (opt_loop_ok g maxIter (S maxIter) 0 ltac:(lia)) as (code & k & E & _). rewrite E. eauto.
Qed.

Lemma first_main : forall g n maxIter ms o, (0 < n)%nat -> optimize g n maxIter ms = Some o ->
  starts_at g (map (target n) ms) -> (forall m, In m ms -> 0 <= snd m) ->
  exists b more, o_log o = b :: more /\
    b = map (fun m => if fst m : bool then snd m else snd m * INR n) ms.
Proof.
  intros g n maxIter ms o Ln E [more St] NN.
  assert (H : exists more', o_log o = evaluated n (map (target n) ms) :: more').
  { unfold optimize in E. destruct (g_status g 0 =? 0)%Z.
    - destruct (opt_loop _ _ _ _) as [[code k]|]; [|discriminate]. injection E as <-. cbn [o_log].
      unfold calls. cbn [seq map concat]. rewrite St. cbn [app map]. eexists; reflexivity.
    - injection E as <-. cbn [o_log]. unfold calls. cbn [seq map concat]. rewrite St. cbn [app map]. eexists; reflexivity. }
  destruct H as [more' H]. eexists _, _; split; [exact H|].
  unfold evaluated. rewrite map_map. apply map_ext_in. intros [[] b] I; specialize (NN _ I); cbn [target fst snd] in *;
    unfold target; cbn [fst snd].
  - assert (0 < INR n) by (apply lt_0_INR; exact Ln).
    rewrite Rabs_right; [field; lra|]. apply Rle_ge. apply Rmult_le_pos; [exact NN|]. left; apply Rinv_0_lt_compat; exact H0.
  - rewrite Rabs_right by lra. reflexivity.
Qed.

Lemma evaluated_nonneg : forall n x, Forall (fun b => 0 <= b) (evaluated n x).
Proof.
  intros. apply Forall_forall. intros b I. apply in_map_iff in I as [t [<- _]].
  apply Rmult_le_pos; [apply Rabs_pos|apply pos_INR].
Qed.

Lemma nonneg_main : forall g n maxIter ms o bs, optimize g n maxIter ms = Some o -> In bs (o_log o) -> Forall (fun b => 0 <= b) bs.
Proof.
  intros g n maxIter ms o bs E I. unfold optimize in E.
  assert (H : exists l, o_log o = map (evaluated n) l).
  { destruct (g_status g 0 =? 0)%Z; [destruct (opt_loop _ _ _ _) as [[code k]|]; [|discriminate]|];
      injection E as <-; cbn [o_log]; eauto. }
  destruct H as [l H]. rewrite H in I. apply in_map_iff in I as [x [<- _]]. apply evaluated_nonneg.
Qed.

Lemma round_close : forall r, Rabs (round_half_up r - r) <= / 2.
Proof. intros r. unfold round_half_up. pose proof (Int_part_spec (r + / 2)) as [A B]. apply Rabs_le. lra. Qed.
Lemma round_nonneg : forall r, 0 <= r -> 0 <= round_half_up r.
Proof.
  intros r P. unfold round_half_up. pose proof (Int_part_spec (r + / 2)) as [A B].
  assert (0 < Int_part (r + / 2) + 1)%Z by (apply lt_IZR; rewrite plus_IZR; lra). apply IZR_le. lia.
Qed.

Lemma final_main : forall g n maxIter ms o, optimize g n maxIter ms = Some o -> best_seen g -> o_code o = 0%Z ->
  exists x, In x (o_log o) /\
   Forall2 (fun used seen => Rabs (used - seen) <= / 2 /\ 0 <= used /\ exists z, used = IZR z) (o_bws o) x.
Proof.
  intros g n maxIter ms o E B C. unfold optimize in E.
  destruct (g_status g 0 =? 0)%Z eqn:S0.
  - destruct (opt_loop _ _ _ _) as [[code k]|]; [|discriminate]. injection E as <-. cbn [o_log o_bws].
    exists (evaluated n (g_x g k)). split; [apply in_map, B|].
    unfold final, evaluated. induction (g_x g k); simpl; constructor; auto.
    split; [apply round_close|]. split; [apply round_nonneg, Rmult_le_pos; [apply Rabs_pos|apply pos_INR]|]. eexists; reflexivity.
  - injection E as <-. cbn [o_code] in C. apply Z.eqb_neq in S0. contradiction.
Qed.

(** A fixed bandwidth of 0.1 with 100 observations, start 0.001, is fitted with 0. *)
Definition tiny (x : list R) : gsl := mkGsl (fun k => match k with O => [x] | _ => [] end) (fun _ => 0%Z) (fun _ => x) (fun _ => 0%Z) (fun _ => false).

Lemma Int_part_half : forall r, 0 <= r < 1 -> Int_part r = 0%Z.
Proof. intros r P. apply Int_part_unique. simpl. lra. Qed.

Lemma tiny_run : fit_bandwidths (tiny [/ 1000]) 100 10 [(false, / 1000)] false = Ok (Some [0]) /\
  starts_at (tiny [/ 1000]) (map (target 100) [(false, / 1000)]) /\ best_seen (tiny [/ 1000]).
Proof.
  split; [|split].
  - unfold fit_bandwidths, optimize. cbn [tiny g_status Z.eqb opt_loop negb andb g_test g_x o_code o_bws final map].
    do 3 f_equal. unfold round_half_up.
    rewrite Int_part_half; [reflexivity|]. replace (INR 100) with 100 by (simpl; lra).
    rewrite Rabs_right by lra. lra.
  - exists []. reflexivity.
  - intros k. left. reflexivity.
Qed.

Lemma limit_main : forall g n maxIter ms, g_status g 0 = 0%Z -> (forall k, g_stopped g k = false) ->
  (fit_bandwidths g n maxIter ms false <> Throw <->
   exists k, (1 <= k <= Nat.max 1 maxIter)%nat /\ g_test g k = 0%Z /\ (forall j, (1 <= j < k)%nat -> g_test g j = (-2)%Z)).
Proof.
  intros g n maxIter ms S0 NS. unfold fit_bandwidths, optimize. rewrite S0. cbn [Z.eqb].
  destruct (opt_loop_ok g maxIter (S maxIter) 0 ltac:(lia)) as (code & k & E & L1 & L2 & U & C).
  rewrite E. cbn [o_code o_bws].
  destruct C as [[_ [_ C]]|[C D]]; [rewrite NS in C; discriminate|].
  split.
  - intros H. destruct (code =? 0)%Z eqn:Z0; [|congruence]. apply Z.eqb_eq in Z0.
    exists k. split; [lia|]. split; [congruence|]. intros j Lj; apply U; lia.
  - intros (k' & Lk & T & U'). destruct (Nat.lt_trichotomy k k') as [Lt|[Eq|Gt]].
    + assert (code = (-2)%Z) by (rewrite C; apply U'; lia). specialize (D H). lia.
    + subst. rewrite T. simpl. discriminate.
    + rewrite (U k') in T by lia. discriminate.
Qed.

Lemma limit_case : forall n ms, exists g,
  g_status g 0 = 0%Z /\ (forall k, g_status g k = 0%Z) /\ (forall k, g_stopped g k = false) /\
  fit_bandwidths g n 500 ms false = Throw.
Proof.
  intros n ms.
  pose (g := mkGsl (fun _ => [map (target n) ms]) (fun _ => 0%Z) (fun _ => map (target n) ms) (fun _ => (-2)%Z) (fun _ => false)).
  exists g. repeat split.
Qed.

Lemma start_main : forall lower upper b,
  (lower < b < upper -> start_bandwidth lower upper b = b) /\
  (b <= lower \/ upper <= b -> start_bandwidth lower upper b = upper * (618 / 1000)).
Proof.
  intros lower upper b. unfold start_bandwidth. split.
  - intros [A B]. replace (Rleb b lower) with false by (symmetry; apply Rleb_false; lra).
    replace (Rleb upper b) with false by (symmetry; apply Rleb_false; lra). reflexivity.
  - intros [A|A]; [replace (Rleb b lower) with true by (symmetry; apply Rleb_true; lra)
                  |replace (Rleb upper b) with true by (symmetry; apply Rleb_true; lra)];
    rewrite ?orb_true_r; reflexivity.
Qed.

Lemma tiny_opt : exists o, optimize (tiny [/ 1000]) 100 10 [(false, / 1000)] = Some o /\ o_log o = [[/ 10]].
Proof.
  eexists; split; [reflexivity|]. cbn [o_log calls seq map concat tiny g_points app evaluated].
  rewrite Rabs_right by lra. replace (INR 100) with 100 by (simpl; lra).
  replace (/ 1000 * 100) with (/ 10) by lra. reflexivity.
Qed.

Lemma first_refuted : exists g n ms o b more, (0 < n)%nat /\ starts_at g (map (target n) ms) /\
  (forall m, In m ms -> 0 <= snd m) /\ optimize g n 10 ms = Some o /\ o_log o = b :: more /\ b <> map snd ms.
Proof.
  destruct tiny_opt as [o [E L]]. destruct tiny_run as [_ [S _]].
  exists (tiny [/ 1000]), 100%nat, [(false, / 1000)], o, [/ 10], []. split; [lia|]. split; [exact S|].
  split; [intros m [<-|[]]; cbn [snd]; lra|]. split; [exact E|]. split; [exact L|].
  intros Q; injection Q; lra.
Qed.

Lemma used_refuted : exists g n ms o, starts_at g (map (target n) ms) /\ best_seen g /\
  optimize g n 10 ms = Some o /\ fit_bandwidths g n 10 ms false = Ok (Some [0]) /\
  ~ In [0] (o_log o) /\ In [/ 10] (o_log o).
Proof.
  destruct tiny_opt as [o [E L]]. destruct tiny_run as [R [S B]].
  exists (tiny [/ 1000]), 100%nat, [(false, / 1000)], o. repeat (split; [assumption|]).
  rewrite L. split; [|left; reflexivity]. intros [Q|[]]. injection Q; lra.
Qed.

Lemma predict_zero : forall locations cols row,
  length (gwdr_predict locations cols) = locations /\
  (In row (gwdr_predict locations cols) -> Forall (fun b => b = 0) row).
Proof.
  intros. unfold gwdr_predict. split; [apply repeat_length|]. intros I. apply repeat_spec in I. subst.
  apply Forall_forall. intros b I. apply repeat_spec in I. exact I.
Qed.

Lemma dims_case : Forall (dim_ok 3 0) [mkDim Bisquare false (XF 5) [0; 1; 2]; mkDim Gaussian true (XF 2) [4; 1; 2]].
Proof.
  repeat constructor.
  - exists 5. split; [reflexivity|]. cbn [g_adaptive usable]. lra.
  - exists 2. split; [reflexivity|]. cbn [g_adaptive usable gaps g_col map nth count_zero].
    assert (C : count_zero [Rabs (4 - 4); Rabs (1 - 4); Rabs (2 - 4)] = 1%nat).
    { unfold count_zero. rewrite Rabs_right, (Rabs_left (1 - 4)), (Rabs_left (2 - 4)) by lra. simpl.
      repeat match goal with |- context [if Req_EM_T ?x ?y then _ else _] => destruct (Req_EM_T x y); try lra end. reflexivity. }
    rewrite C. simpl. repeat split; try lra; lia.
Qed.
