From Coq Require Import Reals Bool List Arith Lia Lra Psatz Permutation Sorted.
From Verif Require Import Outcome XReal XRealFacts KernelModel KernelSpec RSort Sums DiagProofs GwssModel GwssSpec GwssProofs GwssProofs2.
Import ListNotations.
Local Open Scope R_scope.

(** ** Statements over raw weights *)
Lemma C58_main : forall n w x, proper_weights n w -> exists W, normalise n w = Some W /\
  (forall lo hi, (forall j, (j < n)%nat -> 0 < w j -> lo <= x j <= hi) -> lo <= gw_mean n W x <= hi) /\
  0 <= gw_var n W x /\
  (gw_var n W x = 0 <-> forall j k, (j < n)%nat -> (k < n)%nat -> 0 < w j -> 0 < w k -> x j = x k) /\
  (forall a b, gw_mean n W (fun j => a * x j + b) = a * gw_mean n W x + b /\
               gw_var n W (fun j => a * x j + b) = a * a * gw_var n W x).
Proof.
  intros n w x H. destruct (normalise_proper n w H) as [W [E [W0 [W1 [P _]]]]].
  exists W. split; [exact E|]. split; [|split; [apply var_nonneg; auto|split]].
  - intros lo hi B. apply mean_bounds; auto. intros j L Q. apply B; auto. apply P; auto.
  - rewrite (var_zero n W W0 W1). split; intros Q j k Lj Lk Pj Pk; apply Q; auto; apply P; auto.
  - intros a b; split; [apply mean_affine|apply var_affine]; auto.
Qed.
(* the definitions of mean and variance, unfolded *)
Lemma C58_meaning_main : forall n w x, 0 < bigsum n w -> exists W, normalise n w = Some W /\
  gw_mean n W x * bigsum n w = bigsum n (fun j => w j * x j) /\
  gw_var n W x * bigsum n w = bigsum n (fun j => w j * (x j - gw_mean n W x) ^ 2).
Proof.
  intros n w x P. unfold normalise. destruct (Reqb (bigsum n w) 0) eqn:E; [apply Reqb_true in E; lra|].
  eexists; split; [reflexivity|]. unfold gw_var; cbv zeta.
  set (m := gw_mean _ _ _). split.
  - unfold m, gw_mean. rewrite (bigsum_ext n _ (fun j => / bigsum n w * (w j * x j))) by (intros; unfold Rdiv; ring).
    rewrite bigsum_scal. field; lra.
  - rewrite (bigsum_ext n _ (fun j => / bigsum n w * (w j * (x j - m) ^ 2))) by (intros; unfold Rdiv; ring).
    rewrite bigsum_scal. field; lra.
Qed.

Lemma C59_main : forall n w xj xk, proper_weights n w -> exists W, normalise n w = Some W /\
  (corr n xj xk W = XN \/ finite_in (-1) 1 (corr n xj xk W)) /\
  (0 < gw_var n W xj -> 0 < gw_var n W xk -> finite_in (-1) 1 (corr n xj xk W)) /\
  xval (corr n xj xk W) = xval (corr n xk xj W) /\
  (forall a b c d, 0 < a -> 0 < c ->
     xval (corr n (fun j => a * xj j + b) (fun j => c * xk j + d) W) = xval (corr n xj xk W)).
Proof.
  intros n w xj xk H. destruct (normalise_proper n w H) as [W [E [W0 [W1 _]]]].
  exists W. split; [exact E|]. split; [apply corr_range; auto|]. split; [apply corr_defined; auto|].
  split; [apply corr_sym; auto|apply corr_affine; auto].
Qed.

Section S.
Variable sort_index : list R -> list nat.
Hypothesis SI : sorts_indices sort_index.
Lemma spearman_corr : forall n xj xk W, (forall j, (j < n)%nat -> 0 <= W j) ->
  spearman sort_index n xj xk W =
  corr n (fun i => nth i (rank sort_index (column n xj)) 0) (fun i => nth i (rank sort_index (column n xk)) 0) W.
Proof. intros n xj xk W W0. unfold spearman. symmetry; apply corr_corwt; exact W0. Qed.

Lemma count_lt_map : forall (f g : nat -> R) l j, (forall i, In i l -> f i < f j <-> g i < g j) ->
  count_lt (f j) (map f l) = count_lt (g j) (map g l).
Proof.
  intros f g l j H; unfold count_lt. induction l as [|i t IH]; simpl; [reflexivity|].
  assert (A := H i (or_introl eq_refl)). assert (B := IH (fun k Hk => H k (or_intror Hk))).
  destruct (Rlt_dec (f i) (f j)), (Rlt_dec (g i) (g j)); simpl; try lia; tauto.
Qed.
Lemma column_nodup : forall n x, (forall i j, (i < n)%nat -> (j < n)%nat -> x i = x j -> i = j) -> NoDup (column n x).
Proof.
  intros n x H; unfold column.
  assert (G : forall l, NoDup l -> (forall i, In i l -> (i < n)%nat) -> NoDup (map x l)).
  { induction l as [|i t IH]; simpl; intros N B; constructor; inversion N; subst.
    - intros Q. apply in_map_iff in Q as [k [Ek Hk]]. apply H in Ek; auto; subst; contradiction.
    - apply IH; auto. }
  apply G; [apply seq_NoDup|]. intros i Q; apply in_seq in Q; lia.
Qed.
Lemma rank_increasing : forall n x g, (forall i j, (i < n)%nat -> (j < n)%nat -> x i = x j -> i = j) ->
  (forall a b, a < b -> g a < g b) ->
  rank sort_index (column n (fun j => g (x j))) = rank sort_index (column n x).
Proof.
  intros n x g D G.
  assert (GI : forall a b, g a = g b -> a = b).
  { intros a b E. destruct (Rtotal_order a b) as [L|[L|L]]; auto; apply G in L; lra. }
  assert (GL : forall a b, a < b <-> g a < g b).
  { intros a b; split; [apply G|]. intros L. destruct (Rtotal_order a b) as [Q|[Q|Q]]; [exact Q|subst; lra|apply G in Q; lra]. }
  assert (Len : forall z, length (rank sort_index (column n z)) = n).
  { intros z. rewrite (Permutation_length (rank_perm sort_index SI _)), map_length, seq_length, column_length; reflexivity. }
  apply nth_ext with (d := 0) (d' := 0); [rewrite !Len; reflexivity|].
  intros j L. rewrite Len in L.
  rewrite !(rank_distinct sort_index SI) by (rewrite ?column_length; auto; apply column_nodup; auto).
  rewrite !column_nth by exact L. f_equal. f_equal. unfold column.
  apply (count_lt_map (fun j => g (x j)) x). intros i _. symmetry; apply GL.
Qed.
Lemma C59_spearman_main : forall n w xj xk, proper_weights n w -> exists W, normalise n w = Some W /\
  let rho a b := spearman sort_index n a b W in
  (rho xj xk = XN \/ finite_in (-1) 1 (rho xj xk)) /\
  xval (rho xj xk) = xval (rho xk xj) /\
  (forall g h, (forall i j, (i < n)%nat -> (j < n)%nat -> xj i = xj j -> i = j) ->
     (forall i j, (i < n)%nat -> (j < n)%nat -> xk i = xk j -> i = j) ->
     (forall a b, a < b -> g a < g b) -> (forall a b, a < b -> h a < h b) ->
     rho (fun j => g (xj j)) (fun j => h (xk j)) = rho xj xk).
Proof.
  intros n w xj xk H. destruct (normalise_proper n w H) as [W [E [W0 [W1 _]]]].
  exists W. split; [exact E|]. cbv zeta.
  split; [|split].
  - rewrite (spearman_corr n _ _ W W0). apply corr_range; auto.
  - rewrite !(spearman_corr n _ _ W W0). apply corr_sym; auto.
  - intros g h Dj Dk G Hh. unfold spearman. rewrite !rank_increasing by assumption. reflexivity.
Qed.

Lemma C60_main : forall n x w, (0 < n)%nat -> (forall j, (j < n)%nat -> 0 <= w j) ->
  (forall j, (j < n)%nat -> (forall k, (k < n)%nat -> x j <= x k) -> w j <= 1 / 4) ->
  exists q1 q2 q3, findq sort_index n x w = Ok (q1, q2, q3) /\ q1 <= q2 <= q3 /\
    forall q k, In (q, k) [(q1, 1 / 4); (q2, 2 / 4); (q3, 3 / 4)] ->
      (exists j, (j < n)%nat /\ q = x j) /\
      weight_where n x w (fun v => Rltb v q) <= k /\
      (forall j, (j < n)%nat -> q < x j -> k < weight_where n x w (fun v => Rleb v (x j))).
Proof.
  intros n x w L W0 H. destruct (findq_ok sort_index SI n x w L H) as (q1 & q2 & q3 & E & O & Q1 & Q2 & Q3).
  exists q1, q2, q3. split; [exact E|]. split; [exact O|].
  intros q k [I|[I|[I|[]]]]; injection I as <- <-; apply (quantile_meaning sort_index SI n x w); auto.
Qed.
Lemma C60_stats_main : forall n x w med iqr qi, (0 < n)%nat ->
  quartile_stats sort_index n x w = Ok (med, iqr, qi) ->
  (exists j, (j < n)%nat /\ med = x j) /\ 0 <= iqr /\ (0 < iqr -> finite_in (-1) 1 qi) /\ (iqr = 0 -> qi = XN).
Proof.
  intros n x w med iqr qi L. unfold quartile_stats.
  destruct (findq sort_index n x w) as [[[q1 q2] q3]| |] eqn:E; cbn [obind]; try discriminate.
  intros H; injection H as <- <- <-.
  unfold findq in E; cbv zeta in E.
  set (cum := cumsum (map w (sort_index (column n x)))) in *.
  assert (CL : length (rsort (column n x)) = length cum) by (rewrite rsort_length, column_length; symmetry; apply cum_len; exact SI).
  rewrite !(quantile_cond _ _ _ CL) in E.
  destruct (cond cum (1/4)) as [i1|] eqn:C1; [|discriminate].
  destruct (nth_error (rsort (column n x)) i1) as [v1|] eqn:E1; [|discriminate].
  destruct (cond cum (2/4)) as [i2|] eqn:C2; [|discriminate].
  destruct (nth_error (rsort (column n x)) i2) as [v2|] eqn:E2; [|discriminate].
  destruct (cond cum (3/4)) as [i3|] eqn:C3; [|discriminate].
  destruct (nth_error (rsort (column n x)) i3) as [v3|] eqn:E3; [|discriminate].
  simpl in E. injection E as -> -> ->.
  assert (M12 := cond_mono cum (1/4) (2/4) _ _ ltac:(lra) C1 C2).
  assert (M23 := cond_mono cum (2/4) (3/4) _ _ ltac:(lra) C2 C3).
  assert (O12 := sorted_mono _ _ _ _ _ (rsort_sorted _) M12 E1 E2).
  assert (O23 := sorted_mono _ _ _ _ _ (rsort_sorted _) M23 E2 E3).
  split; [|split; [lra|split]].
  - apply nth_error_In in E2. rewrite (xo_eq sort_index SI n x) in E2. apply in_map_iff in E2 as [j [Ej Hj]].
    exists j. split; [apply (s_lt sort_index SI n x); exact Hj|symmetry; exact Ej].
  - intros P. exists ((2 * q2 - q3 - q1) / (q3 - q1)). split.
    + apply (xval_xdiv (XF (2 * q2 - q3 - q1)) (XF (q3 - q1))); [reflexivity|reflexivity|lra].
    + split; [apply Rmult_le_reg_r with (q3 - q1)|apply Rmult_le_reg_r with (q3 - q1)]; auto; unfold Rdiv;
        rewrite Rmult_assoc, Rinv_l, Rmult_1_r; lra.
  - intros Z. apply (xdiv_zero (XF (2 * q2 - q3 - q1)) (XF (q3 - q1))); cbn [xval]; f_equal; lra.
Qed.
End S.

(** ** Pairs *)
Lemma pairs_in : forall first_only nVar j k, In (j, k) (corr_pairs first_only nVar) <->
  (j < k < nVar)%nat /\ (first_only = true -> j = 0%nat).
Proof.
  intros b n j k; unfold corr_pairs. rewrite in_flat_map. split.
  - intros [j' [A B]]. apply in_map_iff in B as [k' [E B]]. injection E as -> ->.
    apply in_seq in A. apply in_seq in B. split; [lia|]. intros ->. lia.
  - intros [L F]. exists j. split.
    + apply in_seq. destruct b; [rewrite F by reflexivity|]; lia.
    + apply in_map_iff. exists k; split; [reflexivity|apply in_seq; lia].
Qed.
Lemma pairs_nodup : forall first_only nVar, NoDup (corr_pairs first_only nVar).
Proof.
  intros b n; unfold corr_pairs. generalize (if b then 1 else n - 1)%nat; intros m.
  assert (G : forall l, NoDup l -> NoDup (flat_map (fun j => map (fun k => (j, k)) (seq (j + 1) (n - (j + 1)))) l)).
  { induction l as [|j t IH]; simpl; intros N; [constructor|]. inversion N as [|? ? Nj Nt]; subst.
    assert (A : NoDup (map (fun k => (j, k)) (seq (j + 1) (n - (j + 1))))).
    { apply FinFun.Injective_map_NoDup; [|apply seq_NoDup]. intros u v E; injection E; auto. }
    specialize (IH Nt). clear N.
    assert (D : forall p, In p (map (fun k => (j, k)) (seq (j + 1) (n - (j + 1)))) ->
             ~ In p (flat_map (fun j => map (fun k => (j, k)) (seq (j + 1) (n - (j + 1)))) t)).
    { intros p H1 H2. apply in_map_iff in H1 as [k1 [<- _]]. apply in_flat_map in H2 as [j' [H2 H3]].
      apply in_map_iff in H3 as [k' [E _]]. injection E as -> _. contradiction. }
    revert A D. generalize (map (fun k => (j, k)) (seq (j + 1) (n - (j + 1)))). intros l1 A D.
    induction l1 as [|p l1 IH1]; simpl; [exact IH|]. inversion A; subst. constructor.
    - intros H. apply in_app_or in H as [H|H]; [contradiction|]. apply (D p); [left; reflexivity|exact H].
    - apply IH1; auto. intros q Hq; apply D; right; exact Hq. }
  apply G, seq_NoDup.
Qed.
Lemma pairs_length : forall first_only nVar, (2 <= nVar)%nat ->
  length (corr_pairs first_only nVar) = corr_cols first_only nVar.
Proof.
  intros b n L. destruct b; unfold corr_pairs, corr_cols; cbv beta iota.
  - cbn [seq flat_map]. rewrite app_length, map_length, seq_length. simpl. lia.
  - assert (G : forall m a, (a + m = n - 1)%nat ->
      (2 * length (flat_map (fun j => map (fun k => (j, k)) (seq (j + 1) (n - (j + 1)))) (seq a m)) = m * (m + 1))%nat).
    { induction m as [|m IH]; intros a E; [reflexivity|]. cbn [seq flat_map].
      rewrite app_length, map_length, seq_length. assert (Q := IH (S a) ltac:(lia)).
      replace (n - (a + 1))%nat with (S m) by lia. nia. }
    assert (Q := G (n - 1)%nat 0%nat eq_refl). set (len := length _) in *.
    replace ((n + 1) * n)%nat with ((len + n) * 2)%nat by nia. rewrite Nat.div_mul by lia. lia.
Qed.
Lemma fill_row_ok : forall f pairs tag row, (tag + length pairs = length row)%nat ->
  fill_row f pairs tag row = Ok (firstn tag row ++ map (fun p => f (fst p) (snd p)) pairs).
Proof.
  intros f; induction pairs as [|[j k] t IH]; intros tag row L; simpl in L.
  - simpl. rewrite firstn_all2 by lia. rewrite app_nil_r; reflexivity.
  - cbn [fill_row]. unfold store. replace (tag <? length row)%nat with true by (symmetry; apply Nat.ltb_lt; lia).
    cbn [obind]. set (row' := firstn tag row ++ f j k :: skipn (S tag) row).
    assert (L' : length row' = length row).
    { unfold row'. rewrite app_length, firstn_length. change (length (?a :: ?l)) with (S (length l)). rewrite skipn_length; lia. }
    rewrite IH by lia. f_equal. cbn [map fst snd].
    unfold row'. rewrite firstn_app, firstn_length.
    replace (S tag - Nat.min tag (length row))%nat with 1%nat by lia.
    rewrite firstn_firstn. replace (Nat.min (S tag) tag) with tag by lia. cbn [firstn].
    rewrite <- app_assoc; reflexivity.
Qed.
Lemma corr_row_ok : forall first_only nVar f, (2 <= nVar)%nat ->
  corr_row first_only nVar f = Ok (map (fun p => f (fst p) (snd p)) (corr_pairs first_only nVar)).
Proof.
  intros b n f L. unfold corr_row. replace (2 <=? n)%nat with true by (symmetry; apply Nat.leb_le; lia).
  rewrite fill_row_ok; [reflexivity|]. rewrite repeat_length, pairs_length by exact L. reflexivity.
Qed.

Lemma C62_main : forall first_only nVar, (2 <= nVar)%nat -> exists pairs : list (nat * nat),
  NoDup pairs /\
  (forall j k, In (j, k) pairs <-> (j < k < nVar)%nat /\ (first_only = true -> j = 0%nat)) /\
  length pairs = corr_cols first_only nVar /\
  forall f, corr_row first_only nVar f = Ok (map (fun p => f (fst p) (snd p)) pairs).
Proof.
  intros b n L. exists (corr_pairs b n). split; [apply pairs_nodup|]. split; [apply pairs_in|].
  split; [apply pairs_length; exact L|]. intros; apply corr_row_ok; exact L.
Qed.
Lemma C62_throw_main : forall first_only nVar f, (nVar < 2)%nat -> corr_row first_only nVar f = Throw.
Proof.
  intros b n f L; unfold corr_row. replace (2 <=? n)%nat with false; [reflexivity|].
  symmetry; apply Nat.leb_gt; lia.
Qed.
(* number of columns with all pairs: n(n-1)/2 *)
Lemma C62_count_main : forall nVar, (2 <= nVar)%nat ->
  corr_cols true nVar = (nVar - 1)%nat /\ (2 * corr_cols false nVar = nVar * (nVar - 1))%nat.
Proof.
  intros n L; split; [reflexivity|]. unfold corr_cols.
  assert (Q : ((n + 1) * n mod 2 = 0)%nat).
  { destruct (Nat.Even_or_Odd n) as [[m E]|[m E]]; rewrite E.
    - replace ((2 * m + 1) * (2 * m))%nat with ((2 * m + 1) * m * 2)%nat by nia. apply Nat.mod_mul; lia.
    - replace ((2 * m + 1 + 1) * (2 * m + 1))%nat with ((m + 1) * (2 * m + 1) * 2)%nat by nia. apply Nat.mod_mul; lia. }
  assert (D := Nat.div_mod ((n + 1) * n) 2 ltac:(lia)). rewrite Q in D. nia.
Qed.

(** ** A concrete sort_index: insertion sort of the indices *)
Fixpoint ins (l : list R) (i : nat) (s : list nat) : list nat :=
  match s with
  | [] => [i]
  | j :: t => if Rleb (nth i l 0) (nth j l 0) then i :: s else j :: ins l i t
  end.
Definition isort_index (l : list R) : list nat := fold_right (ins l) [] (seq 0 (length l)).
Lemma ins_perm : forall l i s, Permutation (ins l i s) (i :: s).
Proof.
  intros l i s; induction s as [|j t IH]; simpl; [reflexivity|].
  destruct (Rleb (nth i l 0) (nth j l 0)); [reflexivity|]. rewrite IH. apply perm_swap.
Qed.
Lemma ins_sorted : forall l i s, StronglySorted (fun a b => nth a l 0 <= nth b l 0) s ->
  StronglySorted (fun a b => nth a l 0 <= nth b l 0) (ins l i s).
Proof.
  intros l i s H; induction H as [|j t H IH F]; simpl; [repeat constructor|].
  destruct (Rleb (nth i l 0) (nth j l 0)) eqn:E.
  - apply Rleb_true in E. constructor; [constructor; assumption|]. constructor; [exact E|].
    rewrite Forall_forall in *. intros k Hk. specialize (F k Hk). lra.
  - apply Rleb_false in E. constructor; [exact IH|]. rewrite Forall_forall in *. intros k Hk.
    apply (Permutation_in _ (ins_perm l i t)) in Hk as [<-|Hk]; [lra|apply F, Hk].
Qed.
Lemma isort_index_ok : sorts_indices isort_index.
Proof.
  intros l; unfold isort_index. generalize (seq 0 (length l)); intros s. split.
  - induction s as [|i s IH]; simpl; [constructor|]. rewrite ins_perm, IH; reflexivity.
  - induction s as [|i s IH]; simpl; [constructor|]. apply ins_sorted, IH.
Qed.

(** ** Cases *)
Lemma weights3 : proper_weights 3 (fun j => INR j).
Proof. split; [intros; apply pos_INR|]. exists 2%nat. split; [lia|simpl; lra]. Qed.
Lemma C60_case_main : (0 < 5)%nat /\ (forall j, (j < 5)%nat -> 0 <= (fun _ : nat => 1 / 5) j) /\
  (forall j, (j < 5)%nat -> (forall k, (k < 5)%nat -> INR j <= INR k) -> (fun _ : nat => 1 / 5) j <= 1 / 4).
Proof. repeat split; intros; simpl; try lia; lra. Qed.
Lemma C60_ub_main : forall sort_index, sorts_indices sort_index -> forall n x w, (0 < n)%nat ->
  (forall j, (j < n)%nat -> (forall k, (k < n)%nat -> x j <= x k) -> 1 / 4 < w j) -> findq sort_index n x w = UB.
Proof. intros s SI; apply findq_ub; exact SI. Qed.
(* three observations of equal weight *)
Lemma C60_refuted_main : exists n x w, (0 < n)%nat /\ (forall j, (j < n)%nat -> 0 <= w j) /\ bigsum n w = 1 /\
  forall sort_index, sorts_indices sort_index -> findq sort_index n x w = UB.
Proof.
  exists 3%nat, INR, (fun _ => / 3). repeat split; try lia; intros; try lra.
  - simpl; lra.
  - apply findq_ub; [assumption|lia|]. intros; lra.
Qed.
Lemma C61_main : forall sort_index, sorts_indices sort_index -> forall l,
  Permutation (rank sort_index l) (map INR (seq 1 (length l))) /\
  (forall i j, (i < length l)%nat -> (j < length l)%nat -> nth i l 0 < nth j l 0 ->
     nth i (rank sort_index l) 0 < nth j (rank sort_index l) 0) /\
  (forall j, (j < length l)%nat ->
     INR (count_lt (nth j l 0) l) + 1 <= nth j (rank sort_index l) 0 <= INR (count_le (nth j l 0) l)).
Proof.
  intros s SI l. split; [apply rank_perm; exact SI|]. split; [apply rank_order; exact SI|apply rank_bounds; exact SI].
Qed.
