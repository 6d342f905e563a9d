From Coq Require Import Reals Bool List ZArith Lra Lia Permutation Sorted.
From Verif Require Import Outcome XReal XRealFacts KernelModel KernelProofs GwssSpec GwssCases ScaNnModel.
Import ListNotations.
Local Open Scope R_scope.

Section P.
Variable sort_index : list R -> list nat.
Hypothesis SI : sorts_indices sort_index.

Definition row_of (dist : nat -> list R) (k : nat) (i : nat) : list nat * list R :=
  (firstn k (sort_index (dist i)), firstn k (map (fun j => nth j (dist i) 0) (sort_index (dist i)))).

Lemma si_length l : length (sort_index l) = length l.
Proof. destruct (SI l) as [P _]. rewrite (Permutation_length P), seq_length; reflexivity. Qed.

Lemma for_rows_ok A (f : nat -> outcome A) g is : (forall i, In i is -> f i = Ok (g i)) -> for_rows f is = Ok (map g is).
Proof.
  induction is as [|i t IH]; intros H; [reflexivity|]. simpl. rewrite (H i) by (left; reflexivity). simpl.
  rewrite IH by (intros; apply H; right; assumption). reflexivity.
Qed.
Lemma for_rows_throw A (f : nat -> outcome A) i t : f i = Throw -> for_rows f (i :: t) = Throw.
Proof. intros H. simpl. rewrite H. reflexivity. Qed.

Lemma for_rows_throw0 A (f : nat -> outcome A) n : (0 < n)%nat -> f 0%nat = Throw -> for_rows f (seq 0 n) = Throw.
Proof. destruct n; [lia|]. intros _. apply for_rows_throw. Qed.

Lemma w64_small z : (0 <= z < 2 ^ 64)%Z -> w64 z = z.
Proof. intros H. unfold w64. apply Z.mod_small. exact H. Qed.
Lemma w64_m1 : w64 (-1) = (2 ^ 64 - 1)%Z. Proof. reflexivity. Qed.

Lemma span0_ok A (l : list A) k : (1 <= k <= length l)%nat -> (Z.of_nat (length l) < 2 ^ 61)%Z ->
  span0 l (w64 (Z.of_nat k - 1)) = Ok (firstn k l).
Proof.
  intros H L. unfold span0. rewrite w64_small by lia.
  rewrite (proj2 (Z.ltb_lt _ _)) by lia. do 2 f_equal. lia.
Qed.

Lemma nearest_ok dist rows n k : (forall i, (i < rows)%nat -> length (dist i) = n) -> (Z.of_nat n < 2 ^ 61)%Z ->
  (1 <= k <= n)%nat -> nearest sort_index (Z.of_nat k) dist rows = Ok (map (row_of dist k) (seq 0 rows)).
Proof.
  intros D N K. unfold nearest.
  rewrite (proj2 (Z.leb_gt _ _)) by lia. rewrite andb_false_r.
  apply for_rows_ok. intros i Hi. apply in_seq in Hi.
  cbv zeta. rewrite span0_ok by (rewrite ?si_length, ?D; lia). simpl obind.
  rewrite span0_ok by (rewrite ?map_length, ?si_length, ?D; lia). reflexivity.
Qed.
Lemma nearest_zero dist rows n : (0 < rows)%nat -> (forall i, (i < rows)%nat -> length (dist i) = n) -> (Z.of_nat n < 2 ^ 61)%Z ->
  nearest sort_index 0 dist rows = Throw.
Proof.
  intros R D N. unfold nearest. rewrite (proj2 (Z.leb_gt (2 ^ 61) 0)) by lia. rewrite andb_false_r.
  destruct rows as [|rows]; [lia|]. apply for_rows_throw. cbv zeta. unfold span0 at 1.
  change (0 - 1)%Z with (-1)%Z. rewrite w64_m1. rewrite si_length, D by lia.
  rewrite (proj2 (Z.ltb_ge _ _)) by lia. reflexivity.
Qed.
Lemma nearest_huge dist rows b : (0 < rows)%nat -> (2 ^ 61 <= b)%Z -> nearest sort_index b dist rows = Throw.
Proof.
  intros R H. unfold nearest. rewrite (proj2 (Z.ltb_lt _ _)) by lia. rewrite (proj2 (Z.leb_le _ _)) by lia. reflexivity.
Qed.

Lemma to_uword_nonneg b : 0 <= b -> b < IZR (2 ^ 64) -> to_uword b = Ok (Int_part b) /\ (0 <= Int_part b)%Z.
Proof.
  intros B0 B1. unfold to_uword. rewrite (proj2 (Rltb_true _ _)) by lra. rewrite (proj2 (Rltb_true _ _)) by exact B1.
  rewrite (proj2 (Rltb_false _ _)) by lra. split; [reflexivity|].
  pose proof (Int_part_spec b). assert (IZR (-1) < IZR (Int_part b)) by (simpl; lra). apply lt_IZR in H0. lia.
Qed.

(** Number of neighbours asked for, after clipping. *)
Definition asked (bw : R) (n : nat) : nat := Nat.min (Z.to_nat (Int_part bw)) n.
Lemma min_bw_asked bw n : (0 <= Int_part bw)%Z -> min_bw (Int_part bw) (Z.of_nat n) = Z.of_nat (asked bw n).
Proof. intros H. unfold min_bw, asked. destruct (Z.ltb_spec (Int_part bw) (Z.of_nat n)); lia. Qed.

Section D.
Variables (dist : nat -> list R) (n : nat) (bw : R).
Hypothesis D : forall i, (i < n)%nat -> length (dist i) = n.
Hypothesis N : (0 < n)%nat.
Hypothesis N' : (Z.of_nat n < 2 ^ 61)%Z.
Hypothesis B0 : 0 <= bw.
Hypothesis B1 : bw < IZR (2 ^ 64).

Lemma find_dp_cv : find_dp sort_index true bw dist n =
  if Nat.leb 2 (asked bw n) then Ok (map (row_of dist (asked bw n - 1)) (seq 0 n)) else Throw.
Proof.
  unfold find_dp. destruct (to_uword_nonneg bw B0 B1) as [-> P]. cbn [obind]. rewrite min_bw_asked by exact P.
  assert (A : (asked bw n <= n)%nat) by (unfold asked; lia).
  destruct (Nat.leb_spec 2 (asked bw n)) as [H|H].
  - rewrite w64_small by lia. replace (Z.of_nat (asked bw n) - 1)%Z with (Z.of_nat (asked bw n - 1)) by lia.
    apply nearest_ok with n; auto. lia.
  - assert (asked bw n = 0 \/ asked bw n = 1)%nat as [E|E] by lia; rewrite E.
    + change (Z.of_nat 0 - 1)%Z with (-1)%Z. rewrite w64_m1. apply nearest_huge; [exact N|lia].
    + change (w64 (Z.of_nat 1 - 1)) with 0%Z. apply nearest_zero with n; auto.
Qed.
Lemma combine_seq_map {A} (f : nat -> A) k : combine (seq 0 k) (map f (seq 0 k)) = map (fun i => (i, f i)) (seq 0 k).
Proof. generalize (seq 0 k). induction l as [|a l IH]; simpl; [reflexivity|]. rewrite IH. reflexivity. Qed.
Lemma find_dp_aic : find_dp sort_index false bw dist n =
  if Nat.leb 1 (asked bw n)
  then Ok (map (fun i => (i :: fst (row_of dist (asked bw n) i), 0 :: snd (row_of dist (asked bw n) i))) (seq 0 n))
  else Throw.
Proof.
  unfold find_dp. destruct (to_uword_nonneg bw B0 B1) as [-> P]. cbn [obind]. rewrite min_bw_asked by exact P.
  assert (A : (asked bw n <= n)%nat) by (unfold asked; lia).
  destruct (Nat.leb_spec 1 (asked bw n)) as [H|H].
  - rewrite (nearest_ok dist n n) by (auto; lia). cbn [obind]. rewrite combine_seq_map, map_map. reflexivity.
  - replace (asked bw n) with 0%nat by lia. change (Z.of_nat 0) with 0%Z. rewrite (nearest_zero dist n n) by auto. reflexivity.
Qed.

Lemma nth_rows {A} (f : nat -> A) i : (i < n)%nat -> nth_error (map f (seq 0 n)) i = Some (f i).
Proof. intros H. rewrite nth_error_map, (nth_error_nth' _ 0%nat) by (rewrite seq_length; exact H). rewrite seq_nth by exact H. reflexivity. Qed.

Lemma row_length k i : (i < n)%nat -> (k <= n)%nat -> length (fst (row_of dist k i)) = k /\ length (snd (row_of dist k i)) = k.
Proof.
  intros I K. unfold row_of; simpl. rewrite !firstn_length, map_length, si_length, D by exact I. lia.
Qed.

(** The observation itself comes first when every other distance is larger. *)
Lemma self_first k i : (i < n)%nat -> (1 <= k)%nat ->
  nth i (dist i) 0 = 0 -> (forall j, (j < n)%nat -> j <> i -> 0 < nth j (dist i) 0) ->
  exists t, fst (row_of dist k i) = i :: t /\ ~ In i t.
Proof.
  intros I K Z P. destruct (SI (dist i)) as [Pm So]. rewrite D in Pm by exact I.
  unfold row_of; simpl. destruct (sort_index (dist i)) as [|a s] eqn:E.
  { apply Permutation_nil in Pm. destruct n; [lia|discriminate]. }
  destruct k as [|k]; [lia|]. simpl.
  assert (ND : NoDup (a :: s)) by (apply (Permutation_NoDup (Permutation_sym Pm)), seq_NoDup).
  assert (Ia : In i (a :: s)) by (apply (Permutation_in _ (Permutation_sym Pm)), in_seq; lia).
  assert (La : (a < n)%nat) by (assert (In a (seq 0 n)) by (apply (Permutation_in _ Pm); left; reflexivity); apply in_seq in H; lia).
  assert (a = i).
  { destruct Ia as [|Is]; [assumption|]. inversion So as [|? ? S' F']; subst. rewrite Forall_forall in F'. specialize (F' i Is).
    destruct (Nat.eq_dec a i) as [|Na]; [assumption|]. specialize (P a La Na). lra. }
  subst a. exists (firstn k s). split; [reflexivity|]. inversion ND as [|? ? Hn _]; subst.
  intros H. apply Hn. clear -H. revert k H. induction s as [|b s IH]; intros k H; [destruct k; exact H|].
  destruct k; [contradiction|]. simpl in H. destruct H; [left; assumption|right; apply (IH _ H)].
Qed.

Lemma col_ok (rows : nat -> list nat * list R) m c : (forall i, (i < n)%nat -> length (snd (rows i)) = m) ->
  (0 <= c)%Z ->
  (exists col, for_rows (fun i =>
      match nth_error (map rows (seq 0 n)) i with
      | Some r => match span0 (snd r) c with Ok ds => Ok (last ds 0) | Throw => Throw | UB => UB end
      | None => Throw
      end) (seq 0 n) = Ok col) <-> (c < Z.of_nat m)%Z.
Proof.
  intros L C. split.
  - intros [col H]. destruct (Z.ltb_spec c (Z.of_nat m)) as [|G]; [assumption|]. exfalso.
    rewrite for_rows_throw0 in H; [discriminate|exact N|]. rewrite nth_rows by exact N. unfold span0.
    rewrite L by exact N. rewrite (proj2 (Z.ltb_ge _ _)) by lia. reflexivity.
  - intros H. eexists. apply for_rows_ok with (g := fun i => last (firstn (Z.to_nat (c + 1)) (snd (rows i))) 0).
    intros i Hi. apply in_seq in Hi. rewrite nth_rows by lia. unfold span0. rewrite L by lia.
    rewrite (proj2 (Z.ltb_lt _ _)) by lia. reflexivity.
Qed.
Lemma for_rows_not_ub {A} (f : nat -> outcome A) is : (forall i, f i <> UB) -> for_rows f is <> UB.
Proof.
  intros F. induction is as [|i t IH]; [discriminate|]. simpl. specialize (F i). destruct (f i); simpl; try discriminate; try contradiction.
  destruct (for_rows f t); simpl; try discriminate; contradiction.
Qed.
Lemma nearest_not_ub b rows : nearest sort_index b dist rows <> UB.
Proof.
  unfold nearest. destruct (_ && _); [discriminate|]. apply for_rows_not_ub. intros i. cbv zeta. unfold span0.
  destruct (Z.ltb _ _); simpl; [|discriminate]. destruct (Z.ltb _ _); discriminate.
Qed.
Lemma find_dp_not_ub cv : find_dp sort_index cv bw dist n <> UB.
Proof.
  destruct cv; [rewrite find_dp_cv|rewrite find_dp_aic]; destruct (Nat.leb _ _); discriminate.
Qed.
Lemma first_stage_not_ub cv : first_stage sort_index cv bw dist n <> UB.
Proof.
  unfold first_stage. pose proof (find_dp_not_ub cv) as U. destruct (find_dp sort_index cv bw dist n); try discriminate; try contradiction.
  cbn [obind]. destruct (to_uword_nonneg bw B0 B1) as [-> P]. cbn [obind]. cbv zeta.
  match goal with |- obind ?x _ <> UB => assert (x <> UB) end.
  { apply for_rows_not_ub. intros i. destruct (nth_error a i); [|discriminate]. unfold span0. destruct (Z.ltb _ _); discriminate. }
  destruct (for_rows _ _); try discriminate; contradiction.
Qed.

Lemma first_stage_cv : (exists r, first_stage sort_index true bw dist n = Ok r) <->
  (2 <= n)%nat /\ (50 < Int_part bw < Z.of_nat n \/ Z.of_nat n <= Int_part bw)%Z.
Proof.
  destruct (to_uword_nonneg bw B0 B1) as [T P]. unfold first_stage. rewrite find_dp_cv, T.
  assert (A : (asked bw n <= n)%nat) by (unfold asked; lia).
  destruct (Nat.leb_spec 2 (asked bw n)) as [H|H].
  - cbn [obind]. cbv zeta.
    set (c := w64 _). assert (C : (0 <= c)%Z) by (unfold c, w64; apply Z.mod_pos_bound; lia).
    assert (A' : (asked bw n - 1 <= n)%nat) by lia.
    pose proof (col_ok (row_of dist (asked bw n - 1)) (asked bw n - 1) c (fun i I => proj2 (row_length _ i I A')) C) as K.
    assert (Ec : c = (Z.min 50 (if Z.leb (Z.of_nat n) (Int_part bw) then Z.of_nat n - 1 else Int_part bw) - 1)%Z).
    { unfold c. unfold asked in H. destruct (Z.leb_spec (Z.of_nat n) (Int_part bw)).
      - rewrite (w64_small (Z.of_nat n - 1)) by lia. apply w64_small. lia.
      - apply w64_small. lia. }
    transitivity (c < Z.of_nat (asked bw n - 1))%Z.
    + rewrite <- K. split; intros [r E].
      * destruct (for_rows _ _) as [col| |]; [exists col; reflexivity|discriminate|discriminate].
      * rewrite E. simpl. eexists; reflexivity.
    + rewrite Ec. unfold asked in *. destruct (Z.leb_spec (Z.of_nat n) (Int_part bw)); lia.
  - cbn [obind]. split; [intros [r E]; discriminate|]. unfold asked in H. lia.
Qed.
Lemma first_stage_aic : (exists r, first_stage sort_index false bw dist n = Ok r) <->
  (1 <= Int_part bw)%Z /\ (2 <= n)%nat.
Proof.
  destruct (to_uword_nonneg bw B0 B1) as [T P]. unfold first_stage. rewrite find_dp_aic, T.
  assert (A : (asked bw n <= n)%nat) by (unfold asked; lia).
  destruct (Nat.leb_spec 1 (asked bw n)) as [H|H].
  - cbn [obind]. cbv zeta.
    set (c := w64 _). assert (C : (0 <= c)%Z) by (unfold c, w64; apply Z.mod_pos_bound; lia).
    set (rw := fun i : nat => (i :: fst (row_of dist (asked bw n) i), 0 :: snd (row_of dist (asked bw n) i))).
    pose proof (col_ok rw (S (asked bw n)) c) as K.
    assert (L : forall i, (i < n)%nat -> length (snd (rw i)) = S (asked bw n)).
    { intros i I. unfold rw. simpl. f_equal. apply (row_length (asked bw n) i I A). }
    specialize (K L C).
    transitivity (c < Z.of_nat (S (asked bw n)))%Z.
    + rewrite <- K. split; intros [r E].
      * destruct (for_rows _ _) as [col| |]; [exists col; reflexivity|discriminate|discriminate].
      * rewrite E. simpl. eexists; reflexivity.
    + unfold c, asked in *. destruct (Z.leb_spec (Z.of_nat n) (Int_part bw)).
      * destruct (Nat.eq_dec n 1) as [->|].
        -- change (w64 (Z.min 50 (w64 (Z.of_nat 1 - 1)) - 1)) with (2 ^ 64 - 1)%Z. lia.
        -- rewrite (w64_small (Z.of_nat n - 1)) by lia. rewrite w64_small by lia. lia.
      * rewrite w64_small by lia. lia.
  - cbn [obind]. split; [intros [r E]; discriminate|]. unfold asked in H. lia.
Qed.
End D.
End P.

(** ** Kernel values *)
Lemma g0_value kernel med d : kernel = Gaussian \/ kernel = Exponential -> 0 < med ->
  exists g, g0 kernel (XF med) (XF d) = Some g /\
    xval g = Some (exp (- (match kernel with Gaussian => 3 | _ => 9 end * (d / med) ^ 2))).
Proof.
  intros K M. unfold g0, band0.
  assert (S3 : 0 < sqrt 3) by (apply sqrt_lt_R0; lra).
  destruct K as [-> | ->]; eexists; (split; [reflexivity|]).
  - assert (E : xval (xdiv (XF med) (xsqrt (XF 3))) = Some (med / sqrt 3)).
    { apply xval_xdiv; [reflexivity| |lra]. apply (xval_xsqrt (XF 3)); [reflexivity|lra]. }
    assert (E2 : xval (xdiv (XF d) (xdiv (XF med) (xsqrt (XF 3)))) = Some (d / (med / sqrt 3))).
    { apply xval_xdiv; [reflexivity|exact E|]. apply Rgt_not_eq. apply Rdiv_lt_0_compat; lra. }
    erewrite xval_xexp; [|apply xval_xopp, xval_xmul; exact E2]. do 3 f_equal.
    replace (d / (med / sqrt 3)) with (d / med * sqrt 3) by (field; lra).
    replace (d / med * sqrt 3 * (d / med * sqrt 3)) with ((d / med) ^ 2 * (sqrt 3 * sqrt 3)) by ring.
    rewrite sqrt_sqrt by lra. ring.
  - assert (E : xval (xdiv (XF med) (XF 3)) = Some (med / 3)) by (apply xval_xdiv; [reflexivity|reflexivity|lra]).
    assert (E2 : xval (xdiv (XF d) (xdiv (XF med) (XF 3))) = Some (d / (med / 3))).
    { apply xval_xdiv; [reflexivity|exact E|]. apply Rgt_not_eq. apply Rdiv_lt_0_compat; lra. }
    erewrite xval_xexp; [|apply xval_xopp, xval_xmul; exact E2]. do 3 f_equal. field. lra.
Qed.

Lemma exponential_not : ~ exists rate, forall d, exists g, g0 Exponential (XF 1) (XF d) = Some g /\ xval g = Some (exp (- (rate * d))).
Proof.
  intros [r H].
  destruct (H 1) as (g1 & E1 & V1). destruct (H 2) as (g2 & E2 & V2).
  destruct (g0_value Exponential 1 1 (or_intror eq_refl) Rlt_0_1) as (h1 & F1 & W1).
  destruct (g0_value Exponential 1 2 (or_intror eq_refl) Rlt_0_1) as (h2 & F2 & W2).
  rewrite E1 in F1; injection F1 as <-. rewrite E2 in F2; injection F2 as <-.
  rewrite W1 in V1. rewrite W2 in V2. injection V1 as V1. injection V2 as V2.
  apply exp_inv in V1, V2. lra.
Qed.
