(** Proofs about CumatModel.v: all groups of the device regression. *)
From Coq Require Import Reals Bool List Arith Lia Lra.
From Verif Require Import Outcome Sums CudaModel CudaProofs CumatModel CumatSpec CumatProofs CumatCases CumatGroup.
Import ListNotations.
Local Open Scope R_scope.

Section Loop.
Variable inv : nat -> mem -> option mem.
Variables nvar ndp G nout lo hi : nat.
Variables xt y : mem.
Variables (X : nat -> nat -> R) (Y : nat -> R) (W : nat -> mem) (WW : nat -> nat -> R).
Hypothesis P1 : (0 < nvar)%nat.
Hypothesis P2 : (0 < ndp)%nat.
Hypothesis P3 : (0 < G)%nat.
Hypothesis N32 : (nvar <= 32)%nat.
Hypothesis Inv : inverts inv.
Hypothesis HX : holds xt 0 nvar ndp (fun a k => X k a).
Hypothesis HY : forall k, (k < ndp)%nat -> nth_error y k = Some (Y k).
Hypothesis HW : forall e k, (lo <= e < hi)%nat -> (k < ndp)%nat -> nth_error (W e) k = Some (WW e k).
Hypothesis LH : (lo <= hi <= nout)%nat.

Definition solved (betas : mem) (e : nat) : Prop := exists I,
  (forall a b, (a < nvar)%nat -> (b < nvar)%nat ->
     product nvar I (fun c d => bigsum ndp (fun k => X k c * WW e k * X k d)) a b = if Nat.eqb a b then 1 else 0) /\
  holds betas (e * nvar) nvar 1 (fun a _ => bigsum nvar (fun b => I a b * bigsum ndp (fun k => X k b * WW e k * Y k))).

Lemma solved_outside e l h d d' : same_outside (l * nvar) (h * nvar) d d' -> (e < l \/ h <= e)%nat -> solved d e -> solved d' e.
Proof.
  intros S O (I & H1 & H2). exists I. split; [exact H1|].
  eapply holds_outside; [exact S| |exact H2]. rewrite Nat.mul_1_r.
  destruct O as [O|O]; [left|right]; [|apply Nat.mul_le_mono_r; exact O].
  assert (Q : (Datatypes.S e * nvar <= l * nvar)%nat) by (apply Nat.mul_le_mono_r; lia). cbn in Q. lia.
Qed.

Lemma loop_main g : (forall i, (i < g)%nat -> (lo + i * G <= hi)%nat) -> forall s s', allocated nvar ndp G nout s ->
  cuda_loop inv W lo hi nvar ndp G nout xt y g s = Ok s' ->
  allocated nvar ndp G nout s' /\
  (forall e, (lo <= e < hi)%nat -> (e < lo + g * G)%nat -> solved (d_betas s') e) /\
  same_outside (lo * nvar) (hi * nvar) (d_betas s) (d_betas s').
Proof.
  induction g as [|i IH]; intros B s s' A H; cbn [cuda_loop] in H.
  - inversion H; subst. split; [exact A|]. split; [intros; lia|]. split; auto.
  - destruct (cuda_loop inv W lo hi nvar ndp G nout xt y i s) as [s1| |] eqn:E; cbn [obind] in H; try discriminate.
    destruct (IH ltac:(intros; apply B; lia) s s1 A E) as (A1 & S1 & [O1 O2]).
    assert (Bi : (lo + i * G <= hi)%nat) by (apply B; lia).
    set (len := glength lo hi G i) in *.
    assert (Len : (len <= G /\ gbegin lo G i + len <= hi)%nat).
    { unfold len, glength, gbegin. destruct (Nat.ltb hi (lo + i * G + G)) eqn:Q; [apply Nat.ltb_lt in Q|apply Nat.ltb_ge in Q]; lia. }
    assert (Cov : forall e, (lo + i * G <= e < hi)%nat -> (e < lo + S i * G)%nat -> (e < gbegin lo G i + len)%nat).
    { intros e He H2. unfold len, glength, gbegin. cbn in H2. destruct (Nat.ltb hi (lo + i * G + G)) eqn:Q; [apply Nat.ltb_lt in Q|apply Nat.ltb_ge in Q]; lia. }
    assert (LL : length (map W (group lo hi G i)) = len) by (unfold group; rewrite map_length, seq_length; reflexivity).
    destruct (group_main inv nvar ndp G nout xt y X Y P1 P2 P3 HX HY (map W (group lo hi G i)) (fun j => WW (gbegin lo G i + j)%nat) (gbegin lo G i))
      with (s := s1) (s' := s') as (A2 & S2 & O3); auto.
    { intros j w k Hj Hk. assert (J : (j < len)%nat) by (rewrite <- LL; apply nth_error_Some; rewrite Hj; discriminate).
      rewrite (map_nth_error W j (group lo hi G i) (d := (gbegin lo G i + j)%nat)) in Hj.
      - inversion Hj; subst w. apply HW; auto. unfold gbegin in *. lia.
      - unfold group. fold len. clear - J. revert J. generalize (gbegin lo G i). revert j. induction len as [|n IHn]; intros j b J; [lia|].
        destruct j; cbn; [f_equal; lia|]. rewrite IHn by lia. f_equal. lia. }
    { rewrite LL. lia. }
    { rewrite LL. lia. }
    rewrite LL in *. split; [exact A2|]. split.
    + intros e He Hg. destruct (Nat.lt_ge_cases e (gbegin lo G i)) as [L|L].
      * apply (solved_outside e _ _ _ _ O3); [lia|]. apply S1; auto.
      * destruct (S2 (e - gbegin lo G i)%nat) as (I & H1 & _ & _ & H3).
        { specialize (Cov e). unfold gbegin in *. lia. }
        unfold cross, cross_y in H1, H3. cbv beta in H1, H3.
        replace (gbegin lo G i + (e - gbegin lo G i))%nat with e in * by lia.
        exists I. split; auto.
    + destruct O3 as [O3 O4]. split; [congruence|]. intros q Hq. rewrite O4, O2; auto.
      unfold gbegin in *. destruct Hq as [Hq|Hq]; [left|right].
      * assert ((lo * nvar <= (lo + i * G) * nvar)%nat) by (apply Nat.mul_le_mono_r; lia). lia.
      * assert (((lo + i * G + len) * nvar <= hi * nvar)%nat) by (apply Nat.mul_le_mono_r; lia). lia.
Qed.

Lemma fit_main s s' : allocated nvar ndp G nout s -> cuda_fit inv W lo hi nvar ndp G nout xt y s = Ok s' ->
  (forall e, (lo <= e < hi)%nat -> solved (d_betas s') e) /\
  same_outside (lo * nvar) (hi * nvar) (d_betas s) (d_betas s').
Proof.
  intros A H. unfold cuda_fit, groups in H. rewrite (proj2 (Nat.eqb_neq G 0)) in H by lia. cbn [obind] in H.
  assert (D := Nat.div_mod (hi - lo) G ltac:(lia)). assert (M := Nat.mod_upper_bound (hi - lo) G ltac:(lia)).
  rewrite (Nat.mul_comm G) in D.
  destruct (loop_main (((hi - lo) / G + (if Nat.eqb ((hi - lo) mod G) 0 then 0 else 1)))%nat) with (s := s) (s' := s') as (_ & S & O); auto.
  - intros i Hi. destruct (Nat.eqb ((hi - lo) mod G) 0) eqn:Z.
    + assert (Q : (i * G <= (hi - lo) / G * G)%nat) by (apply Nat.mul_le_mono_r; lia). lia.
    + assert (Q : (i * G <= (hi - lo) / G * G)%nat) by (apply Nat.mul_le_mono_r; lia). lia.
  - split; [|exact O]. intros e He. apply S; auto.
    rewrite Nat.mul_add_distr_r. destruct (Nat.eqb ((hi - lo) mod G) 0) eqn:Z; [apply Nat.eqb_eq in Z|]; lia.
Qed.
End Loop.

Lemma start_allocated nvar ndp G nout info : length info = G -> allocated nvar ndp G nout (cuda_start nvar ndp G nout info).
Proof. intros L. unfold allocated, cuda_start. cbn. rewrite !repeat_length. auto 8. Qed.

Lemma zero_column d nvar nout e : (e < nout)%nat -> (forall q, (q < nvar)%nat -> nth_error d (e * nvar + q) = nth_error (repeat 0 (nvar * nout)) (e * nvar + q)) ->
  holds d (e * nvar) nvar 1 (fun _ _ => 0).
Proof.
  intros He H i j Hi Hj. assert (j = 0%nat) by lia. subst. cbn. rewrite Nat.add_0_r, H by auto.
  apply nth_error_repeat.
  assert (Q : (S e * nvar <= nout * nvar)%nat) by (apply Nat.mul_le_mono_r; lia). cbn in Q. rewrite (Nat.mul_comm nvar nout). lia.
Qed.

(** From the buffers as allocated. *)
Lemma fit_start inv nvar ndp G nout lo hi xt y X Y W WW info s' :
  (0 < nvar <= 32)%nat -> (0 < ndp)%nat -> (0 < G)%nat -> inverts inv ->
  holds xt 0 nvar ndp (fun a k => X k a) -> (forall k, (k < ndp)%nat -> nth_error y k = Some (Y k)) ->
  (forall e k, (lo <= e < hi)%nat -> (k < ndp)%nat -> nth_error (W e) k = Some (WW e k)) -> (lo <= hi <= nout)%nat ->
  length info = G ->
  cuda_fit inv W lo hi nvar ndp G nout xt y (cuda_start nvar ndp G nout info) = Ok s' ->
  (forall e, (lo <= e < hi)%nat -> solved nvar ndp X Y WW (d_betas s') e) /\
  (forall e, (e < lo \/ hi <= e < nout)%nat -> holds (d_betas s') (e * nvar) nvar 1 (fun _ _ => 0)).
Proof.
  intros [P1 N] P2 P3 Inv HX HY HW LH LI H.
  destruct (fit_main inv nvar ndp G nout lo hi xt y X Y W WW P1 P2 P3 N Inv HX HY HW LH _ _ (start_allocated nvar ndp G nout info LI) H) as [S [_ O]].
  split; [exact S|]. intros e He. apply zero_column with (nout := nout); [lia|]. intros q Hq. apply O.
  destruct He as [He|He]; [left|right].
  - assert (Q : (Datatypes.S e * nvar <= lo * nvar)%nat) by (apply Nat.mul_le_mono_r; lia). cbn in Q. lia.
  - assert (Q : (hi * nvar <= e * nvar)%nat) by (apply Nat.mul_le_mono_r; lia). lia.
Qed.

(** Fresh destinations. *)
Lemma matmul_new_main a b A B :
  (0 < nrows a)%nat -> (0 < ncols a)%nat -> (0 < ncols b)%nat -> (ncols a <= nrows b)%nat ->
  series (o_mem a) (o_off a) (match o_kind a with Mat => 0 | Strides _ => o_rows a * o_cols a end) (matmul_strides a b) (o_rows a) (o_cols a) A ->
  series (o_mem b) (o_off b) (match o_kind b with Mat => 0 | Strides _ => o_rows b * o_cols b end) (matmul_strides a b) (o_rows b) (o_cols b) B ->
  exists c, matmul_new a b = Ok c /\ nrows c = nrows a /\ ncols c = ncols b /\ getStrides c = matmul_strides a b /\ o_off c = 0%nat /\
    length (o_mem c) = (matmul_strides a b * (nrows a * ncols b))%nat /\
    forall s, (s < matmul_strides a b)%nat -> holds (o_mem c) (s * (nrows a * ncols b)) (nrows a) (ncols b)
        (product (ncols a) (flipped (o_trans a) (A s)) (flipped (o_trans b) (B s))).
Proof.
  intros P1 P2 P3 E HA HB. unfold matmul_new.
  set (c := mkOp (repeat 0 (nrows a * ncols b * matmul_strides a b)) 0 (nrows a) (ncols b) false
             (match o_kind a, o_kind b with Mat, Mat => Mat | _, _ => Strides (matmul_strides a b) end)).
  assert (Sc : getStrides c = matmul_strides a b).
  { unfold getStrides, c, matmul_strides. cbn [o_kind]. destruct (o_kind a), (o_kind b); reflexivity. }
  destruct (matmul_main a b c A B) as (d & Q & H & [L _]); auto.
  - intros Ka Kb. rewrite Sc. unfold matmul_strides. rewrite Ka, Kb. reflexivity.
  - rewrite Sc. unfold c at 1 2 3 4. cbn [o_off o_rows o_cols o_mem]. rewrite repeat_length. lia.
  - rewrite Sc. exact HA.
  - rewrite Sc. exact HB.
  - rewrite Q. cbn [obind]. rewrite Sc in *. eexists. split; [reflexivity|].
    cbn [o_kind o_mem o_off nrows ncols o_trans o_rows o_cols]. split; [reflexivity|]. split; [reflexivity|].
    split; [exact Sc|]. split; [reflexivity|]. split; [|exact H].
    rewrite L. unfold c. cbn [o_mem]. rewrite repeat_length. lia.
Qed.

(** A group followed by its hat rows. *)
Section Hat.
Variable inv : nat -> mem -> option mem.
Variables nvar ndp G nout first : nat.
Variables (xt y : mem) (ws : list mem).
Variables (X : nat -> nat -> R) (Y : nat -> R) (Wt : nat -> nat -> R).
Hypothesis P1 : (0 < nvar <= 32)%nat.
Hypothesis P2 : (0 < ndp)%nat.
Hypothesis P3 : (0 < G)%nat.
Hypothesis Inv : inverts inv.
Hypothesis HX : holds xt 0 nvar ndp (fun a k => X k a).
Hypothesis LX : length xt = (nvar * ndp)%nat.
Hypothesis HY : forall k, (k < ndp)%nat -> nth_error y k = Some (Y k).
Hypothesis HW : forall i w k, nth_error ws i = Some w -> (k < ndp)%nat -> nth_error w k = Some (Wt i k).
Hypothesis LW : (length ws <= G)%nat.
Hypothesis LF : (first + length ws <= nout)%nat.

Lemma group_inverse s s' : allocated nvar ndp G nout s -> cuda_group inv nvar ndp G nout xt y ws first s = Ok s' ->
  allocated nvar ndp G nout s' /\ exists I, forall i, (i < length ws)%nat ->
     (forall a b, (a < nvar)%nat -> (b < nvar)%nat -> product nvar (I i) (cross ndp X Wt i) a b = if Nat.eqb a b then 1 else 0) /\
     holds (d_xtwxI s') (i * (nvar * nvar)) nvar nvar (I i) /\
     holds (d_xtw s') (i * (nvar * ndp)) nvar ndp (fun a k => X k a * Wt i k) /\
     holds (d_betas s') ((first + i) * nvar) nvar 1 (fun a _ => bigsum nvar (fun b => I i a b * cross_y ndp X Y Wt i b)).
Proof.
  intros A H. destruct (group_main inv nvar ndp G nout xt y X Y (proj1 P1) P2 P3 HX HY ws Wt first HW LW LF s s' (proj2 P1) Inv A H) as (A' & H1 & _).
  split; [exact A'|]. exists (fun i => as_matrix (d_xtwxI s') (i * (nvar * nvar)) nvar). intros i Hi.
  destruct (H1 i Hi) as (I & E1 & E2 & E3 & E4).
  assert (Eq : forall a b, (a < nvar)%nat -> (b < nvar)%nat -> I a b = as_matrix (d_xtwxI s') (i * (nvar * nvar)) nvar a b).
  { intros a b Ha Hb. apply (holds_unique (d_xtwxI s') (i * (nvar * nvar)) nvar nvar _ (as_matrix (d_xtwxI s') (i * (nvar * nvar)) nvar) E2); auto.
    apply holds_self. destruct A' as (_ & _ & _ & L & _). rewrite L.
    assert (Q : (S i * (nvar * nvar) <= G * (nvar * nvar))%nat) by (apply Nat.mul_le_mono_r; lia). cbn in Q. lia. }
  split; [|split; [|split]].
  - intros a b Ha Hb. rewrite <- (E1 a b Ha Hb). apply product_ext; auto. intros l Hl. symmetry. apply Eq; auto.
  - eapply holds_ext; [|exact E2]. exact Eq.
  - exact E3.
  - eapply holds_ext; [|exact E4]. intros a b Ha Hb. cbv beta. apply bigsum_ext. intros c Hc. rewrite Eq; auto.
Qed.

Lemma group_hat s s' u_c u_s : allocated nvar ndp G nout s -> cuda_group inv nvar ndp G nout xt y ws first s = Ok s' ->
  (first + G <= ndp)%nat -> length u_c = (G * (nvar * ndp))%nat -> length u_s = (G * ndp)%nat ->
  exists c h, cuda_hat nvar ndp G xt first (length ws) s' u_c u_s = Ok (c, h) /\
  forall i, (i < length ws)%nat -> exists I,
    (forall a b, (a < nvar)%nat -> (b < nvar)%nat -> product nvar I (cross ndp X Wt i) a b = if Nat.eqb a b then 1 else 0) /\
    holds c (i * (nvar * ndp)) nvar ndp (fun a k => bigsum nvar (fun b => I a b * (X k b * Wt i k))) /\
    holds h (i * ndp) 1 ndp (fun _ k => bigsum nvar (fun a => X (first + i)%nat a * bigsum nvar (fun b => I a b * (X k b * Wt i k)))).
Proof.
  intros A H F Lc Ls. destruct (group_inverse s s' A H) as (A' & I & HI).
  destruct (hat_main nvar ndp G nout xt X (proj1 P1) P2 P3 HX ws Wt first LW LF s' u_c u_s I LX A' F Lc Ls) as (c & h & E & Q); auto.
  - intros i Hi. apply HI; auto.
  - intros i Hi. apply HI; auto.
  - exists c, h. split; [exact E|]. intros i Hi. exists (I i). split; [apply HI; auto|]. apply Q; auto.
Qed.

Lemma group_hat_new s s' : allocated nvar ndp G nout s -> cuda_group inv nvar ndp G nout xt y ws first s = Ok s' ->
  (first + length ws <= ndp)%nat ->
  exists c h, cuda_hat_new nvar ndp G xt first (length ws) s' = Ok (c, h) /\ getStrides h = length ws /\
  forall i, (i < length ws)%nat -> exists I,
    (forall a b, (a < nvar)%nat -> (b < nvar)%nat -> product nvar I (cross ndp X Wt i) a b = if Nat.eqb a b then 1 else 0) /\
    holds (o_mem h) (i * ndp) 1 ndp (fun _ k => bigsum nvar (fun a => X (first + i)%nat a * bigsum nvar (fun b => I a b * (X k b * Wt i k)))).
Proof.
  intros A H F. destruct (group_inverse s s' A H) as ((A1 & A2 & A3 & A4 & A5 & A6) & I & HI). unfold cuda_hat_new.
  destruct (matmul_new_main (custride nvar nvar G (d_xtwxI s')) (custride nvar ndp G (d_xtw s'))
    (fun i => as_matrix (d_xtwxI s') (i * (nvar * nvar)) nvar) (fun i => as_matrix (d_xtw s') (i * (nvar * ndp)) nvar)) as (c & E & R1 & R2 & R3 & R4 & R5 & R6);
    try (cbn; lia).
  { apply series_self. rewrite A4. apply le_n. }
  { apply series_self. rewrite A1. apply le_n. }
  assert (Kc : o_trans c = false /\ o_rows c = nvar /\ o_cols c = ndp /\ o_kind c = Strides G).
  { unfold matmul_new in E. destruct (matmul _ _ _); cbn [obind] in E; try discriminate. inversion E. cbn. auto. }
  destruct Kc as (K1 & K2 & K3 & K4).
  rewrite E. cbn [obind].
  change (nrows (custride nvar nvar G (d_xtwxI s'))) with nvar in *. change (ncols (custride nvar ndp G (d_xtw s'))) with ndp in *.
  change (matmul_strides (custride nvar nvar G (d_xtwxI s')) (custride nvar ndp G (d_xtw s'))) with G in *.
  change (ncols (custride nvar nvar G (d_xtwxI s'))) with nvar in *.
  destruct (matmul_new_main (t (view (as_stride (cumat nvar ndp xt)) first (first + length ws))) c
    (fun s' a _ => X (first + s')%nat a) (fun i => as_matrix (o_mem c) (i * (nvar * ndp)) nvar)) as (h & E2 & T1 & T2 & T3 & T4 & T5 & T6);
    try (cbn; lia).
  { cbn [t view as_stride cumat o_mem o_off o_rows o_cols o_kind matmul_strides].
    replace (first + length ws - first)%nat with (length ws) by lia.
    intros q Hq a j Ha Hj. assert (j = 0%nat) by lia. subst j. cbn. rewrite !Nat.mul_1_r, <- Nat.mul_add_distr_r.
    specialize (HX a (first + q)%nat Ha). cbn in HX. rewrite Nat.add_0_r, Nat.add_comm. apply HX. lia. }
  { rewrite K2, K3, K4, R4. cbn [matmul_strides t view o_kind]. replace (first + length ws - first)%nat with (length ws) by lia.
    intros q Hq. apply series_self with (count := G); [rewrite R5; apply le_n|]. lia. }
  rewrite E2. cbn [obind]. exists c, h. split; [reflexivity|].
  assert (MS : matmul_strides (t (view (as_stride (cumat nvar ndp xt)) first (first + length ws))) c = length ws).
  { cbn. lia. }
  rewrite MS in *. split; [exact T3|]. intros i Hi. exists (I i). split; [apply HI; auto|].
  specialize (T6 i Hi). rewrite R2 in T6. change (nrows (t (view (as_stride (cumat nvar ndp xt)) first (first + length ws)))) with 1%nat in T6.
  change (ncols (t (view (as_stride (cumat nvar ndp xt)) first (first + length ws)))) with nvar in T6. rewrite Nat.mul_1_l in T6.
  eapply holds_ext; [|exact T6]. intros z k Hz Hk. rewrite K1. unfold product, flipped. cbn [o_trans t negb view].
  apply bigsum_ext. intros a Ha. f_equal.
  specialize (R6 i ltac:(lia)).
  transitivity (product nvar (as_matrix (d_xtwxI s') (i * (nvar * nvar)) nvar) (as_matrix (d_xtw s') (i * (nvar * ndp)) nvar) a k).
  - apply (holds_unique (o_mem c) (i * (nvar * ndp)) nvar ndp (as_matrix (o_mem c) (i * (nvar * ndp)) nvar) _); auto.
    apply holds_self. rewrite R5. assert (Q : (S i * (nvar * ndp) <= G * (nvar * ndp))%nat) by (apply Nat.mul_le_mono_r; lia). cbn in Q. lia.
  - destruct (HI i Hi) as (_ & J1 & J2 & _). unfold product. apply bigsum_ext. intros b Hb. f_equal.
    + apply (holds_unique (d_xtwxI s') (i * (nvar * nvar)) nvar nvar (as_matrix (d_xtwxI s') (i * (nvar * nvar)) nvar) (I i)); auto. apply holds_self. rewrite A4.
      assert (Q : (S i * (nvar * nvar) <= G * (nvar * nvar))%nat) by (apply Nat.mul_le_mono_r; lia). cbn in Q. lia.
    + apply (holds_unique (d_xtw s') (i * (nvar * ndp)) nvar ndp (as_matrix (d_xtw s') (i * (nvar * ndp)) nvar) (fun a k => X k a * Wt i k)); auto.
      apply holds_self. rewrite A1. assert (Q : (S i * (nvar * ndp) <= G * (nvar * ndp))%nat) by (apply Nat.mul_le_mono_r; lia). cbn in Q. lia.
Qed.
End Hat.

Lemma many_start inv nvar ndp G nout xt y X Y ws Wt first info :
  (32 < nvar)%nat -> (0 < ndp)%nat -> (0 < G)%nat ->
  holds xt 0 nvar ndp (fun a k => X k a) -> (forall k, (k < ndp)%nat -> nth_error y k = Some (Y k)) ->
  (forall i w k, nth_error ws i = Some w -> (k < ndp)%nat -> nth_error w k = Some (Wt i k)) ->
  (length ws <= G)%nat -> (first + length ws <= nout)%nat -> info = repeat true G ->
  exists s', cuda_group inv nvar ndp G nout xt y ws first (cuda_start nvar ndp G nout info) = Ok s' /\
  forall i, (i < length ws)%nat -> holds (d_betas s') ((first + i) * nvar) nvar 1 (fun _ _ => 0).
Proof.
  intros N P2 P3 HX HY HW LW LF ->.
  apply (many_columns inv nvar ndp G nout xt y X Y) with (Wt := Wt); auto; [lia|apply start_allocated, repeat_length| |].
  - intros b Hb. apply repeat_spec in Hb. exact Hb.
  - intros q. cbn. rewrite nth_repeat. reflexivity.
Qed.
