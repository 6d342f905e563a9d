(** Weights of lists of distances with rounding. *)
From Coq Require Import Reals Bool List ZArith Lra Lia.
From Verif Require Import Outcome XReal XRealFacts RSort KernelModel KernelSpec KernelProofs RoundModel RoundSpec RoundProofs.
Import ListNotations.
Local Open Scope R_scope.

Section Round.
Variables (rn : R -> R) (big : R) (fe : R -> R).
Hypothesis RN : rounding rn big.
Hypothesis FE : exponential fe.

Lemma moderate_nonneg ds : moderate ds -> nonneg ds.
Proof. intros H. eapply Forall_impl; [|exact H]. intros d [->|[A _]]; [lra|]. assert (P := p2_pos (-50)). lra. Qed.
Lemma moderate_pos ds d : moderate ds -> In d ds -> 0 < d -> p2 (-50) <= d <= p2 50.
Proof. intros H I P. unfold moderate in H; rewrite Forall_forall in H. destruct (H d I) as [->|A]; [lra|exact A]. Qed.
Lemma moderate_up ds d : moderate ds -> In d ds -> 0 <= d <= p2 50.
Proof. intros H I. unfold moderate in H; rewrite Forall_forall in H. assert (P := p2_pos (-50)). assert (Q := p2_pos 50). destruct (H d I) as [->|A]; lra. Qed.

Lemma r_fixbw_val xb b xs ds : xval xb = Some b -> xvals xs ds -> moderate ds -> usable_rounded true b ds -> INR (length ds) <= p2 53 ->
  exists x h, r_fixbw rn big xb xs = Ok x /\ xval x = Some h /\ p2 (-50) <= h <= p2 100 /\ adaptive_rounded rn b ds h.
Proof.
  intros Hb H M [[B0 B1] CZ] LN. assert (N : ds <> []) by (intros ->; cbn in CZ; lia). assert (NN := moderate_nonneg ds M).
  pose proof (INR_pos_length _ N) as Pn. assert (N1 : 1 <= INR (length ds)) by (apply (le_INR 1); lia).
  assert (Z0 := pos_INR (count_zero ds)). assert (Hn := rn_int _ _ RN (length ds) LN).
  assert (Vn : xval (rd rn big (XF (INR (length ds)))) = Some (INR (length ds))).
  { rewrite <- Hn at 2. apply (rd_val rn big RN 53); [lia|reflexivity|]. apply bnd_of. lra. }
  assert (Bdn : bnd 40 (b / INR (length ds))).
  { change 40%Z with (40 - 0)%Z. apply bnd_div; [apply bnd_of; lra|]. rewrite p2_0, Rabs_right; lra. }
  unfold r_fixbw. rewrite (xvals_length _ _ H).
  assert (Vd : xval (rdiv rn big xb (rd rn big (XF (INR (length ds))))) = Some (rn (b / INR (length ds)))).
  { apply (v_div rn big RN 40); auto; [lia|lra]. }
  cbv zeta. rewrite (xltb_val _ (XF 1) _ 1 Vd eq_refl). unfold adaptive_rounded. cbv zeta.
  assert (Bdn' : bnd 40 (rn (b / INR (length ds)))) by (apply (rbnd rn big RN); auto; lia).
  set (dn := rn (b / INR (length ds))) in *. set (xdn := rdiv rn big xb _) in *.
  destruct (Rltb dn 1) eqn:E.
  - apply Rltb_true in E. assert (Eb : b < INR (length ds)).
    { destruct (Rlt_dec b (INR (length ds))); auto. exfalso. assert (1 <= b / INR (length ds)).
      { apply Rmult_le_reg_r with (INR (length ds)); auto. unfold Rdiv. rewrite Rmult_assoc, Rinv_l; lra. }
      assert (rn 1 <= dn) by (apply (mono rn big RN); auto). rewrite (one rn big RN) in *. lra. }
    unfold arma_sort. rewrite (xvals_no_nan _ _ H). cbn [obind].
    unfold floor_int. rewrite Hb. cbn [obind].
    pose proof (Int_part_spec b) as IP. set (z := Int_part b) in *.
    assert (1 <= z)%Z.
    { assert (0 < z)%Z; [|lia]. apply lt_IZR. lra. }
    pose proof (Z2Nat.id z ltac:(lia)) as Zk. set (k := Z.to_nat z) in *.
    assert (IZR z = INR k) as Ek by (rewrite INR_IZR_INZ; f_equal; lia).
    assert (k < length ds)%nat as Lk by (apply INR_lt; lra).
    destruct (nth_rsort_ex ds (k - 1) ltac:(lia)) as (dk & E0).
    destruct (nth_rsort_ex ds k ltac:(lia)) as (dk1 & E1).
    destruct (arma_at_val _ _ _ _ (xisort_val _ _ H) E0) as (x0 & A0 & V0).
    destruct (arma_at_val _ _ _ _ (xisort_val _ _ H) E1) as (x1 & A1 & V1).
    replace (z - 1)%Z with (Z.of_nat (k - 1)) by lia.
    rewrite Zk in A1. rewrite A0. cbn [obind]. rewrite A1. cbn [obind].
    apply rsort_kth in E0, E1. replace (S (k - 1)) with k in E0 by lia.
    assert (CK : (count_zero ds < k)%nat). { apply INR_lt. assert (INR (count_zero ds) + 1 < INR k + 1) by lra. lra. }
    assert (Pk : 0 < dk) by (apply (kth_pos_iff k ds dk NN E0); auto).
    assert (Mk := moderate_pos ds dk M (proj1 E0) Pk). assert (Uk1 := moderate_up ds dk1 M (proj1 E1)).
    assert (Ord : dk <= dk1) by (apply (kth_mono k (S k) ds); auto).
    assert (P50 := p2_pos (-50)). assert (Q50 := p2_pos 50).
    assert (Bs : bnd 50 (dk1 - dk)) by (apply bnd_of; lra). assert (Bs' := rbnd rn big RN 50 _ ltac:(lia) Bs).
    assert (Bx : bnd 0 (b - IZR z)) by (apply bnd_of; rewrite p2_0; lra). assert (Bx' := rbnd rn big RN 0 _ ltac:(lia) Bx).
    assert (Bm : bnd 50 (rn (dk1 - dk) * rn (b - IZR z))) by (apply (bnd_mul 50 0); auto). assert (Bm' := rbnd rn big RN 50 _ ltac:(lia) Bm).
    assert (Bk : bnd 50 dk) by (apply bnd_of; lra).
    assert (Ba := bnd_add 50 _ _ Bk Bm'). change (50 + 1)%Z with 51%Z in Ba. assert (Ba' := rbnd rn big RN 51 _ ltac:(lia) Ba).
    assert (S0 : 0 <= rn (dk1 - dk)) by (apply (pos rn big RN); lra). assert (X0 : 0 <= rn (b - IZR z)) by (apply (pos rn big RN); lra).
    assert (M0 : 0 <= rn (rn (dk1 - dk) * rn (b - IZR z))) by (apply (pos rn big RN); nra).
    eexists. exists (rn (dk + rn (rn (dk1 - dk) * rn (b - IZR z)))). split; [reflexivity|]. split.
    { apply (v_add rn big RN 51); auto; [lia|]. apply (v_mul rn big RN 50); auto; [lia| |].
      - apply (v_sub rn big RN 50); auto. lia.
      - apply (v_sub rn big RN 0); auto; lia. }
    split.
    { split; [apply (ge rn big RN); [lia|lra]|]. unfold bnd in Ba'. assert (Y := Rle_abs (rn (dk + rn (rn (dk1 - dk) * rn (b - IZR z))))).
      assert (p2 51 <= p2 100) by (apply p2_le; lia). lra. }
    split; [|lra]. intros _. exists k, dk, dk1. rewrite <- Ek. repeat split; try apply E0; try apply E1; try lra.
  - apply Rltb_false in E. destruct (arma_max_val _ _ H N) as (m & r & Em & Vm & I & F). rewrite Em. cbn [obind].
    assert (K := max_is_kth ds r I F). assert (Pr : 0 < r) by (apply (kth_pos_iff _ ds r NN K); auto). assert (Mr := moderate_pos ds r M I Pr).
    assert (P50 := p2_pos (-50)). assert (Br : bnd 50 r) by (apply bnd_of; lra).
    assert (Bm := bnd_mul 40 50 _ _ Bdn' Br). change (40 + 50)%Z with 90%Z in Bm. assert (Bm' := rbnd rn big RN 90 _ ltac:(lia) Bm).
    eexists. exists (rn (dn * r)). split; [reflexivity|]. split; [apply (v_mul rn big RN 90); auto; lia|]. split.
    { split; [apply (ge rn big RN); [lia|nra]|]. unfold bnd in Bm'. assert (Y := Rle_abs (rn (dn * r))). assert (p2 90 <= p2 100) by (apply p2_le; lia). lra. }
    split; [lra|]. intros _. exists r. split; auto.
Qed.

Definition effective_rounded (adaptive : bool) (b : R) (ds : list R) (h : R) : Prop := if adaptive then adaptive_rounded rn b ds h else h = b.
Lemma r_weight_val k adaptive xb b xs ds : xval xb = Some b -> xvals xs ds -> moderate ds -> usable_rounded adaptive b ds -> INR (length ds) <= p2 53 ->
  exists h, effective_rounded adaptive b ds h /\ low h /\ returns_values (r_weight rn big fe k adaptive xb xs) (map (fun d => RK rn fe k d h) ds).
Proof.
  intros Hb H M U LN.
  assert (V : forall y h, xval y = Some h -> p2 (-50) <= h <= p2 100 -> xvals (map (fun d => r_kernel rn big fe k d y) xs) (map (fun d => RK rn fe k d h) ds)).
  { intros y h Y B. unfold xvals. rewrite !map_map. unfold xvals in H. clear U LN Hb. revert xs H M.
    induction ds as [|d ds IH]; intros [|x xs] H M; try discriminate; [reflexivity|]. cbn in H |- *. injection H as Hx Hxs. inversion M; subst. f_equal.
    - apply RK_val; auto. apply (moderate_up (d :: ds)); [exact M|left; reflexivity].
    - apply IH; auto. }
  destruct adaptive.
  - destruct (r_fixbw_val xb b xs ds Hb H M U LN) as (x & h & E & Vx & B & A). exists h. split; [exact A|]. split; [apply B|].
    eexists. split; [unfold r_weight; rewrite E; cbn [obind]; reflexivity|]. apply V; auto.
  - exists b. unfold usable_rounded in U. assert (p2 50 <= p2 100) by (apply p2_le; lia). split; [reflexivity|]. split; [apply U|]. eexists. split; [reflexivity|]. apply V; auto. lra.
Qed.

Lemma r_weight_main k adaptive xb b xs ds : xval xb = Some b -> xvals xs ds -> moderate ds -> usable_rounded adaptive b ds -> INR (length ds) <= p2 53 ->
  exists h rs, (if adaptive then adaptive_rounded rn b ds h else h = b) /\ returns_values (r_weight rn big fe k adaptive xb xs) rs /\
  length rs = length ds /\ Forall (fun w => 0 <= w <= 1) rs /\
  (forall i, nth_error ds i = Some 0 -> nth_error rs i = Some 1) /\
  (forall i j di dj, nth_error ds i = Some di -> nth_error ds j = Some dj -> di <= dj ->
     exists wi wj, nth_error rs i = Some wi /\ nth_error rs j = Some wj /\ wj <= wi) /\
  (compact k = true -> forall i d, nth_error ds i = Some d -> h <= d -> nth_error rs i = Some 0).
Proof.
  intros Hb H M U LN. destruct (r_weight_val k adaptive xb b xs ds Hb H M U LN) as (h & E & L & V). assert (NN := moderate_nonneg ds M).
  exists h. eexists. split; [exact E|]. split; [exact V|]. split; [apply map_length|]. split.
  { apply Forall_map. eapply Forall_impl; [|exact NN]. intros d D. apply (RK_range rn big fe RN FE); auto. }
  assert (NM : forall i d, nth_error ds i = Some d -> nth_error (map (fun d => RK rn fe k d h) ds) i = Some (RK rn fe k d h)).
  { intros i d I. rewrite (map_nth_error _ _ _ I). reflexivity. }
  split; [intros i I; rewrite (NM i 0 I); f_equal; apply (RK_zero rn big fe RN FE); auto|]. split.
  - intros i j di dj I J D. eexists. eexists. split; [apply NM; exact I|]. split; [apply NM; exact J|].
    apply (RK_mono rn big fe RN FE); auto. unfold nonneg in NN; rewrite Forall_forall in NN. apply NN. eapply nth_error_In; eauto.
  - intros C i d I D. rewrite (NM i d I). f_equal. apply (RK_beyond rn big fe RN); auto.
Qed.

(** The adaptive bandwidth reaches every neighbour it counts. *)
Lemma r_reach b ds h : moderate ds -> usable_rounded true b ds -> adaptive_rounded rn b ds h -> forall k dk, INR k <= b -> kth_smallest k ds dk -> rn dk <= h.
Proof.
  intros M [[B0 B1] CZ] [A A'] k dk L K. assert (NN := moderate_nonneg ds M). destruct (Rlt_dec (rn (b / INR (length ds))) 1) as [D|D].
  - destruct (A D) as (j & dj & dj1 & J & Kj & Kj1 & ->). apply (mono rn big RN).
    assert (k <= j)%nat. { assert (INR k < INR (S j)) by (rewrite S_INR; lra). apply INR_lt in H. lia. }
    assert (dk <= dj) by (apply (kth_mono k j ds); auto). assert (dj <= dj1) by (apply (kth_mono j (S j) ds); auto).
    assert (0 <= rn (dj1 - dj)) by (apply (pos rn big RN); lra). assert (0 <= rn (b - INR j)) by (apply (pos rn big RN); lra).
    assert (0 <= rn (rn (dj1 - dj) * rn (b - INR j))) by (apply (pos rn big RN); nra). lra.
  - destruct A' as (m & Km & ->); [lra|]. apply (mono rn big RN). assert (dk <= m).
    { destruct K as [I _]. destruct Km as [Im [C1 C2]]. destruct (Rle_dec dk m); auto. exfalso.
      assert (count_le m ds < length ds)%nat; [|lia]. clear -I n. unfold count_le. induction ds as [|x ds IH]; [inversion I|]. cbn.
      destruct I as [->|I]; [destruct (Rle_dec dk m); [lra|]|]; assert (Q := filter_length_le' (fun x => if Rle_dec x m then true else false) ds).
      - lia.
      - specialize (IH I). destruct (Rle_dec x m); cbn; lia. }
    assert (0 <= m) by (apply (moderate_up ds); auto; apply Km). nra.
Qed.
End Round.
