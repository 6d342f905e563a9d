(** Weights of large bandwidths. *)
From Coq Require Import Reals Bool List Lia Lra Psatz.
From Verif Require Import Outcome XReal XRealFacts KernelModel KernelSpec KernelProofs KernelMain.
Import ListNotations.
Local Open Scope R_scope.

Lemma K_near k d h : 0 <= d -> d < h -> Rabs (K k d h - 1) <= 3 * (d / h).
Proof.
  intros Hd Hh. assert (U : 0 <= d / h < 1).
  { split; [apply Rmult_le_pos; [lra|left; apply Rinv_0_lt_compat; lra]|].
    apply Rmult_lt_reg_r with h; [lra|]. unfold Rdiv. rewrite Rmult_assoc, Rinv_l; lra. }
  unfold K. set (u := d / h) in *.
  assert (E : forall v, 0 <= v -> 1 - v <= exp (- v) <= 1).
  { intros v V. split; [generalize (exp_ineq1_le (- v)); lra|]. rewrite <- exp_0.
    destruct V as [V|V]; [left; apply exp_increasing; lra|right; f_equal; lra]. }
  destruct k.
  - replace (- u ^ 2 / 2) with (- (u ^ 2 / 2)) by lra. destruct (E (u ^ 2 / 2)); [simpl; nra|].
    apply Rabs_le. simpl in *. nra.
  - destruct (E u); [lra|]. apply Rabs_le. lra.
  - destruct (Rlt_dec d h); [|lra]. apply Rabs_le. simpl. assert (0 <= u * u <= u) by nra. nra.
  - destruct (Rlt_dec d h); [|lra]. apply Rabs_le.
    assert (0 <= u ^ 3 <= u) by (simpl; assert (0 <= u * u <= u) by nra; nra). generalize dependent (u ^ 3). intros c C. simpl. nra.
  - destruct (Rlt_dec d h); [|lra]. apply Rabs_le. lra.
Qed.
Lemma fixed_limit k D e : 0 <= D -> 0 < e -> exists b0, 0 < b0 /\ forall xb b xs ds, xval xb = Some b -> b0 <= b ->
  xvals xs ds -> nonneg ds -> Forall (fun d => d <= D) ds ->
  exists rs, returns_values (bw_weight k false xb xs) rs /\ Forall (fun r => Rabs (r - 1) <= e) rs.
Proof.
  intros HD He. exists (D + 1 + 3 * D / e). assert (P : 0 <= 3 * D / e) by (apply Rmult_le_pos; [lra|left; apply Rinv_0_lt_compat; lra]).
  split; [lra|]. intros xb b xs ds Hb B Hx N L. exists (map (fun d => K k d b) ds). split; [apply fixed_main; auto; lra|].
  rewrite Forall_map, Forall_forall. intros d I. unfold nonneg in N. rewrite Forall_forall in N, L. specialize (N d I). specialize (L d I).
  eapply Rle_trans; [apply K_near; lra|]. apply Rmult_le_reg_r with (b / e); [apply Rdiv_lt_0_compat; lra|].
  replace (3 * (d / b) * (b / e)) with (3 * d / e) by (field; lra). replace (e * (b / e)) with b by (field; lra).
  assert (3 * d / e <= 3 * D / e); [|lra]. apply Rmult_le_compat_r; [left; apply Rinv_0_lt_compat; lra|lra].
Qed.
Lemma kth_last ds h d : kth_smallest (length ds) ds h -> In d ds -> d <= h.
Proof.
  intros [_ [_ L]] I. apply Rnot_lt_le. intros G. unfold count_le in L.
  assert (forall l, In d l -> (length (filter (fun x => if Rle_dec x h then true else false) l) < length l)%nat); [|specialize (H ds I); lia].
  clear L I. assert (W : forall l, (length (filter (fun x => if Rle_dec x h then true else false) l) <= length l)%nat).
  { induction l as [|a l IH]; [simpl; lia|]. cbn [filter]. destruct (Rle_dec a h); cbn [length]; lia. }
  induction l as [|a l IH]; intros I; [destruct I|]. cbn [filter]. destruct I as [->|I].
  - destruct (Rle_dec d h); [lra|]. specialize (W l). cbn [length]. lia.
  - specialize (IH I). destruct (Rle_dec a h); cbn [length]; lia.
Qed.
Lemma adaptive_limit k n e : (0 < n)%nat -> 0 < e -> exists b0, 0 < b0 /\ forall xb b xs ds, xval xb = Some b -> b0 <= b ->
  xvals xs ds -> nonneg ds -> length ds = n -> (count_zero ds < n)%nat ->
  exists rs, returns_values (bw_weight k true xb xs) rs /\ Forall (fun r => Rabs (r - 1) <= e) rs.
Proof.
  intros Hn He. assert (Pn : 1 <= INR n) by (apply (le_INR 1); lia).
  exists (INR n * (2 + 3 / e)). assert (P : 0 < 3 / e) by (apply Rdiv_lt_0_compat; lra).
  split; [apply Rmult_lt_0_compat; lra|]. intros xb b xs ds Hb B Hx N Ln Z.
  assert (B2 : 2 * INR n <= b) by nra. assert (B3 : 3 * INR n / e <= b).
  { replace (3 * INR n / e) with (INR n * (3 / e)) by (field; lra). nra. }
  assert (U : usable true b ds).
  { unfold usable. rewrite Ln. split; [lra|]. split; [|exact Z]. apply lt_INR in Z. lra. }
  destruct (C05_main k xb b xs ds Hb Hx N U) as (h & [_ A] & _ & _ & R). exists (map (fun d => K k d h) ds). split; [exact R|].
  destruct A as (dm & Km & ->); [rewrite Ln; lra|]. rewrite Ln in *.
  assert (M : forall d, In d ds -> d <= dm) by (intros d; apply kth_last; rewrite Ln; exact Km).
  unfold nonneg in N. rewrite Forall_forall in N.
  assert (Dm : 0 < dm).
  { assert (0 <= dm) by (apply N; exact (proj1 Km)). destruct (Req_dec dm 0) as [->|]; [|lra]. exfalso.
    assert (count_zero ds = length ds); [|lia]. clear - N M. unfold count_zero.
    assert (forall d, In d ds -> d = 0) by (intros d I; specialize (N d I); specialize (M d I); lra). clear N M.
    induction ds as [|a ds IH]; [reflexivity|]. cbn [filter]. destruct (Req_EM_T a 0) as [_|Q]; [|exfalso; apply Q; apply H; left; reflexivity].
    cbn [length]. f_equal. apply IH. intros d I. apply H. right. exact I. }
  rewrite Forall_map, Forall_forall. intros d I. specialize (N d I). specialize (M d I).
  set (h := b / INR n * dm). assert (F : 2 <= b / INR n).
  { apply Rmult_le_reg_r with (INR n); [lra|]. unfold Rdiv. rewrite Rmult_assoc, Rinv_l; lra. }
  assert (Hh : d < h) by (unfold h; nra).
  eapply Rle_trans; [apply K_near; [exact N|exact Hh]|].
  assert (Q : d / h <= INR n / b).
  { apply Rmult_le_reg_r with (h * b); [apply Rmult_lt_0_compat; lra|].
    replace (d / h * (h * b)) with (d * b) by (field; lra). replace (INR n / b * (h * b)) with (INR n * h) by (field; lra).
    unfold h. replace (INR n * (b / INR n * dm)) with (b * dm) by (field; lra). nra. }
  assert (3 * (INR n / b) <= e); [|lra].
  apply Rmult_le_reg_r with (b / e); [apply Rdiv_lt_0_compat; lra|].
  replace (3 * (INR n / b) * (b / e)) with (3 * INR n / e) by (field; lra). replace (e * (b / e)) with b by (field; lra). exact B3.
Qed.
Lemma far_case : xval (XF 100) = Some 100 /\ xvals (map XF [0; 1; 2; 3]) [0; 1; 2; 3] /\ nonneg [0; 1; 2; 3] /\
  Forall (fun d => d <= 3) [0; 1; 2; 3].
Proof. split; [reflexivity|]. split; [reflexivity|]. split; unfold nonneg; repeat (apply Forall_cons; [lra|]); apply Forall_nil. Qed.
Lemma far_count : length [0; 1; 2; 3] = 4%nat /\ (count_zero [0%R; 1; 2; 3]%R < 4)%nat.
Proof. split; [reflexivity|]. unfold count_zero. cbn [filter]. repeat destruct Req_EM_T; try lra; cbn [length]; lia. Qed.
