(** Proofs about the distance classes. *)
From Coq Require Import Reals Bool List ZArith Lra Lia Psatz.
From Verif Require Import Outcome XReal XRealFacts DistModel DistSpec.
Import ListNotations.
Local Open Scope R_scope.

(** ** Euclidean metric *)
Lemma euclid_dist o p : euclid o p = dist_euc (fst p) (snd p) (fst o) (snd o).
Proof. unfold euclid, dist_euc, Rsqr. reflexivity. Qed.
Lemma euclid_nonneg o p : 0 <= euclid o p.
Proof. apply sqrt_pos. Qed.
Lemma euclid_sym o p : euclid o p = euclid p o.
Proof. rewrite !euclid_dist. apply distance_symm. Qed.
Lemma euclid_triangle a b c : euclid a c <= euclid a b + euclid b c.
Proof.
  rewrite !euclid_dist. pose proof (triangle (fst c) (snd c) (fst a) (snd a) (fst b) (snd b)). lra.
Qed.
Lemma sum_sq_0 a b : a * a + b * b = 0 -> a = 0 /\ b = 0.
Proof. intros. assert (a * a = 0) by nra. assert (b * b = 0) by nra. split; nra. Qed.
Lemma euclid_zero o p : euclid o p = 0 <-> p = o.
Proof.
  unfold euclid. split.
  - intros E. apply sqrt_eq_0 in E; [|apply Rplus_le_le_0_compat; apply Rle_0_sqr]. apply sum_sq_0 in E as [A B].
    destruct o, p; simpl in *. f_equal; lra.
  - intros ->. replace ((fst o - fst o) * (fst o - fst o) + (snd o - snd o) * (snd o - snd o)) with 0 by ring.
    apply sqrt_0.
Qed.
Definition translate (t : point) (p : point) : point := (fst p + fst t, snd p + snd t).
Lemma euclid_translate t o p : euclid (translate t o) (translate t p) = euclid o p.
Proof. unfold euclid, translate; simpl. f_equal. ring. Qed.
Lemma euclid_rotate th o p : euclid (rotate th o) (rotate th p) = euclid o p.
Proof.
  unfold euclid, rotate; simpl. f_equal.
  set (a := fst p); set (b := snd p); set (c := fst o); set (d := snd o).
  set (s := sin th); set (k := cos th).
  replace ((a * k - b * s - (c * k - d * s)) * (a * k - b * s - (c * k - d * s)) +
    (a * s + b * k - (c * s + d * k)) * (a * s + b * k - (c * s + d * k)))
    with (((a - c) * (a - c) + (b - d) * (b - d)) * (s * s + k * k)) by ring.
  assert (s * s + k * k = 1) as ->. { unfold s, k. pose proof (sin2_cos2 th). unfold Rsqr in H. lra. }
  ring.
Qed.
Lemma chebyshev_le_euclid o p : chebyshev o p <= euclid o p.
Proof.
  unfold chebyshev, euclid.
  assert (forall a b, Rabs a <= sqrt (a * a + b * b)) as H.
  { intros. rewrite <- sqrt_Rsqr_abs. apply sqrt_le_1_alt. unfold Rsqr. nra. }
  apply Rmax_lub; [apply H|]. rewrite Rplus_comm. apply H.
Qed.
Lemma euclid_le_manhattan o p : euclid o p <= manhattan o p.
Proof.
  unfold euclid, manhattan. set (a := fst p - fst o); set (b := snd p - snd o).
  pose proof (Rabs_pos a); pose proof (Rabs_pos b).
  rewrite <- (sqrt_square (Rabs a + Rabs b)) by lra. apply sqrt_le_1_alt.
  assert (a * a = Rabs a * Rabs a). { rewrite <- Rabs_mult. rewrite Rabs_right; nra. }
  assert (b * b = Rabs b * Rabs b). { rewrite <- Rabs_mult. rewrite Rabs_right; nra. }
  nra.
Qed.

(** ** Great-circle distance *)
Lemma gc_S_sym lon1 lon2 lat1 lat2 : gc_S lon1 lon2 lat1 lat2 = gc_S lon2 lon1 lat2 lat1.
Proof.
  unfold gc_S. assert (gc_G lat2 lat1 = - gc_G lat1 lat2) as -> by (unfold gc_G; field).
  assert (gc_L lon2 lon1 = - gc_L lon1 lon2) as -> by (unfold gc_L; field).
  assert (gc_F lat2 lat1 = gc_F lat1 lat2) as -> by (unfold gc_F; field).
  rewrite !sin_neg, !cos_neg. ring.
Qed.
Lemma gc_C_sym lon1 lon2 lat1 lat2 : gc_C lon1 lon2 lat1 lat2 = gc_C lon2 lon1 lat2 lat1.
Proof.
  unfold gc_C. assert (gc_G lat2 lat1 = - gc_G lat1 lat2) as -> by (unfold gc_G; field).
  assert (gc_L lon2 lon1 = - gc_L lon1 lon2) as -> by (unfold gc_L; field).
  assert (gc_F lat2 lat1 = gc_F lat1 lat2) as -> by (unfold gc_F; field).
  rewrite !sin_neg, !cos_neg. ring.
Qed.
Lemma SpGcdist_sym lon1 lon2 lat1 lat2 : SpGcdist lon1 lon2 lat1 lat2 = SpGcdist lon2 lon1 lat2 lat1.
Proof.
  unfold SpGcdist. 
  assert (gc_shortcut lon1 lon2 lat1 lat2 = gc_shortcut lon2 lon1 lat2 lat1) as ->.
  { unfold gc_shortcut. rewrite (Rabs_minus_sym lat1), (Rabs_minus_sym lon1), (Rplus_comm (Rabs lon1)). auto. }
  destruct (gc_shortcut lon2 lon1 lat2 lat1); auto.
  unfold gc_formula. rewrite gc_S_sym, gc_C_sym.
  assert (gc_G lat1 lat2 = - gc_G lat2 lat1) as -> by (unfold gc_G; field).
  assert (gc_F lat1 lat2 = gc_F lat2 lat1) as -> by (unfold gc_F; field).
  rewrite cos_neg, sin_neg.
  replace ((- sin (gc_G lat2 lat1)) ^ 2) with (sin (gc_G lat2 lat1) ^ 2) by ring. reflexivity.
Qed.
Lemma DOUBLE_EPS_pos : 0 < DOUBLE_EPS.
Proof. unfold DOUBLE_EPS. apply Rinv_0_lt_compat. apply pow_lt. lra. Qed.
Lemma SpGcdist_same lon lat : SpGcdist lon lon lat lat = XF 0.
Proof.
  unfold SpGcdist, gc_shortcut. rewrite !Rminus_diag_eq by auto. rewrite Rabs_R0.
  assert (Rltb 0 DOUBLE_EPS = true) as -> by (apply Rltb_true, DOUBLE_EPS_pos). reflexivity.
Qed.

Lemma sin2_cos2' x : sin x ^ 2 + cos x ^ 2 = 1.
Proof. pose proof (sin2_cos2 x). unfold Rsqr in H. simpl. lra. Qed.

Lemma gc_sum lon1 lon2 lat1 lat2 : gc_S lon1 lon2 lat1 lat2 + gc_C lon1 lon2 lat1 lat2 = 1.
Proof.
  unfold gc_S, gc_C. pose proof (sin2_cos2' (gc_G lat1 lat2)).
  pose proof (sin2_cos2' (gc_F lat1 lat2)). pose proof (sin2_cos2' (gc_L lon1 lon2)).
  set (a := sin (gc_G lat1 lat2) ^ 2) in *; set (b := cos (gc_G lat1 lat2) ^ 2) in *.
  set (c := sin (gc_F lat1 lat2) ^ 2) in *; set (d := cos (gc_F lat1 lat2) ^ 2) in *.
  set (e := sin (gc_L lon1 lon2) ^ 2) in *; set (g := cos (gc_L lon1 lon2) ^ 2) in *.
  replace (a * g + d * e + (b * g + c * e)) with ((a + b) * g + (c + d) * e) by ring.
  rewrite H, H0. lra.
Qed.
Lemma gc_S_nonneg lon1 lon2 lat1 lat2 : 0 <= gc_S lon1 lon2 lat1 lat2.
Proof.
  unfold gc_S. pose proof (pow2_ge_0 (sin (gc_G lat1 lat2))). pose proof (pow2_ge_0 (cos (gc_L lon1 lon2))).
  pose proof (pow2_ge_0 (cos (gc_F lat1 lat2))). pose proof (pow2_ge_0 (sin (gc_L lon1 lon2))). nra.
Qed.
Lemma gc_C_nonneg lon1 lon2 lat1 lat2 : 0 <= gc_C lon1 lon2 lat1 lat2.
Proof.
  unfold gc_C. pose proof (pow2_ge_0 (cos (gc_G lat1 lat2))). pose proof (pow2_ge_0 (cos (gc_L lon1 lon2))).
  pose proof (pow2_ge_0 (sin (gc_F lat1 lat2))). pose proof (pow2_ge_0 (sin (gc_L lon1 lon2))). nra.
Qed.

(** cosF^2 sinG^2 <= S and sinF^2 cosG^2 <= C. *)
Lemma weight_le (u v p q : R) : 0 <= u <= 1 -> 0 <= v <= 1 -> 0 <= p -> 0 <= q -> p + q = 1 ->
  u * v <= v * p + u * q.
Proof.
  intros. replace p with (1 - q) by lra.
  assert (0 <= v * ((1 - q) * (1 - u))) by (repeat apply Rmult_le_pos; lra).
  assert (0 <= u * (q * (1 - v))) by (repeat apply Rmult_le_pos; lra). lra.
Qed.
Lemma gc_S_bound lon1 lon2 lat1 lat2 :
  cos (gc_F lat1 lat2) ^ 2 * sin (gc_G lat1 lat2) ^ 2 <= gc_S lon1 lon2 lat1 lat2.
Proof.
  unfold gc_S. pose proof (sin2_cos2' (gc_G lat1 lat2)).
  pose proof (sin2_cos2' (gc_F lat1 lat2)). pose proof (sin2_cos2' (gc_L lon1 lon2)).
  pose proof (pow2_ge_0 (sin (gc_G lat1 lat2))). pose proof (pow2_ge_0 (cos (gc_G lat1 lat2))).
  pose proof (pow2_ge_0 (cos (gc_F lat1 lat2))). pose proof (pow2_ge_0 (sin (gc_F lat1 lat2))).
  apply weight_le; try (apply pow2_ge_0); lra.
Qed.
Lemma gc_C_bound lon1 lon2 lat1 lat2 :
  sin (gc_F lat1 lat2) ^ 2 * cos (gc_G lat1 lat2) ^ 2 <= gc_C lon1 lon2 lat1 lat2.
Proof.
  unfold gc_C. pose proof (sin2_cos2' (gc_G lat1 lat2)).
  pose proof (sin2_cos2' (gc_F lat1 lat2)). pose proof (sin2_cos2' (gc_L lon1 lon2)).
  pose proof (pow2_ge_0 (sin (gc_G lat1 lat2))). pose proof (pow2_ge_0 (cos (gc_G lat1 lat2))).
  pose proof (pow2_ge_0 (cos (gc_F lat1 lat2))). pose proof (pow2_ge_0 (sin (gc_F lat1 lat2))).
  apply weight_le; try (apply pow2_ge_0); lra.
Qed.

Lemma tan_ratio_le t : 0 < t -> t / (1 + t ^ 2) <= atan t.
Proof.
  intros Ht.
  assert (0 < atan t) as P. { rewrite <- atan_0. apply atan_increasing; auto. }
  pose proof (sin_lt_x _ P) as Q. rewrite sin_atan in Q.
  assert (1 <= sqrt (1 + t²)).
  { rewrite <- sqrt_1 at 1. apply sqrt_le_1_alt. pose proof (Rle_0_sqr t). lra. }
  assert (0 < 1 + t ^ 2) by nra.
  assert (sqrt (1 + t²) <= 1 + t ^ 2).
  { replace (1 + t ^ 2) with (1 + t²) by (unfold Rsqr; ring).
    rewrite <- (sqrt_sqrt (1 + t²)) at 2 by (unfold Rsqr; nra). nra. }
  assert (t / (1 + t ^ 2) <= t / sqrt (1 + t²)); [|lra].
  unfold Rdiv. apply Rmult_le_compat_l; [lra|]. apply Rinv_le_contravar; lra.
Qed.

Lemma gc_f_range : 0 < gc_f < / 200.
Proof.
  unfold gc_f. split.
  - apply Rinv_0_lt_compat. lra.
  - apply Rinv_lt_contravar; lra.
Qed.

(** For points that are neither identical nor antipodal (S, C > 0) the formula is
    within the relative error 3f of the spherical distance 2 a w. *)
Lemma gc_formula_near lon1 lon2 lat1 lat2 :
  0 < gc_S lon1 lon2 lat1 lat2 -> 0 < gc_C lon1 lon2 lat1 lat2 ->
  let w := atan (sqrt (gc_S lon1 lon2 lat1 lat2 / gc_C lon1 lon2 lat1 lat2)) in
  exists d, xval (gc_formula lon1 lon2 lat1 lat2) = Some d /\ 0 < w /\
    Rabs (d - 2 * gc_a * w) <= 3 * gc_f * (2 * gc_a * w).
Proof.
  intros HS HC w. pose proof (gc_sum lon1 lon2 lat1 lat2) as SC.
  pose proof (gc_S_bound lon1 lon2 lat1 lat2) as BS. pose proof (gc_C_bound lon1 lon2 lat1 lat2) as BC.
  unfold gc_formula.
  set (S := gc_S lon1 lon2 lat1 lat2) in *. set (C := gc_C lon1 lon2 lat1 lat2) in *.
  set (sF := sin (gc_F lat1 lat2) ^ 2) in *. set (cF := cos (gc_F lat1 lat2) ^ 2) in *.
  set (sG := sin (gc_G lat1 lat2) ^ 2) in *. set (cG := cos (gc_G lat1 lat2) ^ 2) in *.
  assert (0 <= sF) by (apply pow2_ge_0). assert (0 <= cF) by (apply pow2_ge_0).
  assert (0 <= sG) by (apply pow2_ge_0). assert (0 <= cG) by (apply pow2_ge_0).
  assert (0 < S / C) as PQ. { unfold Rdiv. apply Rmult_lt_0_compat; auto. apply Rinv_0_lt_compat; auto. }
  set (t := sqrt (S / C)). assert (0 < t) as Pt by (apply sqrt_lt_R0; auto).
  assert (0 < w) as Pw. { unfold w. fold t. rewrite <- atan_0. apply atan_increasing; auto. }
  assert (t ^ 2 = S / C) as Et. { unfold t. rewrite <- Rsqr_pow2. apply Rsqr_sqrt. lra. }
  assert (sqrt (S * C) = t * C) as ESC.
  { replace (S * C) with ((t * C) * (t * C)).
    - apply sqrt_square. nra.
    - replace (t * C * (t * C)) with (t ^ 2 * (C * C)) by ring. rewrite Et. field. lra. }
  assert (t / (1 + t ^ 2) = t * C) as Et2.
  { rewrite Et. assert (1 + S / C = / C) as -> by (replace S with (1 - C) by lra; field; lra).
    unfold Rdiv. rewrite Rinv_inv. reflexivity. }
  assert (t * C <= w) as Rle1. { rewrite <- Et2. apply tan_ratio_le; auto. }
  set (r := t * C / w).
  assert (0 <= r <= 1) as Rr.
  { unfold r. split.
    - unfold Rdiv. apply Rmult_le_pos; [nra|]. left; apply Rinv_0_lt_compat; auto.
    - apply Rmult_le_reg_r with w; auto. unfold Rdiv. rewrite Rmult_assoc, Rinv_l; lra. }
  assert (xval (xatan (xsqrt (xdiv (XF S) (XF C)))) = Some w) as Vw.
  { apply xval_xatan, xval_xsqrt; [|lra]. apply xval_xdiv; auto. lra. }
  assert (xval (xdiv (xsqrt (XF (S * C))) (xatan (xsqrt (xdiv (XF S) (XF C))))) = Some r) as Vr.
  { unfold r. rewrite <- ESC. apply xval_xdiv; auto; [|lra]. apply xval_xsqrt; auto. nra. }
  set (h1 := (3 * r - 1) / (2 * C)). set (h2 := (3 * r + 1) / (2 * S)).
  set (d := 2 * w * gc_a * (1 + gc_f * h1 * sF * cG - gc_f * h2 * cF * sG)).
  exists d. split; [|split; auto].
  { unfold d. apply xval_xmul.
    { apply xval_xmul; auto. apply xval_xmul; auto. }
    apply xval_xsub; [apply xval_xadd; auto|].
    - apply xval_xmul; auto. apply xval_xmul; auto. apply xval_xmul; auto.
      apply xval_xdiv; auto; [|lra]. apply xval_xsub; auto. apply xval_xmul; auto.
    - apply xval_xmul; auto. apply xval_xmul; auto. apply xval_xmul; auto.
      apply xval_xdiv; auto; [|lra]. apply xval_xadd; auto. apply xval_xmul; auto. }
  pose proof gc_f_range as Hf.
  assert (0 < gc_a) as Ha by (unfold gc_a; lra).
  set (u := sF * cG / C). set (v := cF * sG / S).
  assert (0 <= u <= 1).
  { unfold u. split.
    - unfold Rdiv. apply Rmult_le_pos; [nra|]. left; apply Rinv_0_lt_compat; auto.
    - apply Rmult_le_reg_r with C; auto. unfold Rdiv. rewrite Rmult_assoc, Rinv_l; lra. }
  assert (0 <= v <= 1).
  { unfold v. split.
    - unfold Rdiv. apply Rmult_le_pos; [nra|]. left; apply Rinv_0_lt_compat; auto.
    - apply Rmult_le_reg_r with S; auto. unfold Rdiv. rewrite Rmult_assoc, Rinv_l; lra. }
  assert (d - 2 * gc_a * w = 2 * gc_a * w * (gc_f * ((3 * r - 1) / 2 * u - (3 * r + 1) / 2 * v))) as ->.
  { unfold d, h1, h2, u, v. field. split; lra. }
  assert (0 < 2 * gc_a * w) by nra.
  assert (-3 <= (3 * r - 1) / 2 * u - (3 * r + 1) / 2 * v <= 3).
  { assert (-1 <= (3 * r - 1) / 2 * u <= 1) by (split; nra).
    assert (0 <= (3 * r + 1) / 2 * v <= 2) by (split; nra). lra. }
  rewrite Rabs_mult, (Rabs_right (2 * gc_a * w)), Rabs_mult, (Rabs_right gc_f) by lra.
  set (z := (3 * r - 1) / 2 * u - (3 * r + 1) / 2 * v) in *.
  assert (Rabs z <= 3) by (apply Rabs_le; lra).
  assert (gc_f * Rabs z <= gc_f * 3) by nra. nra.
Qed.

Lemma lat_range lat : Rabs lat < 90 -> - (PI / 2) < lat * gc_de2ra < PI / 2.
Proof.
  intros H. apply Rabs_def2 in H. unfold gc_de2ra. pose proof PI_RGT_0.
  split; nra.
Qed.
Lemma sin_zero_small x : - (PI / 2) < x < PI / 2 -> sin x = 0 -> x = 0.
Proof.
  intros H E. pose proof PI_RGT_0. destruct (Rtotal_order x 0) as [L|[?|L]]; auto; exfalso.
  - assert (0 < sin (- x)) by (apply sin_gt_0; lra). rewrite sin_neg in H1. lra.
  - assert (0 < sin x) by (apply sin_gt_0; lra). lra.
Qed.
Lemma sq0 x : x ^ 2 = 0 -> x = 0.
Proof. intros. nra. Qed.
Lemma two_nonneg_zero a b : 0 <= a -> 0 <= b -> a + b = 0 -> a = 0 /\ b = 0.
Proof. intros; split; lra. Qed.

Lemma gc_S_pos lon1 lon2 lat1 lat2 : Rabs lat1 < 90 -> Rabs lat2 < 90 ->
  (lat1 <> lat2 \/ forall k : Z, lon1 - lon2 <> 360 * IZR k) -> 0 < gc_S lon1 lon2 lat1 lat2.
Proof.
  intros H1 H2 HD. destruct (gc_S_nonneg lon1 lon2 lat1 lat2) as [|E]; auto. exfalso.
  apply lat_range in H1, H2. pose proof PI_RGT_0 as Ppi.
  assert (0 < cos (gc_F lat1 lat2)) as PF by (apply cos_gt_0; unfold gc_F; lra).
  symmetry in E. unfold gc_S in E.
  pose proof (pow2_ge_0 (sin (gc_G lat1 lat2))). pose proof (pow2_ge_0 (cos (gc_L lon1 lon2))).
  pose proof (pow2_ge_0 (sin (gc_L lon1 lon2))). pose proof (pow_lt _ 2 PF).
  apply two_nonneg_zero in E as [E1 E2]; [|nra|nra].
  apply Rmult_integral in E2 as [E2|E2]; [lra|]. apply sq0 in E2.
  assert (cos (gc_L lon1 lon2) ^ 2 = 1) as CL.
  { pose proof (sin2_cos2' (gc_L lon1 lon2)) as Q. rewrite E2 in Q. simpl in *. lra. }
  rewrite CL, Rmult_1_r in E1. apply sq0 in E1. apply sin_zero_small in E1; [|unfold gc_G; lra].
  assert (lat1 = lat2).
  { unfold gc_G, gc_de2ra in E1. assert (PI * (lat1 - lat2) = 0) as Q by lra.
    apply Rmult_integral in Q as [?|?]; lra. }
  destruct HD as [HD|HD]; [contradiction|].
  apply sin_eq_0_0 in E2 as [k Ek]. apply (HD k).
  unfold gc_L, gc_de2ra in Ek. assert (PI * (lon1 - lon2 - 360 * IZR k) = 0) as Q by lra.
  apply Rmult_integral in Q as [?|?]; lra.
Qed.
Lemma gc_C_pos lon1 lon2 lat1 lat2 : Rabs lat1 < 90 -> Rabs lat2 < 90 ->
  (lat1 <> - lat2 \/ forall k : Z, lon1 - lon2 <> 180 + 360 * IZR k) -> 0 < gc_C lon1 lon2 lat1 lat2.
Proof.
  intros H1 H2 HD. destruct (gc_C_nonneg lon1 lon2 lat1 lat2) as [|E]; auto. exfalso.
  apply lat_range in H1, H2. pose proof PI_RGT_0 as Ppi.
  assert (0 < cos (gc_G lat1 lat2)) as PF by (apply cos_gt_0; unfold gc_G; lra).
  symmetry in E. unfold gc_C in E.
  pose proof (pow2_ge_0 (sin (gc_F lat1 lat2))). pose proof (pow2_ge_0 (cos (gc_L lon1 lon2))).
  pose proof (pow2_ge_0 (sin (gc_L lon1 lon2))). pose proof (pow_lt _ 2 PF).
  apply two_nonneg_zero in E as [E1 E2]; [|nra|nra].
  apply Rmult_integral in E1 as [E1|E1]; [lra|]. apply sq0 in E1.
  assert (sin (gc_L lon1 lon2) ^ 2 = 1) as CL.
  { pose proof (sin2_cos2' (gc_L lon1 lon2)) as Q. rewrite E1 in Q. simpl in *. lra. }
  rewrite CL, Rmult_1_r in E2. apply sq0 in E2. apply sin_zero_small in E2; [|unfold gc_F; lra].
  assert (lat1 = - lat2).
  { unfold gc_F, gc_de2ra in E2. assert (PI * (lat1 + lat2) = 0) as Q by lra.
    apply Rmult_integral in Q as [?|?]; lra. }
  destruct HD as [HD|HD]; [contradiction|].
  apply cos_eq_0_0 in E1 as [k Ek]. apply (HD k).
  unfold gc_L, gc_de2ra in Ek. assert (PI * (lon1 - lon2 - (180 + 360 * IZR k)) = 0) as Q by lra.
  apply Rmult_integral in Q as [?|?]; lra.
Qed.

Lemma C13_positive_main : forall lon1 lon2 lat1 lat2,
  Rabs lat1 < 90 -> Rabs lat2 < 90 ->
  (lat1 <> lat2 \/ forall k : Z, lon1 - lon2 <> 360 * IZR k) ->
  (lat1 <> - lat2 \/ forall k : Z, lon1 - lon2 <> 180 + 360 * IZR k) ->
  gc_shortcut lon1 lon2 lat1 lat2 = false ->
  exists d w, xval (SpGcdist lon1 lon2 lat1 lat2) = Some d /\ 0 < w /\
    sin w ^ 2 = gc_S lon1 lon2 lat1 lat2 /\ w < PI / 2 /\
    Rabs (d - 2 * gc_a * w) <= 3 * gc_f * (2 * gc_a * w) /\ 0 < d.
Proof.
  intros lon1 lon2 lat1 lat2 H1 H2 HS HC Hsc.
  pose proof (gc_S_pos _ _ _ _ H1 H2 HS) as PS. pose proof (gc_C_pos _ _ _ _ H1 H2 HC) as PC.
  destruct (gc_formula_near _ _ _ _ PS PC) as (d & V & Pw & B).
  unfold SpGcdist. rewrite Hsc. set (w := atan _) in *. exists d, w.
  split; auto. split; auto. split.
  - unfold w. rewrite sin_atan. set (S := gc_S lon1 lon2 lat1 lat2) in *. set (C := gc_C lon1 lon2 lat1 lat2) in *.
    pose proof (gc_sum lon1 lon2 lat1 lat2) as SC. fold S C in SC.
    assert (0 < S / C). { unfold Rdiv. apply Rmult_lt_0_compat; auto. apply Rinv_0_lt_compat; auto. }
    rewrite Rsqr_sqrt by lra.
    assert (1 + S / C = / C) as -> by (replace S with (1 - C) by lra; field; lra).
    rewrite sqrt_inv.
    unfold Rdiv. rewrite Rinv_inv. rewrite Rpow_mult_distr. 
    rewrite <- !Rsqr_pow2, !Rsqr_sqrt by lra. unfold Rdiv. field. lra.
  - split; [apply atan_bound|]. split; auto.
    pose proof gc_f_range. assert (0 < gc_a) by (unfold gc_a; lra).
    assert (3 * gc_f < 1) by lra.
    assert (0 < 2 * gc_a * w) by nra.
    assert (Rabs (d - 2 * gc_a * w) < 2 * gc_a * w) by nra.
    apply Rabs_def2 in H5. lra.
Qed.

(** With longitudes in [-180,180] the early exit only fires for points that
    coincide on the globe up to DOUBLE_EPS degrees. *)
Lemma C13_shortcut_main : forall lon1 lon2 lat1 lat2,
  -180 <= lon1 <= 180 -> -180 <= lon2 <= 180 ->
  gc_shortcut lon1 lon2 lat1 lat2 = true ->
  Rabs (lat1 - lat2) < DOUBLE_EPS /\
  exists k : Z, Rabs (lon1 - lon2 - 360 * IZR k) < DOUBLE_EPS.
Proof.
  intros lon1 lon2 lat1 lat2 H1 H2 E. unfold gc_shortcut in E.
  apply andb_true_iff in E as [E1 E2]. apply Rltb_true in E1. split; auto.
  apply orb_true_iff in E2 as [E2|E2]; apply Rltb_true in E2.
  - exists 0%Z. rewrite Rmult_0_r, Rminus_0_r. auto.
  - pose proof DOUBLE_EPS_pos.
    revert E2. unfold Rabs at 2 3.
    destruct (Rcase_abs lon1), (Rcase_abs lon2); intros E2; apply Rabs_def2 in E2.
    + exists 0%Z. apply Rabs_def1; lra.
    + exists (-1)%Z. apply Rabs_def1; lra.
    + exists 1%Z. apply Rabs_def1; lra.
    + exists 0%Z. apply Rabs_def1; lra.
Qed.
