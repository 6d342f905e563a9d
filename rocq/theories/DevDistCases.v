From Coq Require Import Reals Bool List Arith Lia Lra.
From Verif Require Import Outcome XReal DistModel DevDistModel DevDistSpec DevDistProofs.
Import ListNotations.
Local Open Scope R_scope.

Lemma make_two d a b : m_cols a = 2%nat -> m_cols b = 2%nat ->
  fst (dev_makeParameter d [PMat a; PMat b]) =
  mkDev (mkCrs (c_geo (v_host d)) (c_calc (v_host d)) (Some (points a, points b))) (v_calc d) (v_mem d) (v_use d) (v_prepared d) (v_threads d).
Proof. intros A B. rewrite make_fst. cbn [crs_makeParameter get_mat]. rewrite A, B. reflexivity. Qed.
Lemma after_fit geo c : m_cols c = 2%nat ->
  run (dev_new geo) (fit_calls c) = Ok (mkDev (mkCrs geo (kind geo) (Some (points c, points c))) (kind geo) (Some (points c, points c)) true true true).
Proof. intros H. unfold fit_calls. cbn [run step obind]. rewrite make_two by assumption. destruct geo; reflexivity. Qed.
Lemma again geo c a b : m_cols c = 2%nat -> m_cols a = 2%nat -> m_cols b = 2%nat ->
  run (dev_new geo) (fit_calls c ++ [MakeParameter [PMat a; PMat b]; Prepare]) =
  Ok (mkDev (mkCrs geo (kind geo) (Some (points a, points b))) (kind geo) (Some (points c, points c)) true true true).
Proof. intros H A B. rewrite run_app, after_fit by assumption. cbn [run step obind]. rewrite make_two by assumption. reflexivity. Qed.
Lemma points_length c : length (points c) = m_rows c.
Proof. unfold points. rewrite map_length, seq_length. reflexivity. Qed.

Lemma predict_main geo l c : m_cols c = 2%nat -> m_cols l = 2%nat -> exists d,
  run (dev_new geo) (fit_calls c ++ predict_calls l c) = Ok d /\
  ((m_rows l <= m_rows c)%nat -> forall f o p, nth_error (points c) f = Some o -> nth_error (points l) f = Some p ->
     dev_distance d f = Ok (map (between geo o) (firstn (m_rows l) (points c))) /\ host_distance d f = Ok (map (between geo p) (points c))) /\
  ((m_rows c < m_rows l)%nat -> forall f, (f < m_rows l)%nat -> dev_distance d f = UB).
Proof.
  intros H L. unfold predict_calls. rewrite (again geo c l c H L H). eexists. split; [reflexivity|].
  assert (G : agree (mkDev (mkCrs geo (kind geo) (Some (points l, points c))) (kind geo) (Some (points c, points c)) true true true)) by (split; reflexivity).
  assert (X := fun f => holds_distance (points c) (points c) _ f (points l) (points c) G (conj eq_refl (conj eq_refl eq_refl)) eq_refl).
  split.
  - intros Hl f o p No Np. rewrite X. cbn [v_host c_geo]. rewrite !points_length.
    assert (Hf : (f < m_rows l)%nat) by (rewrite <- points_length; apply nth_error_Some; congruence).
    apply Nat.ltb_lt in Hf as ->. rewrite No. apply Nat.leb_le in Hl as ->. split; [reflexivity|].
    exact (host_value _ f (points l) (points c) p G eq_refl Np).
  - intros Hl f Hf. rewrite X, !points_length. apply Nat.ltb_lt in Hf as ->. apply Nat.leb_gt in Hl as ->. destruct (nth_error (points c) f); reflexivity.
Qed.
Lemma refit_main geo c1 c2 : m_cols c1 = 2%nat -> m_cols c2 = 2%nat -> m_rows c1 = m_rows c2 -> exists d,
  run (dev_new geo) (fit_calls c1 ++ fit_calls c2) = Ok d /\
  forall f o1 o2, nth_error (points c1) f = Some o1 -> nth_error (points c2) f = Some o2 ->
  dev_distance d f = Ok (map (between geo o1) (points c1)) /\
  criterion_distance d f = Ok (map (between geo o2) (points c2)) /\ host_distance d f = Ok (map (between geo o2) (points c2)).
Proof.
  intros H1 H2 HR. unfold fit_calls at 2. rewrite (again geo c1 c2 c2 H1 H2 H2). eexists. split; [reflexivity|]. intros f o1 o2 N1 N2.
  set (d := mkDev _ _ _ _ _ _).
  assert (G : agree d) by (split; reflexivity).
  assert (Hf : (f < m_rows c2)%nat) by (rewrite <- points_length; apply nth_error_Some; congruence).
  assert (Hl : Nat.ltb f (length (points c2)) = true) by (apply Nat.ltb_lt; rewrite points_length; exact Hf).
  split; [|split].
  - rewrite (holds_distance (points c1) (points c1) d f (points c2) (points c2) G (conj eq_refl (conj eq_refl eq_refl)) eq_refl).
    rewrite Hl, N1, !points_length, HR, Nat.leb_refl, <- HR. rewrite <- (points_length c1) at 1. rewrite firstn_all. reflexivity.
  - unfold criterion_distance. assert (E : dev_copy d = Ok (mkDev (mkCrs geo (kind geo) (Some (points c2, points c2))) (kind geo) (Some (points c2, points c2)) true true true)).
    { subst d. unfold dev_copy. cbn [v_host c_par c_geo v_use v_threads]. rewrite copy_host. reflexivity. }
    rewrite E. cbn [obind]. assert (G2 : agree (mkDev (mkCrs geo (kind geo) (Some (points c2, points c2))) (kind geo) (Some (points c2, points c2)) true true true)) by (split; reflexivity).
    rewrite (holds_distance (points c2) (points c2) _ f (points c2) (points c2) G2 (conj eq_refl (conj eq_refl eq_refl)) eq_refl).
    rewrite Hl, N2, Nat.leb_refl, firstn_all. reflexivity.
  - exact (host_value d f (points c2) (points c2) o2 G eq_refl N2).
Qed.
Lemma lost_run cs : forall d, v_prepared d = true -> v_mem d = None -> Forall not_copy cs ->
  exists e, run d cs = Ok e /\ v_prepared e = true /\ v_mem e = None.
Proof.
  induction cs as [|c t IH]; intros d P M F; [exists d; auto|]. inversion F as [|? ? F1 F2]; subst.
  destruct c as [pl|g|b| |]; cbn [run step obind] in *; try contradiction.
  - apply IH; rewrite ?make_fst; assumption.
  - apply IH; assumption.
  - apply IH; assumption.
  - unfold dev_prepare. rewrite P. cbn [obind]. apply IH; try assumption. reflexivity.
Qed.
Lemma lost_main geo c after : m_cols c = 2%nat -> Forall not_copy after ->
  exists d, run (dev_new geo) (fit_calls c ++ MakeParameter [] :: Copy :: after) = Ok d /\ forall f, dev_distance d f = Throw.
Proof.
  intros H F. rewrite run_app, after_fit by assumption. cbn [obind run step]. rewrite make_fst. unfold dev_copy. cbn [crs_makeParameter fst v_host c_par c_geo obind v_use v_prepared v_threads].
  destruct (lost_run after (mkDev (crs_copy (mkCrs geo (kind geo) None)) (if geo then CalcSpatial else CalcEuclid) None true true true) eq_refl eq_refl F) as [e [E [P M]]].
  cbn [c_calc]. rewrite E. exists e. split; [reflexivity|]. intros f. unfold dev_distance. rewrite P, M. destruct (c_par (v_host e)) as [[? ?]|]; reflexivity.
Qed.
Lemma null_main geo before d : Forall host_only before -> run (dev_new geo) before = Ok d -> c_par (v_host d) = None ->
  run (dev_new geo) (before ++ [Prepare]) = UB.
Proof.
  intros H E Q. destruct (host_prefix before (dev_new geo) H) as [e [E1 [P1 M1]]]; [destruct geo; reflexivity|destruct geo; reflexivity|].
  rewrite E in E1. injection E1 as <-. rewrite run_app, E. cbn [obind run step]. unfold dev_prepare. rewrite P1, Q. reflexivity.
Qed.
Definition corner : dmat := mkMat 2 2 (fun i j => match i with O => 0 | _ => match j with O => 3 | _ => 4 end end).
Lemma mink_main : exists d, run (dev_new false) (fit_calls corner) = Ok d /\
  mink_distance_host (-1) 0 d 0 = Ok [XF 0; XF 7] /\ forall poly theta, mink_distance_dev poly theta d 0 = Ok [XF 0; XF 5].
Proof.
  rewrite after_fit by reflexivity. eexists. split; [reflexivity|]. split; [|intros poly theta].
  - unfold mink_distance_host, mink_distance. cbn -[Reqb]. unfold Reqb. repeat (destruct (Req_EM_T _ _); try lra). cbn.
    do 3 f_equal; [|f_equal]; f_equal; rewrite !Rabs_right by lra; lra.
  - unfold mink_distance_dev, dev_distance. cbn -[pow sqrt]. do 3 f_equal; [|f_equal]; f_equal.
    + replace ((0 - 0) ^ 2 + (0 - 0) ^ 2) with 0 by ring. apply sqrt_0.
    + replace ((3 - 0) ^ 2 + (4 - 0) ^ 2) with (5 * 5) by ring. apply sqrt_square. lra.
Qed.
Lemma corner_case : m_cols corner = 2%nat /\ nth_error (points corner) 1 = Some (3, 4) /\ between false (0, 0) (3, 4) <> between false (0, 0) (0, 0).
Proof.
  split; [reflexivity|]. split; [reflexivity|]. unfold between. cbn [fst snd].
  assert (A : sqrt ((3 - 0) ^ 2 + (4 - 0) ^ 2) = 5) by (replace ((3 - 0) ^ 2 + (4 - 0) ^ 2) with (5 * 5) by ring; apply sqrt_square; lra).
  assert (B : sqrt ((0 - 0) ^ 2 + (0 - 0) ^ 2) = 0) by (replace ((0 - 0) ^ 2 + (0 - 0) ^ 2) with 0 by ring; apply sqrt_0).
  rewrite A, B. intros H. assert (C : 5 = 0) by congruence. lra.
Qed.

Lemma flag_main geo c : m_cols c = 2%nat ->
  (exists d, run (dev_new geo) [MakeParameter [PMat c; PMat c]; SetUse true; Copy] = Ok d /\
     forall f o, nth_error (points c) f = Some o -> dev_distance d f = Ok (map (between geo o) (points c))) /\
  (forall cs, cs = [] \/ cs = [SetUse true; SetUse false] -> exists d, run (dev_new geo) (MakeParameter [PMat c; PMat c] :: cs ++ [Copy]) = Ok d /\
     forall f, dev_distance d f = Throw).
Proof.
  intros H. split.
  - cbn [run step obind]. rewrite make_two by assumption. eexists. split; [reflexivity|]. intros f o N.
    assert (Hf : Nat.ltb f (length (points c)) = true) by (apply Nat.ltb_lt; apply nth_error_Some; congruence).
    unfold dev_distance. cbn -[nth_error points Nat.ltb Nat.leb firstn]. rewrite Hf, N, Nat.leb_refl, firstn_all. destruct geo; reflexivity.
  - intros cs [-> | ->]; cbn [run step obind app]; rewrite make_two by assumption; eexists; (split; [reflexivity|]); intro f; reflexivity.
Qed.
