(** Concrete runs of GtwrFlowModel.v. *)
From Coq Require Import Reals Bool List Arith Lia Lra.
From Verif Require Import Outcome XReal XRealFacts KernelModel GtwrModel GtwrProofs GoldModel GoldSpec GoldProofs GoldProofs2 GtwrFlowModel GtwrFlowProofs.
Import ListNotations.
Local Open Scope R_scope.

(** A search that ends before its loop, as the first two criteria differ by no more than eps. *)
Lemma near_search crit w lo up a b : a < DBL_MAX -> b < DBL_MAX -> Rabs (b - a) <= eps ->
  crit 0%nat (first_weight w lo up) = Answer true (XF a) -> crit 1%nat (second_weight w lo up) = Answer true (XF b) ->
  let r := optimize crit w lo up [] in
  rresult r = Fresh (if Rltb a b then first_weight w lo up else second_weight w lo up) /\
  rmap r = record (wvalue (second_weight w lo up)) (XF b) (record (wvalue (first_weight w lo up)) (XF a) []).
Proof.
  intros N1 N2 N3 A1 A2 r. unfold r, optimize. rewrite A1, A2. cbn [negb andb].
  replace (is_max_dbl (XF a) && is_max_dbl (XF b)) with false.
  2:{ symmetry. destruct (is_max_dbl (XF a)) eqn:M; auto. exfalso. apply is_max_dbl_eq in M. inversion M. lra. }
  assert (G : guard (init_vars w lo up [] (XF a) (XF b)) = false).
  { unfold guard. cbn [s1 s2 f1 f2 init_vars andb].
    assert (V : xval (xabs (xsub (XF b) (XF a))) = Some (Rabs (b - a))) by (apply xval_xabs, xval_xsub; reflexivity).
    rewrite (xltb_val (XF eps) _ eps _ eq_refl V). rewrite (proj2 (Rltb_false eps (Rabs (b - a)))) by lra. rewrite !andb_false_r. reflexivity. }
  generalize 100%nat. intros fuel. cbn [loop]. rewrite G. cbn [s1 s2 init_vars andb rresult rmap xopt cmap].
  split; [|reflexivity]. unfold better. change (xltb (XF a) (XF b)) with (Rltb a b). destruct (Rltb a b); reflexivity.
Qed.

(** The same R squared everywhere: lambda becomes 1/2. *)
Lemma flat_lambda f c : (forall k l, f k l = Some (true, XF c)) -> exists log, LambdaAutoSelection f = LChosen (/ 2) log /\ length log = 4%nat.
Proof.
  intros Hf. unfold LambdaAutoSelection. cbv zeta. rewrite !Hf.
  assert (G : forall p q l, l_guard (mkL 0 1 p q (XF c) (XF c) (XF c) (XF c) true true true true 0 l) = false).
  { intros p q l. unfold l_guard. apply andb_false_intro1, andb_false_intro2. cbn [l_fa l_fb].
    assert (V : xval (xabs (xsub (XF c) (XF c))) = Some (Rabs (c - c))) by (apply xval_xabs, xval_xsub; reflexivity).
    rewrite (xleb_val (XF l_eps) _ l_eps _ eq_refl V). apply Rleb_false. replace (c - c) with 0 by ring. rewrite Rabs_R0.
    unfold l_eps. apply Rinv_0_lt_compat, pow_lt; lra. }
  generalize 100%nat. intros fuel. cbn [l_loop]. rewrite G. unfold l_finish, l_all.
  cbn [l_oka l_okb l_okp l_okq andb l_a l_b l_log]. eexists. split; [f_equal; lra|reflexivity].
Qed.

(** A model in which the best bandwidth depends on lambda.  The coefficients are the bandwidth and lambda used. *)
Definition tradeW : gworld (R * R) := mkGW 3 2 true (fun _ => 1) false false false false
  (fun _ w l => (false, Some (XF ((/ 4 - l) * wvalue w * (4 / 10000)))))
  (fun _ _ _ => (false, Some (XF 1)))
  (fun w l => Ok ((wvalue w, l), false)).
Definition tradeO (w l : R) (betas : option (R * R)) (bl : list (R * xd)) : gobj (R * R) :=
  mkG (mkWeight Gaussian false w) l true true true bl betas false.

Lemma golden_half : 6 / 10 < golden < 62 / 100.
Proof. pose proof ratio_bounds as RB. unfold golden. unfold l_ratio in RB. lra. Qed.

Lemma trade_lambda w l be bl : exists o', g_lambda_stage tradeW (tradeO w l be bl) = GGo o' /\ o' = tradeO w (/ 2) be bl.
Proof.
  unfold g_lambda_stage. cbn [tradeO g_crsst negb].
  destruct (flat_lambda (g_rsquare tradeW (tradeO w l be bl)) 1) as [log [E N]]; [reflexivity|].
  rewrite E. eexists. split; [reflexivity|].
  assert (C : g_cancelled tradeW (tradeO w l be bl) log = false).
  { unfold g_cancelled. cbn [tradeW gw_lfit fst]. induction (combine _ _); auto. }
  rewrite C. reflexivity.
Qed.

(** The criteria listed by a search with lambda [l]. *)
Lemma trade_bw w l be bl : 0 <= l <= 1 ->
  let a := golden in let b := 1 - golden in
  g_bw_stage tradeW (tradeO w l be bl) =
  GGo (tradeO (if Rltb (/ 4) l then a else b) l be
     [(b, XF ((/ 4 - l) * b * (4 / 10000))); (a, XF ((/ 4 - l) * a * (4 / 10000)))]).
Proof.
  intros L a b. pose proof golden_half as G. pose proof dbl_max_big as D.
  unfold g_bw_stage. cbn [tradeO g_weight wadaptive].
  set (W0 := mkWeight Gaussian false w). change (gw_maxd tradeW _) with 1.
  destruct (near_search (g_criterion tradeW (tradeO w l be bl)) W0 0 1 ((/ 4 - l) * (0 + golden * (1 - 0)) * (4 / 10000))
     ((/ 4 - l) * (1 - golden * (1 - 0)) * (4 / 10000))) as [R M].
  - nra.
  - nra.
  - unfold eps. apply Rabs_le. split; nra.
  - reflexivity.
  - reflexivity.
  - cbv zeta in R, M. rewrite R, M. clear R M.
    assert (Q : Rltb ((/ 4 - l) * (0 + golden * (1 - 0)) * (4 / 10000)) ((/ 4 - l) * (1 - golden * (1 - 0)) * (4 / 10000)) = Rltb (/ 4) l).
    { destruct (Rltb (/ 4) l) eqn:E.
      - apply Rltb_true in E. apply Rltb_true. nra.
      - apply Rltb_false in E. apply Rltb_false. nra. }
    rewrite Q. cbn [first_weight second_weight W0 wkernel wadaptive wvalue].
    replace (0 + golden * (1 - 0)) with a by (unfold a; ring).
    replace (1 - golden * (1 - 0)) with b by (unfold b; ring).
    assert (Rec : record b (XF ((/ 4 - l) * b * (4 / 10000))) (record a (XF ((/ 4 - l) * a * (4 / 10000))) []) =
      [(b, XF ((/ 4 - l) * b * (4 / 10000))); (a, XF ((/ 4 - l) * a * (4 / 10000)))]).
    { unfold record. change (xltb (XF ?x) (XF ?y)) with (Rltb x y).
      rewrite (proj2 (Rltb_true _ _)) by (unfold b; nra). rewrite (proj2 (Rltb_true _ _)) by (unfold a; nra).
      unfold mput. cbn [filter fst]. rewrite (proj2 (Reqb_false a b)); [reflexivity|unfold a, b; lra]. }
    rewrite Rec. unfold bandwidth_criterion. cbn [ksort kinsert fst].
    rewrite (proj2 (Rltb_false a b)) by (unfold a, b; lra).
    assert (F1 : first_weight W0 0 1 = mkWeight Gaussian false a) by (unfold first_weight; cbn; f_equal; unfold a; ring).
    assert (F2 : second_weight W0 0 1 = mkWeight Gaussian false b) by (unfold second_weight; cbn; f_equal; unfold b; ring).
    rewrite F1, F2. unfold tradeO. destruct (Rltb (/ 4) l); reflexivity.
Qed.

Lemma trade_run w l be bl : 0 <= l <= 1 ->
  gtwr_fit tradeW (tradeO w l be bl) =
  GReturned (GCoefficients ((if Rltb (/ 4) l then golden else 1 - golden), / 2))
    (tradeO (if Rltb (/ 4) l then golden else 1 - golden) (/ 2) (Some ((if Rltb (/ 4) l then golden else 1 - golden), / 2))
      [(1 - golden, XF ((/ 4 - l) * (1 - golden) * (4 / 10000))); (golden, XF ((/ 4 - l) * golden * (4 / 10000)))]).
Proof.
  intros L. rewrite gfit_cases. cbn [tradeO g_crsst tradeW gw_made gw_stop0 gw_stop1 g_auto_bw negb andb].
  pose proof (trade_bw w l be bl L) as E. cbv zeta in E. rewrite E. clear E.
  cbn [tradeO g_auto_lambda].
  match goal with |- context [g_lambda_stage ?W (tradeO ?w ?l ?be ?bl)] =>
    destruct (trade_lambda w l be bl) as (o' & E & Q) end.
  subst o'. rewrite E. reflexivity.
Qed.

(** A cancelled / throwing selection of lambda. *)
Definition failW (cancel : bool) : gworld (R * R) := mkGW 3 2 true (fun _ => 1) false false false false
  (fun _ _ _ => (false, None)) (fun _ _ _ => (cancel, if cancel then Some (XF 1) else None)) (fun w l => Ok ((wvalue w, l), false)).
Definition failO : gobj (R * R) := mkG (mkWeight Gaussian false 4) (/ 4) true false true [] None false.

Lemma fail_throw : exists o', gtwr_fit (failW false) failO = GThrew o' /\ g_lambda o' = 0 /\ g_terminated o' = false.
Proof. eexists. split; [reflexivity|]. split; reflexivity. Qed.

Lemma fail_cancel : exists o', gtwr_fit (failW true) failO = GReturned (GCoefficients (4, 0)) o' /\ g_lambda o' = 0 /\ g_terminated o' = true.
Proof.
  rewrite gfit_cases. cbn [failO g_crsst failW gw_made gw_stop0 g_auto_bw negb andb g_auto_lambda].
  unfold g_lambda_stage. cbn [failO g_crsst negb].
  assert (E : exists log, LambdaAutoSelection (g_rsquare (failW true) failO) = LChosen 0 log /\ length log = 4%nat).
  { unfold LambdaAutoSelection, g_rsquare. cbn [failW gw_lfit failO g_terminated orb negb].
    generalize 100%nat. intros fuel. cbn [l_loop l_guard l_all l_oka andb]. eexists. split; reflexivity. }
  destruct E as [log [E N]]. rewrite E.
  destruct log as [|x1 [|x2 [|x3 [|x4 [|]]]]]; try discriminate.
  eexists. cbn. split; [reflexivity|]. split; reflexivity.
Qed.

Lemma quarter_run : gtwr_fit tradeW (tradeO 4 (/ 4) None []) =
  GReturned (GCoefficients (1 - golden, / 2)) (tradeO (1 - golden) (/ 2) (Some (1 - golden, / 2))
      [(1 - golden, XF ((/ 4 - / 4) * (1 - golden) * (4 / 10000))); (golden, XF ((/ 4 - / 4) * golden * (4 / 10000)))]).
Proof. rewrite trade_run by lra. rewrite (proj2 (Rltb_false (/ 4) (/ 4))) by lra. reflexivity. Qed.

Lemma joint_refuted : exists (W : gworld (R * R)) o b o' x u v,
  (forall k w l, exists r, gw_bfit W k w l = (false, Some (XF r)) /\ gw_bfit W k w l = gw_bfit W 0 w l) /\
  gtwr_fit W o = GReturned (GCoefficients b) o' /\ g_auto_bw o = true /\ g_auto_lambda o = true /\ g_terminated o' = false /\
  In x (map fst (g_blist o')) /\
  gw_bfit W 0 (mkWeight (wkernel (g_weight o')) (wadaptive (g_weight o')) x) (g_lambda o') = (false, Some (XF u)) /\
  gw_bfit W 0 (g_weight o') (g_lambda o') = (false, Some (XF v)) /\ u < v.
Proof.
  pose proof golden_half as G.
  eexists tradeW, (tradeO 4 (/ 4) None []), _, _, golden, _, _.
  split; [intros k w l; eexists; split; reflexivity|].
  split; [apply quarter_run|]. do 3 (split; [reflexivity|]). split; [cbn; auto|]. split; [reflexivity|]. split; [reflexivity|].
  cbn. nra.
Qed.

Lemma repeat_refuted : exists (W : gworld (R * R)) o b o' b' o'',
  gtwr_fit W o = GReturned (GCoefficients b) o' /\ g_terminated o' = false /\
  gtwr_fit W o' = GReturned (GCoefficients b') o'' /\ wvalue (g_weight o'') <> wvalue (g_weight o') /\ b' <> b.
Proof.
  pose proof golden_half as G.
  eexists tradeW, (tradeO 4 (/ 4) None []), _, _, _, _.
  split; [apply quarter_run|]. split; [reflexivity|]. split; [apply trade_run; lra|].
  rewrite (proj2 (Rltb_true (/ 4) (/ 2))) by lra. cbn. split; [lra|]. intros H. inversion H. lra.
Qed.

Lemma kept_refuted : 
  (exists (W : gworld (R * R)) o o', gtwr_fit W o = GThrew o' /\ g_lambda o' <> g_lambda o) /\
  (exists (W : gworld (R * R)) o v o', gtwr_fit W o = GReturned v o' /\ g_terminated o = false /\ g_terminated o' = true /\ g_lambda o' <> g_lambda o).
Proof.
  split.
  - destruct fail_throw as (o' & E & L & _). exists (failW false), failO, o'. split; auto. rewrite L. cbn. lra.
  - destruct fail_cancel as (o' & E & L & T). exists (failW true), failO, (GCoefficients (4, 0)), o'. repeat split; auto. rewrite L. cbn. lra.
Qed.

Lemma rejected_refuted : exists (W : gworld (R * R)) o, g_crsst o = false /\ g_auto_lambda o = true /\ gtwr_fit W o = GUndefined.
Proof.
  exists tradeW, (mkG (mkWeight Gaussian false 4) (/ 4) false false true [] None false).
  split; [reflexivity|]. split; [reflexivity|]. apply C141_plain; reflexivity.
Qed.
