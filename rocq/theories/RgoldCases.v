(** The golden-section search with rounding: results. *)
From Coq Require Import Reals ZArith Bool List Lra Lia Arith.
From Verif Require Import XReal XRealFacts KernelModel GoldModel GoldSpec GoldProofs GoldProofs2 RoundModel RoundSpec RoundProofs RoundAcc RgwssProofs RgoldModel RgoldSpec RgoldProofs RgoldMain.
Import ListNotations.
Local Open Scope R_scope.

Section P.
Variables (rn : R -> R) (big : R).
Hypothesis RN : rounding rn big.
Hypothesis FA : faithful rn.
Notation r_first := (r_first rn).
Notation r_second := (r_second rn).
Notation r_init := (r_init rn).
Notation r_guard := (r_guard rn big).
Notation r_step := (r_step rn).
Notation r_optimize := (r_optimize rn big).
Notation r_reaches := (r_reaches rn big).

Lemma firsts w lo up : range24 lo up -> / 10000 <= up - lo -> wadaptive w = false ->
  lo < wvalue (r_first w lo up) < up /\ lo < wvalue (r_second w lo up) < up.
Proof.
  intros RA HW AD. pose proof (init_inv rn big RN FA w lo up [] XN XN RA HW AD) as (_ & _ & _ & _ & _ & _ & _ & L).
  split; eapply L; cbn [elog RgoldModel.r_init]; [right; left; reflexivity|left; reflexivity].
Qed.
Lemma bounds_main : forall crit w lo up m, range24 lo up -> / 10000 <= up - lo -> wadaptive w = false ->
  let r := r_optimize crit w lo up m in
  (forall w' v, evaluated r w' v -> lo < wvalue w' < up) /\ (forall wr, rresult r = Fresh wr -> lo < wvalue wr < up).
Proof.
  intros crit w lo up m RA HW AD. cbv zeta. destruct (firsts w lo up RA HW AD) as [F1 F2].
  assert (RI := fun st v1 v2 A B P => reach_inv rn big RN FA crit w lo up m st RA HW AD (ex_intro _ v1 (ex_intro _ v2 (conj A (conj B P))))).
  destruct (r_cases rn big crit w lo up m) as [H|ok1 v1 H1 H2|ok1 v1 ok2 v2 H1 H2 H3|v1 v2 H1 H2|v1 v2 st H1 H2 P G S|v1 v2 st H1 H2 P G S|v1 v2 st H1 H2 P G S];
    unfold evaluated; cbn [rlog rresult]; (split; [|intros wr E; try discriminate]).
  - intros w' v [].
  - intros w' v [E|[]]. injection E as <- _. exact F1.
  - intros w' v [E|[E|[]]]; injection E as <- _; assumption.
  - intros w' v [E|[E|[]]]; injection E as <- _; assumption.
  - apply (RI st v1 v2 H1 H2 P).
  - apply (RI st v1 v2 H1 H2 P).
  - injection E as <-. cbn [wvalue]. destruct (RI st v1 v2 H1 H2 P) as (_ & _ & _ & L & U & (O1 & O2 & O3) & [->| ->] & _); lra.
  - apply (RI st v1 v2 H1 H2 P).
Qed.
Lemma bracket_main : forall crit w lo up m st, range24 lo up -> / 10000 <= up - lo -> wadaptive w = false -> r_reaches crit w lo up m st ->
  lo <= xL st /\ xL st < x2 st /\ x2 st < x1 st /\ x1 st < xU st /\ xU st <= up /\
  Rabs (xU st - xL st - ((sqrt 5 - 1) / 2) ^ iter st * (up - lo)) <= / 50000.
Proof.
  intros crit w lo up m st RA HW AD RE. destruct (reach_inv rn big RN FA crit w lo up m st RA HW AD RE) as (K & _ & (eL & eU & A1 & A2 & A3 & A4 & A5 & A6 & A7 & A8) & L & U & (O1 & O2 & O3) & _).
  repeat (split; [assumption|]). change ((sqrt 5 - 1) / 2) with golden. rewrite <- A3. pose proof (pe_bound _ K) as PB. apply Rabs_le_inv in A5, A6. apply Rabs_le. lra.
Qed.
Lemma nested_main : forall crit w lo up m st st', range24 lo up -> / 10000 <= up - lo -> wadaptive w = false -> r_reaches crit w lo up m st -> r_guard st = true -> r_step crit w st = Some st' ->
  xL st <= xL st' /\ xU st' <= xU st.
Proof.
  intros crit w lo up m st st' RA HW AD RE G S. exact (proj2 (inv_step rn big RN FA crit w lo up st st' RA AD (reach_inv rn big RN FA crit w lo up m st RA HW AD RE) G S)).
Qed.

(** ** Few evaluations. *)
Lemma golden_56 : golden ^ 56 * 33554432 < 0.00009.
Proof.
  pose proof golden_bounds as GB. assert (A : golden ^ 56 <= (618034 / 1000000) ^ 56) by (apply pow_incr; lra).
  assert (B : (618034 / 1000000) ^ 56 * 33554432 < 0.00009).
  { replace 56%nat with (7 * 8)%nat by reflexivity. rewrite pow_mult. assert (C : 0 <= (618034 / 1000000) ^ 7 <= 0.034443) by (simpl; lra).
    assert (D : ((618034 / 1000000) ^ 7) ^ 8 <= 0.034443 ^ 8) by (apply pow_incr; exact C). assert (E : 0.034443 ^ 8 * 33554432 < 0.00009) by (simpl; lra). lra. }
  lra.
Qed.
Lemma few_guard lo up st : range24 lo up -> inv lo up st -> r_guard st = true -> (iter st < 55)%nat.
Proof.
  intros (R1 & R2 & R3) (K & _ & (eL & eU & A1 & A2 & A3 & A4 & _) & _) G. pose proof (guard_d rn big st G) as GD. pose proof (reps_range rn big RN FA) as RR.
  pose proof golden_bounds as GB. pose proof u_val as UV. pose proof p2_24 as P24. destruct (Nat.lt_ge_cases (iter st) 55) as [H|H]; [exact H|exfalso].
  assert (B : golden ^ iter st <= golden ^ 55).
  { replace (iter st) with (55 + (iter st - 55))%nat by lia. rewrite pow_add. assert (C : golden ^ (iter st - 55) <= 1 ^ (iter st - 55)) by (apply pow_incr; lra). rewrite pow1 in C.
    assert (D : 0 <= golden ^ 55) by (apply pow_le; lra). nra. }
  assert (W : golden * (eU - eL) <= golden ^ 56 * 33554432).
  { rewrite A3, <- tech_pow_Rmult, Rmult_assoc. apply Rmult_le_compat_l; [lra|]. apply Rmult_le_compat; [apply pow_le; lra|lra|exact B|lra]. }
  pose proof golden_56 as G56. apply Rabs_le_inv in A4. assert (W0 : 0 <= golden * (eU - eL)) by (rewrite A3; apply Rmult_le_pos; [lra|apply Rmult_le_pos; [apply pow_le; lra|lra]]).
  assert (D : Rabs (dd st) < 0.000091) by (apply Rabs_def1; rewrite UV in *; lra). lra.
Qed.
Lemma reach_few crit w lo up m st : range24 lo up -> / 10000 <= up - lo -> wadaptive w = false -> r_reaches crit w lo up m st -> (iter st <= 55)%nat.
Proof.
  intros RA HW AD (v1 & v2 & _ & _ & P).
  assert (Q : inv lo up st /\ (iter st <= 55)%nat); [|apply Q].
  eapply (rpasses_inv rn big crit w (fun st => inv lo up st /\ (iter st <= 55)%nat)); [|exact P|split; [apply (init_inv rn big RN FA); assumption|cbn; lia]].
  intros s s' [I _] G S. pose proof (few_guard lo up s RA I G) as F. split; [exact (proj1 (inv_step rn big RN FA crit w lo up s s' RA AD I G S))|].
  unfold RgoldModel.r_step in S. destruct (xltb (f1 s) (f2 s)); destruct (crit (calls s) _); inversion S; subst; cbn [iter]; lia.
Qed.
Lemma few_main : forall crit w lo up m, range24 lo up -> / 10000 <= up - lo -> wadaptive w = false ->
  let r := r_optimize crit w lo up m in rresult r <> Diverged /\ (rcalls r <= 57)%nat.
Proof.
  intros crit w lo up m RA HW AD. cbv zeta.
  assert (RI := fun st v1 v2 A B P => reach_inv rn big RN FA crit w lo up m st RA HW AD (ex_intro _ v1 (ex_intro _ v2 (conj A (conj B P))))).
  assert (RF := fun st v1 v2 A B P => reach_few crit w lo up m st RA HW AD (ex_intro _ v1 (ex_intro _ v2 (conj A (conj B P))))).
  destruct (r_cases rn big crit w lo up m) as [H|ok1 v1 H1 H2|ok1 v1 ok2 v2 H1 H2 H3|v1 v2 H1 H2|v1 v2 st H1 H2 P G S|v1 v2 st H1 H2 P G S|v1 v2 st H1 H2 P G S];
    (split; [discriminate|]); cbn [rcalls]; try lia; pose proof (RF st v1 v2 H1 H2 P) as F; destruct (RI st v1 v2 H1 H2 P) as (I1 & I2 & I3).
  - pose proof (few_guard lo up st RA (conj I1 (conj I2 I3)) G). lia.
  - lia.
  - lia.
Qed.

(** ** Unimodal criteria. *)
Definition inv25r (g : R -> R) (m : R) (st : vars) : Prop :=
  f1 st = XF (g (x1 st)) /\ f2 st = XF (g (x2 st)) /\ s1 st = true /\ s2 st = true /\ xL st <= m <= xU st /\ xopt st = better (x1 st) (x2 st) (f1 st) (f2 st).
Lemma xltb_XF a b : xltb (XF a) (XF b) = true <-> a < b.
Proof. cbn [xltb]. apply Rltb_true. Qed.
Lemma reach_25 crit w lo up g m mp st : range24 lo up -> / 10000 <= up - lo -> wadaptive w = false -> unimodal g lo up m -> answers crit g ->
  r_reaches crit w lo up mp st -> inv lo up st /\ inv25r g m st.
Proof.
  intros RA HW AD (M1 & M2 & M3) AN (v1 & v2 & C1 & C2 & P). rewrite AN in C1, C2. injection C1 as <-. injection C2 as <-.
  eapply (rpasses_inv rn big crit w (fun st => inv lo up st /\ inv25r g m st)); [|exact P|].
  - intros s s' [I (F1 & F2 & S1 & S2 & MM & XO)] G S. pose proof (inv_step rn big RN FA crit w lo up s s' RA AD I G S) as [I' _]. split; [exact I'|].
    destruct I as (_ & _ & _ & L & U & (O1 & O2 & O3) & _). unfold RgoldModel.r_step in S. rewrite F1, F2, AD in S.
    destruct (xltb (XF (g (x1 s))) (XF (g (x2 s)))) eqn:X; rewrite AN in S; injection S as <-; unfold inv25r; cbn [f1 f2 s1 s2 x1 x2 xL xU xopt wvalue]; (split; [reflexivity || exact F1|]); (split; [reflexivity || exact F2|]).
    + apply xltb_XF in X. split; [reflexivity|]. split; [exact S2|]. split; [|reflexivity]. split; [|apply MM].
      destruct (Rle_lt_dec (x2 s) m) as [H|H]; [exact H|exfalso]. assert (Y := M3 (x2 s) (x1 s)). lra.
    + split; [exact S1|]. split; [reflexivity|]. split; [|reflexivity]. split; [apply MM|].
      destruct (Rle_lt_dec m (x1 s)) as [H|H]; [exact H|exfalso]. assert (Y := M2 (x2 s) (x1 s)).
      assert (Z : g (x1 s) < g (x2 s)) by lra. apply xltb_XF in Z. congruence.
  - split; [apply (init_inv rn big RN FA); assumption|]. unfold inv25r, RgoldModel.r_init. cbn [f1 f2 s1 s2 x1 x2 xL xU xopt]. repeat split; apply M1.
Qed.
Lemma unimodal_main : forall crit w lo up g m mp st, range24 lo up -> / 10000 <= up - lo -> wadaptive w = false -> unimodal g lo up m -> answers crit g ->
  r_reaches crit w lo up mp st -> xL st <= m <= xU st.
Proof. intros crit w lo up g m mp st RA HW AD UM AN RE. apply (reach_25 crit w lo up g m mp st RA HW AD UM AN RE). Qed.
Lemma close_guard a b : xltb (XF (r_eps rn)) (xabs (rsub rn big (XF b) (XF a))) = false -> Rabs (b - a) <= 0.00010001.
Proof.
  intros H. pose proof (reps_range rn big RN FA) as RR. destruct (Rle_lt_dec (Rabs (b - a)) 0.00010001) as [D|D]; [exact D|exfalso].
  assert (X : xsub (XF b) (XF a) = XF (b - a)).
  { unfold xsub. cbn [xopp]. destruct (Reqb a 0) eqn:Z; cbn [xadd]; [apply Reqb_true in Z; subst; f_equal; lra|reflexivity]. }
  unfold rsub in H. rewrite X in H. unfold rd in H. destruct (Rleb big (Rabs (b - a))); [discriminate H|].
  pose proof (rn_err rn big RN FA (b - a)) as A. pose proof eta_e as ET. pose proof e_val as EV. pose proof (Rabs_pos (b - a)) as PO.
  assert (E : 0.000100005 < Rabs (rn (b - a))).
  { pose proof (Rabs_triang_inv (b - a) (b - a - rn (b - a))) as T. replace (b - a - (b - a - rn (b - a))) with (rn (b - a)) in T by lra.
    rewrite (Rabs_minus_sym (b - a) (rn (b - a))) in T. rewrite EV in *. lra. }
  unfold xfin in H. destruct (Reqb (rn (b - a)) 0) eqn:Z.
  - apply Reqb_true in Z. rewrite Z, Rabs_R0 in E. lra.
  - cbn [xabs] in H. assert (F : xltb (XF (r_eps rn)) (XF (Rabs (rn (b - a)))) = true) by (apply xltb_XF; lra). congruence.
Qed.
Lemma stop_small crit w lo up g m mp st : range24 lo up -> / 10000 <= up - lo -> wadaptive w = false -> unimodal g lo up m -> answers crit g ->
  r_reaches crit w lo up mp st -> r_guard st = false -> xU st - xL st <= 0.0002 \/ Rabs (g (x2 st) - g (x1 st)) <= 0.00010001.
Proof.
  intros RA HW AD UM AN RE G. pose proof (reach_few crit w lo up mp st RA HW AD RE) as FEW.
  destruct (reach_25 crit w lo up g m mp st RA HW AD UM AN RE) as [(K & _ & (eL & eU & A1 & A2 & A3 & A4 & A5 & A6 & A7 & A8) & _) (F1 & F2 & S1 & S2 & _)].
  unfold RgoldModel.r_guard in G. rewrite S1, S2, F1, F2 in G. cbn [andb] in G.
  destruct (Rltb (r_eps rn) (Rabs (dd st))) eqn:D; cbn [andb] in G.
  - right. destruct (xltb (XF (r_eps rn)) (xabs (rsub rn big (XF (g (x2 st))) (XF (g (x1 st)))))) eqn:X; cbn [andb] in G.
    + apply Nat.ltb_ge in G. lia.
    + apply close_guard. exact X.
  - left. pose proof (reps_range rn big RN FA) as RR. pose proof golden_bounds as GB. pose proof u_val as UV. pose proof (pe_bound _ K) as PB.
    assert (D' : Rabs (dd st) <= r_eps rn). { destruct (Rle_lt_dec (Rabs (dd st)) (r_eps rn)) as [Y|Y]; [exact Y|]. apply Rltb_true in Y. congruence. }
    apply Rabs_le_inv in D', A4, A5, A6. rewrite UV in *.
    assert (B : eU - eL <= 0.000163). { assert (C : golden * (eU - eL) <= 0.0001001) by lra. nra. }
    lra.
Qed.
Lemma result_main : forall crit w lo up g m mp wr st, range24 lo up -> / 10000 <= up - lo -> wadaptive w = false -> unimodal g lo up m -> answers crit g ->
  rresult (r_optimize crit w lo up mp) = Fresh wr -> rfinal (r_optimize crit w lo up mp) = Some st ->
  xL st <= m <= xU st /\ xL st < wvalue wr < xU st /\ Rabs (wvalue wr - m) < xU st - xL st /\
  (xU st - xL st <= 0.0002 \/ Rabs (g (x2 st) - g (x1 st)) <= 0.00010001).
Proof.
  intros crit w lo up g m mp wr st RA HW AD UM AN E F.
  destruct (r_cases rn big crit w lo up mp) as [H|ok1 v1 H1 H2|ok1 v1 ok2 v2 H1 H2 H3|v1 v2 H1 H2|v1 v2 s H1 H2 P G S|v1 v2 s H1 H2 P G S|v1 v2 s H1 H2 P G S]; try discriminate.
  cbn [rresult] in E. injection E as <-. cbn [rfinal] in F. injection F as ->. assert (RE : r_reaches crit w lo up mp st) by (exists v1, v2; auto).
  destruct (reach_25 crit w lo up g m mp st RA HW AD UM AN RE) as [(_ & _ & _ & L & U & (O1 & O2 & O3) & XO & _) (_ & _ & _ & _ & MM & _)].
  split; [exact MM|]. cbn [wvalue]. split; [destruct XO as [->| ->]; lra|]. split; [apply Rabs_def1; destruct XO as [->| ->]; lra|].
  exact (stop_small crit w lo up g m mp st RA HW AD UM AN RE G).
Qed.
Lemma passes_main : forall crit w lo up m st st', range24 lo up -> / 10000 <= up - lo -> wadaptive w = false -> r_reaches crit w lo up m st -> r_passes rn big crit w st st' ->
  xL st <= xL st' /\ xU st' <= xU st.
Proof.
  intros crit w lo up m st st' RA HW AD RE P. pose proof (reach_inv rn big RN FA crit w lo up m st RA HW AD RE) as I. clear RE.
  induction P as [st|st s st' G S P IH]; [lra|]. destruct (inv_step rn big RN FA crit w lo up st s RA AD I G S) as (I' & A & B). specialize (IH I'). lra.
Qed.
(** ** A run. *)
Lemma demo_range : range24 1 10.
Proof. unfold range24. rewrite p2_24. lra. Qed.
Lemma demo_result a : exists wr st, rresult (r_optimize demo_crit (demo_w a) 1 10 []) = Fresh wr /\ rfinal (r_optimize demo_crit (demo_w a) 1 10 []) = Some st.
Proof.
  assert (M : exists v1 v2, demo_crit 0%nat (r_first (demo_w a) 1 10) = Answer true (XF v1) /\ demo_crit 1%nat (r_second (demo_w a) 1 10) = Answer true (XF v2)) by (unfold demo_crit; eauto).
  assert (NM : is_max_dbl (XF (demo_g (wvalue (r_first (demo_w a) 1 10)))) = false).
  { destruct (is_max_dbl (XF (demo_g (wvalue (r_first (demo_w a) 1 10))))) eqn:E; [|reflexivity]. apply is_max_dbl_eq in E. exfalso. pose proof dbl_max_big as DB.
    assert (B : 0 <= wvalue (r_first (demo_w a) 1 10) <= 11).
    { unfold RgoldModel.r_first, demo_w. cbn [wvalue wadaptive]. pose proof p2_24 as P24. pose proof p2_25 as P25. pose proof u_val as UV. pose proof eta_u as EU. pose proof golden_bounds as GB.
      assert (FW := first_width rn big RN FA 1 10 ltac:(lra) ltac:(rewrite P25; lra)). apply Rabs_le_inv in FW. rewrite UV in *. set (d := r_width rn 1 10) in *.
      assert (RA : Rabs (1 + d) <= p2 25) by (apply Rabs_le; rewrite P25; lra). pose proof (rn_abs rn big RN FA _ RA) as A. apply Rabs_le_inv in A. rewrite UV in A.
      destruct a; [pose proof (rfloor_bounds (rn (1 + d)))|]; lra. }
    set (x := wvalue (r_first (demo_w a) 1 10)) in *. clearbody x. injection E as E. unfold demo_g in E. nra. }
  pose proof (r_cases rn big demo_crit (demo_w a) 1 10 []) as C.
  assert (TH : forall v1 v2, r_optimize demo_crit (demo_w a) 1 10 [] = mkReport Thrown 2 [(r_second (demo_w a) 1 10, v2); (r_first (demo_w a) 1 10, v1)] [] [TW1; TW2] None -> False).
  { intros v1 v2 E. unfold RgoldModel.r_optimize, demo_crit in E. rewrite NM in E. cbn [andb negb] in E.
    destruct (RgoldModel.r_loop _ _ _ _ _ _) as [z|z|]; [destruct (s1 z && s2 z)|..]; discriminate. }
  remember (r_optimize demo_crit (demo_w a) 1 10 []) as r eqn:ER.
  destruct C as [H|ok1 v1 H1 H2|ok1 v1 ok2 v2 H1 H2 H3|v1 v2 H1 H2|v1 v2 st H1 H2 P G S|v1 v2 st H1 H2 P G S|v1 v2 st H1 H2 P G S]; try discriminate.
  - unfold demo_crit in H1, H2. injection H1 as <- _. injection H2 as <- _. discriminate.
  - exfalso. exact (TH v1 v2 eq_refl).
  - unfold RgoldModel.r_step, demo_crit in S. destruct (xltb (f1 st) (f2 st)); discriminate.
  - cbn [rresult rfinal]. eauto.
  - exfalso. assert (Q : s1 st = true /\ s2 st = true); [|destruct Q as [Q1 Q2]; rewrite Q1, Q2 in S; discriminate].
    refine (rpasses_inv rn big demo_crit (demo_w a) (fun s => s1 s = true /\ s2 s = true) _ _ _ P _); [|split; reflexivity].
    intros s s' [A B] _ K. unfold RgoldModel.r_step, demo_crit in K. destruct (xltb (f1 s) (f2 s)); injection K as <-; cbn [s1 s2]; auto.
Qed.
Lemma demo_start : exists st st', r_reaches demo_crit (demo_w false) 1 10 [] st /\ r_passes rn big demo_crit (demo_w false) st st' /\ iter st' = 1%nat.
Proof.
  set (v1 := XF (demo_g (wvalue (r_first (demo_w false) 1 10)))). set (v2 := XF (demo_g (wvalue (r_second (demo_w false) 1 10)))). set (st := r_init (demo_w false) 1 10 [] v1 v2).
  assert (S : exists st', r_step demo_crit (demo_w false) st = Some st' /\ iter st' = 1%nat).
  { unfold RgoldModel.r_step. destruct (xltb _ _); cbn [demo_crit]; eexists; split; reflexivity. }
  destruct S as (st' & S & I). exists st, st'. split; [exists v1, v2; split; [reflexivity|split; [reflexivity|apply rp_here]]|]. split; [|exact I].
  eapply rp_next; [|exact S|apply rp_here].
  pose proof (init_inv rn big RN FA (demo_w false) 1 10 [] v1 v2 demo_range ltac:(lra) eq_refl) as (_ & _ & (eL & eU & A1 & A2 & A3 & A4 & A5 & A6 & A7 & A8) & _). fold st in A3, A4, A5, A6, A7, A8.
  assert (P0 : pe (iter st) = 13 * u) by (change (iter st) with 0%nat; unfold pe; cbn [INR]; ring). rewrite P0 in *. rewrite u_val in *. change (iter st) with 0%nat in A3. cbn [pow] in A3. change (xL st) with 1 in A5. change (xU st) with 10 in A6.
  apply Rabs_le_inv in A4, A5, A6, A7, A8. pose proof golden_bounds as GB. pose proof (reps_range rn big RN FA) as RR.
  assert (W : eU - eL = 9) by lra. rewrite W in A4, A7, A8.
  unfold RgoldModel.r_guard. change (s1 st) with true. change (s2 st) with true. cbn [andb]. rewrite (Rabs_right (dd st)) by lra.
  assert (E1 : Rltb (r_eps rn) (dd st) = true) by (apply Rltb_true; lra). rewrite E1. cbn [andb].
  change (f1 st) with (XF (demo_g (x1 st))). change (f2 st) with (XF (demo_g (x2 st))). set (a := x1 st) in *. set (b := x2 st) in *.
  destruct (xltb (XF (r_eps rn)) (xabs (rsub rn big (XF (demo_g b)) (XF (demo_g a))))) eqn:X; [reflexivity|]. exfalso. apply close_guard in X. apply Rabs_le_inv in X.
  unfold demo_g in X. assert (B1 : 6.5 < a < 6.6) by lra. assert (B2 : 4.4 < b < 4.5) by lra. nra.
Qed.
End P.
(** ** Without rounding. *)
Lemma exact_guard big st : 1 < big -> r_guard (fun x => x) big st = guard st.
Proof.
  intros B. unfold r_guard, guard, r_eps, eps. replace (/ 10000) with (1 / 10000) by lra. do 2 f_equal. unfold rsub.
  destruct (xsub (f2 st) (f1 st)) as [r| |b|] eqn:X; try reflexivity. unfold rd.
  destruct (Rleb big (Rabs r)) eqn:L.
  - apply Rleb_true in L. cbn [xabs]. assert (A : xltb (XF (1 / 10000)) (XF (Rabs r)) = true) by (cbn [xltb]; apply Rltb_true; lra). rewrite A. destruct (Rltb r 0); reflexivity.
  - unfold xfin. destruct (Reqb r 0) eqn:Z; [|reflexivity]. apply Reqb_true in Z. subst r. rewrite (proj2 (Rltb_false 0 0)) by lra. reflexivity.
Qed.
Lemma exact_step crit w st : r_step (fun x => x) crit w st = step crit w st.
Proof. reflexivity. Qed.
Lemma exact_loop big crit w : 1 < big -> forall fuel st, r_loop (fun x => x) big fuel crit w st = loop fuel crit w st.
Proof.
  intros B. induction fuel as [|n IH]; intros st; cbn [r_loop loop]; rewrite (exact_guard big st B); [reflexivity|].
  destruct (guard st); [|reflexivity]. rewrite exact_step. destruct (step crit w st); [apply IH|reflexivity].
Qed.
Lemma exact_main : forall big crit w lo up m, 1 < big -> r_optimize (fun x => x) big crit w lo up m = optimize crit w lo up m.
Proof.
  intros big crit w lo up m B. unfold r_optimize, optimize. change (r_first (fun x => x) w lo up) with (first_weight w lo up). change (r_second (fun x => x) w lo up) with (second_weight w lo up).
  destruct (crit 0%nat _) as [ok1 v1|]; [|reflexivity]. destruct (crit 1%nat _) as [ok2 v2|]; [|reflexivity]. destruct (negb (ok1 && ok2)); [reflexivity|]. destruct (is_max_dbl v1 && is_max_dbl v2); [reflexivity|].
  change (r_init (fun x => x) w lo up m v1 v2) with (init_vars w lo up m v1 v2). rewrite (exact_loop big crit w B 101). reflexivity.
Qed.
Lemma demo_wide : / 10000 <= 10 - 1.
Proof. lra. Qed.
