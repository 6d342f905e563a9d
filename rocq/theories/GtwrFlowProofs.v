(** Proofs about whole runs of GTWR::fit. *)
From Coq Require Import Reals Bool List Arith ZArith Lia Lra.
From Verif Require Import Outcome XReal XRealFacts KernelModel GtwrModel GtwrSpec GtwrProofs GoldModel GoldSpec GoldProofs GoldProofs2
  FlowModel FlowProofs FlowCases FlowCases2 GtwrFlowModel.
Import ListNotations.
Local Open Scope R_scope.

Section P.
Variable B : Type.
Implicit Types (W : gworld B) (o : gobj B).

(** The bandwidth stage is that of FlowModel.v. *)
Definition as_world W (l : R) : world unit B :=
  mkWorld (gw_n W) (gw_maxd W l) false false false (fun _ _ _ => (false, None)) (fun k _ w => gw_bfit W k w l)
    (fun _ w => gw_final W w l).
Definition as_object o : object unit :=
  mkObject [] false false true 0 None None (g_weight o) [] [] (g_blist o) (g_terminated o).

Lemma bw_stage_is W o : g_bw_stage W o =
  match bw_stage (as_world W (g_lambda o)) (as_object o) with
  | Go o' => GGo (gset_terminated (o_terminated o') (gset_weight (o_weight o') (o_blist o') o))
  | Failed _ => GFailed o
  | Undef => GUndef
  end.
Proof.
  unfold g_bw_stage, bw_stage, lower_bound, upper_bound. cbn [as_world as_object o_weight o_lower o_upper w_n w_maxd].
  change (bw_criterion (as_world W (g_lambda o)) (as_object o)) with (g_criterion W o).
  destruct (rresult _); cbn; try reflexivity. 
Qed.

Lemma g_bw_fields W o o' : g_bw_stage W o = GGo o' ->
  g_lambda o' = g_lambda o /\ g_crsst o' = g_crsst o /\ g_auto_bw o' = g_auto_bw o /\ g_auto_lambda o' = g_auto_lambda o /\
  g_betas o' = g_betas o /\ (g_terminated o = true -> g_terminated o' = true) /\
  wkernel (g_weight o') = wkernel (g_weight o) /\ wadaptive (g_weight o') = wadaptive (g_weight o).
Proof.
  rewrite bw_stage_is. destruct (bw_stage _ _) as [q|q|] eqn:E; try discriminate. intros H. inversion H; subst. cbn.
  destruct (bw_fields _ _ _ _ q (or_introl E)) as (_ & _ & _ & T & _ & _ & _ & _ & _ & _ & K & A). repeat split; auto.
Qed.
Lemma g_bw_failed W o o' : g_bw_stage W o = GFailed o' -> o' = o.
Proof. rewrite bw_stage_is. destruct (bw_stage _ _); try discriminate. intros H; inversion H; auto. Qed.

Lemma gset_terminated_id o : gset_terminated (g_terminated o) o = o.
Proof. destruct o; reflexivity. Qed.

Lemma g_bw_again W o o' : g_bw_stage W o = GGo o' -> g_terminated o' = g_terminated o -> g_bw_stage W o' = GGo o'.
Proof.
  intros E T. destruct (g_bw_fields _ _ _ E) as (L & _).
  rewrite bw_stage_is in E |- *. destruct (bw_stage _ (as_object o)) as [q|q|] eqn:Q; try discriminate.
  inversion E; subst. cbn in T, L |- *. 
  assert (Fl := bw_fields _ _ _ _ q (or_introl Q)). destruct Fl as (X & S1 & V & _ & A1 & A2 & L1 & U1 & I1 & T1 & _).
  assert (Eq : as_object (gset_terminated (o_terminated q) (gset_weight (o_weight q) (o_blist q) o)) = q).
  { unfold as_object. cbn. destruct q as [qx qi qv qb qt ql qu qw qs qvl qbl qtm]; cbn in *. subst. reflexivity. }
  rewrite Eq. rewrite (bw_again _ _ _ _ _ Q) by (exact T). destruct o; reflexivity.
Qed.

Lemma g_lambda_fields W o o' : g_lambda_stage W o = GGo o' \/ g_lambda_stage W o = GFailed o' ->
  g_weight o' = g_weight o /\ g_crsst o' = g_crsst o /\ g_auto_bw o' = g_auto_bw o /\ g_auto_lambda o' = g_auto_lambda o /\
  g_betas o' = g_betas o /\ (g_terminated o = true -> g_terminated o' = true) /\ g_blist o' = g_blist o /\
  0 <= g_lambda o' <= 1 /\ g_crsst o = true.
Proof.
  unfold g_lambda_stage. destruct (g_crsst o) eqn:C; [|intros [H|H]; discriminate]. cbn [negb].
  destruct (lambda_range (g_rsquare W o)) as [(l & log & E & R & N & F)|(log & E & N & F)]; rewrite E;
    intros [H|H]; inversion H; subst; cbn; repeat split; auto; try (intros ->; reflexivity); try tauto.
  all: destruct log as [|a t]; cbn in N; [lia|]; cbn; inversion F; subst; lra.
Qed.

Lemma g_rsquare_ext W o o' : g_weight o' = g_weight o -> g_terminated o' = g_terminated o -> g_rsquare W o' = g_rsquare W o.
Proof. intros A T. unfold g_rsquare. rewrite A, T. reflexivity. Qed.

Lemma g_lambda_again W o o' : g_lambda_stage W o = GGo o' -> g_terminated o' = g_terminated o -> g_lambda_stage W o' = GGo o'.
Proof.
  intros E T. destruct (g_lambda_fields W o o' (or_introl E)) as (A & C & _).
  unfold g_lambda_stage in *. rewrite C. destruct (g_crsst o); [|discriminate]. cbn [negb] in *.
  rewrite (g_rsquare_ext W o o' A T). destruct (LambdaAutoSelection (g_rsquare W o)) as [l log|log|]; try discriminate.
  inversion E; subst. cbn in T. destruct o; cbn in *. rewrite <- T at 1. unfold gset_terminated, gset_lambda, g_cancelled. cbn.
  f_equal. f_equal. destruct g_terminated; cbn in *; auto. destruct (existsb _ _); auto.
Qed.

(** The ways a run can go. *)
Lemma gfit_cases W o : 
  gtwr_fit W o = 
  (if g_crsst o && negb (gw_made W) then GThrew o else
   if gw_stop0 W then GReturned (GZeros (gw_n W) (gw_p W)) (gset_terminated true o) else
   match (if g_auto_bw o then g_bw_stage W o else GGo o) with
   | GFailed o1 => GThrew o1 | GUndef => GUndefined
   | GGo o1 =>
     if g_auto_bw o && gw_stop1 W then GReturned (GZeros (gw_n W) (gw_p W)) (gset_terminated true o1) else
     match (if g_auto_lambda o1 then g_lambda_stage W o1 else GGo o1) with
     | GFailed o2 => GThrew o2 | GUndef => GUndefined
     | GGo o2 =>
       if g_auto_lambda o1 && gw_stop2 W then GReturned (GZeros (gw_n W) (gw_p W)) (gset_terminated true o2) else
       match gw_final W (g_weight o2) (g_lambda o2) with
       | Ok (b, st) => let o3 := gset_terminated (g_terminated o2 || st) (gset_betas b o2) in
           if gw_stop3 W then GReturned (GZeros (gw_n W) (gw_p W)) (gset_terminated true o3) else GReturned (GCoefficients b) o3
       | Throw => GThrew o2 | UB => GUndefined
       end
     end
   end).
Proof.
  unfold gtwr_fit, g_checkpoint. destruct (_ && negb _); auto. destruct (gw_stop0 W); auto.
  destruct (g_auto_bw o); cbn [andb];
    repeat match goal with |- context [match ?x with _ => _ end] => destruct x; cbn [andb]; auto end.
Qed.

Lemma C138_result_main W o v o' : gtwr_fit W o = GReturned v o' ->
  match v with
  | GCoefficients b => (exists stopped, gw_final W (g_weight o') (g_lambda o') = Ok (b, stopped) /\ (stopped = true -> g_terminated o' = true)) /\
      g_betas o' = Some b
  | GZeros r c => r = gw_n W /\ c = gw_p W /\ g_terminated o' = true
  end.
Proof.
  rewrite gfit_cases. destruct (_ && negb _); [discriminate|].
  destruct (gw_stop0 W); [intros H; inversion H; auto|].
  destruct (if g_auto_bw o then _ else _) as [o1|o1|]; try discriminate.
  destruct (g_auto_bw o && _); [intros H; inversion H; auto|].
  destruct (if g_auto_lambda o1 then _ else _) as [o2|o2|]; try discriminate.
  destruct (g_auto_lambda o1 && _); [intros H; inversion H; auto|].
  destruct (gw_final W _ _) as [[b st]| |] eqn:F; try discriminate. cbv zeta.
  destruct (gw_stop3 W); intros H; inversion H; subst; auto. cbn. split; auto. exists st. split; auto. intros ->. apply orb_true_r.
Qed.

Lemma stage_fields W o o1 : (if g_auto_bw o then g_bw_stage W o else GGo o) = GGo o1 ->
  g_lambda o1 = g_lambda o /\ g_crsst o1 = g_crsst o /\ g_auto_bw o1 = g_auto_bw o /\ g_auto_lambda o1 = g_auto_lambda o /\
  g_betas o1 = g_betas o /\ (g_terminated o = true -> g_terminated o1 = true) /\
  wkernel (g_weight o1) = wkernel (g_weight o) /\ wadaptive (g_weight o1) = wadaptive (g_weight o) /\
  (g_auto_bw o = false -> g_weight o1 = g_weight o /\ g_blist o1 = g_blist o).
Proof.
  destruct (g_auto_bw o) eqn:A.
  - intros E. destruct (g_bw_fields _ _ _ E) as (F1 & F2 & F3 & F4 & F5 & F6 & F7 & F8). rewrite A in F3. repeat split; auto; discriminate.
  - intros E; inversion E; subst. repeat split; auto.
Qed.
Lemma stage2_fields W o o2 : (if g_auto_lambda o then g_lambda_stage W o else GGo o) = GGo o2 \/
    (if g_auto_lambda o then g_lambda_stage W o else GGo o) = GFailed o2 ->
  g_weight o2 = g_weight o /\ g_crsst o2 = g_crsst o /\ g_auto_bw o2 = g_auto_bw o /\ g_auto_lambda o2 = g_auto_lambda o /\
  g_betas o2 = g_betas o /\ (g_terminated o = true -> g_terminated o2 = true) /\ g_blist o2 = g_blist o /\
  (g_auto_lambda o = false -> g_lambda o2 = g_lambda o) /\ (0 <= g_lambda o <= 1 -> 0 <= g_lambda o2 <= 1).
Proof.
  destruct (g_auto_lambda o) eqn:A.
  - intros E. destruct (g_lambda_fields W o o2 E) as (F1 & F2 & F3 & F4 & F5 & F6 & F7 & F8 & _). rewrite A in F4. repeat split; auto; try discriminate; lra.
  - intros [E|E]; inversion E; subst. repeat split; auto; lra.
Qed.

Lemma C138_kept_main W o o' : (exists v, gtwr_fit W o = GReturned v o') \/ gtwr_fit W o = GThrew o' ->
  wkernel (g_weight o') = wkernel (g_weight o) /\ wadaptive (g_weight o') = wadaptive (g_weight o) /\
  (g_auto_bw o = false -> g_weight o' = g_weight o) /\ (g_auto_lambda o = false -> g_lambda o' = g_lambda o) /\
  (0 <= g_lambda o <= 1 -> 0 <= g_lambda o' <= 1) /\ (g_terminated o = true -> g_terminated o' = true).
Proof.
  rewrite gfit_cases. destruct (_ && negb _); [intros [[v H]|H]; inversion H; subst; repeat split; auto; lra|].
  destruct (gw_stop0 W); [intros [[v H]|H]; inversion H; subst; cbn; repeat split; auto; lra|].
  destruct (if g_auto_bw o then _ else _) as [o1|o1|] eqn:E1.
  2:{ destruct (g_auto_bw o); [|discriminate]. apply g_bw_failed in E1. subst. intros [[v H]|H]; inversion H; subst; repeat split; auto; lra. }
  2:{ intros [[v H]|H]; discriminate. }
  destruct (stage_fields _ _ _ E1) as (A1 & A2 & A3 & A4 & A5 & A6 & A7 & A8 & A9).
  destruct (g_auto_bw o && _).
  { intros [[v H]|H]; inversion H; subst; cbn. rewrite A1. repeat split; auto; try (apply A9); try lra. }
  destruct (if g_auto_lambda o1 then _ else _) as [o2|o2|] eqn:E2.
  - destruct (stage2_fields W o1 o2 (or_introl E2)) as (B1 & B2 & B3 & B4 & B5 & B6 & B7 & B8 & B9).
    assert (G : wkernel (g_weight o2) = wkernel (g_weight o) /\ wadaptive (g_weight o2) = wadaptive (g_weight o) /\
      (g_auto_bw o = false -> g_weight o2 = g_weight o) /\ (g_auto_lambda o = false -> g_lambda o2 = g_lambda o) /\
      (0 <= g_lambda o <= 1 -> 0 <= g_lambda o2 <= 1) /\ (g_terminated o = true -> g_terminated o2 = true)).
    { rewrite B1. repeat split; auto.
      - intros Q. apply A9; auto.
      - intros Q. rewrite <- A1. apply B8. congruence.
      - rewrite <- A1 in H. apply B9; auto.
      - rewrite <- A1 in H. apply B9; auto. }
    clear B1 B2 B3 B4 B5 B6 B7 B8 B9. destruct G as (G1 & G2 & G3 & G4 & G5 & G6).
    destruct (g_auto_lambda o1 && _); [intros [[v H]|H]; inversion H; subst; cbn; repeat split; auto; apply G5; auto|].
    destruct (gw_final W _ _) as [[b st]| |].
    + cbv zeta. destruct (gw_stop3 W); intros [[v H]|H]; inversion H; subst; cbn; repeat split; auto; try (apply G5; auto).
      intros Q. rewrite G6; auto.
    + intros [[v H]|H]; inversion H; subst; repeat split; auto; apply G5; auto.
    + intros [[v H]|H]; inversion H.
  - destruct (stage2_fields W o1 o2 (or_intror E2)) as (B1 & B2 & B3 & B4 & B5 & B6 & B7 & B8 & B9).
    intros [[v H]|H]; inversion H; subst. rewrite B1. repeat split; auto.
    + intros Q. apply A9; auto.
    + intros Q. rewrite <- A1. apply B8. congruence.
    + rewrite <- A1 in H0. apply B9; auto.
    + rewrite <- A1 in H0. apply B9; auto.
  - intros [[v H]|H]; discriminate.
Qed.

(** ** C139 *)
Lemma C139_bandwidth_main W o b o' :
  (forall k w l s r, gw_bfit W k w l = (s, Some (XF r)) -> r <= DBL_MAX) ->
  (forall k k' w l, gw_bfit W k w l = gw_bfit W k' w l) ->
  gtwr_fit W o = GReturned (GCoefficients b) o' -> g_auto_bw o = true -> g_terminated o' = false ->
  (forall x u, In (x, u) (g_blist o') ->
     gw_bfit W 0 (mkWeight (wkernel (g_weight o)) (wadaptive (g_weight o)) x) (g_lambda o) = (false, Some u) /\ xfinite u = true) /\
  exists v, In (wvalue (g_weight o'), v) (g_blist o') /\ forall x u, In (x, u) (g_blist o') -> not_greater v u.
Proof.
  intros Db Rp H Ab T. rewrite gfit_cases, Ab in H. destruct (_ && negb _); [discriminate|].
  destruct (gw_stop0 W); [discriminate|].
  destruct (g_bw_stage W o) as [o1|o1|] eqn:E1; try discriminate. cbn [andb] in H. destruct (gw_stop1 W); [discriminate|].
  destruct (if g_auto_lambda o1 then _ else _) as [o2|o2|] eqn:E2; try discriminate.
  destruct (stage2_fields W o1 o2 (or_introl E2)) as (B1 & _ & _ & _ & _ & B6 & B7 & _).
  destruct (g_auto_lambda o1 && _); [discriminate|].
  destruct (gw_final W _ _) as [[b' st]| |]; try discriminate. cbv zeta in H.
  destruct (gw_stop3 W); inversion H; subst. cbn in T |- *. rewrite B1, B7.
  assert (T1 : g_terminated o1 = false).
  { destruct (g_terminated o1); auto. rewrite B6 in T; auto. }
  clear - E1 T1 Db Rp. rewrite bw_stage_is in E1.
  destruct (bw_stage _ _) as [q|q|] eqn:Q; try discriminate. inversion E1; subst. cbn in T1 |- *.
  unfold bw_stage in Q.
  destruct (rresult _) as [|wr| |] eqn:R; inversion Q; subst; try discriminate. cbn.
  pose proof (bw_fresh_list unit B (as_world W (g_lambda o)) (as_object o) wr) as L. cbv zeta in L.
  apply L; auto.
  - intros k x w s r. apply Db.
  - intros k k' x w. apply Rp.
Qed.

Lemma C139_lambda_main W o b o' (g : R -> R) mx :
  gtwr_fit W o = GReturned (GCoefficients b) o' -> g_auto_lambda o = true -> g_terminated o' = false ->
  0 <= mx <= 1 -> GtwrSpec.unimodal g mx -> (forall k l, gw_lfit W k (g_weight o') l = (false, Some (XF (g l)))) ->
  exists k, (k <= 100)%nat /\ Rabs (g_lambda o' - mx) <= phi ^ k / 2 /\
    (k = 100%nat \/ Rabs (g (g_lambda o' - phi ^ k / 2) - g (g_lambda o' + phi ^ k / 2)) < / 10 ^ 12).
Proof.
  intros H Al T M U L. rewrite gfit_cases in H. destruct (_ && negb _); [discriminate|].
  destruct (gw_stop0 W); [discriminate|].
  destruct (if g_auto_bw o then _ else _) as [o1|o1|] eqn:E1; try discriminate.
  destruct (stage_fields _ _ _ E1) as (_ & _ & _ & A4 & _). rewrite A4, Al in H.
  destruct (g_auto_bw o && _); [discriminate|].
  destruct (g_lambda_stage W o1) as [o2|o2|] eqn:E2; try discriminate.
  destruct (g_lambda_fields W o1 o2 (or_introl E2)) as (B1 & _ & _ & _ & _ & B6 & _ & _ & Cr).
  cbn [andb] in H. destruct (gw_stop2 W); [discriminate|].
  destruct (gw_final W _ _) as [[b' st]| |]; try discriminate. cbv zeta in H. destruct (gw_stop3 W); inversion H; subst. cbn in *.
  assert (T1 : g_terminated o1 = false).
  { destruct (g_terminated o1); auto. rewrite B6 in T; auto. }
  unfold g_lambda_stage in E2. rewrite Cr in E2. cbn [negb] in E2.
  destruct (unimodal_select g mx (g_rsquare W o1) M U) as (k & l & log & S & _ & K & D & Z).
  { intros k l. unfold g_rsquare. rewrite <- B1, L, T1. reflexivity. }
  rewrite S in E2. inversion E2; subst. cbn. exists k. auto.
Qed.

(** ** C140 *)
Lemma C140_repeat_main W o v o' : g_auto_bw o && g_auto_lambda o = false ->
  gtwr_fit W o = GReturned v o' -> g_terminated o' = g_terminated o -> gtwr_fit W o' = GReturned v o'.
Proof.
  intros N H T. rewrite gfit_cases in H |- *.
  destruct (g_crsst o && negb (gw_made W)) eqn:M; [discriminate|].
  destruct (gw_stop0 W).
  { inversion H; subst. cbn in T |- *. rewrite M. reflexivity. }
  destruct (if g_auto_bw o then _ else _) as [o1|o1|] eqn:E1; try discriminate.
  destruct (stage_fields _ _ _ E1) as (A1 & A2 & A3 & A4 & A5 & A6 & A7 & A8 & A9).
  destruct (g_auto_bw o && gw_stop1 W) eqn:S1.
  { apply andb_true_iff in S1 as [Ab S1]. rewrite Ab in E1. inversion H; subst. cbn in T |- *.
    assert (T1 : g_terminated o1 = true) by (rewrite A6; auto).
    assert (Q : gset_terminated true o1 = o1) by (rewrite <- T1; apply gset_terminated_id). rewrite Q.
    rewrite A2, M, A3, Ab, (g_bw_again _ _ _ E1) by congruence. rewrite S1. cbn [andb]. rewrite Q. reflexivity. }
  destruct (if g_auto_lambda o1 then _ else _) as [o2|o2|] eqn:E2; try discriminate.
  destruct (stage2_fields W o1 o2 (or_introl E2)) as (B1 & B2 & B3 & B4 & B5 & B6 & B7 & B8 & _).
  assert (K : forall o3, g_weight o3 = g_weight o2 -> g_lambda o3 = g_lambda o2 -> g_crsst o3 = g_crsst o2 ->
     g_auto_bw o3 = g_auto_bw o2 -> g_auto_lambda o3 = g_auto_lambda o2 -> g_blist o3 = g_blist o2 ->
     g_terminated o3 = g_terminated o -> g_terminated o2 = g_terminated o ->
     (g_crsst o3 && negb (gw_made W) = false) /\
     (if g_auto_bw o3 then g_bw_stage W o3 else GGo o3) = GGo o3 /\
     (if g_auto_lambda o3 then g_lambda_stage W o3 else GGo o3) = GGo o3 /\ g_auto_bw o3 = g_auto_bw o /\ g_auto_lambda o3 = g_auto_lambda o1).
  { intros o3 K1 K2 K3 K4 K5 K6 K7 K8.
    assert (T1 : g_terminated o1 = g_terminated o).
    { destruct (g_terminated o) eqn:T0; [rewrite A6; auto|]. destruct (g_terminated o1) eqn:T1; auto. rewrite B6 in K8; auto. }
    split; [rewrite K3, B2, A2; exact M|]. split; [|split; [|split; congruence]].
    - rewrite K4, B3, A3. destruct (g_auto_bw o) eqn:Ab; [|reflexivity].
      rewrite A4 in E2. rewrite andb_true_l in N. rewrite N in E2. inversion E2; subst o2.
      pose proof (g_bw_again _ _ _ E1 T1) as Ag. clear - Ag K1 K2 K3 K4 K5 K6 K7 T1.
      rewrite bw_stage_is in Ag |- *. rewrite K2.
      assert (Q : as_object o3 = as_object o1) by (unfold as_object; rewrite K1, K6, K7, T1; reflexivity). rewrite Q.
      destruct (bw_stage _ _) as [q|q|]; try discriminate. inversion Ag as [Ag1].
      assert (C1 := f_equal (@g_terminated B) Ag1). assert (C2 := f_equal (@g_weight B) Ag1). assert (C3 := f_equal (@g_blist B) Ag1).
      cbn in C1, C2, C3. rewrite C1, C2, C3. destruct o3; cbn in *. subst. unfold gset_terminated, gset_weight. cbn. congruence.
    - rewrite K5, B4. destruct (g_auto_lambda o1) eqn:Al; [|reflexivity].
      assert (Ag : g_lambda_stage W o2 = GGo o2) by (apply (g_lambda_again W o1); [exact E2|congruence]).
      clear - Ag K1 K2 K3 K4 K5 K6 K7 K8. unfold g_lambda_stage in *. rewrite K3. destruct (g_crsst o2); [|discriminate]. cbn [negb] in *.
      rewrite (g_rsquare_ext W o2 o3) by congruence.
      destruct (LambdaAutoSelection _) as [l log|log|]; try discriminate. inversion Ag as [Ag1].
      assert (C1 := f_equal (@g_terminated B) Ag1). assert (C2 := f_equal (@g_lambda B) Ag1). cbn in C1, C2.
      assert (G : g_cancelled W o3 log = g_cancelled W o2 log) by (unfold g_cancelled; rewrite K1; reflexivity). rewrite G.
      assert (g_terminated o3 = g_terminated o2) by congruence. rewrite H, C1, C2.
      f_equal. destruct o3; cbn in *. subst. unfold gset_terminated, gset_lambda. cbn. congruence. }
  destruct (g_auto_lambda o1 && gw_stop2 W) eqn:S2.
  { inversion H; subst. cbn in T.
    assert (T2 : g_terminated o2 = true).
    { apply B6. apply A6. auto. }
    assert (Q : gset_terminated true o2 = o2) by (rewrite <- T2; apply gset_terminated_id). rewrite Q.
    destruct (K o2) as (K1 & K2 & K3 & K4 & K5); auto; try congruence. rewrite K1, K2, K4, S1, K3, K5, S2, Q. reflexivity. }
  destruct (gw_final W _ _) as [[b st]| |] eqn:F; try discriminate. cbv zeta in H |- *.
  destruct (gw_stop3 W).
  - inversion H; subst. cbn in T.
    assert (T2 : g_terminated o2 = true) by (apply B6, A6; auto).
    set (o3 := gset_terminated true (gset_terminated (g_terminated o2 || st) (gset_betas b o2))).
    assert (P : g_terminated o2 = g_terminated o) by congruence.
    destruct (K o3 eq_refl eq_refl eq_refl eq_refl eq_refl eq_refl T P) as (K1 & K2 & K3 & K4 & K5).
    rewrite K1, K2, K4, S1, K3, K5, S2. cbn. rewrite F. reflexivity.
  - inversion H; subst. cbn in T.
    assert (T2 : g_terminated o2 = g_terminated o).
    { destruct (g_terminated o2) eqn:T2; cbn in T; auto. destruct (g_terminated o); auto. }
    set (o3 := gset_terminated (g_terminated o2 || st) (gset_betas b o2)).
    destruct (K o3 eq_refl eq_refl eq_refl eq_refl eq_refl eq_refl T T2) as (K1 & K2 & K3 & K4 & K5).
    rewrite K1, K2, K4, S1, K3, K5, S2. cbn. rewrite F. unfold o3, gset_terminated, gset_betas. cbn.
    rewrite <- orb_assoc, orb_diag. reflexivity.
Qed.

Lemma C140_after_cancel_main W o : g_terminated o = true -> g_crsst o = true -> g_auto_bw o = false -> g_auto_lambda o = true ->
  gw_made W = true -> gw_stop0 W = false -> (forall k l, snd (gw_lfit W k (g_weight o) l) <> None) ->
  forall o', (exists v, gtwr_fit W o = GReturned v o') \/ gtwr_fit W o = GThrew o' -> g_lambda o' = 0.
Proof.
  intros T C Ab Al M S0 N o'. rewrite gfit_cases, C, M, S0, Ab. cbn [andb negb]. rewrite Al.
  assert (exists log, LambdaAutoSelection (g_rsquare W o) = LChosen 0 log) as [log E].
  { assert (Q : forall k l, exists r, g_rsquare W o k l = Some (false, r)).
    { intros k l. unfold g_rsquare. rewrite T. specialize (N k l). destruct (gw_lfit W k (g_weight o) l) as [s [r|]]; [|contradiction].
      exists (XF 0). reflexivity. }
    unfold LambdaAutoSelection. cbv zeta.
    destruct (Q 0%nat 0) as [r0 ->]. destruct (Q 1%nat 1) as [r1 ->].
    destruct (Q 2%nat (0 + (1 - l_ratio) * (1 - 0))) as [r2 ->]. destruct (Q 3%nat (0 + l_ratio * (1 - 0))) as [r3 ->].
    generalize 101%nat. intros fuel. destruct fuel; eexists; reflexivity. }
  unfold g_lambda_stage. rewrite C, E. cbn [negb].
  destruct (gw_stop2 W); [intros [[v H]|H]; inversion H; subst; reflexivity|].
  destruct (gw_final W _ _) as [[b st]| |]; cbv zeta; try (intros [[v H]|H]; inversion H; subst; reflexivity).
  destruct (gw_stop3 W); intros [[v H]|H]; inversion H; subst; reflexivity.
Qed.

(** ** C141 *)
Lemma C141_main W o : g_crsst o = false -> g_auto_lambda o = true -> gw_stop0 W = false -> gw_stop1 W = false ->
  (exists o', gtwr_fit W o = GThrew o') \/ gtwr_fit W o = GUndefined.
Proof.
  intros C Al S0 S1. rewrite gfit_cases, C, S0, S1, andb_false_r. cbn [andb].
  destruct (if g_auto_bw o then _ else _) as [o1|o1|] eqn:E1; eauto.
  destruct (stage_fields _ _ _ E1) as (_ & A2 & _ & A4 & _). rewrite A4, Al. unfold g_lambda_stage. rewrite A2, C. auto.
Qed.
Lemma C141_plain W o : g_crsst o = false -> g_auto_lambda o = true -> gw_stop0 W = false -> g_auto_bw o = false -> gtwr_fit W o = GUndefined.
Proof.
  intros C Al S0 A. rewrite gfit_cases, C, S0, A. cbn [andb]. rewrite Al. unfold g_lambda_stage. rewrite C. reflexivity.
Qed.
End P.
