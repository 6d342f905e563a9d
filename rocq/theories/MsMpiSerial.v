(** Proofs about what one process of multiscale regression computes (C166). *)
From Coq Require Import Reals Bool List Arith Lia Lra FunctionalExtensionality.
From Verif Require Import Outcome XReal XRealFacts Sums KernelModel MpiModel MpiProofs OmpModel MsCritModel MsCritProofs GoldModel MpiSelModel MpiSelGoldModel.
From Verif Require Import MsMpiModel MsMpiSpec MsMpiNet MsMpiMain MsMpiSerSpec.
Import ListNotations.
Local Open Scope R_scope.

(** ** The search is the golden-section search *)
Section Search.
Variables lower upper : nat -> R.
Variable crit : nat -> nat -> (nat -> R) -> nat -> weight -> bool -> proc (xd * bool).
Variables (it v : nat) (yi : nat -> R) (w0 : weight).
Variable cr : weight -> xd.
Hypothesis CR : forall k b, crit it v yi k b false = Ret (cr b, false).
Notation gcrit := (fun (_ : nat) b => GoldModel.Answer true (cr b)).

Lemma gstep_asked st : GoldModel.step gcrit w0 st = GoldModel.step (fun _ _ => GoldModel.Answer true (cr (asked w0 st))) w0 st.
Proof. unfold GoldModel.step, asked. destruct (xltb (f1 st) (f2 st)); reflexivity. Qed.
Lemma gstep_keeps st st' : GoldModel.step gcrit w0 st = Some st' -> s1 st = true -> s2 st = true -> s1 st' = true /\ s2 st' = true.
Proof. unfold GoldModel.step. destruct (xltb (f1 st) (f2 st)); intros E; injection E as <-; cbn; auto. Qed.
Lemma gloop_keeps k : forall st st', loop k gcrit w0 st = LDone st' -> s1 st = true -> s2 st = true -> s1 st' = true /\ s2 st' = true.
Proof.
  induction k as [|k IH]; intros st st'; cbn [loop]; destruct (guard st); try discriminate; try (intros E; injection E as <-; auto).
  destruct (GoldModel.step gcrit w0 st) as [st1|] eqn:S; [|discriminate]. intros E A B. destruct (gstep_keeps _ _ S A B). eapply IH; eauto.
Qed.
Lemma search_loop k : forall fuel st h, (k <= fuel)%nat ->
  (forall t, golden_plan w0 (lower v) (upper v) [] (h ++ t) = replay k w0 st t) -> s1 st = true -> s2 st = true ->
  search lower upper crit fuel it v yi w0 h false =
  match loop k gcrit w0 st with
  | LDone st' => Ret (mkWeight (wkernel w0) (wadaptive w0) (xopt st'), false)
  | LFail _ => Err InSelection
  | LFuel => Err Impossible
  end.
Proof.
  induction k as [|k IH]; intros fuel st h L P A B; assert (P0 := P []); rewrite app_nil_r in P0.
  - destruct fuel; cbn [search]; rewrite P0; cbn [replay loop]; destruct (guard st); try reflexivity; rewrite A, B; reflexivity.
  - destruct fuel as [|fuel]; [lia|]. cbn [search]. rewrite P0. cbn [replay loop]. destruct (guard st) eqn:G; [|rewrite A, B; reflexivity].
    rewrite CR. cbn [bind fst snd negb].
    destruct (GoldModel.step gcrit w0 st) as [st1|] eqn:S.
    2: { unfold GoldModel.step in S. destruct (xltb (f1 st) (f2 st)); discriminate. }
    destruct (gstep_keeps _ _ S A B) as [A1 B1]. apply IH; auto; [lia|].
    intros t. rewrite <- app_assoc. cbn [app]. rewrite P. cbn [replay]. rewrite G. rewrite gstep_asked in S. now rewrite S.
Qed.
Lemma select_optimize h' : select lower upper crit it v yi w0 false = Ret h' ->
  snd h' = false /\ rresult (optimize gcrit w0 (lower v) (upper v) []) = Fresh (fst h').
Proof.
  unfold select. change 103%nat with (S (S 101)). remember 101%nat as k101 eqn:K. cbn [search].
  change (golden_plan w0 (lower v) (upper v) [] []) with (@Ask result weight (first_weight w0 (lower v) (upper v))). cbn match. rewrite CR. cbn [bind fst snd negb app].
  change (golden_plan w0 (lower v) (upper v) [] [(true, cr (first_weight w0 (lower v) (upper v)))]) with (@Ask result weight (second_weight w0 (lower v) (upper v))). cbn match. rewrite CR. cbn [bind fst snd negb app].
  set (v1 := cr (first_weight w0 (lower v) (upper v))). set (v2 := cr (second_weight w0 (lower v) (upper v))).
  unfold optimize. fold v1 v2. cbn [andb negb].
  destruct (is_max_dbl v1 && is_max_dbl v2) eqn:M.
  - destruct k101; [discriminate|]. cbn [search]. unfold golden_plan. rewrite M. cbn. discriminate.
  - rewrite (search_loop k101 k101 (init_vars w0 (lower v) (upper v) [] v1 v2)); [| lia | | reflexivity | reflexivity].
    + rewrite <- K. destruct (loop k101 gcrit w0 (init_vars w0 (lower v) (upper v) [] v1 v2)) as [st|st|] eqn:LO; try discriminate.
      destruct (gloop_keeps _ _ _ LO eq_refl eq_refl) as [A B]. rewrite A, B. cbn [andb rresult]. intros E. injection E as <-. auto.
    + intros t. cbn [app]. unfold golden_plan. rewrite M. cbn [andb negb]. now rewrite K.
Qed.
End Search.

Section Serial.
Variables n nvar : nat.
Variables (x : nat -> nat -> R) (y : nat -> R).
Variable hat : bool.
Variable appr : nat -> approach.
Variables lower upper threshold : nat -> R.
Variables retry : nat.
Variable ctype : crit_type.
Variable cthreshold : R.
Variable loo : nat -> (nat -> R) -> weight -> nat -> option R.
Variable loc : nat -> (nat -> R) -> weight -> nat -> option (R * R).
Notation no := (fun _ : place => false).
Notation crit := (criterion_base n x appr loo loc no).
Notation fitv := (fit_var_base n loc no).

Lemma forall_visited (P : nat -> bool) : forallb P (seq 0 n) = true -> forall i, In i (visited (0, n)%nat) -> P i = true.
Proof. intros F i I. rewrite forallb_forall in F. apply F. unfold visited in I. cbn [fst snd] in I. now rewrite Nat.sub_0_r in I. Qed.
Lemma not_forall_visited (P : nat -> bool) : forallb P (seq 0 n) = false -> exists i, In i (visited (0, n)%nat) /\ P i = false.
Proof.
  intros F. apply not_true_iff_false in F. rewrite forallb_forall in F.
  destruct (existsb (fun i => negb (P i)) (seq 0 n)) eqn:E.
  - apply existsb_exists in E. destruct E as (i & I & E). exists i. split; [|now apply negb_true_iff]. unfold visited. cbn [fst snd]. now rewrite Nat.sub_0_r.
  - exfalso. apply F. intros i I. destruct (P i) eqn:PI; [reflexivity|]. exfalso. apply not_true_iff_false in E. apply E, existsb_exists. exists i. rewrite PI. auto.
Qed.
Lemma criterion_spec it v yi k b : crit it v yi k b false = Ret (criterion_of n x appr loo loc v yi b, false).
Proof.
  unfold criterion_base, criterion_of, part_loop. destruct (appr v) eqn:A.
  - unfold cv_loop. destruct (forallb _ (seq 0 n)) eqn:F.
    + destruct (core_some (fun i => option_map (fun c => (c, fun _ : nat => 0)) (loo v yi b i)) (visited (0, n)%nat) (fun _ => 0) (fun _ => 0) (seq_NoDup _ _)) as (b' & s & E & B & _).
      { intros i I. pose proof (forall_visited _ F i I) as X. cbv beta in X. destruct (loo v yi b i); discriminate. }
      rewrite E. cbn [orb negb andb]. unfold value. rewrite A. cbn [is_finite andb]. do 3 f_equal. apply bigsum_ext. intros i Hi. rewrite B.
      destruct (in_dec _ i _) as [I|I]; [|exfalso; apply I, in_visited; cbn; lia].
      destruct (loo v yi b i); cbn [option_map]; ring.
    + destruct (not_forall_visited _ F) as (i & I & X). rewrite core_none; [reflexivity|reflexivity|]. exists i. split; [exact I|].
      cbv beta in X. destruct (loo v yi b i); [discriminate|reflexivity].
  - unfold aic_loop. destruct (forallb _ (seq 0 n)) eqn:F.
    + destruct (core_some (fun i => option_map (fun c : R * R => (fst c, fun _ : nat => snd c)) (loc v yi b i)) (visited (0, n)%nat) (fun _ => 0) (fun _ => 0) (seq_NoDup _ _)) as (b' & s & E & B & S).
      { intros i I. pose proof (forall_visited _ F i I) as X. cbv beta in X. destruct (loc v yi b i); discriminate. }
      rewrite E. cbn [orb negb andb]. unfold value. rewrite A.
      replace (aic_of n (x v) yi b' (s 0%nat)) with (aic_of n (x v) yi (fun i => match loc v yi b i with Some c => fst c | None => 0 end)
        (bigsum n (fun i => match loc v yi b i with Some c => snd c | None => 0 end))).
      { cbv zeta. destruct (aic_of _ _ _ _ _); reflexivity. }
      rewrite S, Rplus_0_l. unfold visited. cbn [fst snd]. rewrite Nat.sub_0_r, lsum_bigsum.
      rewrite (bigsum_ext n (fun i => match option_map (fun c : R * R => (fst c, fun _ : nat => snd c)) (loc v yi b i) with Some (_, c) => c 0%nat | None => 0 end)
        (fun i => match loc v yi b i with Some c => snd c | None => 0 end)) by (intros i Hi; destruct (loc v yi b i); reflexivity).
      rewrite (aic_rss n (x v) yi b' b'), (aic_rss n (x v) yi _ b'); [reflexivity| |reflexivity].
      intros i Hi. rewrite B. destruct (in_dec _ i _) as [I|I]; [|exfalso; apply I, in_visited; cbn; lia].
      destruct (loc v yi b i); reflexivity.
    + destruct (not_forall_visited _ F) as (i & I & X). rewrite core_none; [reflexivity|reflexivity|]. exists i. split; [exact I|].
      cbv beta in X. destruct (loc v yi b i); [discriminate|reflexivity].
Qed.

Lemma bind_ret {A B : Type} (m : proc A) (f : A -> proc B) r : bind m f = Ret r -> exists a, m = Ret a /\ f a = Ret r.
Proof. destruct m; cbn [bind]; [|discriminate|discriminate]. intros E. eauto. Qed.

Lemma fit_var_spec it v yi h q : fitv it v yi h false = Ret q ->
  snd q = false /\ forall i, (i < n)%nat -> exists s, loc v yi h i = Some (fst q i, s).
Proof.
  unfold fit_var_base, fit_range. destruct (fit_loop_spec (fun i => option_map fst (loc v yi h i)) (visited (0, n)%nat) (fun _ => 0) false (seq_NoDup _ _)) as (b' & E & B).
  rewrite E. cbn [orb]. destruct (existsb _ _) eqn:X; [discriminate|]. intros Q. injection Q as <-. split; [reflexivity|].
  intros i Hi. cbn [fst]. rewrite B. destruct (in_dec _ i _) as [I|I]; [|exfalso; apply I, in_visited; cbn; lia].
  destruct (loc v yi h i) as [[c s]|] eqn:L; [exists s; reflexivity|]. exfalso. apply not_true_iff_false in X. apply X, existsb_exists. exists i. rewrite L. auto.
Qed.

Notation PR := (partial_residual nvar x y).
Notation OV := (one_variable n nvar x y appr lower upper threshold retry loo loc).
Notation SR := (searched n x appr lower upper loo loc).
Notation swp := (sweep nvar x y lower upper threshold retry no crit fitv).
Notation sel := (select lower upper crit).

Lemma select_spec it v yi h r : sel it v yi h false = Ret r -> snd r = false /\ SR v yi h (fst r).
Proof. intros E. unfold searched. eapply select_optimize; [|exact E]. intros k b. apply criterion_spec. Qed.

Lemma select_var_spec it v yi s r : select_var lower upper threshold retry crit it v yi s false = Ret r ->
  let s1 := fst r in snd r = false /\ bs_betas s1 = bs_betas s /\
  (forall u, u <> v -> bs_w s1 u = bs_w s u /\ bs_init s1 u = bs_init s u /\ bs_chg s1 u = bs_chg s u) /\
  (bs_init s v = ISpecified -> bs_w s1 v = bs_w s v /\ bs_init s1 v = bs_init s v /\ bs_chg s1 v = bs_chg s v) /\
  (bs_init s v <> ISpecified -> SR v yi (bs_w s v) (bs_w s1 v) /\
     (threshold v < Rabs (wvalue (bs_w s1 v) - wvalue (bs_w s v)) -> bs_chg s1 v = 0%nat /\ bs_init s1 v = bs_init s v) /\
     (Rabs (wvalue (bs_w s1 v) - wvalue (bs_w s v)) <= threshold v -> bs_chg s1 v = S (bs_chg s v) /\
        ((retry <= S (bs_chg s v))%nat -> bs_init s1 v = ISpecified) /\ ((S (bs_chg s v) < retry)%nat -> bs_init s1 v = bs_init s v))).
Proof.
  unfold select_var. cbv zeta. intros E. destruct (bs_init s v) eqn:I.
  3: { injection E as <-. cbn [fst snd]. repeat split; auto; intros; congruence. }
  all: apply bind_ret in E; destruct E as (q & Q & E); destruct (select_spec _ _ _ _ _ Q) as [T SX]; injection E as <-; cbn [fst snd bs_betas bs_w bs_init bs_chg];
    (split; [exact T|split; [reflexivity|split]]);
    [ intros u U; unfold upd; rewrite (proj2 (Nat.eqb_neq u v) U); repeat split;
      destruct (negb _ && _); [unfold upd; now rewrite (proj2 (Nat.eqb_neq u v) U)|reflexivity]
    | split; [discriminate|intros _];
      unfold upd; rewrite Nat.eqb_refl; split; [exact SX|];
      destruct (Rltb (threshold v) (Rabs (wvalue (fst q) - wvalue (bs_w s v)))) eqn:C;
      [ apply Rltb_true in C | apply Rltb_false in C ]; cbn [negb andb];
      (split; [intros H|intros H]); try (exfalso; lra);
      [ auto
      | split; [reflexivity|]; destruct (Nat.leb_spec retry (S (bs_chg s v))); split; intros; try lia; rewrite ?Nat.eqb_refl; auto ] ].
Qed.

Definition consistent (s : bstate) : Prop := bs_resid s = residual nvar x y (bs_betas s).

Lemma bigsum_split m (f : nat -> R) a : (a < m)%nat -> bigsum m f = bigsum m (fun u => if Nat.eqb u a then 0 else f u) + f a.
Proof.
  induction m as [|m IH]; intros L; [lia|]. cbn [bigsum]. destruct (Nat.eq_dec a m) as [->|N].
  - rewrite Nat.eqb_refl. rewrite (bigsum_ext m (fun u => if Nat.eqb u m then 0 else f u) f); [ring|].
    intros u U. now rewrite (proj2 (Nat.eqb_neq u m)) by lia.
  - rewrite IH by lia. rewrite (proj2 (Nat.eqb_neq m a)) by lia. ring.
Qed.

Lemma sweep_spec it m : forall a s r, (a + m = nvar)%nat -> consistent s -> swp it (seq a m) s false = Ret r ->
  let z := fst r in snd r = false /\ consistent z /\
  (forall u, ~ (a <= u < nvar)%nat -> bs_betas z u = bs_betas s u /\ bs_w z u = bs_w s u /\ bs_init z u = bs_init s u /\ bs_chg z u = bs_chg s u) /\
  (forall v, (a <= v < nvar)%nat -> OV v (bs_betas s) (bs_betas z) (bs_w s v) (bs_w z v) (bs_init s v) (bs_init z v) (bs_chg s v) (bs_chg z v)).
Proof.
  induction m as [|m IH]; intros a s r L C E.
  { cbn [seq sweep] in E. injection E as <-. cbn. repeat split; auto; intros; lia. }
  cbn [seq sweep] in E. cbv zeta in E. set (yi := fun i => bs_resid s i + bs_betas s a i * x a i) in E.
  apply bind_ret in E. destruct E as (r1 & E1 & E). apply bind_ret in E. destruct E as (q & E2 & E).
  destruct (select_var_spec _ _ _ _ _ E1) as (T1 & B1 & O1 & S1 & N1). rewrite T1 in E2.
  destruct (fit_var_spec _ _ _ _ _ E2) as (T2 & F2). rewrite T2 in E.
  apply IH in E; [|lia|reflexivity]. cbn [bs_betas bs_w bs_init bs_chg] in E. cbv zeta in E. destruct E as (T & CZ & OUT & IN).
  set (z := fst r) in *. cbv zeta. split; [exact T|split; [exact CZ|]].
  assert (UA : forall u, u <> a -> upd (bs_betas (fst r1)) a (fst q) u = bs_betas s u).
  { intros u U. unfold upd. rewrite (proj2 (Nat.eqb_neq u a) U). now rewrite B1. }
  split.
  - intros u U. destruct (OUT u ltac:(lia)) as (X1 & X2 & X3 & X4). destruct (O1 u ltac:(lia)) as (Y1 & Y2 & Y3). rewrite X1, X2, X3, X4, Y1, Y2, Y3, UA by lia. auto.
  - intros v V. destruct (Nat.eq_dec v a) as [->|NV].
    + destruct (OUT a ltac:(lia)) as (X1 & X2 & X3 & X4).
      assert (YI : PR (bs_betas s) (bs_betas z) a = yi).
      { apply functional_extensionality. intros i. unfold partial_residual, yi. rewrite C. unfold residual, fitted_at.
        rewrite (bigsum_split nvar (fun v => x v i * bs_betas s v i) a) by lia.
        rewrite (bigsum_ext nvar (fun u => if Nat.eqb u a then 0 else x u i * (if Nat.ltb u a then bs_betas z u i else bs_betas s u i))
                   (fun u => if Nat.eqb u a then 0 else x u i * bs_betas s u i)); [ring|].
        intros u U. destruct (Nat.eqb_spec u a) as [|UN]; [reflexivity|]. destruct (Nat.ltb_spec u a); [|reflexivity].
        destruct (OUT u ltac:(lia)) as (X & _). now rewrite X, UA. }
      unfold one_variable. cbv zeta. rewrite YI, X2, X3, X4. split; [exact S1|split; [exact N1|]].
      intros i Hi. destruct (F2 i Hi) as [t F]. exists t. rewrite F, X1. unfold upd. now rewrite Nat.eqb_refl.
    + specialize (IN v ltac:(lia)). destruct (O1 v NV) as (Y1 & Y2 & Y3).
      rewrite Y1, Y2, Y3 in IN.
      assert (YI : PR (upd (bs_betas (fst r1)) a (fst q)) (bs_betas z) v = PR (bs_betas s) (bs_betas z) v).
      { apply functional_extensionality. intros i. unfold partial_residual. f_equal. apply bigsum_ext. intros u U.
        destruct (Nat.eqb_spec u v); [reflexivity|]. destruct (Nat.ltb_spec u v); [reflexivity|]. now rewrite UA by lia. }
      unfold one_variable in IN |- *. cbv zeta in IN |- *. now rewrite YI in IN.
Qed.

Notation RSS := (residual_ss n nvar x y).
Notation NC := (not_converged ctype cthreshold).
Lemma rss_same b : rss_of n nvar x y b = RSS b.
Proof. unfold rss_of, residual_ss, residual, fitted_at. apply bigsum_ext. intros i _. ring. Qed.
Lemma change_nc r0 r1 : xltb (XF cthreshold) (change ctype r0 r1) = true <-> NC r0 r1.
Proof.
  unfold change, not_converged. destruct ctype; [|reflexivity]. rewrite (xltb_val _ _ cthreshold (Rabs (r1 - r0))) by reflexivity.
  split; [apply Rltb_true|]. intros H. destruct (Rltb _ _) eqn:E; [reflexivity|]. apply Rltb_false in E. lra.
Qed.

Notation itr := (iterate n nvar x y lower upper threshold retry ctype cthreshold no crit fitv).
Lemma iterate_spec k : forall it c s r, consistent s -> itr k it (rss_of n nvar x y (bs_betas s)) c s false = Ret r ->
  exists K Z, (K <= k)%nat /\ Z 0%nat = s /\ Z K = fst r /\ snd r = false /\
  (forall j v, (j < K)%nat -> (v < nvar)%nat -> OV v (bs_betas (Z j)) (bs_betas (Z (S j))) (bs_w (Z j) v) (bs_w (Z (S j)) v)
     (bs_init (Z j) v) (bs_init (Z (S j)) v) (bs_chg (Z j) v) (bs_chg (Z (S j)) v)) /\
  ((0 < K)%nat -> xltb (XF cthreshold) c = true) /\
  (forall j, (S j < K)%nat -> NC (RSS (bs_betas (Z j))) (RSS (bs_betas (Z (S j))))) /\
  ((K < k)%nat -> match K with O => xltb (XF cthreshold) c = false | S j => ~ NC (RSS (bs_betas (Z j))) (RSS (bs_betas (Z K))) end).
Proof.
  induction k as [|k IH]; intros it c s r C E; cbn [iterate] in E.
  { injection E as <-. exists 0%nat, (fun _ => s). repeat split; auto; intros; lia. }
  destruct (xltb (XF cthreshold) c) eqn:G.
  2: { injection E as <-. exists 0%nat, (fun _ => s). repeat split; auto; intros; lia. }
  apply bind_ret in E. destruct E as (q & E1 & E). cbv zeta in E.
  destruct (sweep_spec it nvar 0%nat s q eq_refl C E1) as (T & CZ & _ & IN). rewrite T in E.
  apply IH in E; [|exact CZ]. destruct E as (K & Z & LK & Z0 & ZK & TR & OV' & GK & NCs & END).
  exists (S K), (fun j => match j with O => s | S j' => Z j' end).
  split; [lia|]. split; [reflexivity|]. split; [exact ZK|]. split; [exact TR|]. split; [|split; [|split]].
  - intros [|j] v J V; [rewrite Z0; apply IN; lia|]. apply OV'; [lia|exact V].
  - auto.
  - intros [|j] J; [|apply NCs; lia]. rewrite Z0. apply change_nc. rewrite <- !rss_same. apply GK. lia.
  - intros KK. destruct K as [|j]; [|apply END; lia]. specialize (END ltac:(lia)). cbn match in END. rewrite Z0. rewrite <- change_nc, <- !rss_same, END. discriminate.
Qed.

Variable maxiter : nat.
Notation ini := (initial n nvar x y hat lower upper threshold retry maxiter ctype cthreshold no crit fitv []).
Notation fin := (finish n nvar x y hat lower upper threshold retry maxiter ctype cthreshold no crit fitv []).
Lemma initial_spec m : forall a s ans, (a + m = nvar)%nat -> ini (seq a m) s false = Ret ans ->
  exists s', fin s' false = Ret ans /\ bs_betas s' = bs_betas s /\ bs_resid s' = bs_resid s /\ bs_init s' = bs_init s /\ bs_chg s' = bs_chg s /\
  (forall u, (u < a)%nat -> bs_w s' u = bs_w s u) /\
  (forall u, (a <= u < nvar)%nat -> (bs_init s u <> INull -> bs_w s' u = bs_w s u) /\ (bs_init s u = INull -> SR u y (bs_w s u) (bs_w s' u))).
Proof.
  induction m as [|m IH]; intros a s ans L E; cbn [seq initial] in E.
  { exists s. repeat split; auto; intros; lia. }
  apply bind_ret in E. destruct E as (r & E1 & E).
  assert (X : snd r = false /\ bs_betas (fst r) = bs_betas s /\ bs_resid (fst r) = bs_resid s /\ bs_init (fst r) = bs_init s /\ bs_chg (fst r) = bs_chg s /\
    (forall u, u <> a -> bs_w (fst r) u = bs_w s u) /\ (bs_init s a <> INull -> bs_w (fst r) a = bs_w s a) /\ (bs_init s a = INull -> SR a y (bs_w s a) (bs_w (fst r) a))).
  { destruct (bs_init s a) eqn:I.
    2,3: injection E1 as <-; cbn [fst snd]; repeat split; auto; intros; congruence.
    apply bind_ret in E1. destruct E1 as (q & Q & E1). destruct (select_spec _ _ _ _ _ Q) as [T SX]. injection E1 as <-. cbn [fst snd bs_betas bs_w bs_init bs_chg bs_resid].
    repeat split; auto; try congruence.
    - intros u U. unfold upd. now rewrite (proj2 (Nat.eqb_neq u a) U).
    - intros _. unfold upd. now rewrite Nat.eqb_refl. }
  destruct X as (T & X1 & X2 & X3 & X4 & X5 & X6 & X7). rewrite T in E. apply IH in E; [|lia].
  destruct E as (s' & F & Y1 & Y2 & Y3 & Y4 & Y5 & Y6). exists s'. rewrite Y1, Y2, Y3, Y4. repeat split; auto.
  - intros u U. rewrite Y5, X5 by lia. reflexivity.
  - destruct (Nat.eq_dec u a) as [->|N]; [rewrite Y5 by lia; exact X6|]. destruct (Y6 u ltac:(lia)) as [A _]. rewrite X3, X5 in A by lia. exact A.
  - destruct (Nat.eq_dec u a) as [->|N]; [rewrite Y5 by lia; exact X7|]. destruct (Y6 u ltac:(lia)) as [_ A]. rewrite X3, X5 in A by lia. exact A.
Qed.

Theorem backfitting_main b0 w0 i0 ans :
  program_base n nvar x y hat appr lower upper threshold retry maxiter ctype cthreshold loo loc b0 w0 i0 no = Ret ans ->
  exists K (B : nat -> nat -> nat -> R) (W : nat -> nat -> weight) (T : nat -> nat -> init_type) (C : nat -> nat -> nat),
    (K <= maxiter)%nat /\ ans = Fitted (B K) (W K) /\ B 0%nat = b0 /\
    (forall v, (v < nvar)%nat -> T 0%nat v = i0 v /\ C 0%nat v = 0%nat /\
       (i0 v <> INull -> W 0%nat v = w0 v) /\ (i0 v = INull -> SR v y (w0 v) (W 0%nat v))) /\
    (forall j v, (j < K)%nat -> (v < nvar)%nat -> OV v (B j) (B (S j)) (W j v) (W (S j) v) (T j v) (T (S j) v) (C j v) (C (S j) v)) /\
    (forall j, (S j < K)%nat -> NC (RSS (B j)) (RSS (B (S j)))) /\
    ((K < maxiter)%nat -> match K with O => DBL_MAX <= cthreshold | S j => ~ NC (RSS (B j)) (RSS (B K)) end) /\
    ((0 < K)%nat -> cthreshold < DBL_MAX).
Proof.
  unfold program_base, fit. intros E. apply initial_spec in E; [|lia].
  destruct E as (s & F & X1 & X2 & X3 & X4 & _ & X6). cbn [bs_betas bs_w bs_init bs_chg bs_resid] in *.
  unfold finish in F. apply bind_ret in F. destruct F as (r & BF & F). unfold backfitting in BF. apply bind_ret in BF. destruct BF as (q & IT & BF). injection BF as <-.
  cbn [fst snd] in F.
  assert (A : ans = Fitted (bs_betas (fst q)) (bs_w (fst q))) by (destruct hat; cbn [then_calls] in F; congruence).
  apply iterate_spec in IT; [|unfold consistent; rewrite X1; exact X2].
  destruct IT as (K & Z & LK & Z0 & ZK & _ & OV' & G & NCs & END).
  exists K, (fun j => bs_betas (Z j)), (fun j => bs_w (Z j)), (fun j => bs_init (Z j)), (fun j => bs_chg (Z j)).
  split; [exact LK|]. split; [rewrite ZK; exact A|]. split; [now rewrite Z0|]. split; [|split; [exact OV'|split; [exact NCs|split]]].
  - intros v V. rewrite Z0, X3, X4. destruct (X6 v ltac:(lia)). auto.
  - intros L. specialize (END L). destruct K; [|exact END]. rewrite (xltb_val _ _ cthreshold DBL_MAX) in END by reflexivity. now apply Rltb_false in END.
  - intros L. specialize (G L). rewrite (xltb_val _ _ cthreshold DBL_MAX) in G by reflexivity. now apply Rltb_true in G.
Qed.
End Serial.
