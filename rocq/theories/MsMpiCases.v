(** Consequences for C166: agreement, failures, cancellation, and concrete cases. *)
From Coq Require Import Reals Bool List Arith Lia Lra FunctionalExtensionality.
From Verif Require Import Outcome XReal XRealFacts Sums KernelModel MpiModel MpiProofs OmpModel MsCritModel MsCritProofs MsCritCases GoldModel MpiSelModel MpiSelGoldModel.
From Verif Require Import MsMpiModel MsMpiSpec MsMpiNet MsMpiMain.
Import ListNotations.
Local Open Scope R_scope.

Section All.
Variables n w size : nat.
Hypothesis Hsize : range_size n w = Ok size.
Variable loc : nat -> (nat -> R) -> weight -> nat -> option (R * R).

Lemma runs {A} (ps : nat -> proc A) N qs sync : rounds w N ps qs -> over w qs ->
  (exists k c, moves w sync k (start ps) c /\ at_rest w sync c) /\
  exists M, forall k c, moves w sync k (start ps) c -> (k <= M)%nat /\
    (at_rest w sync c -> forall p, (p < w)%nat -> snd (c p) = qs p).
Proof.
  intros R O. destruct (runs_main A w N ps qs R O sync) as [X Y]. split; [exact X|].
  exists (w * N)%nat. intros k c M. destruct (Y k c M) as (L & Z & _). auto.
Qed.
Lemma sim_ret_runs {A} (ps : nat -> proc A) a sync : sim n w size loc ps (Ret a) ->
  (exists k c, moves w sync k (start ps) c /\ at_rest w sync c) /\
  exists M, forall k c, moves w sync k (start ps) c -> (k <= M)%nat /\
    (at_rest w sync c -> forall p, (p < w)%nat -> returned c p a).
Proof.
  intros (N & qs & R & H). destruct (runs ps N qs sync R) as [X (M & Y)].
  { apply over_ret. intros p c k Hp. rewrite (H p Hp). discriminate. }
  split; [exact X|]. exists M. intros k c MV. destruct (Y k c MV) as [L Z]. split; [exact L|].
  intros AR p Hp. unfold returned. rewrite (Z AR p Hp). apply H, Hp.
Qed.
Lemma sim_sel_runs {A} (ps : nat -> proc A) sync : sim n w size loc ps (Err InSelection) ->
  (exists k c, moves w sync k (start ps) c /\ at_rest w sync c) /\
  exists M, forall k c, moves w sync k (start ps) c -> (k <= M)%nat /\
    (at_rest w sync c -> forall p, (p < w)%nat -> threw c p InSelection).
Proof.
  intros (N & qs & R & H). destruct (runs ps N qs sync R (over_stuck n w size Hsize loc _ _ H)) as [X (M & Y)].
  split; [exact X|]. exists M. intros k c MV. destruct (Y k c MV) as [L Z]. split; [exact L|].
  intros AR p Hp. unfold threw. rewrite (Z AR p Hp). apply H, Hp.
Qed.
Lemma sim_fit_runs {A} (ps : nat -> proc A) v yi b sync : sim n w size loc ps (Err (InFit v yi b)) ->
  (exists k c, moves w sync k (start ps) c /\ at_rest w sync c) /\
  exists M, forall k c, moves w sync k (start ps) c -> (k <= M)%nat /\
    (at_rest w sync c -> forall p, (p < w)%nat ->
       ((exists i, owns n size p i /\ loc v yi b i = None) -> threw c p (InFit v yi b)) /\
       (~ (exists i, owns n size p i /\ loc v yi b i = None) -> waits c p)).
Proof.
  intros (N & qs & R & H). destruct (runs ps N qs sync R (over_stuck n w size Hsize loc _ _ H)) as [X (M & Y)].
  split; [exact X|]. exists M. intros k c MV. destruct (Y k c MV) as [L Z]. split; [exact L|].
  intros AR p Hp. unfold threw, waits. rewrite (Z AR p Hp). destruct H as [_ H]. destruct (H p Hp) as [[E O]|[(vv & kk & E) O]]; split.
  - auto.
  - intros NO. contradiction.
  - intros (i & Oi & F). exfalso. exact (O i Oi F).
  - eauto.
Qed.
Lemma sim_matched {A} (ps : nat -> proc A) s sync k c p q i a b : sim n w size loc ps s ->
  moves w sync k (start ps) c -> (p < w)%nat -> (q < w)%nat ->
  entered (c p) i = Some a -> entered (c q) i = Some b -> fits_with a b = true.
Proof.
  intros S M. assert (X : exists N qs, rounds w N ps qs /\ over w qs).
  { destruct s as [r|e|cc kk]; [| |destruct S]; destruct S as (N & qs & R & H); exists N, qs; split; auto.
    - apply over_ret. intros p0 c0 k0 Hp. rewrite (H p0 Hp). discriminate.
    - exact (over_stuck n w size Hsize loc _ _ H). }
  destruct X as (N & qs & R & O). destruct (runs_main A w N ps qs R O sync) as [_ Y]. destruct (Y k c M) as (_ & _ & Z). apply Z.
Qed.

Lemma lossless loo : nothing_lost w loo loc -> surviving w loo = loo /\ surviving2 w loc = loc.
Proof.
  clear Hsize. intros H. split; do 4 (apply functional_extensionality; intros ?); unfold surviving, surviving2.
  - destruct (loo _ _ _ _) as [c|] eqn:E; [|reflexivity]. cbn [option_map]. f_equal. unfold survives.
    destruct (Nat.leb w 1) eqn:W; [reflexivity|]. apply Nat.leb_gt in W. destruct H as [->|[H _]]; [lia|]. apply Rmax_left. exact (H _ _ _ _ _ E).
  - destruct (loc _ _ _ _) as [[c h]|] eqn:E; [|reflexivity]. cbn [option_map fst snd]. do 2 f_equal. unfold survives.
    destruct (Nat.leb w 1) eqn:W; [reflexivity|]. apply Nat.leb_gt in W. destruct H as [->|[_ H]]; [lia|]. apply Rmax_left. exact (H _ _ _ _ _ _ E).
Qed.

Variable nvar : nat.
Variables (x : nat -> nat -> R) (y : nat -> R).
Variable hat : bool.
Variable appr : nat -> approach.
Variables lower upper threshold : nat -> R.
Variables retry maxiter : nat.
Variable ctype : crit_type.
Variable cthreshold : R.
Variable loo : nat -> (nat -> R) -> weight -> nat -> option R.
Variables (b0 : nat -> nat -> R) (w0 : nat -> weight) (i0 : nat -> init_type).
Notation dist stop := (program_mpi n nvar x y hat appr lower upper threshold retry maxiter ctype cthreshold loo loc b0 w0 i0 w size stop).
Notation serial loo loc st := (program_base n nvar x y hat appr lower upper threshold retry maxiter ctype cthreshold loo loc b0 w0 i0 st).

(** One process is told to stop before the initial bandwidths. *)
Lemma first_call st p : st AtInitialFit = false -> st AtReady = false -> st (AtInit 0) = false -> (0 < nvar)%nat -> i0 0%nat = INull ->
  exists ok k, program_mpi n nvar x y hat appr lower upper threshold retry maxiter ctype cthreshold loo loc b0 w0 i0 w size (fun _ => st) p =
    Call (AllgatherStatus ok) k.
Proof.
  intros S1 S2 S3 NV I. unfold program_mpi, fit. rewrite S1, S2. destruct nvar as [|m]; [lia|].
  cbn [seq initial]. rewrite S3. cbn [bs_init bs_w]. rewrite I. unfold select.
  change 103%nat with (S 102). remember 102%nat as f102. cbn [search]. unfold golden_plan at 1. unfold criterion_mpi at 1. cbv zeta. cbn [bind]. eauto.
Qed.
Lemma C166_cancel_main q sync stop : (2 <= w)%nat -> (q < w)%nat -> (0 < nvar)%nat -> i0 0%nat = INull ->
  (forall p a, stop p a = match a with AtReady => Nat.eqb p q | _ => false end) ->
  forall k c, moves w sync k (start (dist stop)) c ->
    returned c q Cancelled /\ forall p, (p < w)%nat -> p <> q -> waits c p.
Proof.
  intros W Hq NV I ST k c M.
  assert (SP : forall p, exists st, stop p = st /\ st AtInitialFit = false /\ st AtReady = Nat.eqb p q /\ st (AtInit 0) = false).
  { intros p. exists (stop p). rewrite !ST. auto. }
  assert (QQ : dist stop q = Ret Cancelled).
  { unfold program_mpi, fit. rewrite !ST, Nat.eqb_refl. reflexivity. }
  assert (PP : forall p, p <> q -> exists ok k, dist stop p = Call (AllgatherStatus ok) k).
  { intros p D. destruct (SP p) as (st & E & S1 & S2 & S3). apply Nat.eqb_neq in D. rewrite D in S2.
    destruct (first_call st p S1 S2 S3 NV I) as (ok & kk & F). exists ok, kk. rewrite <- F. unfold program_mpi. now rewrite E. }
  destruct (runs_main _ w 0 (dist stop) (dist stop)) with (sync := sync) as [_ Y].
  - constructor. reflexivity.
  - split.
    + intros p cc kk Hp E. exists q. split; [exact Hq|]. destruct (Nat.eq_dec p q) as [->|D]; [rewrite QQ in E; discriminate|].
      destruct (PP p D) as (ok & k2 & F). rewrite F in E. injection E as <- <-. split; [cbn; apply in_seq; lia|]. rewrite QQ. discriminate.
    + intros p p' cc kk c' k' Hp Hp' E E'.
      destruct (Nat.eq_dec p q) as [->|D]; [rewrite QQ in E; discriminate|]. destruct (Nat.eq_dec p' q) as [->|D']; [rewrite QQ in E'; discriminate|].
      destruct (PP p D) as (ok & k2 & F). rewrite F in E. injection E as <- <-.
      destruct (PP p' D') as (ok' & k3 & F'). rewrite F' in E'. injection E' as <- <-. reflexivity.
  - destruct (Y k c M) as (L & _ & _). assert (k = 0)%nat by lia. subst k. inversion M; subst.
    split; [exact QQ|]. intros p Hp D. destruct (PP p D) as (ok & kk & F). unfold waits, start. cbn [snd]. eauto.
Qed.
End All.

(** The serial program ends. *)
Lemma C166_ends_main n loc nvar x y hat appr lower upper threshold retry maxiter ctype cthreshold loo b0 w0 i0 st : between st ->
  match program_base n nvar x y hat appr lower upper threshold retry maxiter ctype cthreshold loo loc b0 w0 i0 st with
  | Ret _ => True
  | Err (InFit v yi b) => exists i, (i < n)%nat /\ loc v yi b i = None
  | Err InSelection => True
  | _ => False
  end.
Proof.
  intros B.
  assert (H : range_size n 1 = Ok (n / 1 + (if Nat.eqb (n mod 1) 0 then 0 else 1))%nat) by reflexivity.
  pose proof (sim_program n 1 _ H loc nvar x y hat appr lower upper threshold retry maxiter ctype cthreshold loo b0 w0 i0 st B) as S.
  destruct (lossless 1 loc loo) as [E1 E2]; [now left|]. rewrite E1, E2 in S.
  destruct (program_base _ _ _ _ _ _ _ _ _ _ _ _ _ _ _ _ _ _ _) as [a|e|c k]; [exact Logic.I| |exact S].
  destruct S as (N & qs & _ & S). destruct e; [exact Logic.I| |exact S]. exact (proj1 S).
Qed.

(** ** Concrete cases: two observations of one variable that is 1 everywhere. *)
Definition inv_pos (a : R) : option R := if Rltb 0 a then Some (/ a) else None.
Definition ones (v i : nat) : R := 1.
Definition level (t : R) (i : nat) : R := t.
Definition even (v : nat) (b : weight) (i j : nat) : R := 1.
Definition blind (v : nat) (b : weight) (i j : nat) : R := match i with O => 0 | _ => 1 end.
Definition coarse (v : nat) : weight := mkWeight Gaussian false 1.
Definition zero2 (v i : nat) : R := 0.
Definition zero1 (v : nat) : R := 0.
Definition one1 (v : nat) : R := 1.


Lemma big : 0 < DBL_MAX.
Proof. unfold DBL_MAX. apply IZR_lt. reflexivity. Qed.
Lemma go_on : xltb (XF 0) (XF DBL_MAX) = true.
Proof. rewrite (xltb_val _ _ 0 DBL_MAX) by reflexivity. apply Rltb_true, big. Qed.
Lemma zero_not_max : is_max_dbl (XF 0) = false.
Proof.
  unfold is_max_dbl. apply andb_false_iff. right. cbn [xleb]. apply negb_false_iff, go_on.
Qed.
Lemma max_is_max : is_max_dbl (XF DBL_MAX) = true.
Proof. unfold is_max_dbl. cbn [xleb]. rewrite (xltb_val _ _ DBL_MAX DBL_MAX) by reflexivity. replace (Rltb DBL_MAX DBL_MAX) with false; [reflexivity|]. symmetry. apply Rltb_false. lra. Qed.

Lemma search_flat lower upper crit it v yi w0 :
  (forall k b, crit it v yi k b false = Ret (XF 0, false)) ->
  exists b, select lower upper crit it v yi w0 false = Ret (b, false).
Proof.
  intros H. unfold select. change 103%nat with (S (S (S 100))). remember (S 100) as f101 eqn:F. cbn [search].
  change (golden_plan w0 (lower v) (upper v) [] []) with (@Ask result weight (first_weight w0 (lower v) (upper v))). cbn match. rewrite H. cbn [bind fst snd negb app].
  change (golden_plan w0 (lower v) (upper v) [] [(true, XF 0)]) with (@Ask result weight (second_weight w0 (lower v) (upper v))). cbn match. rewrite H. cbn [bind fst snd negb app].
  rewrite F. cbn [search]. unfold golden_plan. rewrite zero_not_max. cbn [negb andb].
  assert (G : guard (init_vars w0 (lower v) (upper v) [] (XF 0) (XF 0)) = false).
  { unfold guard. cbn [init_vars f1 f2].
    assert (T : xltb (XF eps) (xabs (xsub (XF 0) (XF 0))) = false).
    { unfold xsub, xopp. destruct (Reqb 0 0); cbn [xadd xabs].
      - rewrite (xltb_val _ _ eps (Rabs 0)) by reflexivity. apply Rltb_false. rewrite Rabs_R0. unfold eps. lra.
      - rewrite (xltb_val _ _ eps (Rabs (0 + - 0))) by reflexivity. apply Rltb_false. replace (0 + - 0) with 0 by ring. rewrite Rabs_R0. unfold eps. lra. }
    rewrite T. now rewrite andb_false_r. }
  remember 101%nat as k101. destruct k101; cbn [replay]; rewrite G; cbn [init_vars s1 s2 andb]; eexists; reflexivity.
Qed.
Lemma search_fails lower upper crit it v yi w0 :
  (forall k b, crit it v yi k b false = Ret (XF DBL_MAX, false)) ->
  select lower upper crit it v yi w0 false = Err InSelection.
Proof.
  intros H. unfold select. change 103%nat with (S (S (S 100))). remember (S 100) as f101 eqn:F. cbn [search].
  change (golden_plan w0 (lower v) (upper v) [] []) with (@Ask result weight (first_weight w0 (lower v) (upper v))). cbn match. rewrite H. cbn [bind fst snd negb app].
  change (golden_plan w0 (lower v) (upper v) [] [(true, XF DBL_MAX)]) with (@Ask result weight (second_weight w0 (lower v) (upper v))). cbn match. rewrite H. cbn [bind fst snd negb app].
  rewrite F. cbn [search]. unfold golden_plan. rewrite max_is_max. cbn [negb andb]. reflexivity.
Qed.

(** Runs with a specified bandwidth, one variable, one iteration *)
Section One.
Variables (n : nat) (y : nat -> R) (appr : nat -> approach) (lower upper threshold : nat -> R).
Variable loo : nat -> (nat -> R) -> weight -> nat -> option R.
Variable loc : nat -> (nat -> R) -> weight -> nat -> option (R * R).
Notation prog i0 := (program_base n 1 ones y false appr lower upper threshold 2 1 CVR 0 loo loc zero2 coarse i0 (fun _ => false)).
Notation part := (fun i => residual 1 ones y zero2 i + zero2 0 i * ones 0 i).
Lemma specified_run : prog (fun _ => ISpecified) =
  bind (fit_var_base n loc (fun _ => false) 1 0 part (coarse 0) false) (fun q => Ret (Fitted (upd zero2 0%nat (fst q)) coarse)).
Proof.
  unfold program_base, fit. cbn [seq initial bs_init bind fst snd]. unfold finish, backfitting. cbn [bs_betas iterate]. rewrite go_on.
  cbn [seq sweep select_var bs_init bind fst snd bs_w bs_betas bs_resid]. unfold select_var. cbn [bs_init bind fst snd bs_w bs_betas bs_resid].
  unfold fit_var_base. destruct (fit_range _ _ _ _ _ _) as [[beta f] st]. destruct f; reflexivity.
Qed.

(** Runs with a selected bandwidth *)
Lemma criterion_none b yi k it : appr 0%nat = CV -> (exists i, (i < n)%nat /\ loo 0%nat yi b i = None) ->
  criterion_base n ones appr loo loc (fun _ => false) it 0 yi k b false = Ret (XF DBL_MAX, false).
Proof.
  intros A (i & Hi & L). unfold criterion_base, part_loop, cv_loop. rewrite A. rewrite core_none; [reflexivity|reflexivity|].
  exists i. split; [apply in_visited; cbn; lia|]. now rewrite L.
Qed.
Lemma selection_throws : appr 0%nat = CV -> (forall b yi, exists i, (i < n)%nat /\ loo 0%nat yi b i = None) -> prog (fun _ => INull) = Err InSelection.
Proof.
  intros A H. unfold program_base, fit. cbn [seq initial bs_init bs_w]. rewrite search_fails; [reflexivity|].
  intros k b. apply criterion_none; auto.
Qed.
Lemma selected_run beta h : appr 0%nat = CV ->
  (forall yi b i, (i < n)%nat -> (forall j, yi j = beta) -> loo 0%nat yi b i = Some beta) ->
  (forall yi b i, (forall j, yi j = beta) -> loc 0%nat yi b i = Some (beta, h)) -> (forall i, y i = beta) ->
  exists ws bt, prog (fun _ => INull) = Ret (Fitted bt ws) /\ forall i, (i < n)%nat -> bt 0%nat i = beta.
Proof.
  intros A L1 L2 Y.
  assert (CR : forall it yi k b, (forall j, yi j = beta) -> criterion_base n ones appr loo loc (fun _ => false) it 0 yi k b false = Ret (XF 0, false)).
  { intros it yi k b E. unfold criterion_base, part_loop, cv_loop. rewrite A.
    destruct (core_some (fun i => option_map (fun c => (c, fun _ : nat => 0)) (loo 0%nat yi b i)) (visited (0, n)%nat) (fun _ => 0) (fun _ => 0) (seq_NoDup _ _)) as (b' & s & E1 & B & _).
    { intros i Ii. apply in_visited in Ii. cbn [fst snd] in Ii. rewrite (L1 yi b i ltac:(lia) E). discriminate. }
    rewrite E1. cbn [orb negb andb]. unfold value. rewrite A. cbn [is_finite andb].
    assert (Z : cv_of n (ones 0) yi b' = 0).
    { unfold cv_of. transitivity (bigsum n (fun _ => 0)); [apply bigsum_ext|apply bigsum_0]. intros i Hi. rewrite B.
      destruct (in_dec _ i _) as [_|X]; [|exfalso; apply X, in_visited; cbn; lia]. rewrite (L1 yi b i Hi E), E. cbn. unfold ones. ring. }
    now rewrite Z. }
  unfold program_base, fit. cbn [seq initial bs_init bs_w].
  destruct (search_flat lower upper (criterion_base n ones appr loo loc (fun _ => false)) 0 0 y (coarse 0)) as (b1 & S1); [intros; apply CR, Y|].
  rewrite S1. cbn [bind fst snd]. unfold finish, backfitting. cbn [bs_betas iterate]. rewrite go_on.
  cbn [seq sweep bs_init bind fst snd bs_w bs_betas bs_resid]. unfold select_var. cbn [bs_init bs_w bs_chg bs_betas bs_resid].
  assert (RZ : forall j, residual 1 ones y zero2 j + zero2 0 j * ones 0 j = beta).
  { intros j. unfold residual, fitted_at, zero2, ones. rewrite Y. cbn. ring. }
  destruct (search_flat lower upper (criterion_base n ones appr loo loc (fun _ => false)) 1 0
    (fun i => residual 1 ones y zero2 i + zero2 0 i * ones 0 i) (upd coarse 0%nat b1 0%nat)) as (b2 & S2).
  { intros k b. apply CR, RZ. }
  rewrite S2. cbn [bind fst snd bs_w bs_betas bs_resid bs_init bs_chg].
  unfold fit_var_base, fit_range.
  match goal with |- context [fit_loop ?lc ?st ?idx ?b ?f] => destruct (fit_loop_spec lc idx b f (seq_NoDup _ _)) as (b' & E1 & B) end.
  rewrite E1. clear E1. match goal with |- context [existsb ?f ?l] => assert (X : existsb f l = false) end.
  { apply not_true_is_false. intros T. apply existsb_exists in T. destruct T as (i & _ & T). rewrite (L2 _ _ _ RZ) in T. discriminate. }
  rewrite X. cbn [orb bind fst snd bs_betas bs_w then_calls]. do 2 eexists. split; [reflexivity|]. intros i Hi. cbn [upd Nat.eqb]. unfold upd. cbn [Nat.eqb]. rewrite B.
  destruct (in_dec _ i _) as [_|NI]; [|exfalso; apply NI, in_visited; cbn; lia]. rewrite (L2 _ _ _ RZ). reflexivity.
Qed.
End One.

(** The local regressions of the cases *)
Lemma even_loc t yi b i : (forall j, yi j = t) -> loc_of inv_pos 2 ones even 0 yi b i = Some (t, / 2).
Proof.
  intros E. unfold loc_of, shat_local. assert (X : xtwx 2 (ones 0) (even 0 b i) = 2) by (unfold xtwx, ones, even; cbn; ring).
  rewrite X. unfold inv_pos. replace (Rltb 0 2) with true by (symmetry; apply Rltb_true; lra). cbn [option_map fst snd].
  unfold xtwy, shat_row. cbn. rewrite !E. unfold ones, even. f_equal. f_equal; field.
Qed.
Lemma even_loo t yi b i : (i < 2)%nat -> (forall j, yi j = t) -> loo_of inv_pos 2 ones even 0 yi b i = Some t.
Proof.
  intros Hi E. unfold loo_of, cv_local. assert (X : xtwx 2 (ones 0) (zeroed i (even 0 b i)) = 1).
  { unfold xtwx, ones, even, zeroed. destruct i as [|[|i]]; [| |lia]; cbn; ring. }
  rewrite X. unfold inv_pos. replace (Rltb 0 1) with true by (symmetry; apply Rltb_true; lra). cbn [option_map fst].
  f_equal. unfold xtwy, ones, even, zeroed. destruct i as [|[|i]]; [| |lia]; cbn; rewrite !E; field.
Qed.
Lemma blind_loc yi b : loc_of inv_pos 2 ones blind 0 yi b 0 = None /\ loc_of inv_pos 2 ones blind 0 yi b 1 <> None.
Proof.
  unfold loc_of, shat_local. assert (X : xtwx 2 (ones 0) (blind 0 b 0) = 0) by (unfold xtwx, ones, blind; cbn; ring).
  assert (X1 : xtwx 2 (ones 0) (blind 0 b 1) = 2) by (unfold xtwx, ones, blind; cbn; ring).
  rewrite X, X1. unfold inv_pos. replace (Rltb 0 0) with false by (symmetry; apply Rltb_false; lra).
  replace (Rltb 0 2) with true by (symmetry; apply Rltb_true; lra). split; [reflexivity|discriminate].
Qed.
Lemma blind_loo yi b : loo_of inv_pos 2 ones blind 0 yi b 0 = None.
Proof.
  unfold loo_of, cv_local. assert (X : xtwx 2 (ones 0) (zeroed 0 (blind 0 b 0)) = 0) by (unfold xtwx, ones, blind, zeroed; cbn; ring).
  rewrite X. unfold inv_pos. replace (Rltb 0 0) with false by (symmetry; apply Rltb_false; lra). reflexivity.
Qed.

(** ** The main statements *)
Section Main.
Variables n w size : nat.
Hypothesis Hsize : range_size n w = Ok size.
Variable nvar : nat.
Variables (x : nat -> nat -> R) (y : nat -> R).
Variable hat : bool.
Variable appr : nat -> approach.
Variables lower upper threshold : nat -> R.
Variables retry maxiter : nat.
Variable ctype : crit_type.
Variable cthreshold : R.
Variable loo : nat -> (nat -> R) -> weight -> nat -> option R.
Variable loc : nat -> (nat -> R) -> weight -> nat -> option (R * R).
Variables (b0 : nat -> nat -> R) (w0 : nat -> weight) (i0 : nat -> init_type).
Variable st : place -> bool.
Hypothesis Hst : between st.
Variable sync : nat -> nat -> bool.
Notation dist := (program_mpi n nvar x y hat appr lower upper threshold retry maxiter ctype cthreshold loo loc b0 w0 i0 w size (fun _ => st)).
Notation serial loo loc := (program_base n nvar x y hat appr lower upper threshold retry maxiter ctype cthreshold loo loc b0 w0 i0 st).

Lemma C166_survivors_main a : serial (surviving w loo) (surviving2 w loc) = Ret a ->
  (exists k c, moves w sync k (start dist) c /\ at_rest w sync c) /\
  exists M, forall k c, moves w sync k (start dist) c -> (k <= M)%nat /\
    (at_rest w sync c -> forall p, (p < w)%nat -> returned c p a).
Proof.
  intros E. pose proof (sim_program n w size Hsize loc nvar x y hat appr lower upper threshold retry maxiter ctype cthreshold loo b0 w0 i0 st Hst) as S.
  rewrite E in S. exact (sim_ret_runs n w size loc _ a sync S).
Qed.
Lemma C166_agrees_main a : nothing_lost w loo loc -> serial loo loc = Ret a ->
  (exists k c, moves w sync k (start dist) c /\ at_rest w sync c) /\
  exists M, forall k c, moves w sync k (start dist) c -> (k <= M)%nat /\
    (at_rest w sync c -> forall p, (p < w)%nat -> returned c p a).
Proof. intros NL E. destruct (lossless w loc loo NL) as [E1 E2]. apply C166_survivors_main. now rewrite E1, E2. Qed.
Lemma C166_selection_main : serial (surviving w loo) (surviving2 w loc) = Err InSelection ->
  (exists k c, moves w sync k (start dist) c /\ at_rest w sync c) /\
  exists M, forall k c, moves w sync k (start dist) c -> (k <= M)%nat /\
    (at_rest w sync c -> forall p, (p < w)%nat -> threw c p InSelection).
Proof.
  intros E. pose proof (sim_program n w size Hsize loc nvar x y hat appr lower upper threshold retry maxiter ctype cthreshold loo b0 w0 i0 st Hst) as S.
  rewrite E in S. exact (sim_sel_runs n w size Hsize loc _ sync S).
Qed.
Lemma C166_failure_main v yi b : serial (surviving w loo) (surviving2 w loc) = Err (InFit v yi b) ->
  (exists k c, moves w sync k (start dist) c /\ at_rest w sync c) /\
  exists M, forall k c, moves w sync k (start dist) c -> (k <= M)%nat /\
    (at_rest w sync c -> forall p, (p < w)%nat ->
       ((exists i, owns n size p i /\ loc v yi b i = None) -> threw c p (InFit v yi b)) /\
       (~ (exists i, owns n size p i /\ loc v yi b i = None) -> waits c p)).
Proof.
  intros E. pose proof (sim_program n w size Hsize loc nvar x y hat appr lower upper threshold retry maxiter ctype cthreshold loo b0 w0 i0 st Hst) as S.
  rewrite E in S. exact (sim_fit_runs n w size Hsize loc _ v yi b sync S).
Qed.
Lemma C166_matched_main k c p q i a b : moves w sync k (start dist) c -> (p < w)%nat -> (q < w)%nat ->
  entered (c p) i = Some a -> entered (c q) i = Some b -> fits_with a b = true.
Proof.
  exact (sim_matched n w size Hsize loc _ _ sync k c p q i a b
    (sim_program n w size Hsize loc nvar x y hat appr lower upper threshold retry maxiter ctype cthreshold loo b0 w0 i0 st Hst)).
Qed.
End Main.

(** ** The cases *)
Notation case_dist loo loc y i0 stop := (program_mpi 2 1 ones y false (fun _ => CV) zero1 one1 zero1 2 1 CVR 0 loo loc zero2 coarse i0 2 1 stop).
Notation case_serial loo loc y i0 := (program_base 2 1 ones y false (fun _ => CV) zero1 one1 zero1 2 1 CVR 0 loo loc zero2 coarse i0 (fun _ => false)).
Lemma between_never : between (fun _ => false).
Proof. split; reflexivity. Qed.

Lemma case_selected : exists bt ws,
  case_serial (surviving 2 (loo_of inv_pos 2 ones even)) (surviving2 2 (loc_of inv_pos 2 ones even)) (level 1) (fun _ => INull) = Ret (Fitted bt ws) /\
  forall i, (i < 2)%nat -> bt 0%nat i = 1.
Proof.
  destruct (selected_run 2 (level 1) (fun _ => CV) zero1 one1 zero1 (surviving 2 (loo_of inv_pos 2 ones even)) (surviving2 2 (loc_of inv_pos 2 ones even)) 1 (/ 2))
    as (ws & bt & E & B).
  - reflexivity.
  - intros yi b i Hi Y. unfold surviving. rewrite (even_loo 1 yi b i Hi Y). cbn [option_map]. unfold survives. cbn [Nat.leb]. f_equal. apply Rmax_left. lra.
  - intros yi b i Y. unfold surviving2. rewrite (even_loc 1 yi b i Y). cbn [option_map fst snd]. unfold survives. cbn [Nat.leb]. do 2 f_equal. apply Rmax_left. lra.
  - reflexivity.
  - exists bt, ws. split; [exact E|exact B].
Qed.
Lemma case_blind_selection : case_serial (surviving 2 (loo_of inv_pos 2 ones blind)) (surviving2 2 (loc_of inv_pos 2 ones blind)) (level 1) (fun _ => INull) = Err InSelection.
Proof.
  apply selection_throws; [reflexivity|]. intros b yi. exists 0%nat. split; [lia|]. unfold surviving. now rewrite blind_loo.
Qed.
Lemma case_blind_fit : exists yi, case_serial (surviving 2 (loo_of inv_pos 2 ones blind)) (surviving2 2 (loc_of inv_pos 2 ones blind)) (level 1) (fun _ => ISpecified) =
  Err (InFit 0 yi (coarse 0)).
Proof.
  eexists. rewrite specified_run. unfold fit_var_base, fit_range.
  match goal with |- context [fit_loop ?lc ?st ?idx ?b ?f] => destruct (fit_loop_spec lc idx b f (seq_NoDup _ _)) as (b' & E1 & B) end.
  rewrite E1. clear E1. match goal with |- context [existsb ?f ?l] => assert (X : existsb f l = true) end.
  { apply existsb_exists. exists 0%nat. split; [apply in_visited; cbn; lia|]. unfold surviving2. now rewrite (proj1 (blind_loc _ _)). }
  rewrite X. cbn [orb bind]. reflexivity.
Qed.
Lemma level_part t j : residual 1 ones (level t) zero2 j + zero2 0 j * ones 0 j = t.
Proof. unfold residual, fitted_at, zero2, ones, level. cbn. ring. Qed.
Lemma case_specified loo loc t c : (forall yi b i, (forall j, yi j = t) -> exists h, loc 0%nat yi b i = Some (c, h)) ->
  exists bt, case_serial loo loc (level t) (fun _ => ISpecified) = Ret (Fitted bt coarse) /\ forall i, (i < 2)%nat -> bt 0%nat i = c.
Proof.
  intros L. rewrite specified_run. unfold fit_var_base, fit_range.
  match goal with |- context [fit_loop ?lc ?st ?idx ?b ?f] => destruct (fit_loop_spec lc idx b f (seq_NoDup _ _)) as (b' & E1 & B) end.
  rewrite E1. clear E1. match goal with |- context [existsb ?f ?l] => assert (X : existsb f l = false) end.
  { apply not_true_is_false. intros T. apply existsb_exists in T. destruct T as (i & _ & T). destruct (L _ (coarse 0) i (level_part t)) as (h & E). rewrite E in T. discriminate. }
  rewrite X. cbn [orb bind fst]. eexists. split; [reflexivity|]. intros i Hi. unfold upd. cbn [Nat.eqb]. rewrite B.
  destruct (in_dec _ i _) as [_|NI]; [|exfalso; apply NI, in_visited; cbn; lia]. destruct (L _ (coarse 0) i (level_part t)) as (h & E). rewrite E. reflexivity.
Qed.
Lemma C166_negative_main : exists bt bt',
  case_serial (loo_of inv_pos 2 ones even) (loc_of inv_pos 2 ones even) (level (-1)) (fun _ => ISpecified) = Ret (Fitted bt coarse) /\
  (forall i, (i < 2)%nat -> bt 0%nat i = -1) /\ (forall i, (i < 2)%nat -> bt' 0%nat i = 0) /\
  forall sync,
    let run := case_dist (loo_of inv_pos 2 ones even) (loc_of inv_pos 2 ones even) (level (-1)) (fun _ => ISpecified) (fun _ _ => false) in
    (exists k c, moves 2 sync k (start run) c /\ at_rest 2 sync c) /\
    forall k c, moves 2 sync k (start run) c -> at_rest 2 sync c -> forall p, (p < 2)%nat -> returned c p (Fitted bt' coarse).
Proof.
  destruct (case_specified (loo_of inv_pos 2 ones even) (loc_of inv_pos 2 ones even) (-1) (-1)) as (bt & E & B).
  { intros yi b i Y. exists (/ 2). apply even_loc, Y. }
  destruct (case_specified (surviving 2 (loo_of inv_pos 2 ones even)) (surviving2 2 (loc_of inv_pos 2 ones even)) (-1) 0) as (bt' & E' & B').
  { intros yi b i Y. exists (/ 2). unfold surviving2. rewrite (even_loc (-1) yi b i Y). cbn [option_map fst snd]. unfold survives. cbn [Nat.leb]. do 2 f_equal. apply Rmax_right. lra. }
  exists bt, bt'. split; [exact E|]. split; [exact B|]. split; [exact B'|]. intros sync run.
  destruct (C166_survivors_main 2 2 1 eq_refl 1 ones (level (-1)) false (fun _ => CV) zero1 one1 zero1 2 1 CVR 0 _ _ zero2 coarse (fun _ => ISpecified) _ between_never sync _ E') as [X (M & Y)].
  split; [exact X|]. intros k c MV. exact (proj2 (Y k c MV)).
Qed.
