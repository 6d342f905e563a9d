From Coq Require Import Reals Bool List Arith Lia Lra.
From Verif Require Import Outcome Sums CudaModel MpiProofs.
Import ListNotations.

Lemma overwrite_full : forall A (new buf : list A), length new = length buf -> overwrite new buf = new.
Proof. intros A new buf E. unfold overwrite. rewrite E, skipn_all. apply app_nil_r. Qed.

Lemma gloop_app : forall body a b st,
  gloop body (a ++ b) st = match gloop body a st with Ok st' => gloop body b st' | Throw => Throw | UB => UB end.
Proof.
  intros body a; induction a as [|i t IH]; intros b st; [reflexivity|].
  simpl. destruct (body i st); [apply IH|reflexivity|reflexivity].
Qed.
Lemma quiet_of_gloop : forall body is st st', gloop body is st = Ok st' -> gloop_quiet body is st = Ok st'.
Proof.
  intros body is; induction is as [|i t IH]; intros st st' E; [exact E|].
  simpl in *. destruct (body i st); [now apply IH|discriminate|discriminate].
Qed.

Section C.
Variable ok : nat -> bool.
Variables tr ss : nat -> R.
Variables lo hi G : nat.
Hypothesis Gpos : 0 < G.
Hypothesis all_ok : forall e, lo <= e < hi -> ok e = true.
Let size := hi - lo.
Let q := size / G.
Let r := size mod G.

Lemma div_eq : size = q * G + r /\ r < G.
Proof.
  unfold q, r. pose proof (Nat.div_mod size G ltac:(lia)). pose proof (Nat.mod_upper_bound size G ltac:(lia)). lia.
Qed.

Lemma full_length : forall i, i < q -> glength lo hi G i = G.
Proof.
  intros i L. unfold glength, gbegin. destruct div_eq as [E _].
  destruct (Nat.ltb_spec hi (lo + i * G + G)); [|reflexivity].
  exfalso. unfold size in E. assert ((i + 1) * G <= q * G) by (apply Nat.mul_le_mono_r; lia). lia.
Qed.
Lemma last_length : q * G < size -> glength lo hi G q = r.
Proof.
  intros L. unfold glength, gbegin. destruct div_eq as [E Lr]. unfold size in E.
  destruct (Nat.ltb_spec hi (lo + q * G + G)); [|unfold size in L; lia]. unfold size in L. lia.
Qed.

Lemma groups_eq : groups size G = Ok (q + (if Nat.eqb r 0 then 0 else 1)).
Proof. unfold groups. destruct (Nat.eqb_spec G 0); [lia|reflexivity]. Qed.

Lemma forallb_some : forall l, (forall e, In e l -> lo <= e < hi) -> forallb (invertible ok) (map Some l) = true.
Proof.
  intros l H. apply forallb_forall. intros o Io. apply in_map_iff in Io as (e & <- & Ie). simpl. auto.
Qed.

Definition prev_xtw (i : nat) : list (option nat) :=
  match i with O => repeat None G | S j => map Some (seq (lo + j * G) G) end.
Definition prev_sst (i : nat) : list R :=
  match i with O => repeat 0%R G | S j => map ss (seq (lo + j * G) G) end.

Lemma prev_xtw_len : forall i, length (prev_xtw i) = G.
Proof. intros [|i]; simpl; [apply repeat_length|now rewrite map_length, seq_length]. Qed.
Lemma prev_sst_len : forall i, length (prev_sst i) = G.
Proof. intros [|i]; simpl; [apply repeat_length|now rewrite map_length, seq_length]. Qed.

Lemma in_full : forall i e, i < q -> In e (seq (lo + i * G) G) -> lo <= e < hi.
Proof.
  intros i e L Ie. apply in_seq in Ie. destruct div_eq as [E _]. unfold size in E.
  assert ((i + 1) * G <= q * G) by (apply Nat.mul_le_mono_r; lia). nia.
Qed.

(** After i full groups. *)
Definition full_state (st : cstate) (i : nat) : Prop :=
  xtw st = prev_xtw i /\ sst st = prev_sst i /\ seen st = seq lo (i * G) /\
  shat0 st = lsum (map tr (seq lo (i * G))) /\ shat1 st = lsum (map ss (seq lo (i * G))).

Lemma seq_next : forall i, seq lo (i * G) ++ seq (lo + i * G) G = seq lo (S i * G).
Proof. intros i. rewrite <- seq_app. f_equal. lia. Qed.

Lemma full_fit : forall junk i st, i < q -> full_state st i ->
  exists st', fit_group ok tr ss junk lo hi G i st = Ok st' /\ full_state st' (S i).
Proof.
  intros junk i st L (X & S' & V & T0 & T1). unfold fit_group, group.
  rewrite (full_length i L). unfold gbegin. set (idx := seq (lo + i * G) G).
  assert (Li : length idx = G) by apply seq_length.
  rewrite X. rewrite overwrite_full by (now rewrite prev_xtw_len, map_length).
  rewrite forallb_some by (intros e; apply in_full; auto).
  eexists; split; [reflexivity|]. rewrite Li, Nat.sub_diag. simpl seq. simpl map. rewrite app_nil_r.
  unfold full_state; cbn [xtw sst seen shat0 shat1].
  split; [reflexivity|split; [reflexivity|split; [rewrite V; apply seq_next|split]]].
  - rewrite T0, <- lsum_app, <- map_app. unfold idx. now rewrite seq_next.
  - rewrite firstn_all2 by (rewrite map_length; lia).
    rewrite T1, <- lsum_app, <- map_app. unfold idx. now rewrite seq_next.
Qed.
Lemma full_shat : forall i st, i < q -> full_state st i ->
  exists st', shat_group ok tr ss lo hi G i st = Ok st' /\ full_state st' (S i).
Proof.
  intros i st L (X & S' & V & T0 & T1). unfold shat_group, group.
  rewrite (full_length i L). unfold gbegin. set (idx := seq (lo + i * G) G).
  assert (Li : length idx = G) by apply seq_length.
  rewrite X, S'. rewrite !overwrite_full by (now rewrite ?prev_xtw_len, ?prev_sst_len, map_length).
  rewrite forallb_some by (intros e; apply in_full; auto).
  eexists; split; [reflexivity|].
  unfold full_state; cbn [xtw sst seen shat0 shat1].
  split; [reflexivity|split; [reflexivity|split; [rewrite V; apply seq_next|split]]].
  - rewrite T0, <- lsum_app, <- map_app. unfold idx. now rewrite seq_next.
  - rewrite T1, <- lsum_app, <- map_app. unfold idx. now rewrite seq_next.
Qed.

Lemma full_loop : forall body, (forall i st, i < q -> full_state st i ->
    exists st', body i st = Ok st' /\ full_state st' (S i)) ->
  forall m, m <= q -> exists st, gloop body (seq 0 m) (c0 G) = Ok st /\ full_state st m.
Proof.
  intros body H m. induction m as [|m IH]; intros L.
  - exists (c0 G). split; [reflexivity|]. unfold full_state; simpl. auto.
  - destruct IH as (st & E & F); [lia|]. rewrite seq_S, gloop_app, E. simpl.
    destruct (H m st ltac:(lia) F) as (st' & E' & F'). rewrite E'. eauto.
Qed.

Lemma overwrite_prev : forall A (g : nat -> A) i, 0 < i -> r <= G ->
  overwrite (map g (seq (lo + i * G) r)) (map g (seq (lo + (i - 1) * G) G)) =
  map g (seq (lo + i * G) r ++ seq (lo + (i - 1) * G + r) (G - r)).
Proof.
  intros A g i Pi Lr. unfold overwrite. rewrite map_length, seq_length, map_app. f_equal.
  replace G with (r + (G - r)) at 2 by lia.
  rewrite seq_app, map_app, skipn_app, map_length, seq_length, Nat.sub_diag.
  rewrite skipn_all2 by (rewrite map_length, seq_length; lia). reflexivity.
Qed.

Lemma last_x : q * G < size -> 0 < q ->
  forallb (invertible ok) (overwrite (map Some (seq (lo + q * G) r)) (prev_xtw q)) = true.
Proof.
  intros L Q. destruct div_eq as [E Lr]. unfold size in E, L.
  destruct q as [|p] eqn:Eq; [lia|]. simpl prev_xtw.
  pose proof (overwrite_prev _ Some (S p) ltac:(lia) ltac:(lia)) as Ov.
  replace (S p - 1) with p in Ov by lia. rewrite Ov.
  apply forallb_some. intros e Ie. apply in_app_or in Ie as [Ie|Ie]; apply in_seq in Ie.
  - lia.
  - nia.
Qed.

Lemma last_seq : seq lo (q * G) ++ seq (lo + q * G) r = seq lo size.
Proof. rewrite <- seq_app. f_equal. symmetry; apply (proj1 div_eq). Qed.

Lemma fit_total : forall junk, G <= size -> exists st, fit_cuda ok tr ss junk lo hi G = Ok st /\
  seen st = seq lo size /\ shat0 st = lsum (map tr (seq lo size)) /\
  shat1 st = lsum (map ss (seq lo size)).
Proof.
  intros junk LG. destruct div_eq as [E Lr].
  assert (Q : 0 < q) by (destruct q; lia).
  unfold fit_cuda. fold size. rewrite groups_eq.
  destruct (full_loop _ (full_fit junk) q (le_n q)) as (st & Es & X & S' & V & T0 & T1).
  destruct (Nat.eqb_spec r 0) as [R0|R0].
  - rewrite Nat.add_0_r. exists st. split; [exact Es|].
    replace (q * G) with size in * by lia. auto.
  - assert (Lq : q * G < size) by lia.
    rewrite Nat.add_1_r, seq_S, gloop_app, Es. simpl.
    unfold fit_group, group. rewrite (last_length Lq). unfold gbegin. set (idx := seq (lo + q * G) r).
    assert (Li : length idx = r) by apply seq_length.
    rewrite X. unfold idx at 1. rewrite (last_x Lq Q).
    eexists; split; [reflexivity|]. cbn [seen shat0 shat1].
    rewrite V, T0, T1, Li. unfold idx. split; [apply last_seq|split].
    + rewrite <- lsum_app, <- map_app. now rewrite last_seq.
    + rewrite firstn_app, map_length, seq_length, Nat.sub_diag. simpl firstn at 2.
      rewrite app_nil_r, firstn_all2 by (rewrite map_length, seq_length; lia).
      rewrite <- lsum_app, <- map_app. now rewrite last_seq.
Qed.

Lemma shat_total : G <= size -> exists st, shat_cuda ok tr ss lo hi G = Ok st /\
  seen st = seq lo size /\ shat0 st = lsum (map tr (seq lo size)) /\
  shat1 st = (lsum (map ss (seq lo size)) +
    (if Nat.eqb r 0 then 0 else lsum (map ss (seq (lo + (q - 1) * G + r) (G - r)))))%R.
Proof.
  intros LG. destruct div_eq as [E Lr].
  assert (Q : 0 < q) by (destruct q; lia).
  unfold shat_cuda. fold size. rewrite groups_eq.
  destruct (full_loop _ full_shat q (le_n q)) as (st & Es & X & S' & V & T0 & T1).
  destruct (Nat.eqb_spec r 0) as [R0|R0].
  - rewrite Nat.add_0_r. exists st. split; [now apply quiet_of_gloop|].
    replace (q * G) with size in * by lia. rewrite Rplus_0_r. auto.
  - assert (Lq : q * G < size) by lia.
    eexists. split; [|split; [|split]].
    + apply quiet_of_gloop. rewrite Nat.add_1_r, seq_S, gloop_app, Es. simpl.
      unfold shat_group, group. rewrite (last_length Lq). unfold gbegin.
      rewrite X. rewrite (last_x Lq Q). reflexivity.
    + cbn [seen]. rewrite V. apply last_seq.
    + cbn [shat0]. rewrite T0, <- lsum_app, <- map_app. now rewrite last_seq.
    + cbn [shat1]. rewrite S', T1.
      assert (Ep : prev_sst q = map ss (seq (lo + (q - 1) * G) G)).
      { destruct q; [lia|]. simpl. now rewrite Nat.sub_0_r. }
      rewrite Ep, (overwrite_prev _ ss q Q) by lia.
      rewrite map_app, lsum_app. rewrite <- last_seq at 1. rewrite map_app, lsum_app. lra.
Qed.
End C.

Lemma groups_one : forall size G, 0 < size < G -> groups size G = Ok 1.
Proof.
  intros size G [L1 L2]. unfold groups. destruct (Nat.eqb_spec G 0); [lia|].
  rewrite Nat.div_small, Nat.mod_small by lia. destruct (Nat.eqb_spec size 0); [lia|reflexivity].
Qed.

Lemma short_not_all : forall ok idx G, length idx < G ->
  forallb (invertible ok) (overwrite (map Some idx) (repeat None G)) = false.
Proof.
  intros ok idx G L. apply not_true_is_false. intros F. rewrite forallb_forall in F.
  specialize (F None). assert (In (@None nat) (overwrite (map Some idx) (repeat None G))).
  { unfold overwrite. apply in_or_app; right. rewrite map_length.
    replace G with (length idx + S (G - length idx - 1)) by lia.
    rewrite repeat_app, skipn_app, repeat_length, Nat.sub_diag.
    apply in_or_app; right. simpl. now left. }
  specialize (F H). discriminate.
Qed.

Lemma fit_large : forall ok tr ss junk lo hi G, 0 < hi - lo < G -> fit_cuda ok tr ss junk lo hi G = Throw.
Proof.
  intros ok tr ss junk lo hi G L. unfold fit_cuda. rewrite (groups_one _ _ L). cbn [seq gloop].
  unfold fit_group. cbn [xtw c0]. rewrite short_not_all; [reflexivity|].
  unfold group. rewrite seq_length. unfold glength, gbegin.
  destruct (Nat.ltb_spec hi (lo + 0 * G + G)); lia.
Qed.
Lemma shat_large : forall ok tr ss lo hi G, 0 < hi - lo < G ->
  shat_cuda ok tr ss lo hi G = Ok (c0 G).
Proof.
  intros ok tr ss lo hi G L. unfold shat_cuda. rewrite (groups_one _ _ L). cbn [seq gloop_quiet].
  unfold shat_group. cbn [xtw c0]. rewrite short_not_all; [reflexivity|].
  unfold group. rewrite seq_length. unfold glength, gbegin.
  destruct (Nat.ltb_spec hi (lo + 0 * G + G)); lia.
Qed.

(** predictCuda: a returning call has visited exactly the data points' indices. *)
Lemma group_seen : forall n G, 0 < G -> forall m, m <= n / G + (if Nat.eqb (n mod G) 0 then 0 else 1) ->
  flat_map (group 0 n G) (seq 0 m) = seq 0 (Nat.min (m * G) n).
Proof.
  intros n G Gp m. pose proof (Nat.div_mod n G ltac:(lia)) as D.
  pose proof (Nat.mod_upper_bound n G ltac:(lia)) as U.
  induction m as [|m IH]; intros L; [reflexivity|].
  rewrite seq_S, flat_map_app, IH by lia. simpl. rewrite app_nil_r.
  unfold group, glength, gbegin. simpl.
  assert (Lm : m * G < n).
  { destruct (Nat.eqb_spec (n mod G) 0) as [Z|Z].
    - assert (m + 1 <= n / G) by lia. assert ((m + 1) * G <= n / G * G) by (apply Nat.mul_le_mono_r; lia). nia.
    - assert (m <= n / G) by lia. assert (m * G <= n / G * G) by (apply Nat.mul_le_mono_r; lia). nia. }
  rewrite (Nat.min_l (m * G) n) by lia.
  destruct (Nat.ltb_spec n (m * G + G)).
  - change (m * G) with (0 + m * G) at 2. rewrite <- seq_app. f_equal. lia.
  - change (m * G) with (0 + m * G) at 2. rewrite <- seq_app. f_equal. lia.
Qed.

Lemma predict_loop : forall ok nDp nRp G is st st',
  gloop (predict_group ok nDp nRp G) is st = Ok st' ->
  seen st' = seen st ++ flat_map (group 0 nDp G) is /\
  (forall e, In e (flat_map (group 0 nDp G) is) -> e < nRp).
Proof.
  intros ok nDp nRp G is; induction is as [|i t IH]; intros st st' E.
  - cbn in E. assert (st' = st) as -> by congruence. split; [now rewrite app_nil_r|intros e []].
  - cbn [gloop] in E. unfold predict_group at 1 in E.
    destruct (forallb (invertible ok) _); [|discriminate].
    destruct (forallb _ (group 0 nDp G i)) eqn:Ef; [|discriminate].
    destruct (IH _ _ E) as [H1 H2]. cbn [seen] in H1. split.
    + rewrite H1. simpl. now rewrite app_assoc.
    + intros e Ie. simpl in Ie. apply in_app_or in Ie as [Ie|Ie]; [|auto].
      rewrite forallb_forall in Ef. apply Nat.ltb_lt. now apply Ef.
Qed.

Lemma predict_seen : forall ok nDp nRp G st, predict_cuda ok nDp nRp G = Ok st ->
  seen st = seq 0 nDp /\ nDp <= nRp.
Proof.
  intros ok nDp nRp G st E. unfold predict_cuda in E.
  destruct (groups nDp G) as [g| |] eqn:Eg; try discriminate.
  destruct (predict_loop _ _ _ _ _ _ _ E) as [H1 H2]. simpl in H1.
  unfold groups in Eg. destruct (Nat.eqb_spec G 0); [discriminate|].
  set (g' := nDp / G + _) in Eg. assert (g = g') as -> by congruence.
  unfold g' in *. rewrite (group_seen nDp G) in H1, H2 by lia.
  assert (Em : Nat.min ((nDp / G + (if nDp mod G =? 0 then 0 else 1)) * G) nDp = nDp).
  { pose proof (Nat.div_mod nDp G ltac:(lia)). pose proof (Nat.mod_upper_bound nDp G ltac:(lia)).
    apply Nat.min_r. destruct (Nat.eqb_spec (nDp mod G) 0); nia. }
  rewrite Em in *. split; [exact H1|].
  destruct nDp as [|k]; [lia|]. specialize (H2 k). enough (k < nRp) by lia.
  apply H2, in_seq; lia.
Qed.

Lemma predict_all : forall ok n nRp G, 0 < G <= n -> n <= nRp -> (forall e, e < n -> ok e = true) ->
  exists st, predict_cuda ok n nRp G = Ok st /\ seen st = seq 0 n.
Proof.
  intros ok n nRp G LG Ln Hok.
  enough (exists st, predict_cuda ok n nRp G = Ok st) as (st & E).
  { exists st; split; [exact E|]. apply (predict_seen _ _ _ _ _ E). }
  destruct (fit_total ok (fun _ => 0%R) (fun _ => 0%R) 0 n G ltac:(lia) ltac:(intros; apply Hok; lia)
             (fun _ _ => 0%R) ltac:(lia)) as (st & E & _).
  unfold fit_cuda in E. unfold predict_cuda. rewrite Nat.sub_0_r in E.
  destruct (groups n G) as [g| |]; try discriminate.
  assert (R : forall is s1 s2 s', xtw s1 = xtw s2 ->
    gloop (fit_group ok (fun _ => 0%R) (fun _ => 0%R) (fun _ _ => 0%R) 0 n G) is s1 = Ok s' ->
    exists s'', gloop (predict_group ok n nRp G) is s2 = Ok s'').
  { induction is as [|i t IH]; intros s1 s2 s' X H; [eexists; reflexivity|].
    cbn [gloop] in *. unfold fit_group at 1 in H. unfold predict_group at 1. rewrite <- X.
    destruct (forallb (invertible ok) _); [|discriminate].
    replace (forallb _ (group 0 n G i)) with true.
    2:{ symmetry; apply forallb_forall. intros e Ie. apply Nat.ltb_lt.
        unfold group in Ie. apply in_seq in Ie. unfold glength in Ie.
        destruct (Nat.ltb_spec n (gbegin 0 G i + G)); lia. }
    eapply IH; [|exact H]. reflexivity. }
  eapply R; [reflexivity|exact E].
Qed.
