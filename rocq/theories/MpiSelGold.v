(** Proofs about distributed golden-section search (C165). *)
From Coq Require Import Reals Bool List Arith Lia Lra.
From Verif Require Import Outcome XReal KernelModel Sums MpiModel MpiSelModel MpiSelSpec MpiSelProofs MpiSelMain GoldModel GoldProofs GoldProofs2 MpiSelGoldModel.
Import ListNotations.
Local Open Scope R_scope.

Section Gold.
Variables n w tags : nat.
Variable len : nat -> nat.
Variable fits : weight -> nat -> bool.
Variable contrib : weight -> nat -> nat -> nat -> R.
Variable value : list (list R) -> xd.
Variable ck : bool.
Variables (w0 : weight) (lo up : R) (m : list (R * xd)).
Notation crit := (serial_criterion weight n tags len fits contrib ck value).
Notation gcrit := (fun (_ : nat) b => GoldModel.Answer true (crit b)).
Notation search := (serial_search result weight (golden_plan w0 lo up m) n tags len fits contrib ck value).

Lemma step_asked st : step gcrit w0 st = step (fun _ _ => GoldModel.Answer true (crit (asked w0 st))) w0 st.
Proof. unfold step, asked. destruct (xltb (f1 st) (f2 st)); reflexivity. Qed.

Lemma step_log st st' : step gcrit w0 st = Some st' -> elog st' = (asked w0 st, crit (asked w0 st)) :: elog st /\
  (s1 st = true -> s2 st = true -> s1 st' = true /\ s2 st' = true).
Proof.
  unfold step, asked. destruct (xltb (f1 st) (f2 st)); intros E; injection E as <-; cbn; auto.
Qed.

Lemma loop_search k : forall st h st',
  loop k gcrit w0 st = LDone st' ->
  (forall t, golden_plan w0 lo up m (good h ++ t) = replay k w0 st t) ->
  map snd (elog st) = rev h ->
  s1 st = true -> s2 st = true ->
  search k (good h) = Some (rev (map snd (elog st')),
     Fresh (mkWeight (wkernel w0) (wadaptive w0) (xopt st'))) /\ s1 st' = true /\ s2 st' = true.
Proof.
  induction k as [|k IH]; intros st h st' L P E S1 S2;
    assert (P0 := P []); rewrite app_nil_r in P0; cbn [loop replay serial_search] in *; rewrite P0.
  - destruct (guard st); [discriminate|]. injection L as <-. rewrite S1, S2. cbn [andb].
    split; [|auto]. f_equal. f_equal. rewrite E, rev_involutive. unfold good. rewrite map_map. apply map_id.
  - destruct (guard st) eqn:G.
    + destruct (step gcrit w0 st) as [st1|] eqn:ST; [|discriminate].
      destruct (step_log _ _ ST) as [EL SS]. destruct (SS S1 S2) as [S1' S2'].
      assert (EG : good h ++ [(true, crit (asked w0 st))] = good (h ++ [crit (asked w0 st)])).
      { unfold good. now rewrite map_app. }
      rewrite EG. apply (IH st1); auto.
      * intros t. rewrite <- EG, <- app_assoc. cbn [app]. rewrite P. rewrite step_asked in ST. now rewrite ST.
      * rewrite EL. cbn [map snd]. rewrite E, rev_app_distr. reflexivity.
    + injection L as <-. rewrite S1, S2. cbn [andb]. split; [|auto]. f_equal. f_equal.
      rewrite E, rev_involutive. unfold good. rewrite map_map. apply map_id.
Qed.

Lemma loop_never_fails k : forall st st', loop k gcrit w0 st <> LFail st'.
Proof.
  induction k as [|k IH]; intros st st'; cbn [loop]; destruct (guard st); try discriminate.
  destruct (step gcrit w0 st) as [st1|] eqn:ST; [apply IH|].
  unfold step in ST. destruct (xltb (f1 st) (f2 st)); discriminate.
Qed.

Lemma gold_search : let r := optimize gcrit w0 lo up m in
  rresult r <> Diverged ->
  exists f, search f [] = Some (rev (map snd (rlog r)), rresult r).
Proof.
  cbv zeta. unfold optimize.
  destruct (is_max_dbl (crit (first_weight w0 lo up)) && is_max_dbl (crit (second_weight w0 lo up))) eqn:MX.
  - intros _. exists 2%nat. cbn [serial_search golden_plan app andb negb]. cbn [rlog rresult map snd rev app andb negb].
    now rewrite MX.
  - cbn [andb negb].
    destruct (loop 101 gcrit w0 (init_vars w0 lo up m (crit (first_weight w0 lo up)) (crit (second_weight w0 lo up)))) as [st|st|] eqn:L.
    + intros _.
      destruct (loop_search 101 _ [crit (first_weight w0 lo up); crit (second_weight w0 lo up)] st L) as (H & S1 & S2).
      * intros t. cbn [good map app golden_plan andb negb]. now rewrite MX.
      * reflexivity.
      * reflexivity.
      * reflexivity.
      * exists (S (S 101)). rewrite S1, S2. cbn [andb rlog rresult].
        remember 101%nat as k101. cbn [serial_search golden_plan app]. exact H.
    + exfalso. exact (loop_never_fails _ _ _ L).
    + intros H. exfalso. apply H. reflexivity.
Qed.
Lemma logged_crit b v : In (b, v) (rlog (optimize gcrit w0 lo up m)) -> exists q, v = crit q.
Proof.
  intros I. destruct (gold_search (proj2 (proj2 (C22_main gcrit w0 lo up m)))) as [f SE].
  destruct (search_inv result weight (golden_plan w0 lo up m) n tags len fits contrib value ck f [] _ _ SE) as (_ & _ & K).
  assert (J : In v (rev (map snd (rlog (optimize gcrit w0 lo up m))))).
  { apply in_rev. rewrite rev_involutive. apply in_map_iff. exists (b, v). auto. }
  apply In_nth_error in J. destruct J as [k E].
  destruct (K k) as (q & _ & E').
  - split; [cbn; lia|]. apply nth_error_Some. rewrite E. discriminate.
  - exists q. rewrite E in E'. now injection E'.
Qed.

Variable size : nat.
Notation todo := (gwr_todo result weight (golden_plan w0 lo up m) n len fits contrib (fun _ => None) (fun _ => 0%nat) size).
Lemma gold_main : (0 < tags)%nat -> range_size n w = Ok size ->
  let r := optimize gcrit w0 lo up m in
  (forall b v, In (b, v) (rlog r) -> v <> XF DBL_MAX) ->
  forall eager,
  (exists k c, moves result w tags eager todo value k (start result) c /\ at_rest result w tags todo value eager c) /\
  forall k c, moves result w tags eager todo value k (start result) c ->
  (k <= (length (rlog r) + 1) * ((w - 1) * (2 * tags + 2) + 3) + w)%nat /\
  (at_rest result w tags todo value eager c -> all_return result w (rev (map snd (rlog r))) (rresult r) c).
Proof.
  intros Ht Hs. cbv zeta. intros NM eager.
  destruct (gold_search (proj2 (proj2 (C22_main gcrit w0 lo up m)))) as [f SE].
  assert (NI : ~ In (XF DBL_MAX) (rev (map snd (rlog (optimize gcrit w0 lo up m))))).
  { intros I. apply in_rev, in_map_iff in I. destruct I as [[b v] [E I]]. cbn in E. exact (NM _ _ I E). }
  split.
  - exact (exists_main result weight (golden_plan w0 lo up m) n w tags len fits contrib value size Ht Hs eager ck f _ _ SE NI).
  - intros k c M.
    destruct (agree_main result weight (golden_plan w0 lo up m) n w tags len fits contrib value size Ht Hs eager ck f _ _ k c SE NI M) as (H1 & H2 & _).
    rewrite rev_length, map_length in H1. split; assumption.
Qed.
End Gold.

(** A criterion that prefers bandwidths below 7. *)
Definition step_contrib (q : weight) (t i e : nat) : R := if Rltb (wvalue q) 7 then 1 else 2.
Definition first_value (ms : list (list R)) : xd := XF (nth 0 (nth 0 ms []) 0).
Lemma step_crit q : exists x, x <= 8 /\
  serial_criterion weight 4 1 (fun _ => 1%nat) (fun _ _ => true) step_contrib true first_value q = XF x.
Proof.
  unfold serial_criterion. replace (forallb _ _) with true by reflexivity. cbv zeta.
  unfold first_value, part_of, sumloop, step_contrib. cbn.
  destruct (Rltb (wvalue q) 7); eexists; (split; [|reflexivity]); lra.
Qed.
Lemma step_case w0 lo up m b v :
  In (b, v) (rlog (optimize (fun _ q => GoldModel.Answer true
    (serial_criterion weight 4 1 (fun _ => 1%nat) (fun _ _ => true) step_contrib true first_value q)) w0 lo up m)) -> v <> XF DBL_MAX.
Proof.
  intros I. apply logged_crit in I. destruct I as [q ->]. destruct (step_crit q) as (x & L & ->).
  intros E. injection E. pose proof dbl_max_big. lra.
Qed.
