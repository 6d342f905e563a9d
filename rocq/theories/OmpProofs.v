From Coq Require Import Reals Bool List Arith Lia Lra Permutation.
From Verif Require Import Outcome Sums OmpModel OmpSpec.
Import ListNotations.

Lemma begins_app : forall a b, begins (a ++ b) = begins a ++ begins b.
Proof. intros; apply flat_map_app. Qed.
Lemma ends_app : forall a b, ends (a ++ b) = ends a ++ ends b.
Proof. intros; apply flat_map_app. Qed.

Lemma update_same : forall A (f : nat -> A) i x, update f i x i = x.
Proof. intros; unfold update; now rewrite Nat.eqb_refl. Qed.
Lemma update_other : forall A (f : nat -> A) i j x, j <> i -> update f i x j = f j.
Proof. intros; unfold update; destruct (Nat.eqb_spec j i); congruence. Qed.

Lemma bigsum_update : forall T (acc : nat -> nat -> R) t (c : nat -> R) k, t < T ->
  bigsum T (fun u => update acc t (fun k => (acc t k + c k)%R) u k) =
  (bigsum T (fun u => acc u k) + c k)%R.
Proof.
  intros T acc t c k L. induction T as [|T IH]; [lia|]. simpl.
  destruct (Nat.eq_dec t T) as [->|N].
  - rewrite update_same.
    rewrite (bigsum_ext T _ (fun u => acc u k)); [lra|].
    intros u Lu; rewrite update_other; [reflexivity|lia].
  - rewrite IH by lia. rewrite update_other by lia. lra.
Qed.

Section P.
Variable B : Type.
Variable zero : B.
Variable local : nat -> option (B * (nat -> R)).
Variables threads lo hi : nat.
Notation stepf f := (step B local f).
Notation p0 := (p0 B zero).

Lemma run_snoc : forall f s e, fold_left (stepf f) (s ++ [e]) p0 = stepf f (fold_left (stepf f) s p0) e.
Proof. intros; now rewrite fold_left_app. Qed.

(** ** No failure *)
Definition colof (i : nat) : B := match local i with Some (b, _) => b | None => zero end.
Definition statof (k i : nat) : R := match local i with Some (_, c) => c k | None => 0%R end.

Definition good (st : pstate B) (pre : list event) : Prop :=
  flag st = true /\ dead st = false /\ (forall i, In i (begins pre) -> started st i = true) /\
  (forall i, In i (ends pre) -> betas st i = colof i) /\
  (forall i, ~ In i (ends pre) -> betas st i = zero) /\
  (forall k, bigsum threads (fun t => acc st t k) = lsum (map (statof k) (ends pre))).

Lemma good_run : forall f s, (forall i, In i (ends s) -> local i <> None) ->
  (forall pre t i post, s = pre ++ End_ t i :: post -> In i (begins pre) /\ t < threads) ->
  good (fold_left (stepf f) s p0) s.
Proof.
  intros f s. induction s as [|e s IH] using rev_ind; intros NF Ord.
  - unfold good; simpl. split; [reflexivity|split; [reflexivity|]].
    split; [intros i []|split; [intros i []|split; [reflexivity|]]].
    intros k; apply bigsum_0.
  - rewrite run_snoc. destruct IH as (F & D & S & Bt & Bz & Ac).
    { intros i Ii; apply NF. rewrite ends_app; apply in_or_app; now left. }
    { intros pre t i post E. apply (Ord pre t i (post ++ [e])).
      rewrite E, <- app_assoc. reflexivity. }
    set (st := fold_left (stepf f) s p0) in *. clearbody st.
    destruct e as [i|t i]; unfold good; simpl step; rewrite begins_app, ends_app.
    + cbn [flag dead started betas acc begins ends flat_map app].
      rewrite app_nil_r. split; [exact F|split; [exact D|]].
      split; [|split; [exact Bt|split; [exact Bz|exact Ac]]].
      intros j Ij. rewrite F. simpl orb. unfold update.
      destruct (Nat.eqb_spec j i); [reflexivity|].
      apply S. apply in_app_or in Ij as [I|[I|[]]]; [exact I|congruence].
    + destruct (Ord s t i [] eq_refl) as [Ib Lt].
      rewrite (S i Ib).
      destruct (local i) as [[b c]|] eqn:El.
      2:{ exfalso; apply (NF i); auto. rewrite ends_app; apply in_or_app; right; simpl; auto. }
      cbn [flag dead started betas acc]. change (begins [End_ t i]) with (@nil nat).
      change (ends [End_ t i]) with [i]. rewrite app_nil_r.
      split; [exact F|split; [exact D|split; [exact S|]]].
      assert (Ec : colof i = b) by (unfold colof; now rewrite El).
      split; [|split].
      * intros j Ij. destruct (Nat.eq_dec j i) as [->|N].
        { rewrite update_same; now symmetry. }
        rewrite update_other by auto. apply Bt. apply in_app_or in Ij as [I|[I|[]]]; [exact I|congruence].
      * intros j Nj. rewrite update_other.
        { apply Bz; intros I; apply Nj, in_or_app; now left. }
        intros ->; apply Nj, in_or_app; right; simpl; auto.
      * intros k. rewrite bigsum_update by auto. rewrite Ac, map_app, lsum_app. simpl.
        unfold statof at 3. rewrite El. lra.
Qed.

Lemma serial_from_ok : forall idx b0 a0, (forall i, In i idx -> local i <> None) -> NoDup idx ->
  exists b a, serial_from B local idx b0 a0 = Ok (b, a) /\
  (forall i, In i idx -> b i = colof i) /\ (forall i, ~ In i idx -> b i = b0 i) /\
  (forall k, a k = (a0 k + lsum (map (statof k) idx))%R).
Proof.
  induction idx as [|i t IH]; intros b0 a0 NF ND; simpl.
  - exists b0, a0. split; [reflexivity|split; [intros i []|split; [auto|intros; lra]]].
  - inversion ND as [|? ? N1 N2]; subst.
    destruct (local i) as [[b c]|] eqn:El; [|exfalso; apply (NF i); auto; now left].
    destruct (IH (update b0 i b) (fun k => (a0 k + c k)%R)) as (b' & a' & E & H1 & H2 & H3); auto.
    { intros j Ij; apply NF; now right. }
    exists b', a'. split; [exact E|split; [|split]].
    + intros j [<-|Ij]; [|now apply H1].
      rewrite H2, update_same by auto. unfold colof; now rewrite El.
    + intros j Nj. rewrite H2, update_other; [reflexivity|intros ->; apply Nj; now left|].
      intros I; apply Nj; now right.
    + intros k. rewrite H3. unfold statof at 2. rewrite El. lra.
Qed.

Lemma serial_from_throw : forall idx b0 a0, (exists i, In i idx /\ local i = None) ->
  serial_from B local idx b0 a0 = Throw.
Proof.
  induction idx as [|i t IH]; intros b0 a0 (j & Ij & Ej); [destruct Ij|].
  simpl. destruct (local i) as [[b c]|] eqn:El; [|reflexivity].
  apply IH. exists j; split; auto. destruct Ij as [<-|]; [congruence|auto].
Qed.

Lemma serial_total : serial_run B zero local lo hi = Throw \/
  exists b s, serial_run B zero local lo hi = Ok (b, s).
Proof.
  unfold serial_run. generalize (seq lo (hi - lo)) as idx, (fun _ : nat => zero) as b0, (fun _ : nat => 0%R) as a0.
  induction idx as [|i t IH]; intros b0 a0; simpl; [right; eauto|].
  destruct (local i) as [[b c]|]; [apply IH|now left].
Qed.

Lemma none_dec : forall idx, (exists i, In i idx /\ local i = None) \/ (forall i, In i idx -> local i <> None).
Proof.
  induction idx as [|i t IH]; [right; intros i []|].
  destruct (local i) eqn:E.
  - destruct IH as [(j & Ij & Ej)|NF]; [left; exists j; split; [now right|auto]|].
    right; intros j [<-|Ij]; [congruence|auto].
  - left; exists i; split; [now left|auto].
Qed.

Lemma serial_throw_iff : serial_run B zero local lo hi = Throw <-> some_fails local lo hi.
Proof.
  unfold some_fails, fails; split; intros H.
  - destruct (none_dec (seq lo (hi - lo))) as [(i & Ii & Ei)|NF].
    + apply in_seq in Ii. exists i; split; [lia|auto].
    + destruct (serial_from_ok (seq lo (hi - lo)) (fun _ => zero) (fun _ => 0%R) NF (seq_NoDup _ _))
        as (b & a & E & _). unfold serial_run in H. congruence.
  - destruct H as (i & Li & Ei). apply serial_from_throw. exists i; split; [apply in_seq; lia|auto].
Qed.

Lemma gather_sum : forall f T (a : nat -> nat -> R) k, f <> GWRGeneralized_criterionAICOmp ->
  gather f T a k = bigsum T (fun t => a t k).
Proof. intros f T a k H; destruct f; try reflexivity. congruence. Qed.
Lemma C39_main : forall f sched b s, f <> GWRGeneralized_criterionAICOmp -> schedule threads lo hi sched ->
  serial_run B zero local lo hi = Ok (b, s) ->
  exists b' s', omp_run B zero local f threads sched = Returned b' s' /\
    (forall i, b' i = b i) /\ (forall k, s' k = s k).
Proof.
  intros f sched b s NA (NB & IB & NE & IE & Ord) Hs.
  assert (NF : forall i, In i (seq lo (hi - lo)) -> local i <> None).
  { intros i Ii E. assert (serial_run B zero local lo hi = Throw); [|congruence].
    apply serial_throw_iff. apply in_seq in Ii. exists i; split; [lia|exact E]. }
  assert (PE : Permutation (ends sched) (seq lo (hi - lo))).
  { apply NoDup_Permutation; auto; [apply seq_NoDup|].
    intros i; rewrite IE, in_seq; lia. }
  destruct (good_run f sched) as (F & D & _ & Bt & Bz & Ac); auto.
  { intros i Ii; apply NF. now apply (Permutation_in _ PE). }
  unfold omp_run. rewrite D, F.
  destruct (serial_from_ok (seq lo (hi - lo)) (fun _ => zero) (fun _ => 0%R) NF (seq_NoDup _ _))
    as (b2 & a2 & E & H1 & H2 & H3).
  unfold serial_run in Hs.
  assert (b2 = b) as -> by congruence. assert (a2 = s) as -> by congruence.
  do 2 eexists; split; [reflexivity|split].
  - intros i. destruct (in_dec Nat.eq_dec i (ends sched)) as [I|I].
    + rewrite Bt by auto. symmetry; apply H1. now apply (Permutation_in _ PE).
    + rewrite Bz by auto. symmetry; apply H2. intros J; apply I.
      now apply (Permutation_in _ (Permutation_sym PE)).
  - intros k. rewrite gather_sum by exact NA. rewrite Ac, H3. rewrite (lsum_perm _ _ (Permutation_map (statof k) PE)). lra.
Qed.

(** ** With failures *)
Definition sets (f : omp_loop) : Prop :=
  match policy_of f with NeverSet | Escape => False | _ => True end.

Definition tracked (f : omp_loop) (st : pstate B) (pre : list event) : Prop :=
  dead st = false /\
  (flag st = false -> exists i, In i (ends pre) /\ local i = None) /\
  (forall i, In i (begins pre) -> started st i = true \/ flag st = false) /\
  (forall i, In i (ends pre) -> local i = None -> flag st = false).

Lemma tracked_run : forall f s, sets f ->
  (forall pre t i post, s = pre ++ End_ t i :: post -> In i (begins pre) /\ t < threads) ->
  tracked f (fold_left (stepf f) s p0) s.
Proof.
  intros f s SF. induction s as [|e s IH] using rev_ind; intros Ord.
  - unfold tracked; simpl. split; [reflexivity|split; [discriminate|split; [intros i []|intros i []]]].
  - rewrite run_snoc. destruct IH as (D & F1 & S & F2).
    { intros pre t i post E. apply (Ord pre t i (post ++ [e])).
      rewrite E, <- app_assoc. reflexivity. }
    set (st := fold_left (stepf f) s p0) in *. clearbody st.
    destruct e as [i|t i]; unfold tracked; rewrite begins_app, ends_app.
    + change (begins [Begin i]) with [i]. change (ends [Begin i]) with (@nil nat).
      rewrite app_nil_r. cbn [step flag dead started]. split; [exact D|split; [exact F1|split; [|exact F2]]].
      intros j Ij. unfold update. destruct (Nat.eqb_spec j i) as [->|N].
      * destruct (flag st); [left; reflexivity|right; reflexivity].
      * apply S. apply in_app_or in Ij as [I|[I|[]]]; [exact I|congruence].
    + change (begins [End_ t i]) with (@nil nat). change (ends [End_ t i]) with [i].
      rewrite app_nil_r. destruct (Ord s t i [] eq_refl) as [Ib _].
      assert (Fin : forall st' : pstate B, dead st' = dead st -> started st' = started st ->
        (flag st' = flag st \/ flag st' = false /\ local i = None) ->
        (local i = None -> flag st' = false) ->
        dead st' = false /\ (flag st' = false -> exists i0, In i0 (ends s ++ [i]) /\ local i0 = None) /\
        (forall i0, In i0 (begins s) -> started st' i0 = true \/ flag st' = false) /\
        (forall i0, In i0 (ends s ++ [i]) -> local i0 = None -> flag st' = false)).
      { intros st' Dd Ss Ff Fi. split; [congruence|split; [|split]].
        - intros Fz. destruct Ff as [Ff|[_ Ln]].
          + destruct F1 as (j & Ij & Ej); [congruence|]. exists j; split; [apply in_or_app; now left|auto].
          + exists i; split; [apply in_or_app; right; simpl; auto|auto].
        - intros j Ij. destruct (S j Ij) as [Q|Q]; [left; congruence|].
          right. destruct Ff as [Ff|[Ff _]]; congruence.
        - intros j Ij Lj. apply in_app_or in Ij as [I|[<-|[]]]; [|auto].
          specialize (F2 j I Lj). destruct Ff as [Ff|[Ff _]]; congruence. }
      cbn [step]. destruct (started st i) eqn:Es.
      * destruct (local i) as [[b c]|] eqn:El.
        { apply Fin; auto; try congruence. }
        unfold sets in SF. destruct (policy_of f); try contradiction; apply Fin; cbn; auto.
      * apply Fin; auto. intros Ln. destruct (S i Ib) as [Q|Q]; [congruence|exact Q].
Qed.

Lemma flag_iff : forall f sched, sets f -> schedule threads lo hi sched ->
  let st := fold_left (stepf f) sched p0 in
  dead st = false /\ (flag st = false <-> some_fails local lo hi).
Proof.
  intros f sched SF (NB & IB & NE & IE & Ord). simpl.
  destruct (tracked_run f sched SF Ord) as (D & F1 & _ & F2).
  split; [exact D|]. split.
  - intros H. destruct (F1 H) as (i & Ii & Ei). exists i; split; [now apply IE|exact Ei].
  - intros (i & Li & Ei). apply (F2 i); [now apply IE|exact Ei].
Qed.

Lemma C40_main : forall f sched, policy_of f = Rethrow \/ policy_of f = Report ->
  schedule threads lo hi sched ->
  (reported (omp_run B zero local f threads sched) <-> serial_run B zero local lo hi = Throw).
Proof.
  intros f sched Pf Sc. rewrite serial_throw_iff.
  assert (SF : sets f) by (unfold sets; destruct Pf as [-> | ->]; exact I).
  destruct (flag_iff f sched SF Sc) as [D E].
  unfold omp_run. rewrite D. rewrite <- E. unfold reported.
  destruct (flag _).
  - split; [intros [H|H]; discriminate|discriminate].
  - split; [reflexivity|intros _]. destruct Pf as [-> | ->]; [now left|now right].
Qed.

Lemma never_reported : forall f sched, policy_of f = Swallow \/ policy_of f = NeverSet \/ policy_of f = Escape ->
  ~ reported (omp_run B zero local f threads sched).
Proof.
  intros f sched Pf. unfold omp_run, reported.
  destruct (dead _); [intros [H|H]; discriminate|].
  destruct (flag _); [intros [H|H]; discriminate|].
  destruct Pf as [->|[->| ->]]; intros [H|H]; discriminate.
Qed.

(** Escape: any failure terminates the program. *)
Lemma escape_run : forall f s, policy_of f = Escape -> guarded f = false ->
  (forall pre t i post, s = pre ++ End_ t i :: post -> In i (begins pre) /\ t < threads) ->
  let st := fold_left (stepf f) s p0 in
  (forall i, In i (begins s) -> started st i = true) /\
  (dead st = true <-> exists i, In i (ends s) /\ local i = None).
Proof.
  intros f s Pf Gf. induction s as [|e s IH] using rev_ind; intros Ord; cbn zeta.
  - simpl. split; [intros i []|split; [discriminate|intros (i & [] & _)]].
  - rewrite run_snoc. destruct IH as (S & D).
    { intros pre t i post E. apply (Ord pre t i (post ++ [e])).
      rewrite E, <- app_assoc. reflexivity. }
    set (st := fold_left (stepf f) s p0) in *. clearbody st.
    destruct e as [i|t i]; rewrite begins_app, ends_app.
    + change (begins [Begin i]) with [i]. change (ends [Begin i]) with (@nil nat).
      rewrite app_nil_r. cbn [step dead started]. split; [|exact D].
      intros j Ij. unfold update. rewrite Gf. destruct (Nat.eqb_spec j i) as [->|N].
      * apply orb_true_r.
      * apply S. apply in_app_or in Ij as [I|[I|[]]]; [exact I|congruence].
    + change (begins [End_ t i]) with (@nil nat). change (ends [End_ t i]) with [i].
      rewrite app_nil_r. destruct (Ord s t i [] eq_refl) as [Ib _].
      cbn [step]. rewrite (S i Ib).
      destruct (local i) as [[b c]|] eqn:El.
      * cbn [started dead]. split; [exact S|]. rewrite D.
        split; intros (j & Ij & Ej); exists j; split; auto; [apply in_or_app; now left|].
        apply in_app_or in Ij as [I|[<-|[]]]; [exact I|congruence].
      * rewrite Pf. cbn [started dead]. split; [exact S|]. split; [|reflexivity].
        intros _. exists i; split; [apply in_or_app; right; simpl; auto|auto].
Qed.

Lemma escape_iff : forall f sched, policy_of f = Escape -> schedule threads lo hi sched ->
  (omp_run B zero local f threads sched = Terminated <-> some_fails local lo hi).
Proof.
  intros f sched Pf (NB & IB & NE & IE & Ord).
  assert (Gf : guarded f = false) by (destruct f; try discriminate; reflexivity).
  destruct (escape_run f sched Pf Gf Ord) as [_ D].
  unfold omp_run. split; intros H.
  - destruct (dead _) eqn:E.
    + destruct (proj1 D eq_refl) as (i & Ii & Ei). exists i; split; [now apply IE|exact Ei].
    + destruct (flag _); [discriminate|]. rewrite Pf in H; discriminate.
  - destruct H as (i & Li & Ei).
    assert (dead (fold_left (stepf f) sched p0) = true) as ->; [|reflexivity].
    apply D. exists i; split; [now apply IE|exact Ei].
Qed.
End P.

(** Sequential schedules exist for every range. *)
Lemma begins_sequential : forall l, begins (sequential l) = l.
Proof. induction l as [|i t IH]; [reflexivity|]. simpl. now rewrite IH. Qed.
Lemma ends_sequential : forall l, ends (sequential l) = l.
Proof. induction l as [|i t IH]; [reflexivity|]. simpl. now rewrite IH. Qed.
Lemma sequential_order : forall l pre t i post, sequential l = pre ++ End_ t i :: post ->
  In i (begins pre) /\ t < 1.
Proof.
  induction l as [|x l IH]; intros pre t i post E; simpl in E.
  - destruct pre; discriminate.
  - destruct pre as [|e1 pre]; [discriminate|]. injection E as <- E.
    destruct pre as [|e2 pre].
    + injection E as <- <- _. simpl; auto.
    + injection E as <- E. destruct (IH _ _ _ _ E) as [I L]. split; [|exact L].
      simpl. right; exact I.
Qed.
Lemma sequential_schedule : forall lo hi T, 1 <= T -> schedule T lo hi (sequential (seq lo (hi - lo))).
Proof.
  intros lo hi T L. unfold schedule. rewrite begins_sequential, ends_sequential.
  split; [apply seq_NoDup|split; [intros; rewrite in_seq; lia|]].
  split; [apply seq_NoDup|split; [intros; rewrite in_seq; lia|]].
  intros pre t i post E. destruct (sequential_order _ _ _ _ _ E). split; [auto|lia].
Qed.

(** Two threads, everything begins before anything ends, ends in reverse. *)
Definition overlap : list event := [Begin 0; Begin 1; End_ 1 1; End_ 0 0].
Lemma overlap_schedule : schedule 2 0 2 overlap.
Proof.
  unfold schedule, overlap. simpl.
  split; [repeat constructor; simpl; intuition lia|].
  split; [intros i; lia|].
  split; [repeat constructor; simpl; intuition lia|].
  split; [intros i; lia|].
  intros pre t i post E.
  destruct pre as [|e1 pre]; [discriminate|]. injection E as <- E.
  destruct pre as [|e2 pre]; [discriminate|]. injection E as <- E.
  destruct pre as [|e3 pre].
  - injection E as <- <- _. simpl; lia.
  - injection E as <- E. destruct pre as [|e4 pre].
    + injection E as <- <- _. simpl; lia.
    + injection E as <- E. destruct pre; discriminate.
Qed.

Lemma serial_value :
  forall (B : Type) (zero : B) local lo hi (col : nat -> B) (stat : nat -> nat -> R),
  (forall i, lo <= i < hi -> local i = Some (col i, stat i)) ->
  exists b s, serial_run B zero local lo hi = Ok (b, s) /\
    (forall i, lo <= i < hi -> b i = col i) /\
    (forall k, s k = lsum (map (fun i => stat i k) (seq lo (hi - lo)))).
Proof.
  intros B zero local lo hi col stat H.
  destruct (serial_from_ok B zero local (seq lo (hi - lo)) (fun _ => zero) (fun _ => 0%R))
    as (b & s & E & H1 & H2 & H3).
  { intros i Ii. apply in_seq in Ii. rewrite H by lia. discriminate. }
  { apply seq_NoDup. }
  exists b, s. split; [exact E|split].
  - intros i Li. rewrite H1 by (apply in_seq; lia). unfold colof. now rewrite H.
  - intros k. rewrite H3, Rplus_0_l. f_equal. apply map_ext_in.
    intros i Ii. apply in_seq in Ii. unfold statof. rewrite H by lia. reflexivity.
Qed.

Lemma C40_listed :
  forall (B : Type) (zero : B) local threads lo hi f sched,
  In f [GWRBasic_predictOmp; GWRBasic_fitCoreOmp; GTWR_predictOmp; GTWR_fitOmp;
        GTWR_criterionCVOmp; GTWR_criterionAICOmp; GWRRobust_fitOmp; GWDR_predictOmp;
        GWDR_criterionCVOmp; GWDR_criterionAICOmp; GWDR_indepVarCriterionOmp;
        GWRMultiscale_fitVarCoreOmp; GWRGeneralized_fitPoissonOmp; GWRGeneralized_fitBinomialOmp] ->
  schedule threads lo hi sched ->
  (reported (omp_run B zero local f threads sched) <-> serial_run B zero local lo hi = Throw).
Proof.
  intros B zero local threads lo hi f sched If Sc. apply C40_main; auto.
  simpl in If. repeat (destruct If as [<-|If]; [cbn; auto|]). destruct If.
Qed.

Lemma returns_if_unreported : forall (B : Type) (zero : B) local f threads sched,
  dead (fold_left (step B local f) sched (p0 B zero)) = false ->
  ~ reported (omp_run B zero local f threads sched) ->
  exists b s, omp_run B zero local f threads sched = Returned b s.
Proof.
  intros B zero local f threads sched D N. unfold omp_run in *. rewrite D in *.
  destruct (flag _); [eauto|].
  destruct (policy_of f); try (exfalso; apply N; unfold reported; now auto); eauto.
Qed.

Lemma C40_swallowed :
  forall (B : Type) (zero : B) local threads lo hi f sched,
  In f [GWRBasic_fitCoreCVOmp; GWRBasic_fitCoreSHatOmp;
        GWRMultiscale_fitVarCoreCVOmp; GWRMultiscale_fitVarCoreSHatOmp] ->
  schedule threads lo hi sched -> (exists i, lo <= i < hi /\ local i = None) ->
  serial_run B zero local lo hi = Throw /\
  exists b s, omp_run B zero local f threads sched = Returned b s.
Proof.
  intros B zero local threads lo hi f sched If Sc Fl.
  split; [now apply serial_throw_iff|].
  assert (Pf : policy_of f = Swallow).
  { simpl in If. repeat (destruct If as [<-|If]; [reflexivity|]). destruct If. }
  assert (SF : sets f) by (unfold sets; now rewrite Pf).
  apply returns_if_unreported; [|apply never_reported; now left].
  exact (proj1 (flag_iff B zero local threads lo hi f sched SF Sc)).
Qed.

Lemma never_dead : forall (B : Type) (zero : B) local f sched, policy_of f <> Escape ->
  dead (fold_left (step B local f) sched (p0 B zero)) = false.
Proof.
  intros B zero local f sched Pf. induction sched as [|e s IH] using rev_ind; [reflexivity|].
  rewrite fold_left_app. simpl fold_left. set (st := fold_left _ s _) in *. clearbody st.
  destruct e as [i|t i]; simpl step; [exact IH|].
  destruct (started st i); [|exact IH].
  destruct (local i) as [[b c]|]; [exact IH|].
  destruct (policy_of f); try exact IH. congruence.
Qed.

Lemma C40_gwdr :
  forall (B : Type) (zero : B) local threads lo hi sched,
  schedule threads lo hi sched -> (exists i, lo <= i < hi /\ local i = None) ->
  serial_run B zero local lo hi = Throw /\
  exists b s, omp_run B zero local GWDR_fitOmp threads sched = Returned b s.
Proof.
  intros B zero local threads lo hi sched Sc Fl. split; [now apply serial_throw_iff|].
  apply returns_if_unreported; [|apply never_reported; now auto].
  apply never_dead; discriminate.
Qed.

Lemma C40_terminates :
  forall (B : Type) (zero : B) local threads lo hi f sched,
  In f [GWRLocalCollinearity_criterionCVOmp; GWRLocalCollinearity_fitOmp;
        GWRLocalCollinearity_predictOmp; GWRGeneralized_criterionCVOmp;
        GWRGeneralized_criterionAICOmp; GWSS_GWAverageOmp; GWSS_GWCorrelationOmp] ->
  schedule threads lo hi sched ->
  (omp_run B zero local f threads sched = Terminated <-> exists i, lo <= i < hi /\ local i = None).
Proof.
  intros B zero local threads lo hi f sched If Sc. apply escape_iff; auto.
  simpl in If. repeat (destruct If as [<-|If]; [reflexivity|]). destruct If.
Qed.

Lemma C40_schedule_witness : exists local s1 s2 b1 c1 b2 c2,
  schedule 2 0 2 s1 /\ schedule 2 0 2 s2 /\
  omp_run nat 0 local GWRBasic_fitCoreSHatOmp 2 s1 = Returned b1 c1 /\
  omp_run nat 0 local GWRBasic_fitCoreSHatOmp 2 s2 = Returned b2 c2 /\ c1 0 <> c2 0.
Proof.
  exists (fun i => if Nat.eqb i 0 then None else Some (i, fun _ => 1%R)), overlap, (sequential [0; 1]).
  do 4 eexists. split; [exact overlap_schedule|].
  split; [exact (sequential_schedule 0 2 2 ltac:(lia))|].
  split; [reflexivity|split; [reflexivity|]]. cbn. lra.
Qed.

Lemma C40_how_main :
  forall (B : Type) (zero : B) local threads lo hi f sched,
  schedule threads lo hi sched -> (exists i, lo <= i < hi /\ local i = None) ->
  (In f [GWRBasic_predictOmp; GWRBasic_fitCoreOmp; GTWR_predictOmp; GTWR_fitOmp;
         GWRRobust_fitOmp; GWDR_predictOmp; GWRMultiscale_fitVarCoreOmp;
         GWRGeneralized_fitPoissonOmp; GWRGeneralized_fitBinomialOmp] ->
     omp_run B zero local f threads sched = Raised) /\
  (In f [GTWR_criterionCVOmp; GTWR_criterionAICOmp; GWDR_criterionCVOmp;
         GWDR_criterionAICOmp; GWDR_indepVarCriterionOmp] ->
     omp_run B zero local f threads sched = Invalid).
Proof.
  intros B zero local threads lo hi f sched Sc Fl. apply (serial_throw_iff B zero) in Fl.
  assert (H : forall p, policy_of f = p -> reported (omp_run B zero local f threads sched) ->
    (p = Rethrow -> omp_run B zero local f threads sched = Raised) /\
    (p = Report -> omp_run B zero local f threads sched = Invalid)).
  { intros p P R. unfold reported, omp_run in *. destruct (dead _); [destruct R; discriminate|].
    destruct (flag _); [destruct R; discriminate|]. rewrite P in *. split; intros ->; reflexivity. }
  split; intros I.
  - refine (proj1 (H Rethrow _ _) eq_refl).
    + simpl in I. repeat (destruct I as [<-|I]; [reflexivity|]). destruct I.
    + refine (proj2 (C40_listed B zero local threads lo hi f sched _ Sc) Fl). simpl in *. tauto.
  - refine (proj2 (H Report _ _) eq_refl).
    + simpl in I. repeat (destruct I as [<-|I]; [reflexivity|]). destruct I.
    + refine (proj2 (C40_listed B zero local threads lo hi f sched _ Sc) Fl). simpl in *. tauto.
Qed.
