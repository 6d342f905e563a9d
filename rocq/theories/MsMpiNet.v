(** Executions of processes that meet in collective operations: all of them follow the
    rounds in which the processes proceed together. *)
From Coq Require Import Reals Bool List Arith Lia.
From Verif Require Import Outcome XReal MpiModel MsCritModel MsMpiModel MsMpiSpec.
Import ListNotations.

(** [N] rounds from [ps] to [qs] *)
Inductive rounds {A : Type} (w : nat) : nat -> (nat -> proc A) -> (nat -> proc A) -> Prop :=
| r_none : forall ps qs, (forall p, p < w -> ps p = qs p) -> rounds w 0 ps qs
| r_more : forall N ps cs ks qs, (forall p, p < w -> ps p = Call (cs p) (ks p)) ->
    (forall p q, p < w -> q < w -> fits_with (cs p) (cs q) = true) ->
    (forall p q, p < w -> In q (needs w p (cs p)) -> q < w) ->
    rounds w N (fun p => ks p (combine_calls w p (cs p) cs)) qs -> rounds w (S N) ps qs.

(** Nobody gets on: who is inside an operation needs somebody who has ended. *)
Definition over {A : Type} (w : nat) (qs : nat -> proc A) : Prop :=
  (forall p c k, p < w -> qs p = Call c k -> exists q, q < w /\ In q (needs w p c) /\ forall c' k', qs q <> Call c' k') /\
  (forall p q c k c' k', p < w -> q < w -> qs p = Call c k -> qs q = Call c' k' -> fits_with c c' = true).

Lemma combine_ext w p c f g : (forall q, In q (needs w p c) -> f q = g q) -> combine_calls w p c f = combine_calls w p c g.
Proof.
  intros H. destruct c; cbn [combine_calls needs] in *; try reflexivity.
  - f_equal. f_equal. apply map_ext_in. intros q I. now rewrite (H q I).
  - f_equal. apply map_ext_in. intros q I. now rewrite (H q I).
  - destruct (Nat.eqb p 0); [|reflexivity]. f_equal. f_equal. apply map_ext_in. intros q I. now rewrite (H q I).
  - destruct (Nat.eqb p 0); [|reflexivity]. f_equal.
    assert (E : map f (seq 0 w) = map g (seq 0 w)) by (apply map_ext_in; intros q I; exact (H q I)).
    assert (forall h i, map (fun q => vector_of (h q) i) (seq 0 w) = map (fun c => vector_of c i) (map h (seq 0 w))) as M.
    { intros h i. rewrite map_map. reflexivity. }
    assert (forall l l' : list call, l = l' -> (fun i => Sums.lsum (map (fun c => vector_of c i) l)) = (fun i => Sums.lsum (map (fun c => vector_of c i) l'))) as M2.
    { intros l l' ->. reflexivity. }
    specialize (M2 _ _ E). 
    transitivity (fun i => Sums.lsum (map (fun c => vector_of c i) (map f (seq 0 w)))).
    { apply FunctionalExtensionality.functional_extensionality. intros i. now rewrite M. }
    rewrite M2. apply FunctionalExtensionality.functional_extensionality. intros i. now rewrite M.
  - f_equal. f_equal. apply H. now left.
Qed.

(** The rounds as a sequence *)
Lemma rounds_seq {A : Type} w N : forall (ps qs : nat -> proc A), rounds w N ps qs ->
  exists (P : nat -> nat -> proc A) (C : nat -> nat -> call),
    (forall p, p < w -> P 0 p = ps p) /\ (forall p, p < w -> P N p = qs p) /\
    (forall m p, m < N -> p < w -> exists k, P m p = Call (C m p) k /\ P (S m) p = k (combine_calls w p (C m p) (C m))) /\
    (forall m p q, m < N -> p < w -> q < w -> fits_with (C m p) (C m q) = true) /\
    (forall m p q, m < N -> p < w -> In q (needs w p (C m p)) -> q < w).
Proof.
  induction N as [|N IH]; intros ps qs R; inversion R; subst.
  - exists (fun _ => ps), (fun _ _ => HatRows). repeat split; intros; try lia; auto.
  - match goal with X : rounds w N _ qs |- _ => destruct (IH _ _ X) as (P & C & P0 & PN & ST & FI & NE) end.
    exists (fun m => match m with O => ps | S m' => P m' end), (fun m => match m with O => cs | S m' => C m' end).
    repeat split.
    + exact PN.
    + intros [|m] p Hm Hp.
      * exists (ks p). split; [auto|]. apply P0. exact Hp.
      * apply ST; lia.
    + intros [|m] p q Hm Hp Hq; [auto|apply FI; lia].
    + intros [|m] p q Hm Hp I; [match goal with X : forall p q, p < w -> In q _ -> q < w |- _ => exact (X _ _ Hp I) end|exact (NE m p q ltac:(lia) Hp I)].
Qed.

Section Runs.
Variable A : Type.
Variables w N : nat.
Variable prog qs : nat -> proc A.
Hypothesis RN : rounds w N prog qs.
Hypothesis OV : over w qs.
Variable sync : nat -> nat -> bool.

Section Sequence.
Variable P : nat -> nat -> proc A.
Variable C : nat -> nat -> call.
Hypothesis P0 : forall p, p < w -> P 0 p = prog p.
Hypothesis PN : forall p, p < w -> P N p = qs p.
Hypothesis ST : forall m p, m < N -> p < w -> exists k, P m p = Call (C m p) k /\ P (S m) p = k (combine_calls w p (C m p) (C m)).
Hypothesis FI : forall m p q, m < N -> p < w -> q < w -> fits_with (C m p) (C m q) = true.
Hypothesis NE : forall m p q, m < N -> p < w -> In q (needs w p (C m p)) -> q < w.

Definition past (p i : nat) : list call := map (fun m => C m p) (seq 0 i).
Definition at_stage (c : config A) (p i : nat) : Prop := i <= N /\ c p = (past p i, P i p).
Definition Inv (c : config A) : Prop := forall p, p < w -> exists i, at_stage c p i.

Lemma past_length p i : length (past p i) = i.
Proof. unfold past. now rewrite map_length, seq_length. Qed.
Lemma past_nth p i m : m < i -> nth_error (past p i) m = Some (C m p).
Proof.
  intros H. unfold past. rewrite nth_error_map.
  replace (nth_error (seq 0 i) m) with (Some m); [reflexivity|].
  symmetry. rewrite (nth_error_nth' (seq 0 i) 0); [now rewrite seq_nth|now rewrite seq_length].
Qed.
Lemma past_S p i : past p (S i) = past p i ++ [C i p].
Proof. unfold past. now rewrite seq_S, map_app. Qed.

Lemma inv_start : Inv (start prog).
Proof. intros p Hp. exists 0. split; [lia|]. unfold start. now rewrite P0. Qed.

(** What is entered *)
Lemma entered_below c p i m : at_stage c p i -> p < w -> m < i -> entered (c p) m = Some (C m p).
Proof.
  intros [L E] Hp H. unfold entered. rewrite E. cbn [fst snd].
  destruct (P i p); try (apply past_nth; exact H).
  rewrite nth_error_app1 by (rewrite past_length; exact H). apply past_nth, H.
Qed.
Lemma entered_at c p i : at_stage c p i -> p < w -> i < N -> entered (c p) i = Some (C i p).
Proof.
  intros [L E] Hp H. unfold entered. rewrite E. cbn [fst snd].
  destruct (ST i p H Hp) as (k & -> & _).
  rewrite nth_error_app2; rewrite past_length; [|lia]. now rewrite Nat.sub_diag.
Qed.
Lemma entered_above c p i m x : at_stage c p i -> p < w -> entered (c p) m = Some x -> m < i \/ (m = i /\ exists k, P i p = Call x k).
Proof.
  intros [L E] Hp H. unfold entered in H. rewrite E in H. cbn [fst snd] in H.
  destruct (P i p) eqn:EP.
  - left. rewrite <- (past_length p i). apply nth_error_Some. congruence.
  - left. rewrite <- (past_length p i). apply nth_error_Some. congruence.
  - assert (m < length (past p i ++ [c0])) by (apply nth_error_Some; congruence).
    rewrite app_length, past_length in H0. cbn [length] in H0.
    destruct (Nat.eq_dec m i) as [->|D]; [right|left; lia]. split; [reflexivity|].
    rewrite nth_error_app2 in H by (rewrite past_length; lia). rewrite past_length, Nat.sub_diag in H. injection H as ->. eauto.
Qed.

Lemma inv_step c d : Inv c -> step w sync c d -> Inv d /\
  exists p i, p < w /\ at_stage c p i /\ at_stage d p (S i) /\ forall q, q <> p -> d q = c q.
Proof.
  intros I S. destruct S as [st p pa cl k f Hp E H].
  destruct (I p Hp) as (i & [L Ei]). rewrite E in Ei. injection Ei as -> EP.
  rewrite past_length in H.
  assert (HN : i < N).
  { destruct (Nat.eq_dec i N) as [->|D]; [|lia]. exfalso.
    rewrite (PN p Hp) in EP. destruct (proj1 OV p cl k Hp (eq_sym EP)) as (q & Hq & Iq & NC).
    assert (IN : In q (if sync p N then seq 0 w else needs w p cl)).
    { destruct (sync p N); [apply in_seq; lia|exact Iq]. }
    destruct (H q IN) as [En _]. destruct (I q Hq) as (j & Sj).
    destruct (entered_above _ _ _ _ _ Sj Hq En) as [X|[<- (k' & X)]].
    - destruct Sj. lia.
    - rewrite (PN q Hq) in X. exact (NC _ _ X). }
  destruct (ST i p HN Hp) as (k0 & E1 & E2). rewrite E1 in EP. injection EP as -> ->.
  assert (EC : combine_calls w p (C i p) f = combine_calls w p (C i p) (C i)).
  { apply combine_ext. intros q Iq. pose proof (NE i p q HN Hp Iq) as Hq.
    assert (IN : In q (if sync p i then seq 0 w else needs w p (C i p))).
    { destruct (sync p i); [apply in_seq; lia|exact Iq]. }
    destruct (H q IN) as [En _]. destruct (I q Hq) as (j & Sj).
    destruct (entered_above _ _ _ _ _ Sj Hq En) as [X|[<- (k' & X)]].
    - rewrite (entered_below _ _ _ _ Sj Hq X) in En. congruence.
    - destruct (ST i q HN Hq) as (k2 & X2 & _). congruence. }
  assert (SD : at_stage (upd st p (past p i ++ [C i p], k0 (combine_calls w p (C i p) f))) p (S i)).
  { split; [lia|]. unfold upd. rewrite Nat.eqb_refl, past_S, E2, EC. reflexivity. }
  split.
  - intros q Hq. destruct (Nat.eq_dec q p) as [->|D]; [eauto|].
    destruct (I q Hq) as (j & L' & Ej). exists j. split; [exact L'|]. unfold upd. apply Nat.eqb_neq in D. now rewrite D.
  - exists p, i. split; [exact Hp|]. split; [|split; [exact SD|]].
    + split; [exact L|]. rewrite E. f_equal. now rewrite E1.
    + intros q D. unfold upd. apply Nat.eqb_neq in D. now rewrite D.
Qed.

Lemma progress c p i : Inv c -> p < w -> at_stage c p i -> i < N -> exists d, step w sync c d.
Proof.
  intros I Hp Sp HN.
  (* a process that is furthest behind *)
  assert (M : forall b, b <= w -> p < b -> exists q j, q < w /\ at_stage c q j /\ j < N /\ forall q' j', q' < b -> at_stage c q' j' -> j <= j').
  { intros b. induction b as [|b IH]; intros Hb Hpb; [lia|].
    destruct (I b ltac:(lia)) as (jb & Sb).
    assert (UN : forall q j j', at_stage c q j -> at_stage c q j' -> j = j').
    { intros q j j' [_ E1] [_ E2]. rewrite E1 in E2. injection E2 as E2 _.
      apply (f_equal (@length _)) in E2. now rewrite !past_length in E2. }
    destruct (Nat.eq_dec b p) as [->|D].
    - destruct (Nat.eq_dec p 0) as [->|Z].
      + exists 0, i. repeat split; auto; try apply Sp. intros q' j' Hq Sj. assert (q' = 0) by lia. subst q'. rewrite (UN _ _ _ Sp Sj). lia.
      + (* minimum over q < p and i *)
        clear IH. assert (MM : forall b, b <= p -> exists q j, q < w /\ at_stage c q j /\ j <= i /\ forall q' j', q' < b \/ q' = p -> at_stage c q' j' -> j <= j').
        { induction b as [|b IHb]; intros L.
          - exists p, i. repeat split; auto; try apply Sp. intros q' j' [X| ->] Sj; [lia|]. rewrite (UN _ _ _ Sp Sj). lia.
          - destruct (IHb ltac:(lia)) as (q & j & Hq & Sq & Lj & Mn).
            destruct (I b ltac:(lia)) as (j2 & S2). destruct (le_lt_dec j j2).
            + exists q, j. repeat split; auto; try apply Sq. intros q' j' [X|X] Sj; [|apply (Mn q' j'); auto].
              destruct (Nat.eq_dec q' b) as [->|]; [rewrite (UN _ _ _ Sj S2); exact l|apply (Mn q' j'); auto; left; lia].
            + exists b, j2. repeat split; auto; try lia; try apply S2. intros q' j' X Sj.
              destruct (Nat.eq_dec q' b) as [->|]; [rewrite (UN _ _ _ Sj S2); lia|].
              assert (j <= j') by (apply (Mn q' j'); auto; destruct X; [left; lia|right; assumption]). lia. }
        destruct (MM p (le_n _)) as (q & j & Hq & Sq & Lj & Mn).
        exists q, j. repeat split; auto; try lia; try apply Sq. intros q' j' X Sj. apply (Mn q' j'); auto. destruct (Nat.eq_dec q' p); [now right|left; lia].
    - destruct (IH ltac:(lia) ltac:(lia)) as (q & j & Hq & Sq & Lj & Mn).
      destruct (le_lt_dec j jb).
      + exists q, j. repeat split; auto; try apply Sq. intros q' j' X Sj.
        destruct (Nat.eq_dec q' b) as [->|]; [rewrite (UN _ _ _ Sj Sb); exact l|apply (Mn q' j'); auto; lia].
      + exists b, jb. repeat split; auto; try lia; try apply Sb. intros q' j' X Sj.
        destruct (Nat.eq_dec q' b) as [->|]; [rewrite (UN _ _ _ Sj Sb); lia|].
        assert (j <= j') by (apply (Mn q' j'); auto; lia). lia. }
  destruct (M w (le_n _) Hp) as (q & j & Hq & Sq & Lj & Mn).
  destruct (ST j q Lj Hq) as (k & E1 & E2). pose proof Sq as [_ Eq]. rewrite E1 in Eq.
  exists (upd c q (past q j ++ [C j q], k (combine_calls w q (C j q) (C j)))).
  apply leave with (f := C j); [exact Hq|exact Eq|]. rewrite past_length. intros q' Iq'.
  assert (Hq' : q' < w). { destruct (sync q j); [apply in_seq in Iq'; lia|exact (NE j q q' Lj Hq Iq')]. }
  destruct (I q' Hq') as (j' & S'). pose proof (Mn q' j' Hq' S') as Le.
  split; [|apply FI; assumption].
  destruct (Nat.eq_dec j j') as [<-|D]; [apply entered_at; assumption|apply entered_below with (i := j'); auto; lia].
Qed.

(** The number of moves made *)
Definition made (c : config A) : nat := list_sum (map (fun p => length (fst (c p))) (seq 0 w)).
Lemma made_step (c d : config A) p : p < w -> length (fst (d p)) = S (length (fst (c p))) -> (forall q, q <> p -> d q = c q) ->
  made d = S (made c).
Proof.
  intros Hp L E. unfold made.
  assert (G : forall l, NoDup l -> list_sum (map (fun q => length (fst (d q))) l) =
    list_sum (map (fun q => length (fst (c q))) l) + (if in_dec Nat.eq_dec p l then 1 else 0)).
  { induction l as [|a t IH]; intros ND; [reflexivity|]. inversion ND; subst. cbn [map list_sum fold_right].
    unfold list_sum in IH. rewrite (IH H2). destruct (Nat.eq_dec a p) as [->|D].
    - rewrite L. destruct (in_dec Nat.eq_dec p t); [contradiction|]. destruct (in_dec Nat.eq_dec p (p :: t)) as [_|X]; [|exfalso; apply X; now left]. lia.
    - rewrite (E a D). destruct (in_dec Nat.eq_dec p t); destruct (in_dec Nat.eq_dec p (a :: t)) as [X|X]; try lia.
      + exfalso. apply X. now right.
      + exfalso. destruct X; [congruence|contradiction]. }
  rewrite (G _ (seq_NoDup _ _)). destruct (in_dec Nat.eq_dec p (seq 0 w)) as [_|X]; [lia|]. exfalso. apply X, in_seq. lia.
Qed.
Lemma inv_moves k c : moves w sync k (start prog) c -> Inv c /\ made c = k.
Proof.
  intros M. remember (start prog) as c0. induction M as [c|k c d e M IH S]; subst.
  - split; [apply inv_start|]. unfold made, start. cbn [fst length]. induction (seq 0 w) as [|a t IHt]; [reflexivity|exact IHt].
  - destruct (IH eq_refl) as [I E]. destruct (inv_step _ _ I S) as (I2 & p & i & Hp & (_ & S1) & (_ & S2) & O). split; [exact I2|].
    rewrite (made_step d e p Hp); [now rewrite E| |exact O]. rewrite S1, S2. cbn [fst]. now rewrite !past_length.
Qed.
Lemma made_bound c : Inv c -> made c <= w * N.
Proof.
  intros I. unfold made.
  assert (G : forall b, b <= w -> list_sum (map (fun p => length (fst (c p))) (seq 0 b)) <= b * N).
  { induction b as [|b IH]; intros Hb; [cbn; lia|]. rewrite seq_S, map_app, list_sum_app. cbn [map list_sum fold_right Nat.add].
    destruct (I b ltac:(lia)) as (i & L & E). rewrite E. cbn [fst]. rewrite past_length. specialize (IH ltac:(lia)).
    rewrite Nat.mul_succ_l. cbn. lia. }
  apply G. lia.
Qed.
Lemma inv_rest c : Inv c -> at_rest w sync c -> forall p, p < w -> snd (c p) = qs p.
Proof.
  intros I R p Hp. destruct (I p Hp) as (i & S). pose proof S as [L E].
  destruct (Nat.eq_dec i N) as [->|D]; [rewrite E; cbn; apply PN; exact Hp|].
  destruct (progress c p i I Hp S ltac:(lia)) as (d & X). exfalso. exact (R d X).
Qed.
Lemma inv_done c : Inv c -> (forall p, p < w -> at_stage c p N) -> at_rest w sync c.
Proof.
  intros I AN d X. destruct (inv_step _ _ I X) as (_ & p & i & Hp & S1 & (L & _) & _).
  destruct (AN p Hp) as [_ E1]. destruct S1 as [_ E2]. rewrite E1 in E2. injection E2 as E2 _.
  apply (f_equal (@length _)) in E2. rewrite !past_length in E2. lia.
Qed.
Lemma inv_matched c p q i a b : Inv c -> p < w -> q < w -> entered (c p) i = Some a -> entered (c q) i = Some b -> fits_with a b = true.
Proof.
  intros I Hp Hq Ea Eb. destruct (I p Hp) as (j & S1). destruct (I q Hq) as (j' & S2).
  destruct (Nat.lt_ge_cases i N) as [H|H].
  - assert (X : forall r jr z, r < w -> at_stage c r jr -> entered (c r) i = Some z -> z = C i r).
    { intros r jr z Hr Sr Er. destruct (entered_above _ _ _ _ _ Sr Hr Er) as [L|[<- (k & Pk)]].
      - rewrite (entered_below _ _ _ _ Sr Hr L) in Er. congruence.
      - destruct (ST i r H Hr) as (k2 & P2 & _). congruence. }
    rewrite (X p j a Hp S1 Ea), (X q j' b Hq S2 Eb). apply FI; assumption.
  - destruct (entered_above _ _ _ _ _ S1 Hp Ea) as [L|[-> (k & Pk)]]; [destruct S1; lia|].
    destruct (entered_above _ _ _ _ _ S2 Hq Eb) as [L|[<- (k' & Pk')]]; [destruct S2; lia|].
    assert (j = N) by (destruct S1; lia). subst j. rewrite (PN p Hp) in Pk. rewrite (PN q Hq) in Pk'.
    exact (proj2 OV _ _ _ _ _ _ Hp Hq Pk Pk').
Qed.
Lemma reach_rest : exists k c, moves w sync k (start prog) c /\ at_rest w sync c.
Proof.
  assert (G : forall m c k, moves w sync k (start prog) c -> w * N - k = m -> exists k' c', moves w sync k' (start prog) c' /\ at_rest w sync c').
  { induction m as [m IH] using lt_wf_ind. intros c k M E. destruct (inv_moves _ _ M) as [I Mk].
    destruct (List.Forall_Exists_dec (fun p => length (fst (c p)) = N) (fun p => Nat.eq_dec _ _) (seq 0 w)) as [F|X].
    - exists k, c. split; [exact M|]. apply (inv_done c I). intros p Hp. destruct (I p Hp) as (i & S).
      rewrite Forall_forall in F. specialize (F p ltac:(apply in_seq; lia)). pose proof S as [_ E2]. rewrite E2 in F. cbn [fst] in F. rewrite past_length in F.
      now subst i.
    - apply Exists_exists in X. destruct X as (p & Ip & NL). apply in_seq in Ip. destruct (I p ltac:(lia)) as (i & S).
      pose proof S as [L E2]. rewrite E2 in NL. cbn [fst] in NL. rewrite past_length in NL.
      destruct (progress c p i I ltac:(lia) S ltac:(lia)) as (d & SD).
      assert (M' : moves w sync (Datatypes.S k) (start prog) d) by (econstructor; eassumption).
      destruct (inv_moves _ _ M') as [I' Mk']. pose proof (made_bound _ I').
      apply (IH (w * N - Datatypes.S k)) with (c := d) (k := Datatypes.S k); auto. lia. }
  apply (G (w * N) (start prog) 0); [constructor|lia].
Qed.
End Sequence.

Lemma runs_main :
  (exists k c, moves w sync k (start prog) c /\ at_rest w sync c) /\
  forall k c, moves w sync k (start prog) c ->
    k <= w * N /\ (at_rest w sync c -> forall p, p < w -> snd (c p) = qs p) /\
    forall p q i a b, p < w -> q < w -> entered (c p) i = Some a -> entered (c q) i = Some b -> fits_with a b = true.
Proof.
  destruct (rounds_seq w N prog qs RN) as (P & C & P0 & PN & ST & FI & NE). split.
  - exact (reach_rest P C P0 PN ST FI NE).
  - intros k c M. destruct (inv_moves P C P0 PN ST NE k c M) as [I E]. split; [|split].
    + rewrite <- E. exact (made_bound P C c I).
    + exact (inv_rest P C PN ST FI NE c I).
    + intros p q i a b. apply (inv_matched P C PN ST FI c p q i a b I).
Qed.
End Runs.
