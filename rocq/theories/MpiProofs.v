From Coq Require Import Reals Bool List Arith ZArith Lia Lra Permutation.
From Verif Require Import Outcome Sums MpiModel MpiSpec.
Import ListNotations.

(** * Lists *)
Lemma list_ext : forall (A : Type) (l k : list A),
  length l = length k -> (forall i, i < length l -> nth_error l i = nth_error k i) -> l = k.
Proof.
  intros A l; induction l as [|x t IH]; intros [|y u] L E; simpl in L; try discriminate; auto.
  f_equal.
  - specialize (E 0 ltac:(simpl; lia)); simpl in E; congruence.
  - apply IH; [lia|]. intros i Li; apply (E (S i)); simpl; lia.
Qed.

Lemma nth_error_firstn_lt : forall (A : Type) (l : list A) k i, i < k ->
  nth_error (firstn k l) i = nth_error l i.
Proof.
  intros A l; induction l as [|x t IH]; intros [|k] [|i] H; simpl; auto; try lia.
  apply IH; lia.
Qed.
Lemma nth_error_skipn' : forall (A : Type) (l : list A) k i,
  nth_error (skipn k l) i = nth_error l (k + i).
Proof.
  intros A l k; revert l; induction k as [|k IH]; intros [|x t] i; simpl; auto.
  destruct i; reflexivity.
Qed.
Lemma nth_error_map_seq : forall (A : Type) (f : nat -> A) a k i, i < k ->
  nth_error (map f (seq a k)) i = Some (f (a + i)).
Proof.
  intros A f a k i H. rewrite nth_error_map.
  enough (nth_error (seq a k) i = Some (a + i)) as -> by reflexivity.
  rewrite (nth_error_nth' _ 0) by (rewrite seq_length; lia). now rewrite seq_nth.
Qed.

Lemma nth_map_seq : forall (A : Type) (f : nat -> A) a k i d, i < k ->
  nth i (map f (seq a k)) d = f (a + i).
Proof.
  intros A f a k i d H. apply nth_error_nth. now apply nth_error_map_seq.
Qed.

Lemma splice_length : forall (A : Type) (l v : list A) a, a + length v <= length l ->
  length (splice l a v) = length l.
Proof.
  intros; unfold splice; rewrite !app_length, firstn_length, skipn_length; lia.
Qed.
Lemma splice_in : forall (A : Type) (l v : list A) a i, a + length v <= length l ->
  a <= i < a + length v -> nth_error (splice l a v) i = nth_error v (i - a).
Proof.
  intros A l v a i L H; unfold splice.
  rewrite nth_error_app2 by (rewrite firstn_length; lia).
  rewrite firstn_length, (Nat.min_l a) by lia.
  now rewrite nth_error_app1 by lia.
Qed.
Lemma splice_out : forall (A : Type) (l v : list A) a i, a + length v <= length l ->
  ~ (a <= i < a + length v) -> nth_error (splice l a v) i = nth_error l i.
Proof.
  intros A l v a i L H; unfold splice.
  destruct (le_lt_dec a i) as [G|G].
  - rewrite nth_error_app2 by (rewrite firstn_length; lia).
    rewrite firstn_length, (Nat.min_l a) by lia.
    rewrite nth_error_app2 by lia. rewrite nth_error_skipn'. f_equal; lia.
  - rewrite nth_error_app1 by (rewrite firstn_length; lia).
    now apply nth_error_firstn_lt.
Qed.

(** * C35: ranges *)
Lemma size_covers : forall n w size, range_size n w = Ok size -> n <= w * size.
Proof.
  intros n [|w] size H; [discriminate|]. unfold range_size in H.
  set (W := S w) in *. assert (W <> 0) by (unfold W; lia). clearbody W.
  assert (size = n / W + (if n mod W =? 0 then 0 else 1)) as -> by congruence.
  pose proof (Nat.div_mod n W H0). pose proof (Nat.mod_upper_bound n W H0).
  destruct (Nat.eqb_spec (n mod W) 0); nia.
Qed.

Lemma size_tight : forall n w size, range_size n w = Ok size -> 0 < n -> 0 < size /\ (size - 1) * w < n.
Proof.
  intros n [|w] size H P; [discriminate|]. unfold range_size in H.
  set (W := S w) in *. assert (W <> 0) by (unfold W; lia). clearbody W.
  assert (size = n / W + (if n mod W =? 0 then 0 else 1)) as -> by congruence.
  pose proof (Nat.div_mod n W H0). pose proof (Nat.mod_upper_bound n W H0).
  destruct (Nat.eqb_spec (n mod W) 0); nia.
Qed.

Lemma visited_prefix : forall n size k,
  flat_map (fun s => visited (work_range n size s)) (seq 0 k) = seq 0 (Nat.min (k * size) n).
Proof.
  intros n size k; induction k as [|k IH]; [reflexivity|].
  rewrite seq_S, flat_map_app, IH; simpl. rewrite app_nil_r.
  unfold visited, work_range; simpl.
  destruct (le_lt_dec (k * size) n) as [G|G].
  - replace (Nat.min (k * size) n) with (k * size) by lia.
    rewrite <- (seq_app (k * size) _ 0). f_equal; lia.
  - replace (Nat.min (k * size + size) n - k * size) with 0 by lia.
    simpl. rewrite app_nil_r. f_equal; lia.
Qed.

Lemma C35_concat : forall n w size, range_size n w = Ok size ->
  flat_map (fun s => visited (work_range n size s)) (seq 0 w) = seq 0 n.
Proof.
  intros n w size H; rewrite visited_prefix. pose proof (size_covers _ _ _ H).
  f_equal; lia.
Qed.

Lemma in_visited : forall r i, In i (visited r) <-> fst r <= i < snd r.
Proof. intros [a b] i; unfold visited; simpl; rewrite in_seq; lia. Qed.

Lemma owner_range : forall n size i s, 0 < size -> i < n ->
  (In i (visited (work_range n size s)) <-> s = i / size).
Proof.
  intros n size i s P L; rewrite in_visited; unfold work_range; simpl.
  pose proof (Nat.div_mod i size ltac:(lia)). pose proof (Nat.mod_upper_bound i size ltac:(lia)).
  split; intros Q.
  - apply (Nat.div_unique i size s (i - s * size)); nia.
  - subst s; nia.
Qed.

Lemma C35_main : forall n w size, range_size n w = Ok size ->
  (forall s i, s < w -> In i (visited (work_range n size s)) -> i < n) /\
  (forall i, i < n -> exists! s, s < w /\ In i (visited (work_range n size s))).
Proof.
  intros n w size H; split.
  - intros s i _ V; apply in_visited in V; unfold work_range in V; simpl in V; lia.
  - intros i L. pose proof (size_tight _ _ _ H ltac:(lia)) as [P _].
    pose proof (size_covers _ _ _ H) as Cv.
    exists (i / size); split.
    + split; [|now apply owner_range].
      apply Nat.div_lt_upper_bound; lia.
    + intros s [_ V]; symmetry; now apply owner_range in V.
Qed.

Lemma uword_sub_ok : forall r, (Z.of_nat (snd r) < 2 ^ 64)%Z -> fst r <= snd r ->
  uword_sub r = Z.of_nat (length (visited r)).
Proof.
  intros [a b] B L; unfold uword_sub, visited; simpl in *; rewrite seq_length.
  rewrite Z.mod_small; lia.
Qed.
Lemma uword_sub_wraps : forall r, (Z.of_nat (fst r) <= 2 ^ 63)%Z -> snd r < fst r ->
  (2 ^ 63 <= uword_sub r)%Z.
Proof.
  intros [a b] B L; unfold uword_sub; simpl in *.
  rewrite <- (Z.mod_add _ 1) by lia. rewrite Z.mod_small; lia.
Qed.

Lemma C35_busy : forall n w size, range_size n w = Ok size ->
  (all_busy n size w <->
   forall s, s < w -> fst (work_range n size s) < snd (work_range n size s) <= n).
Proof.
  intros n w size H; unfold all_busy, work_range; simpl; split; intros A s Ls; specialize (A s Ls).
  - pose proof (size_tight _ _ _ H ltac:(lia)); lia.
  - lia.
Qed.

(** * Generic receive loop *)
Section GatherFacts.
Variables St Msg : Type.
Variable recv : St -> Msg -> outcome St.
Variable key : Msg -> nat * nat.
Variables w tags : nat.

Fixpoint fold_recv (st : St) (ms : list Msg) : outcome St :=
  match ms with [] => Ok st | m :: t => let* s := recv st m in fold_recv s t end.

Lemma complete_spec : forall received, complete w tags received = true <->
  forall s t, 1 <= s < w -> t < tags -> In (s, t) received.
Proof.
  intros rc; unfold complete; rewrite forallb_forall; split.
  - intros H s t Ls Lt. specialize (H s ltac:(apply in_seq; lia)).
    rewrite forallb_forall in H. specialize (H t ltac:(apply in_seq; lia)).
    apply existsb_exists in H as [[a b] [I E]]; simpl in E.
    apply andb_true_iff in E as [E1 E2]; apply Nat.eqb_eq in E1, E2; subst; exact I.
  - intros H s Is; apply in_seq in Is; apply forallb_forall; intros t It; apply in_seq in It.
    apply existsb_exists; exists (s, t); split; [apply H; lia|simpl].
    now rewrite !Nat.eqb_refl.
Qed.

Lemma gather_all : forall arrivals received st st',
  NoDup (map key arrivals) ->
  (forall k, In k (map key arrivals) -> 1 <= fst k < w /\ snd k < tags /\ ~ In k received) ->
  (forall s t, 1 <= s < w -> t < tags -> In (s, t) received \/ In (s, t) (map key arrivals)) ->
  fold_recv st arrivals = Ok st' ->
  gather St Msg recv key w tags received st arrivals = Done st'.
Proof.
  induction arrivals as [|m t IH]; intros rc st st' ND K Cov F; simpl in *.
  - assert (complete w tags rc = true) as ->.
    { apply complete_spec; intros s u Ls Lu; destruct (Cov s u Ls Lu) as [?|[]]; auto. }
    congruence.
  - destruct (K (key m) (or_introl eq_refl)) as (K1 & K2 & K3).
    assert (complete w tags rc = false) as ->.
    { destruct (complete w tags rc) eqn:E; auto. rewrite complete_spec in E.
      exfalso; apply K3. destruct (key m) as [a b]; apply E; auto. }
    assert (in_table w tags (key m) = true) as ->.
    { unfold in_table. apply andb_true_iff; split; apply Nat.ltb_lt; lia. }
    destruct (recv st m) as [s1| |] eqn:R; simpl in F; try discriminate.
    inversion ND as [|? ? N1 N2]; subst.
    apply IH; auto.
    + intros k Ik. destruct (K k (or_intror Ik)) as (A & B & D).
      split; [exact A|split; [exact B|]].
      intros [E|I]; [subst k; now apply N1|now apply D].
    + intros s u Ls Lu; destruct (Cov s u Ls Lu) as [I|[E|I]].
      * left; right; exact I.
      * left; left; exact E.
      * right; exact I.
Qed.

Lemma gather_missing : forall arrivals received st s t st',
  1 <= s < w -> t < tags -> ~ In (s, t) received -> ~ In (s, t) (map key arrivals) ->
  gather St Msg recv key w tags received st arrivals <> Done st'.
Proof.
  induction arrivals as [|m ms IH]; intros rc st s t st' Ls Lt N1 N2; simpl in *;
    (assert (complete w tags rc = false) as ->;
     [destruct (complete w tags rc) eqn:E; auto; rewrite complete_spec in E; exfalso; apply N1; auto|]).
  - discriminate.
  - destruct (in_table w tags (key m)); [|discriminate].
    destruct (recv st m); try discriminate.
    apply (IH _ _ s t); auto. intros [E|I]; [apply N2; now left|now apply N1].
Qed.
End GatherFacts.

(** * C36: fitMpi *)
Section Fit.
Variable C : Type.
Variable zero_col : C.
Variables beta se : nat -> C.
Variables sh0 sh1 : nat -> R.
Variable qd : nat -> nat -> R.
Variables n size w : nat.
Hypothesis Hsize : range_size n w = Ok size.
Hypothesis Hbusy : all_busy n size w.
Hypothesis Hn : (Z.of_nat n < 2 ^ 64)%Z.

Notation rg s := (work_range n size s).
Definition vsh (s : nat) : R * R := (sumloop sh0 (visited (rg s)), sumloop sh1 (visited (rg s))).
Definition vqd (s : nat) : list R :=
  map (fun j => sumloop (fun i => qd i j) (visited (rg s))) (seq 0 n).

Lemma wpos : 0 < w.
Proof. destruct w; [discriminate|lia]. Qed.
Lemma npos : 0 < n.
Proof. pose proof (Hbusy 0 wpos); lia. Qed.
Lemma spos : 0 < size.
Proof. pose proof (size_tight _ _ _ Hsize npos); lia. Qed.
Lemma rg_bounds : forall s, s < w -> fst (rg s) < snd (rg s) <= n.
Proof. intros s Ls; apply (C35_busy _ _ _ Hsize); auto. Qed.

Lemma fill_range_length : forall r f, length (fill_range C zero_col n r f) = n.
Proof. intros; unfold fill_range; now rewrite map_length, seq_length. Qed.

Lemma subcols_fill : forall r f, fst r <= snd r -> snd r <= n ->
  subcols (fill_range C zero_col n r f) r = map f (visited r).
Proof.
  intros [a b] f L Ln; simpl in *; unfold subcols, visited; simpl.
  apply list_ext.
  - rewrite firstn_length, skipn_length, fill_range_length, map_length, seq_length; lia.
  - rewrite firstn_length, skipn_length, fill_range_length; intros i Li.
    rewrite nth_error_firstn_lt by lia. rewrite nth_error_skipn'.
    unfold fill_range; rewrite nth_error_map_seq by lia.
    rewrite nth_error_map_seq by lia. simpl.
    destruct (Nat.leb_spec a (a + i)); [|lia].
    destruct (Nat.ltb_spec (a + i) b); [|lia]. reflexivity.
Qed.

Lemma fit_core_ok : forall stored s, s < w ->
  fit_core C zero_col beta se sh0 sh1 qd n stored (rg s) =
  Ok (mkPart (fill_range C zero_col n (rg s) beta) (fill_range C zero_col n (rg s) se) (vsh s) (vqd s)).
Proof.
  intros stored s Ls; unfold fit_core.
  pose proof (rg_bounds s Ls) as B.
  assert ((uword_sub (rg s) =? Z.of_nat (snd (rg s) - fst (rg s)))%Z = true) as ->.
  { rewrite uword_sub_ok by lia. unfold visited. rewrite seq_length. apply Z.eqb_refl. }
  simpl. rewrite andb_false_r. reflexivity.
Qed.

Definition sends (s : nat) : list (fmsg C) :=
  [FBetas s (map beta (visited (rg s))); FBetasSE s (map se (visited (rg s)));
   FSHat s (vsh s); FQDiag s (vqd s)].

Lemma worker_sends_ok : forall stored s, s < w ->
  worker_sends C zero_col beta se sh0 sh1 qd n size stored s = Ok (sends s).
Proof.
  intros stored s Ls; unfold worker_sends. rewrite fit_core_ok by auto.
  cbn [obind pbetas pse pshat pqdiag].
  pose proof (rg_bounds s Ls) as B.
  assert (cols_ok (rg s) n = true) as ->.
  { unfold cols_ok; apply andb_true_iff; split; [apply Nat.ltb_lt|apply Nat.leb_le]; lia. }
  rewrite !subcols_fill by lia. reflexivity.
Qed.

Lemma collect_sends : forall stored l, (forall s, In s l -> s < w) ->
  collect (map (worker_sends C zero_col beta se sh0 sh1 qd n size stored) l) = Ok (map sends l).
Proof.
  intros stored l; induction l as [|s t IH]; intros B; [reflexivity|]; simpl.
  rewrite worker_sends_ok by (apply B; now left). simpl.
  rewrite IH by (intros; apply B; now right). reflexivity.
Qed.

Definition genuine (m : fmsg C) : Prop := exists s, 1 <= s < w /\ In m (sends s).

Definition holds (A : Type) (l : list A) (i : nat) (v : A) (m : fmsg C) (Q : list (fmsg C)) : Prop :=
  nth_error l i = Some v \/ In m Q.

Definition inv (st : master C) (Q : list (fmsg C)) : Prop :=
  (length (mbetas st) = n /\ length (mse st) = n /\ length (shat_all st) = w /\
   length (qdiag_all st) = w) /\
  (forall i, i < n -> holds C (mbetas st) i (beta i)
     (FBetas (i / size) (map beta (visited (rg (i / size))))) Q) /\
  (forall i, i < n -> holds C (mse st) i (se i)
     (FBetasSE (i / size) (map se (visited (rg (i / size))))) Q) /\
  (forall s, s < w -> holds _ (shat_all st) s (vsh s) (FSHat s (vsh s)) Q) /\
  (forall s, s < w -> holds _ (qdiag_all st) s (vqd s) (FQDiag s (vqd s)) Q).

Lemma range_splice : forall (f : nat -> C) l s i v Q (mk : nat -> list C -> fmsg C),
  s < w -> length l = n -> i < n ->
  (i / size = s -> v = f i) ->
  holds C l i v (mk (i / size) (map f (visited (rg (i / size))))) (mk s (map f (visited (rg s))) :: Q) ->
  (forall a b c d, mk a c = mk b d -> a = b) ->
  holds C (splice l (fst (rg s)) (map f (visited (rg s)))) i v
    (mk (i / size) (map f (visited (rg (i / size))))) Q.
Proof.
  intros f l s i v Q mk Ls Ll Li Ev H Inj.
  pose proof (rg_bounds s Ls) as B.
  assert (Lm : length (map f (visited (rg s))) = snd (rg s) - fst (rg s))
    by (unfold visited; rewrite map_length, seq_length; lia).
  pose proof spos as SP.
  destruct (Nat.eq_dec s (i / size)) as [E|E].
  - left. assert (V : In i (visited (rg s))) by (apply owner_range; auto).
    apply in_visited in V.
    rewrite splice_in by (rewrite ?Lm; lia).
    unfold visited. rewrite nth_error_map_seq by lia.
    f_equal. rewrite Ev by auto. f_equal; lia.
  - destruct H as [H|[H|H]].
    + left. rewrite splice_out; [exact H|rewrite Lm; lia|].
      rewrite Lm. intros G. apply E. apply (owner_range n size i s); auto. apply in_visited; lia.
    + exfalso; apply E; eapply Inj; exact H.
    + right; exact H.
Qed.

Lemma holds_skip : forall (A : Type) l i (v : A) m m0 Q, m <> m0 ->
  holds A l i v m (m0 :: Q) -> holds A l i v m Q.
Proof.
  intros A l i v m m0 Q N [H|[H|H]]; [left; exact H|congruence|right; exact H].
Qed.

Lemma set_holds : forall (A : Type) l s i (v : nat -> A) Q (mk : nat -> A -> fmsg C),
  s < w -> i < w -> length l = w ->
  (forall a b c d, mk a c = mk b d -> a = b) ->
  holds A l i (v i) (mk i (v i)) (mk s (v s) :: Q) ->
  holds A (setnth l s (v s)) i (v i) (mk i (v i)) Q.
Proof.
  intros A l s i v Q mk Ls Li Ll Inj H; unfold setnth.
  destruct (Nat.eq_dec i s) as [->|N].
  - left. rewrite splice_in by (simpl; lia). now rewrite Nat.sub_diag.
  - destruct H as [H|[H|H]].
    + left; rewrite splice_out; [exact H|simpl; lia|simpl; lia].
    + exfalso; apply N; symmetry; eapply Inj; exact H.
    + right; exact H.
Qed.

Lemma step_inv : forall st m Q, genuine m -> inv st (m :: Q) ->
  exists st', frecv C n size st m = Ok st' /\ inv st' Q.
Proof.
  intros st m Q (s & Ls & Im) ((L1 & L2 & L3 & L4) & I1 & I2 & I3 & I4).
  pose proof (rg_bounds s ltac:(lia)) as B.
  assert (Ck : forall f : nat -> C, cols_ok (rg s) n &&
    (length (map f (visited (rg s))) =? snd (rg s) - fst (rg s)) = true).
  { intros f; unfold cols_ok, visited; rewrite map_length, seq_length.
    rewrite Nat.eqb_refl, andb_true_r. apply andb_true_iff; split;
      [apply Nat.ltb_lt|apply Nat.leb_le]; lia. }
  assert (Sl : forall (f : nat -> C) l, length l = n ->
    length (splice l (fst (rg s)) (map f (visited (rg s)))) = n).
  { intros f l Ll; rewrite splice_length; auto; unfold visited; rewrite map_length, seq_length; lia. }
  destruct Im as [<-|[<-|[<-|[<-|[]]]]]; unfold frecv.
  - rewrite Ck. eexists; split; [reflexivity|]. unfold inv; cbn [mbetas mse shat_all qdiag_all].
    split; [rewrite Sl by auto; auto|].
    split; [|split; [|split]].
    + intros i Li. apply range_splice with (mk := @FBetas C); auto; [lia|].
      intros a b c d E; now injection E.
    + intros i Li; eapply holds_skip; [|apply (I2 i Li)]; discriminate.
    + intros i Li; eapply holds_skip; [|apply (I3 i Li)]; discriminate.
    + intros i Li; eapply holds_skip; [|apply (I4 i Li)]; discriminate.
  - rewrite Ck. eexists; split; [reflexivity|]. unfold inv; cbn [mbetas mse shat_all qdiag_all].
    split; [rewrite Sl by auto; auto|].
    split; [|split; [|split]].
    + intros i Li; eapply holds_skip; [|apply (I1 i Li)]; discriminate.
    + intros i Li. apply range_splice with (mk := @FBetasSE C); auto; [lia|].
      intros a b c d E; now injection E.
    + intros i Li; eapply holds_skip; [|apply (I3 i Li)]; discriminate.
    + intros i Li; eapply holds_skip; [|apply (I4 i Li)]; discriminate.
  - eexists; split; [reflexivity|]. unfold inv; cbn [mbetas mse shat_all qdiag_all].
    split; [unfold setnth; rewrite splice_length; simpl; auto; lia|].
    split; [|split; [|split]].
    + intros i Li; eapply holds_skip; [|apply (I1 i Li)]; discriminate.
    + intros i Li; eapply holds_skip; [|apply (I2 i Li)]; discriminate.
    + intros i Li. apply (set_holds (R * R) (shat_all st) s i vsh Q (@FSHat C)); auto; [lia|].
      intros a b c d E; now injection E.
    + intros i Li; eapply holds_skip; [|apply (I4 i Li)]; discriminate.
  - eexists; split; [reflexivity|]. unfold inv; cbn [mbetas mse shat_all qdiag_all].
    split; [unfold setnth; rewrite splice_length; simpl; auto; lia|].
    split; [|split; [|split]].
    + intros i Li; eapply holds_skip; [|apply (I1 i Li)]; discriminate.
    + intros i Li; eapply holds_skip; [|apply (I2 i Li)]; discriminate.
    + intros i Li; eapply holds_skip; [|apply (I3 i Li)]; discriminate.
    + intros i Li. apply (set_holds (list R) (qdiag_all st) s i vqd Q (@FQDiag C)); auto; [lia|].
      intros a b c d E; now injection E.
Qed.

Lemma fold_inv : forall Q st, (forall m, In m Q -> genuine m) -> inv st Q ->
  exists st', fold_recv (master C) (fmsg C) (frecv C n size) st Q = Ok st' /\ inv st' [].
Proof.
  induction Q as [|m Q IH]; intros st G I; [exists st; split; [reflexivity|exact I]|].
  destruct (step_inv st m Q (G m (or_introl eq_refl)) I) as (s1 & E & I1).
  destruct (IH s1) as (s2 & E2 & I2); auto.
  { intros; apply G; now right. }
  exists s2; split; [simpl; rewrite E; exact E2|exact I2].
Qed.

Lemma flat_sum : forall f, lsum (map (fun s => sumloop f (visited (rg s))) (seq 0 w)) = bigsum n f.
Proof.
  intros f. rewrite bigsum_seq, <- (C35_concat _ _ _ Hsize).
  generalize (seq 0 w) as l. intros l; induction l as [|s t IH]; simpl; [reflexivity|].
  rewrite sumloop_app, <- IH. reflexivity.
Qed.

Lemma keys_sends : forall l, map (fkey C) (flat_map sends l) =
  flat_map (fun s => [(s, 0); (s, 1); (s, 2); (s, 3)]) l.
Proof.
  intros l; induction l as [|s t IH]; [reflexivity|].
  simpl. rewrite IH. reflexivity.
Qed.
Lemma keys_NoDup : forall l, NoDup l -> NoDup (flat_map (fun s : nat => [(s, 0); (s, 1); (s, 2); (s, 3)]) l).
Proof.
  intros l ND; induction ND as [|s t N ND IH]; [constructor|].
  assert (F : forall k, ~ In (s, k) (flat_map (fun s : nat => [(s, 0); (s, 1); (s, 2); (s, 3)]) t)).
  { intros k I; apply in_flat_map in I as (x & Ix & Hx). simpl in Hx.
    destruct Hx as [E|[E|[E|[E|[]]]]]; injection E; intros; subst; auto. }
  simpl.
  repeat (constructor; [simpl; intros Q; repeat destruct Q as [Q|Q];
    try discriminate; try (now apply (F _ Q))|]). exact IH.
Qed.

Lemma C36_main : forall stored arrivals,
  Permutation arrivals (concat (map sends (seq 1 (w - 1)))) ->
  fit_mpi C zero_col beta se sh0 sh1 qd n size w stored arrivals =
  Done (serial_result n beta se sh0 sh1 qd).
Proof.
  intros stored arr P. rewrite <- flat_map_concat_map in P.
  unfold fit_mpi. rewrite fit_core_ok by apply wpos.
  set (st0 := master_start C n w _).
  assert (Inm : forall m, In m arr <-> exists s, 1 <= s < w /\ In m (sends s)).
  { intros m; split; intros H.
    - apply (Permutation_in _ P) in H. apply in_flat_map in H as (s & Is & H).
      apply in_seq in Is. exists s; split; [lia|exact H].
    - destruct H as (s & Ls & H). apply (Permutation_in _ (Permutation_sym P)).
      apply in_flat_map. exists s; split; [apply in_seq; lia|exact H]. }
  assert (I0 : inv st0 arr).
  { pose proof wpos. pose proof spos as SP.
    assert (W : forall i, i < n -> i / size < w).
    { intros i Li. pose proof (size_covers _ _ _ Hsize). apply Nat.div_lt_upper_bound; lia. }
    assert (Fl : forall (f : nat -> C) (mk : nat -> list C -> fmsg C) i, i < n ->
      (forall s, In (mk s (map f (visited (rg s)))) (sends s)) ->
      holds C (fill_range C zero_col n (rg 0) f) i (f i)
        (mk (i / size) (map f (visited (rg (i / size))))) arr).
    { intros f mk i Li Hs. destruct (i / size) as [|o] eqn:Eo.
      - left. unfold fill_range. rewrite nth_error_map_seq by auto. simpl (0 + i).
        assert (V : In i (visited (rg 0))) by (apply owner_range; auto).
        apply in_visited in V.
        destruct (Nat.leb_spec (fst (rg 0)) i); [|lia].
        destruct (Nat.ltb_spec i (snd (rg 0))); [|lia]. reflexivity.
      - right. apply Inm. exists (S o). split; [|apply Hs]. specialize (W i Li). lia. }
    unfold st0, inv, master_start; cbn [mbetas mse shat_all qdiag_all pbetas pse pshat pqdiag].
    split; [|split; [|split; [|split]]].
    - rewrite !fill_range_length; simpl; rewrite !repeat_length; lia.
    - intros i Li; apply (Fl beta (@FBetas C)); auto. intros s; simpl; auto.
    - intros i Li; apply (Fl se (@FBetasSE C)); auto. intros s; simpl; auto.
    - intros [|s] Ls; [left; reflexivity|right; apply Inm; exists (S s); split; [lia|simpl; auto]].
    - intros [|s] Ls; [left; reflexivity|right; apply Inm; exists (S s); split; [lia|simpl; auto 6]]. }
  destruct (fold_inv arr st0 (fun m H => proj1 (Inm m) H) I0) as (st' & F & IF).
  assert (KP : Permutation (map (fkey C) arr)
    (flat_map (fun s => [(s, 0); (s, 1); (s, 2); (s, 3)]) (seq 1 (w - 1)))).
  { rewrite <- keys_sends. now apply Permutation_map. }
  rewrite (gather_all _ _ _ _ _ _ arr [] st0 st'); auto.
  - f_equal. destruct IF as ((L1 & L2 & L3 & L4) & J1 & J2 & J3 & J4).
    assert (E1 : mbetas st' = map beta (seq 0 n)).
    { apply list_ext; rewrite L1; [now rewrite map_length, seq_length|].
      intros i Li. destruct (J1 i Li) as [->|[]]. now rewrite nth_error_map_seq. }
    assert (E2 : mse st' = map se (seq 0 n)).
    { apply list_ext; rewrite L2; [now rewrite map_length, seq_length|].
      intros i Li. destruct (J2 i Li) as [->|[]]. now rewrite nth_error_map_seq. }
    assert (E3 : shat_all st' = map vsh (seq 0 w)).
    { apply list_ext; rewrite L3; [now rewrite map_length, seq_length|].
      intros i Li. destruct (J3 i Li) as [->|[]]. now rewrite nth_error_map_seq. }
    assert (E4 : qdiag_all st' = map vqd (seq 0 w)).
    { apply list_ext; rewrite L4; [now rewrite map_length, seq_length|].
      intros i Li. destruct (J4 i Li) as [->|[]]. now rewrite nth_error_map_seq. }
    unfold finish, serial_result. rewrite E1, E2, E3, E4, !map_map.
    unfold vsh; cbn [fst snd]. rewrite !flat_sum. f_equal.
    apply map_ext_in. intros j Ij. apply in_seq in Ij. rewrite map_map.
    rewrite <- (flat_sum (fun i => qd i j)). f_equal. apply map_ext. intros s.
    unfold vqd. rewrite nth_map_seq by lia. reflexivity.
  - apply (Permutation_NoDup (Permutation_sym KP)). apply keys_NoDup, seq_NoDup.
  - intros k Ik. apply (Permutation_in _ KP) in Ik. apply in_flat_map in Ik as (s & Is & Hk).
    apply in_seq in Is. simpl in Hk.
    destruct Hk as [<-|[<-|[<-|[<-|[]]]]]; simpl; (split; [lia|split; [lia|intros []]]).
  - intros s t Ls Lt; right. apply (Permutation_in _ (Permutation_sym KP)).
    apply in_flat_map; exists s; split; [apply in_seq; lia|].
    destruct t as [|[|[|[|t]]]]; simpl; auto; lia.
Qed.
End Fit.

Lemma C36_full : forall C (zero_col : C) beta se sh0 sh1 qd n size w stored msgs arrivals,
  (Z.of_nat n < 2 ^ 64)%Z -> range_size n w = Ok size -> all_busy n size w ->
  collect (map (worker_sends C zero_col beta se sh0 sh1 qd n size stored) (seq 1 (w - 1))) = Ok msgs ->
  Permutation arrivals (concat msgs) ->
  fit_mpi C zero_col beta se sh0 sh1 qd n size w stored arrivals =
  Done (serial_result n beta se sh0 sh1 qd).
Proof.
  intros C zc beta se sh0 sh1 qd n size w stored msgs arr Hn Hs Hb Hc P.
  rewrite (collect_sends C zc beta se sh0 sh1 qd n size w Hs Hb Hn) in Hc.
  2:{ intros s Is; apply in_seq in Is; lia. }
  assert (msgs = map (sends C beta se sh0 sh1 qd n size) (seq 1 (w - 1))) as -> by congruence.
  now apply C36_main.
Qed.
Lemma C36_sends : forall C (zero_col : C) beta se sh0 sh1 qd n size w stored,
  (Z.of_nat n < 2 ^ 64)%Z -> range_size n w = Ok size -> all_busy n size w ->
  exists msgs,
  collect (map (worker_sends C zero_col beta se sh0 sh1 qd n size stored) (seq 1 (w - 1))) = Ok msgs.
Proof.
  intros C zc beta se sh0 sh1 qd n size w stored Hn Hs Hb.
  eexists. apply (collect_sends C zc beta se sh0 sh1 qd n size w Hs Hb Hn).
  intros s Is; apply in_seq in Is; lia.
Qed.

Lemma C36_blocks : forall C (zero_col : C) beta se sh0 sh1 qd n size w stored s,
  range_size n w = Ok size -> 1 <= s < w -> n <= s * size ->
  worker_sends C zero_col beta se sh0 sh1 qd n size stored s = Throw /\
  forall arrivals r, (forall m, In m arrivals -> fst (fkey C m) <> s) ->
    fit_mpi C zero_col beta se sh0 sh1 qd n size w stored arrivals <> Done r.
Proof.
  intros C zc beta se sh0 sh1 qd n size w stored s Hs Ls Le. split.
  - unfold worker_sends, fit_core.
    destruct (stored && _); [reflexivity|]. cbn [obind].
    assert (cols_ok (work_range n size s) n = false) as ->; [|reflexivity].
    unfold cols_ok, work_range; simpl. apply andb_false_iff; left. apply Nat.ltb_ge; lia.
  - intros arr r NS. unfold fit_mpi.
    destruct (fit_core _ _ _ _ _ _ _ _ _ _) as [p| |]; try discriminate.
    destruct (gather _ _ _ _ _ _ _ _ _) as [st| |] eqn:G; try discriminate.
    exfalso. apply (gather_missing _ _ _ _ _ _ arr [] (master_start C n w p) s 0 st) in G; auto.
    intros I; apply in_map_iff in I as (m & E & I). apply (NS m I). now rewrite E.
Qed.

(** * The summing loops and C37 *)
Section Sum.
Variable b : nat -> R.
Variables n size w : nat.
Hypothesis Hsize : range_size n w = Ok size.
Notation rg s := (work_range n size s).

Lemma padded_length : forall s, length (padded b n size s) = n.
Proof. intros; unfold padded; now rewrite map_length, seq_length. Qed.
Lemma padded_nth : forall s i, i < n ->
  nth i (padded b n size s) 0%R = if Nat.eqb (i / size) s then b i else 0%R.
Proof.
  intros s i Li; unfold padded.
  pose proof (size_tight _ _ _ Hsize ltac:(lia)) as [SP _].
  rewrite nth_map_seq by lia. simpl (0 + i).
  pose proof (owner_range n size i s SP Li) as O. rewrite in_visited in O.
  destruct (Nat.eqb_spec (i / size) s) as [E|E].
  - symmetry in E; apply O in E.
    destruct (Nat.leb_spec (fst (rg s)) i); [|lia].
    destruct (Nat.ltb_spec i (snd (rg s))); [|lia]. reflexivity.
  - destruct (Nat.leb_spec (fst (rg s)) i); cbn [andb]; auto.
    destruct (Nat.ltb_spec i (snd (rg s))); auto. exfalso; apply E; symmetry; apply O; lia.
Qed.

Lemma vadd_length : forall u v, length u = length v -> length (vadd u v) = length u.
Proof. intros; unfold vadd; rewrite map_length, combine_length; lia. Qed.
Lemma vadd_nth : forall u v i, length u = length v -> i < length u ->
  nth i (vadd u v) 0%R = (nth i u 0 + nth i v 0)%R.
Proof.
  induction u as [|x t IH]; intros [|y v] i L Li; simpl in *; try lia.
  destruct i as [|i]; [reflexivity|]. apply IH; lia.
Qed.

Lemma fold_srecv : forall (ms : list (nat * list R)) (st : list R), length st = n ->
  (forall m, In m ms -> length (snd m) = n) ->
  exists st', fold_recv (list R) (nat * list R) srecv st ms = Ok st' /\ length st' = n /\
  forall i, i < n -> nth i st' 0%R = (nth i st 0 + lsum (map (fun m => nth i (snd m) 0) ms))%R.
Proof.
  induction ms as [|m t IH]; intros st L Lm.
  - exists st; split; [reflexivity|split; [exact L|]]. intros; simpl; lra.
  - assert (Lh : length (snd m) = n) by (apply Lm; now left).
    destruct (IH (vadd st (snd m))) as (st' & F & L' & N).
    + rewrite vadd_length; congruence.
    + intros; apply Lm; now right.
    + exists st'; split; [exact F|split; [exact L'|]].
      intros i Li. rewrite N by auto. rewrite vadd_nth by congruence. simpl. lra.
Qed.

Lemma sum_main : forall arrivals,
  Permutation arrivals (map (fun s => (s, padded b n size s)) (seq 1 (w - 1))) ->
  sum_mpi b n size w arrivals = Done (map b (seq 0 n)).
Proof.
  intros arr P. unfold sum_mpi.
  destruct (fold_srecv arr (padded b n size 0) (padded_length 0)) as (st' & F & L & N).
  { intros m Im. apply (Permutation_in _ P) in Im. apply in_map_iff in Im as (s & <- & _).
    apply padded_length. }
  assert (KP : Permutation (map (fun m : nat * list R => (fst m, 0)) arr)
                 (map (fun s => (s, 0)) (seq 1 (w - 1)))).
  { apply (Permutation_map (fun m : nat * list R => (fst m, 0))) in P.
    rewrite map_map in P; exact P. }
  rewrite (gather_all _ _ _ _ _ _ arr [] _ st'); auto.
  - f_equal. apply (nth_ext _ _ 0%R 0%R).
    { now rewrite L, map_length, seq_length. }
    rewrite L; intros i Li. rewrite N by auto.
    set (g := fun s => nth i (padded b n size s) 0%R).
    replace (lsum (map (fun m : nat * list R => nth i (snd m) 0%R) arr)) with (lsum (map g (seq 1 (w - 1)))).
    2:{ symmetry.
        apply (Permutation_map (fun m : nat * list R => nth i (snd m) 0%R)) in P.
        rewrite map_map in P; apply lsum_perm; exact P. }
    assert (Wp : 0 < w) by (destruct w; [discriminate|lia]).
    assert (E : (nth i (padded b n size 0) 0 + lsum (map g (seq 1 (w - 1))))%R = bigsum w g).
    { rewrite bigsum_seq, sumloop_lsum. destruct w as [|w']; [lia|].
      simpl. now rewrite Nat.sub_0_r. }
    rewrite E. pose proof (size_tight _ _ _ Hsize ltac:(lia)) as [SP _].
    assert (Ow : i / size < w).
    { pose proof (size_covers _ _ _ Hsize). apply Nat.div_lt_upper_bound; lia. }
    rewrite (bigsum_single w g (i / size)); auto.
    + unfold g. rewrite padded_nth, Nat.eqb_refl by auto.
      now rewrite nth_map_seq by lia.
    + intros s _ Ns. unfold g. rewrite padded_nth by auto.
      destruct (Nat.eqb_spec (i / size) s); congruence.
  - apply (Permutation_NoDup (Permutation_sym KP)).
    apply FinFun.Injective_map_NoDup; [intros x y E; congruence|apply seq_NoDup].
  - intros k Ik. apply (Permutation_in _ KP) in Ik. apply in_map_iff in Ik as (s & <- & Is).
    apply in_seq in Is. simpl. split; [lia|split; [lia|intros []]].
  - intros s t Ls Lt; right. apply (Permutation_in _ (Permutation_sym KP)).
    apply in_map_iff; exists s; split; [f_equal; lia|apply in_seq; lia].
Qed.

Lemma fold_max : forall (f : nat -> R) l a o, (forall s, In s l -> s <> o -> f s = 0%R) ->
  NoDup l -> (In o l -> True) ->
  (In o l -> a = 0%R) ->
  fold_left (fun acc s => Rmax acc (f s)) l a =
  match l with [] => a | _ => if in_dec Nat.eq_dec o l then Rmax 0 (f o) else Rmax a 0 end.
Proof.
  intros f l; induction l as [|x t IH]; intros a o Z ND _ A; [reflexivity|].
  inversion ND as [|? ? N1 N2]; subst. cbn [fold_left].
  rewrite (IH _ o); [|intros; apply Z; simpl; auto|auto|auto|].
  - destruct (Nat.eq_dec x o) as [->|Nx].
    + rewrite (A (or_introl eq_refl)).
      destruct (in_dec Nat.eq_dec o (o :: t)) as [_|Q]; [|exfalso; apply Q; now left].
      destruct t as [|y u]; [reflexivity|].
      destruct (in_dec Nat.eq_dec o (y :: u)) as [Q|_]; [contradiction|].
      unfold Rmax; repeat destruct (Rle_dec _ _); lra.
    + rewrite (Z x (or_introl eq_refl) Nx).
      destruct (in_dec Nat.eq_dec o (x :: t)) as [Q|Q].
      * destruct Q as [Q|Q]; [congruence|]. rewrite (A (or_intror Q)).
        destruct t as [|y u]; [destruct Q|].
        destruct (in_dec Nat.eq_dec o (y :: u)); [reflexivity|contradiction].
      * destruct t as [|y u]; [reflexivity|].
        destruct (in_dec Nat.eq_dec o (y :: u)) as [Q'|_]; [exfalso; apply Q; now right|].
        unfold Rmax; repeat destruct (Rle_dec _ _); lra.
  - intros Io. rewrite (A (or_intror Io)).
    rewrite (Z x (or_introl eq_refl)); [apply Rmax_left; lra|].
    intros ->; contradiction.
Qed.

Lemma max_main : 2 <= w -> max_mpi b n size w = map (fun i => Rmax (b i) 0) (seq 0 n).
Proof.
  intros W2. unfold max_mpi. apply map_ext_in. intros i Ii. apply in_seq in Ii.
  rewrite padded_nth by lia.
  rewrite (fold_max _ _ _ (i / size)).
  - destruct (seq 1 (w - 1)) as [|x t] eqn:Es.
    { apply (f_equal (@length nat)) in Es. rewrite seq_length in Es. simpl in Es; lia. }
    rewrite <- Es.
    destruct (in_dec Nat.eq_dec (i / size) (seq 1 (w - 1))) as [Q|Q].
    + rewrite padded_nth, Nat.eqb_refl by lia. apply Rmax_comm.
    + destruct (Nat.eqb_spec (i / size) 0) as [E|E]; [reflexivity|].
      exfalso; apply Q; apply in_seq.
      pose proof (size_tight _ _ _ Hsize ltac:(lia)) as [SP _].
      pose proof (size_covers _ _ _ Hsize).
      assert (i / size < w) by (apply Nat.div_lt_upper_bound; lia). lia.
  - intros s _ Ns. rewrite padded_nth by lia. destruct (Nat.eqb_spec (i / size) s); congruence.
  - apply seq_NoDup.
  - auto.
  - intros Q; apply in_seq in Q. destruct (Nat.eqb_spec (i / size) 0); [lia|reflexivity].
Qed.

Lemma max_one : w = 1 -> max_mpi b n size w = map b (seq 0 n).
Proof.
  intros W1. unfold max_mpi. apply map_ext_in. intros i Ii. apply in_seq in Ii.
  rewrite W1; simpl. rewrite padded_nth by lia.
  pose proof (size_tight _ _ _ Hsize ltac:(lia)) as [SP _].
  pose proof (size_covers _ _ _ Hsize).
  assert (i / size < w) by (apply Nat.div_lt_upper_bound; lia).
  destruct (Nat.eqb_spec (i / size) 0); [reflexivity|lia].
Qed.

Lemma map_seq_eq : forall f g : nat -> R, map f (seq 0 n) = map g (seq 0 n) <-> forall i, i < n -> f i = g i.
Proof.
  intros f g; split; intros H.
  - intros i Li. apply (f_equal (fun l => nth_error l i)) in H.
    rewrite !nth_error_map_seq in H by auto. simpl in H; congruence.
  - apply map_ext_in; intros i Ii; apply in_seq in Ii; apply H; lia.
Qed.

Lemma C37_exact : 2 <= w ->
  (max_mpi b n size w = map b (seq 0 n) <-> forall i, i < n -> (0 <= b i)%R).
Proof.
  intros W2. rewrite max_main, map_seq_eq by auto. split; intros H i Li.
  - rewrite <- H by auto. apply Rmax_r.
  - apply Rmax_left; auto.
Qed.
End Sum.

(** * C38: the distributed product *)
Lemma mm_length : forall m k n a b, length (mm m k n a b) = m * n.
Proof.
  intros m k n a b; unfold mm.
  enough (E : forall l, length (flat_map (fun j => map (fun i =>
    bigsum k (fun l => (at_ m a i l * at_ k b l j)%R)) (seq 0 m)) l) = m * length l)
    by (rewrite E, seq_length; lia).
  intros l; induction l as [|x t IH]; simpl; [lia|].
  rewrite app_length, map_length, seq_length, IH; lia.
Qed.
Lemma flat_map_nth : forall (g : nat -> nat -> R) m n a i j, i < m -> j < n ->
  nth (j * m + i) (flat_map (fun j => map (g j) (seq 0 m)) (seq a n)) 0%R = g (a + j) i.
Proof.
  intros g m n; induction n as [|n IH]; intros a i j Li Lj; [lia|].
  cbn [seq flat_map]. destruct j as [|j].
  - rewrite app_nth1 by (rewrite map_length, seq_length; lia).
    rewrite nth_map_seq by lia. f_equal; lia.
  - rewrite app_nth2 by (rewrite map_length, seq_length; nia).
    rewrite map_length, seq_length.
    replace (S j * m + i - m) with (j * m + i) by nia.
    rewrite IH by lia. f_equal; lia.
Qed.
Lemma mm_at : forall m k n a b i j, i < m -> j < n ->
  at_ m (mm m k n a b) i j = bigsum k (fun l => (at_ m a i l * at_ k b l j)%R).
Proof.
  intros; unfold at_ at 1, mm.
  apply (flat_map_nth (fun j i => bigsum k (fun l => (at_ m a i l * at_ k b l j)%R)) m n 0); auto.
Qed.

Lemma fold_add : forall l a, fold_left Nat.add l a = a + total l.
Proof. induction l as [|x t IH]; intros a; simpl; [lia|]; rewrite IH; lia. Qed.
Lemma total_map_mul : forall c l, total (map (fun k => c * k) l) = c * total l.
Proof. induction l; simpl; lia. Qed.
Lemma disp_spec : forall rows pi q, disp (counts rows pi) q = nth pi rows 0 * total (firstn q rows).
Proof.
  intros; unfold disp, counts. rewrite fold_add, firstn_map, total_map_mul; lia.
Qed.
Lemma counts_nth : forall rows pi q, q < length rows ->
  nth q (counts rows pi) 0 = nth pi rows 0 * nth q rows 0.
Proof.
  intros; unfold counts.
  rewrite (nth_indep _ 0 (nth pi rows 0 * 0)) by now rewrite map_length.
  now rewrite (map_nth (fun k => nth pi rows 0 * k)).
Qed.
Lemma total_firstn : forall rows q, q < length rows ->
  total (firstn q rows) + nth q rows 0 <= total rows.
Proof.
  induction rows as [|r t IH]; intros q L; simpl in L; [lia|].
  destruct q as [|q]; simpl; [lia|]. specialize (IH q ltac:(lia)). lia.
Qed.
Lemma nth_firstn_skipn : forall (l : list R) k d i, i < k ->
  nth i (firstn k (skipn d l)) 0%R = nth (d + i) l 0%R.
Proof.
  intros l k d i L.
  assert (F : forall (u : list R) k i, i < k -> nth i (firstn k u) 0%R = nth i u 0%R).
  { induction u as [|x u IH]; intros [|k'] [|i'] L'; simpl; auto; try lia. apply IH; lia. }
  rewrite F by auto. revert l; induction d as [|d IH]; intros [|x l]; simpl; auto.
  destruct i; reflexivity.
Qed.

Lemma stacked_sum : forall rows Bs (f : nat -> R) j, length Bs = length rows ->
  bigsum (total rows) (fun k => (f k * stacked rows Bs k j)%R) =
  bigsum (length rows) (fun q => bigsum (nth q rows 0) (fun l =>
    (f (total (firstn q rows) + l)%nat * at_ (nth q rows 0%nat) (nth q Bs []) l j)%R)).
Proof.
  induction rows as [|r t IH]; intros [|B Bt] f j L; simpl in L; try discriminate; [reflexivity|].
  cbn [total fold_right]. fold (total t).
  rewrite bigsum_app. change (length (r :: t)) with (1 + length t). rewrite bigsum_app.
  f_equal.
  - simpl. rewrite Rplus_0_l. apply bigsum_ext. intros l Ll.
    destruct (Nat.ltb_spec l r); [reflexivity|lia].
  - transitivity (bigsum (total t) (fun k => (f (r + k)%nat * stacked t Bt k j)%R)).
    + apply bigsum_ext. intros k Lk. cbn [stacked].
      destruct (Nat.ltb_spec (r + k) r); [lia|]. do 2 f_equal; lia.
    + rewrite (IH Bt (fun k => f (r + k)) j) by lia.
      apply bigsum_ext; intros q Lq. cbn [Nat.add nth firstn total fold_right].
      apply bigsum_ext; intros l Ll. fold (total (firstn q t)). do 2 f_equal; lia.
Qed.

Lemma reduce_sum_spec : forall len cs, (forall c, In c cs -> length c = len) ->
  length (reduce_sum len cs) = len /\
  forall i, i < len -> nth i (reduce_sum len cs) 0%R = lsum (map (fun c => nth i c 0%R) cs).
Proof.
  intros len cs; induction cs as [|c t IH]; intros L; simpl.
  - split; [apply repeat_length|]. intros; now rewrite nth_repeat.
  - destruct IH as [L1 N1]; [intros; apply L; now right|].
    assert (Lc : length c = len) by (apply L; now left).
    split; [rewrite vadd_length; congruence|].
    intros i Li. rewrite vadd_nth by congruence. now rewrite N1.
Qed.

Lemma collect_ok : forall (A : Type) (f : nat -> outcome A) (g : nat -> A) l,
  (forall q, In q l -> f q = Ok (g q)) -> collect (map f l) = Ok (map g l).
Proof.
  intros A f g l; induction l as [|q t IH]; intros H; [reflexivity|]; simpl.
  rewrite H by now left. simpl. rewrite IH by (intros; apply H; now right). reflexivity.
Qed.

Lemma C38_main : forall rows n As Bs pi, distributed rows n As Bs -> pi < length rows ->
  counts_fit rows pi = true ->
  exists c, mat_mul_mpi rows n As Bs pi = Ok c /\ length c = nth pi rows 0 * n /\
  forall i j, i < nth pi rows 0 -> j < n ->
    at_ (nth pi rows 0) c i j =
    bigsum (total rows) (fun k => (at_ (nth pi rows 0%nat) (nth pi As []) i k * stacked rows Bs k j)%R).
Proof.
  intros rows n As Bs pi (LA & LB & D) Lp CF.
  set (m := nth pi rows 0). destruct (D pi Lp) as [LAp _]. fold m in LAp.
  set (buf := fun q => firstn (m * nth q rows 0) (skipn (m * total (firstn q rows)) (nth pi As []))).
  assert (Sc : forall q, q < length rows -> scatter rows (nth pi As []) pi q = Ok (buf q)).
  { intros q Lq. unfold scatter. rewrite CF, disp_spec, counts_nth by auto. fold m.
    pose proof (total_firstn rows q Lq).
    destruct (Nat.leb_spec (m * total (firstn q rows) + m * nth q rows 0) (length (nth pi As []))) as [_|G].
    - reflexivity.
    - rewrite LAp in G; nia. }
  assert (Co : collect (map (contribution rows n As Bs pi) (seq 0 (length rows))) =
    Ok (map (fun q => mm m (nth q rows 0) n (buf q) (nth q Bs [])) (seq 0 (length rows)))).
  { apply collect_ok. intros q Iq. apply in_seq in Iq. unfold contribution.
    rewrite Sc by lia. reflexivity. }
  unfold mat_mul_mpi. rewrite Co. cbn [obind].
  set (cs := map _ (seq 0 (length rows))).
  destruct (reduce_sum_spec (m * n) cs) as [L1 N1].
  { intros c Ic. apply in_map_iff in Ic as (q & <- & _). apply mm_length. }
  eexists; split; [reflexivity|]. split; [exact L1|].
  intros i j Li Lj. fold m. unfold at_ at 1.
  rewrite N1 by nia. unfold cs. rewrite map_map.
  rewrite stacked_sum by auto. rewrite bigsum_seq, sumloop_lsum. f_equal.
  apply map_ext_in. intros q Iq. apply in_seq in Iq.
  change (at_ m (mm m (nth q rows 0) n (buf q) (nth q Bs [])) i j = 
    bigsum (nth q rows 0) (fun l => (at_ m (nth pi As []) i (total (firstn q rows) + l)%nat *
      at_ (nth q rows 0%nat) (nth q Bs []) l j)%R)).
  rewrite mm_at by auto. apply bigsum_ext. intros l Ll. f_equal.
  unfold at_, buf. rewrite nth_firstn_skipn by nia. f_equal; nia.
Qed.

Lemma C38_overflow : forall k A B, (INT_MAX < Z.of_nat (k * k))%Z ->
  mat_mul_mpi [k] k [A] [B] 0 = UB.
Proof.
  intros k A B O. unfold mat_mul_mpi.
  replace (collect _) with (@UB (list (list R))); [reflexivity|].
  cbn [length seq map collect]. unfold contribution, scatter.
  assert (counts_fit [k] 0 = false) as ->; [|reflexivity].
  unfold counts_fit, counts. cbn [nth map fold_left].
  apply Z.leb_gt. rewrite Nat.add_0_l. exact O.
Qed.
Lemma C38_overflow_witness : exists k A B, distributed [k] k [A] [B] /\
  mat_mul_mpi [k] k [A] [B] 0 = UB.
Proof.
  set (k := Z.to_nat 50000).
  exists k, (repeat 0%R (k * k)), (repeat 0%R (k * k)). split.
  - split; [reflexivity|split; [reflexivity|]].
    intros p Lp. cbn [length] in Lp. assert (p = 0) as -> by lia.
    cbn [nth]. rewrite !repeat_length. unfold total; cbn [fold_right]. rewrite Nat.add_0_r; auto.
  - apply C38_overflow. rewrite Nat2Z.inj_mul. unfold k. rewrite Z2Nat.id by lia. reflexivity.
Qed.
