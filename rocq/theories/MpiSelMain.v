(** Proofs of the theorems of distributed selection of basic GWR (C165). *)
From Coq Require Import Reals Bool List Arith Lia Lra Classical.
From Verif Require Import Outcome XReal KernelModel Sums MpiModel MpiProofs MpiSelModel MpiSelSpec MpiSelProofs MpiSelRest.
Import ListNotations.
Local Open Scope R_scope.

(** ** Any actions *)
Section Any.
Variable A : Type.
Variables w tags : nat.
Variable eager : bool.
Variable todo : nat -> list xd -> action A.
Variable value : list (list R) -> xd.
Hypothesis Htags : (0 < tags)%nat.
Hypothesis Hw : (0 < w)%nat.
Notation rounds := (rounds A w tags todo value).
Notation moves := (moves A w tags eager todo value).

Lemma lockstep_any k c : moves k (start A) c ->
  rounds (bc c) /\
  match ms c with
  | MAt hs | MRecv hs _ _ | MBcast hs | MThrew hs => hs = bc c
  | MDone hs a => hs = bc c /\ todo 0 hs = Answer a
  end /\
  (forall s, (1 <= s < w)%nat ->
     whist (ws c s) = bc c \/ exists v, bc c = whist (ws c s) ++ [v]) /\
  (forall s hs a, (1 <= s < w)%nat -> ws c s = WDone hs a -> hs = bc c /\ todo s hs = Answer a).
Proof.
  intros M. assert (I := inv_moves A w tags eager todo value Htags Hw _ _ _ M (inv_start A w tags todo value)).
  split; [exact (i_rounds _ _ _ _ _ _ I)|]. split; [|split].
  - assert (MO := i_ms _ _ _ _ _ _ I). destruct (ms c); cbn in MO; try tauto. destruct MO. subst. auto.
  - intros s Hs. destruct (i_ws _ _ _ _ _ _ I s Hs) as [[E _]|[v [E _]]]; eauto.
  - intros s hs a Hs E. destruct (i_ws _ _ _ _ _ _ I s Hs) as [[E1 E2]|[v [_ E2]]]; rewrite E in *; cbn in *; [auto|contradiction].
Qed.

Lemma rest_any k c : moves k (start A) c -> at_rest A w tags todo value eager c ->
  rounds (bc c) /\ (exists p, (p < w)%nat /\ forall f, todo p (bc c) <> Share f) /\
  (forall p, (p < w)%nat -> settled A todo c p).
Proof.
  intros M RT. assert (I := inv_moves A w tags eager todo value Htags Hw _ _ _ M (inv_start A w tags todo value)).
  split; [exact (i_rounds _ _ _ _ _ _ I)|]. exact (rest_main A w tags eager todo value Htags Hw c I RT).
Qed.

(** Where the rounds end. *)
Section End_.
Variable F : list xd.
Hypothesis HF : rounds F.
Variable p0 : nat.
Hypothesis Hp0 : (p0 < w)%nat.
Hypothesis HN : forall f, todo p0 F <> Share f.

Lemma end_bound k c : moves k (start A) c ->
  (k <= (length F + 1) * ((w - 1) * (2 * tags + 2) + 3) + w)%nat.
Proof.
  apply (moves_bound A w tags eager todo value Htags Hw (length F)).
  intros hs H. exact (proj1 (rounds_bound A w tags todo value Htags Hw F p0 HF Hp0 HN hs H)).
Qed.

Lemma end_rest k c : moves k (start A) c -> at_rest A w tags todo value eager c ->
  bc c = F /\ forall p, (p < w)%nat -> settled A todo c p.
Proof.
  intros M RT. destruct (rest_any k c M RT) as (H1 & [p [Hp H2]] & H3). split; [|assumption].
  destruct (rounds_bound A w tags todo value Htags Hw F p0 HF Hp0 HN (bc c) H1) as [L1 _].
  destruct (rounds_bound A w tags todo value Htags Hw (bc c) p H1 Hp H2 F HF) as [L2 _].
  apply (rounds_unique A w tags todo value Htags Hw); auto. lia.
Qed.

Lemma end_any k c p : moves k (start A) c -> (p < w)%nat -> returned A c p ->
  exists hs a, rounds hs /\ (length hs <= length F)%nat /\ todo p hs = Answer a /\ (exists f, forall q, (q < w)%nat -> (length hs < length F)%nat -> todo q hs = Share (f q)).
Proof.
  intros M Hp RT. destruct (lockstep_any k c M) as (H1 & H2 & _ & H4).
  assert (E : exists hs a, hs = bc c /\ todo p hs = Answer a).
  { destruct p as [|p]; cbn in RT.
    - destruct RT as (hs & a & E). rewrite E in H2. exists hs, a. exact H2.
    - destruct RT as (hs & a & E). exists hs, a. apply (H4 (S p)); auto. lia. }
  destruct E as (hs & a & -> & T). exists (bc c), a. split; [assumption|].
  destruct (rounds_bound A w tags todo value Htags Hw F p0 HF Hp0 HN (bc c) H1) as [L E].
  split; [assumption|]. split; [assumption|].
  destruct (le_lt_dec (length F) (length (bc c))) as [L'|L'].
  - exists (fun _ _ => []). intros q Hq HH. lia.
  - assert (HS := rounds_firstn A w tags todo value Htags Hw F HF (S (length (bc c)))).
    destruct (nth_error F (length (bc c))) as [v|] eqn:Ev.
    2: { apply nth_error_None in Ev. lia. }
    assert (E' : firstn (S (length (bc c))) F = firstn (length (bc c)) F ++ [v]).
    { clear - Ev. revert F Ev. induction (length (bc c)) as [|k' IH]; intros [|x F] Ev; try discriminate.
      - cbn in Ev. injection Ev as ->. reflexivity.
      - cbn in Ev. specialize (IH _ Ev). change (x :: firstn (S k') F = x :: (firstn k' F ++ [v])). now rewrite IH. }
    rewrite E', <- E in HS. destruct (rounds_snoc A w tags todo value _ _ HS) as [_ [fs [S1 _]]].
    exists fs. intros q Hq _. auto.
Qed.
(** Some execution comes to rest. *)
Lemma end_exists : exists k c, moves k (start A) c /\ at_rest A w tags todo value eager c.
Proof.
  apply NNPP. intros NX.
  assert (X : forall k, exists c, moves k (start A) c).
  { induction k as [|k [c M]].
    - exists (start A). constructor.
    - destruct (classic (exists d, step A w tags eager todo value c d)) as [[d D]|ND].
      + exists d. econstructor; eauto.
      + exfalso. apply NX. exists k, c. split; [assumption|]. intros d D. apply ND. eauto. }
  destruct (X (S ((length F + 1) * ((w - 1) * (2 * tags + 2) + 3) + w))) as [c M].
  apply end_bound in M. lia.
Qed.
End End_.
End Any.

(** ** Basic GWR *)
Section Gwr.
Variables A Q : Type.
Variable plan : list (bool * xd) -> ask A Q.
Variables n w tags : nat.
Variable len : nat -> nat.
Variable fits : Q -> nat -> bool.
Variable contrib : Q -> nat -> nat -> nat -> R.
Variable value : list (list R) -> xd.
Variable size : nat.
Hypothesis Htags : (0 < tags)%nat.
Hypothesis Hsize : range_size n w = Ok size.

Notation part_of := (part_of Q len contrib).
Notation crit := (serial_criterion Q n tags len fits contrib).
Notation search := (serial_search A Q plan n tags len fits contrib).
Definition good (hs : list xd) : list (bool * xd) := map (fun v => (true, v)) hs.

Lemma w_pos : (0 < w)%nat.
Proof. destruct w; [discriminate Hsize|lia]. Qed.

Lemma vadd_parts q l1 l2 t : vadd (part_of q l1 t) (part_of q l2 t) = part_of q (l1 ++ l2) t.
Proof.
  unfold MpiSelModel.part_of, vadd. induction (seq 0 (len t)) as [|e l IH]; [reflexivity|].
  cbn. f_equal; [now rewrite sumloop_app|exact IH].
Qed.
Lemma fold_parts q t rs : forall r0, fold_left vadd (map (fun r => part_of q r t) rs) (part_of q r0 t) =
  part_of q (r0 ++ concat rs) t.
Proof.
  induction rs as [|r rs IH]; intros r0; cbn.
  - now rewrite app_nil_r.
  - rewrite vadd_parts, IH, <- app_assoc. reflexivity.
Qed.

Lemma round_all q :
  round_value w tags value (fun p => part_of q (visited (work_range n size p))) =
  value (map (part_of q (seq 0 n)) (seq 0 tags)).
Proof.
  unfold round_value. f_equal. apply map_ext. intros t.
  rewrite <- (map_map (fun s => visited (work_range n size s)) (fun r => part_of q r t)), fold_parts.
  rewrite <- (C35_concat n w size Hsize), flat_map_concat_map.
  pose proof w_pos. destruct w as [|w']; [lia|]. replace (S w' - 1)%nat with w' by lia. reflexivity.
Qed.

Lemma in_range p i : (p < w)%nat -> In i (visited (work_range n size p)) -> (i < n)%nat.
Proof. intros Hp I. exact (proj1 (C35_main n w size Hsize) p i Hp I). Qed.

(** Nobody is told to stop. *)
Notation todo := (gwr_todo A Q plan n len fits contrib (fun _ => None) (fun _ => 0%nat) size).

Lemma todo_eq p hs : todo p hs =
  match plan (good hs) with
  | Return a => Answer a
  | Ask q => if forallb (fits q) (visited (work_range n size p))
             then Share (part_of q (visited (work_range n size p))) else Raise
  end.
Proof.
  unfold gwr_todo. replace (combine (map (success (fun _ => None) p) (seq 0 (length hs))) hs) with (good hs).
  - reflexivity.
  - unfold good. generalize 0%nat. induction hs as [|v hs IH]; intros o; [reflexivity|]. cbn. now rewrite <- IH.
Qed.

Lemma search_inv ck f : forall h hs a, search ck value f (good h) = Some (hs, a) ->
  (exists vs, hs = h ++ vs) /\ plan (good hs) = Return a /\
  forall k, (length h <= k < length hs)%nat -> exists q, plan (good (firstn k hs)) = Ask q /\
    nth_error hs k = Some (crit ck value q).
Proof.
  clear Htags Hsize. induction f as [|f IH]; intros h hs a H; cbn in H; destruct (plan (good h)) as [q|a'] eqn:P; try discriminate.
  - injection H as <- <-.
    assert (E : map snd (good h) = h) by (unfold good; rewrite map_map; apply map_id).
    rewrite E. split; [exists []; now rewrite app_nil_r|]. split; [assumption|]. intros k Hk. lia.
  - assert (E : good h ++ [(true, crit ck value q)] = good (h ++ [crit ck value q])).
    { unfold good. now rewrite map_app. }
    rewrite E in H. destruct (IH _ _ _ H) as ([vs V] & P' & K). split; [|split; [assumption|]].
    + exists (crit ck value q :: vs). now rewrite V, <- app_assoc.
    + intros k Hk. destruct (Nat.eq_dec k (length h)) as [->|N].
      * exists q. rewrite V, <- app_assoc, firstn_app, Nat.sub_diag, firstn_all. cbn. rewrite app_nil_r.
        split; [assumption|]. rewrite nth_error_app2, Nat.sub_diag by lia. reflexivity.
      * apply K. rewrite app_length. cbn. lia.
  - injection H as <- <-.
    assert (E : map snd (good h) = h) by (unfold good; rewrite map_map; apply map_id).
    rewrite E. split; [exists []; now rewrite app_nil_r|]. split; [assumption|]. intros k Hk. lia.
Qed.

Lemma crit_good ck q : crit ck value q <> XF DBL_MAX ->
  (forall i, (i < n)%nat -> fits q i = true) /\
  crit ck value q = value (map (part_of q (seq 0 n)) (seq 0 tags)).
Proof.
  unfold serial_criterion. destruct (forallb (fits q) (seq 0 n)) eqn:E; [|congruence]. cbv zeta.
  destruct (ck && negb (xisfinite (value (map (part_of q (seq 0 n)) (seq 0 tags))))); [congruence|].
  intros _. split; [|reflexivity]. intros i Hi. rewrite forallb_forall in E. apply E, in_seq. lia.
Qed.

Lemma firstn_S {B} (l : list B) k v : nth_error l k = Some v -> firstn (S k) l = firstn k l ++ [v].
Proof.
  revert l. induction k as [|k IH]; intros [|x l] E; try discriminate.
  - cbn in E. injection E as ->. reflexivity.
  - cbn in E. change (x :: firstn (S k) l = x :: (firstn k l ++ [v])). now rewrite IH.
Qed.

Lemma share_good p q hs : plan (good hs) = Ask q -> (forall i, In i (visited (work_range n size p)) -> fits q i = true) ->
  todo p hs = Share (part_of q (visited (work_range n size p))).
Proof.
  intros P H. rewrite todo_eq, P. replace (forallb _ _) with true; [reflexivity|].
  symmetry. apply forallb_forall. exact H.
Qed.

Lemma search_rounds ck f hs a k : search ck value f [] = Some (hs, a) -> (k <= length hs)%nat ->
  (forall v, In v (firstn k hs) -> v <> XF DBL_MAX) -> rounds A w tags todo value (firstn k hs).
Proof.
  intros H. destruct (search_inv ck f [] hs a H) as (_ & P & K). cbn in K.
  induction k as [|k IH]; intros L G; [constructor|].
  destruct (K k ltac:(lia)) as (q & P1 & P2).
  rewrite (firstn_S _ _ _ P2) in *.
  destruct (crit_good ck q) as [F E].
  { apply G. apply in_or_app. right. now left. }
  rewrite E, <- round_all.
  apply (r_next A w tags todo value (firstn k hs)).
  - apply IH; [lia|]. intros v I. apply G. apply in_or_app. now left.
  - intros p Hp. apply share_good; [assumption|]. intros i I. apply F. exact (in_range p i Hp I).
Qed.

Lemma agree_main eager ck f hs a k c :
  search ck value f [] = Some (hs, a) -> ~ In (XF DBL_MAX) hs ->
  moves A w tags eager todo value k (start A) c ->
  (k <= (length hs + 1) * ((w - 1) * (2 * tags + 2) + 3) + w)%nat /\
  (at_rest A w tags todo value eager c -> all_return A w hs a c) /\
  (forall p, (p < w)%nat -> ~ threw A c p) /\
  (forall hs' a', ms c = MDone hs' a' -> hs' = hs /\ a' = a) /\
  (forall s hs' a', (1 <= s < w)%nat -> ws c s = WDone hs' a' -> hs' = hs /\ a' = a).
Proof.
  intros H G M. pose proof w_pos as Hw.
  assert (R0 : rounds A w tags todo value hs).
  { rewrite <- (firstn_all hs). apply (search_rounds ck f hs a); auto.
    rewrite firstn_all. intros v I ->. auto. }
  destruct (search_inv ck f [] hs a H) as (_ & P & K).
  assert (T : forall p, todo p hs = Answer a) by (intros p; rewrite todo_eq, P; reflexivity).
  assert (HN : forall g, todo 0 hs <> Share g) by (intros g; rewrite T; discriminate).
  assert (B := end_bound A w tags eager todo value Htags Hw hs R0 0 Hw HN k c M).
  assert (PRE : forall hs', rounds A w tags todo value hs' -> hs' = hs \/ forall p, (p < w)%nat -> exists g, todo p hs' = Share g).
  { intros hs' R'. destruct (rounds_bound A w tags todo value Htags Hw hs 0 R0 Hw HN hs' R') as [L E].
    destruct (Nat.eq_dec (length hs') (length hs)) as [EL|NL].
    - left. apply (rounds_unique A w tags todo value Htags Hw); auto.
    - right. intros p Hp. destruct (K (length hs') ltac:(cbn; lia)) as (q & P1 & P2).
      rewrite <- E in P1. exists (part_of q (visited (work_range n size p))). apply share_good; [assumption|].
      intros i I. destruct (crit_good ck q) as [F _].
      + intros EM. rewrite EM in P2. apply G. exact (nth_error_In _ _ P2).
      + apply F. exact (in_range p i Hp I). }
  assert (I := inv_moves A w tags eager todo value Htags Hw _ _ _ M (inv_start A w tags todo value)).
  assert (RB := i_rounds _ _ _ _ _ _ I).
  split; [exact B|]. split; [|split; [|split]].
  - intros RT. destruct (end_rest A w tags eager todo value Htags Hw hs R0 0 Hw HN k c M RT) as [E S1].
    unfold settled in S1. split.
    + specialize (S1 0%nat Hw). rewrite E, T in S1. exact S1.
    + intros s Hs. specialize (S1 s ltac:(lia)). rewrite E, T in S1. destruct s as [|s]; [lia|exact S1].
  - intros p Hp TH. assert (X : todo p (bc c) = Raise).
    { destruct p as [|p]; cbn in TH; destruct TH as [hs' E].
      - assert (MO := i_ms _ _ _ _ _ _ I). rewrite E in MO. destruct MO as [_ MO]. exact MO.
      - destruct (i_ws _ _ _ _ _ _ I (S p) ltac:(lia)) as [[E1 E2]|[v [_ E2]]]; rewrite E in *; cbn in *; [|contradiction].
        now rewrite <- E1. }
    destruct (PRE _ RB) as [E|E].
    + rewrite E, T in X. discriminate.
    + destruct (E p Hp) as [g E']. congruence.
  - intros hs' a' E. assert (MO := i_ms _ _ _ _ _ _ I). rewrite E in MO. destruct MO as [-> MO].
    destruct (PRE _ RB) as [E'|E'].
    + rewrite E' in *. rewrite T in MO. injection MO as ->. auto.
    + destruct (E' 0%nat Hw) as [g E'']. congruence.
  - intros s hs' a' Hs E. destruct (lockstep_any A w tags eager todo value Htags Hw k c M) as (_ & _ & _ & LS).
    destruct (LS s hs' a' Hs E) as [-> MO].
    destruct (PRE _ RB) as [E'|E'].
    + rewrite E' in *. rewrite T in MO. injection MO as ->. auto.
    + destruct (E' s ltac:(lia)) as [g E'']. congruence.
Qed.

(** A failing local fit. *)
Lemma fail_main eager ck f hs a m q i k c :
  search ck value f [] = Some (hs, a) -> (m < length hs)%nat -> ~ In (XF DBL_MAX) (firstn m hs) ->
  plan (map (fun v => (true, v)) (firstn m hs)) = Ask q -> (i < n)%nat -> fits q i = false ->
  moves A w tags eager todo value k (start A) c ->
  (k <= (m + 1) * ((w - 1) * (2 * tags + 2) + 3) + w)%nat /\
  (forall p, (p < w)%nat -> ~ returned A c p) /\
  (at_rest A w tags todo value eager c -> forall p, (p < w)%nat ->
     ((exists j, (p * size <= j < p * size + size)%nat /\ (j < n)%nat /\ fits q j = false) <-> threw A c p)).
Proof.
  intros H Lm G P Hi Hf M. pose proof w_pos as Hw.
  assert (R0 : rounds A w tags todo value (firstn m hs)).
  { apply (search_rounds ck f hs a); auto; [lia|]. intros v I ->. auto. }
  assert (LF : length (firstn m hs) = m) by (rewrite firstn_length; lia).
  set (F := firstn m hs) in *. change (map (fun v => (true, v)) F) with (good F) in P.
  destruct (proj2 (C35_main n w size Hsize) i Hi) as [p0 [[Hp0 I0] _]].
  assert (T : forall p, todo p F = if forallb (fits q) (visited (work_range n size p))
             then Share (part_of q (visited (work_range n size p))) else Raise).
  { intros p. now rewrite todo_eq, P. }
  assert (HN : forall g, todo p0 F <> Share g).
  { intros g. rewrite T. destruct (forallb _ _) eqn:E; [|discriminate].
    rewrite forallb_forall in E. rewrite (E i I0) in Hf. discriminate. }
  split.
  { rewrite <- LF. exact (end_bound A w tags eager todo value Htags Hw F R0 p0 Hp0 HN k c M). }
  split.
  - intros p Hp RT.
    destruct (end_any A w tags eager todo value Htags Hw F R0 p0 Hp0 HN k c p M Hp RT) as (hs' & a' & R' & L' & T' & g & S').
    destruct (le_lt_dec (length F) (length hs')) as [L2|L2].
    + assert (hs' = F) by (apply (rounds_unique A w tags todo value Htags Hw); auto; lia). subst hs'.
      rewrite T in T'. destruct (forallb _ _); discriminate.
    + specialize (S' p Hp L2). congruence.
  - intros RT p Hp.
    destruct (end_rest A w tags eager todo value Htags Hw F R0 p0 Hp0 HN k c M RT) as [E S1].
    specialize (S1 p Hp). unfold settled in S1. rewrite E, T in S1.
    destruct (forallb (fits q) (visited (work_range n size p))) eqn:FB.
    + split; [|tauto]. intros (j & J1 & J2 & J3). exfalso. rewrite forallb_forall in FB.
      rewrite FB in J3; [discriminate|]. unfold visited, work_range. cbn. apply in_seq. lia.
    + split.
      * intros _. destruct p; cbn; eexists; exact S1.
      * intros _. assert (X : exists j, In j (visited (work_range n size p)) /\ fits q j = false).
        { clear - FB. induction (visited (work_range n size p)) as [|x l IH]; [discriminate|].
          cbn in FB. destruct (fits q x) eqn:E.
          - destruct (IH FB) as (j & J1 & J2). exists j. split; [now right|assumption].
          - exists x. split; [now left|assumption]. }
        destruct X as (j & J1 & J2). exists j. assert (J3 := in_range p j Hp J1).
        unfold visited, work_range in J1. cbn in J1. apply in_seq in J1. split; [lia|auto].
Qed.
(** A process is told to stop. *)
Lemma cancel_main eager p0 k0 cut F q k c :
  (p0 < w)%nat -> length F = S k0 ->
  let quit := fun p => if Nat.eqb p p0 then Some k0 else None in
  let todo := gwr_todo A Q plan n len fits contrib quit cut size in
  rounds A w tags todo value F ->
  (forall h, map fst h = repeat true k0 ++ [false] -> exists a, plan h = Return a) ->
  plan (map (fun v => (true, v)) F) = Ask q ->
  moves A w tags eager todo value k (start A) c ->
  (k <= (k0 + 2) * ((w - 1) * (2 * tags + 2) + 3) + w)%nat /\
  (forall p, (p < w)%nat -> p <> p0 -> ~ returned A c p) /\
  (at_rest A w tags todo value eager c -> returned A c p0 /\
     forall p, (p < w)%nat -> p <> p0 -> (forall i, (i < n)%nat -> fits q i = true) -> ~ threw A c p).
Proof.
  intros Hp0 LF quit todo0 R0 HL P M. pose proof w_pos as Hw.
  assert (ST0 : exists a, todo0 p0 F = Answer a).
  { unfold todo0, gwr_todo. destruct (HL (combine (map (success quit p0) (seq 0 (length F))) F)) as [a E].
    - rewrite LF. unfold success, quit. rewrite Nat.eqb_refl.
      assert (EQ : map (fun k1 => Nat.ltb k1 k0) (seq 0 (S k0)) = repeat true k0 ++ [false]).
      { rewrite seq_S, map_app. cbn [Nat.add map]. f_equal.
        - assert (Z : forall m o, (o + m <= k0)%nat -> map (fun k1 => Nat.ltb k1 k0) (seq o m) = repeat true m).
          { induction m as [|m IH]; intros o Ho; [reflexivity|]. cbn [seq map repeat]. rewrite IH by lia.
            replace (Nat.ltb o k0) with true; [reflexivity|]. symmetry. apply Nat.ltb_lt. lia. }
          apply Z. lia.
        - rewrite Nat.ltb_irrefl. reflexivity. }
      rewrite <- EQ. assert (LE : length (map (fun k1 => Nat.ltb k1 k0) (seq 0 (S k0))) = length F)
        by (rewrite map_length, seq_length; auto).
      revert LE. generalize (map (fun k1 => Nat.ltb k1 k0) (seq 0 (S k0))). clear. intros l. revert F.
      induction l as [|x l IH]; intros [|y F] E; try discriminate; [reflexivity|]. cbn. f_equal. apply IH. cbn in E. lia.
    - exists a. now rewrite E. }
  destruct ST0 as [a0 TA].
  assert (TQ : forall p, p <> p0 -> todo0 p F = if forallb (fits q) (visited (work_range n size p))
             then Share (part_of q (visited (work_range n size p))) else Raise).
  { intros p Np. unfold todo0, gwr_todo.
    assert (QN : quit p = None) by (unfold quit; destruct (Nat.eqb_spec p p0); [contradiction|reflexivity]).
    replace (combine (map (success quit p) (seq 0 (length F))) F) with (good F).
    - unfold good. rewrite P. unfold locations. rewrite QN. reflexivity.
    - unfold good, success. rewrite QN. clear. generalize 0%nat. induction F as [|v hs IH]; intros o; [reflexivity|]. cbn. now rewrite <- IH. }
  assert (HN : forall g, todo0 p0 F <> Share g) by (intros g; rewrite TA; discriminate).
  split.
  { replace (k0 + 2)%nat with (length F + 1)%nat by lia.
    exact (end_bound A w tags eager todo0 value Htags Hw F R0 p0 Hp0 HN k c M). }
  split.
  - intros p Hp Np RT.
    destruct (end_any A w tags eager todo0 value Htags Hw F R0 p0 Hp0 HN k c p M Hp RT) as (hs' & a' & R' & L' & T' & g & S').
    destruct (le_lt_dec (length F) (length hs')) as [L2|L2].
    + assert (hs' = F) by (apply (rounds_unique A w tags todo0 value Htags Hw); auto; lia). subst hs'.
      rewrite TQ in T' by assumption. destruct (forallb _ _); discriminate.
    + specialize (S' p Hp L2). congruence.
  - intros RT.
    destruct (end_rest A w tags eager todo0 value Htags Hw F R0 p0 Hp0 HN k c M RT) as [E S1]. split.
    + specialize (S1 p0 Hp0). unfold settled in S1. rewrite E, TA in S1.
      destruct p0 as [|p1]; cbn; eauto.
    + intros p Hp Np HF TH. specialize (S1 p Hp). unfold settled in S1. rewrite E, TQ in S1 by assumption.
      replace (forallb (fits q) (visited (work_range n size p))) with true in S1; [tauto|].
      symmetry. apply forallb_forall. intros i I. apply HF. exact (in_range p i Hp I).
Qed.

Lemma exists_main eager ck f hs a :
  search ck value f [] = Some (hs, a) -> ~ In (XF DBL_MAX) hs ->
  exists k c, moves A w tags eager todo value k (start A) c /\ at_rest A w tags todo value eager c.
Proof.
  intros H G. pose proof w_pos as Hw.
  assert (R0 : rounds A w tags todo value hs).
  { rewrite <- (firstn_all hs). apply (search_rounds ck f hs a); auto.
    rewrite firstn_all. intros v I ->. auto. }
  destruct (search_inv ck f [] hs a H) as (_ & P & _).
  apply (end_exists A w tags eager todo value Htags Hw hs R0 0 Hw). intros g. rewrite todo_eq, P. discriminate.
Qed.
End Gwr.
