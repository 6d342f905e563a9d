(** Proofs for variable selection (C29-C34). *)
From Coq Require Import Reals Bool List Arith Permutation Lia Lra.
From Verif Require Import Outcome XReal XRealFacts VarModel VarSpec.
Import ListNotations.

Lemma xltb_trans a b c : xltb a b = true -> xltb b c = true -> xltb a c = true.
Proof.
  destruct a as [r| |[]|], b as [r'| |[]|], c as [r''| |[]|]; cbn; try congruence; auto;
    rewrite !Rltb_true; lra.
Qed.
Lemma xltb_irr a : xltb a a = false.
Proof. destruct a as [r| |[]|]; cbn; auto; apply Rltb_false; lra. Qed.

(** index_min. *)
Lemma index_min_from_spec l : forall best bi i,
  (index_min_from best bi i l = bi /\ forall v, In v l -> xltb v best = false) \/
  (exists p x, index_min_from best bi i l = i + p /\ nth_error l p = Some x /\ xltb x best = true /\
     forall v, In v l -> xltb v x = false).
Proof.
  induction l as [|v l IH]; intros best bi i; cbn.
  - left; split; auto; intros ? [].
  - destruct (xltb v best) eqn:E.
    + right. destruct (IH v i (S i)) as [[A B]|(p & x & A & B & C & D)].
      * exists 0, v. rewrite A. repeat split; auto. intros u [<-|I]; [apply xltb_irr|auto].
      * exists (S p), x. rewrite A. split; [lia|]. split; auto.
        split; [eapply xltb_trans; eauto|]. intros u [<-|I]; auto.
        destruct (xltb v x) eqn:F; auto. assert (xltb v v = true) by (eapply xltb_trans; eauto).
        rewrite xltb_irr in H; discriminate.
    + destruct (IH best bi (S i)) as [[A B]|(p & x & A & B & C & D)].
      * left; split; auto. intros u [<-|I]; auto.
      * right. exists (S p), x. rewrite A. split; [lia|]. split; auto. split; auto.
        intros u [<-|I]; auto. destruct (xltb v x) eqn:F; auto.
        assert (xltb v best = true) by (eapply xltb_trans; eauto). congruence.
Qed.

Lemma xltb_inf v w : xltb v (XI false) = false -> xltb w v = true -> xltb w (XI false) = true.
Proof. destruct v as [r| |[]|], w as [r'| |[]|]; cbn; congruence. Qed.

Lemma index_min_spec l : l <> [] -> exists b x, index_min l = Ok b /\ nth_error l b = Some x /\
  forall v, In v l -> xltb v x = false.
Proof.
  destruct l as [|v l]; [congruence|]. intros _. unfold index_min.
  destruct (index_min_from_spec (v :: l) (XI false) 0 0) as [[A B]|(p & x & A & B & C & D)].
  - exists 0, v. rewrite A. repeat split; auto. intros u I.
    destruct (xltb u v) eqn:E; auto. specialize (B u I).
    assert (K : xltb v (XI false) = false). { destruct v as [r| |[]|]; cbn; auto. exfalso.
      all: destruct u as [r'| |[]|]; cbn in *; congruence. }
    pose proof (xltb_inf _ _ K E). congruence.
  - exists (0 + p), x. rewrite A. auto.
Qed.

(** convert. *)
Lemma convert_ok vars idx : (forall i, In i idx -> i < length vars) ->
  exists vs, convert vars idx = Ok vs /\ named vars idx vs.
Proof.
  induction idx as [|i idx IH]; intros H; cbn; [exists []; split; reflexivity|].
  destruct (nth_error vars i) as [v|] eqn:E.
  - destruct IH as (vs & A & B); [intros; apply H; right; auto|]. rewrite A. cbn.
    exists (v :: vs). split; auto. unfold named; cbn. rewrite E, B. reflexivity.
  - exfalso. apply nth_error_None in E. specialize (H i (or_introl eq_refl)). lia.
Qed.
Lemma convert_named vars idx vs : convert vars idx = Ok vs -> named vars idx vs.
Proof.
  revert vs; induction idx as [|i idx IH]; intros vs; cbn; [intros E; inversion E; reflexivity|].
  destruct (nth_error vars i) as [v|] eqn:E; [|discriminate].
  destruct (convert vars idx) as [r| |] eqn:C; cbn; try discriminate.
  intros F; inversion F; subst. unfold named; cbn. rewrite E. f_equal. apply IH; auto.
Qed.

Section S.
Variable crit : vcriterion.
Variable srt : list vmodel -> list vmodel.
Variable vars : list nat.
Variable t : R.

Definition ok_idx (l : list nat) : Prop := forall i, In i l -> i < length vars.

(** Each logged model was evaluated; only the last one may have been cancelled. *)
Definition ans (k : nat) (s : bool) (ms : list vmodel) : Prop :=
  (forall p idx v, nth_error ms p = Some (idx, v) -> exists vs, named vars idx vs /\
    snd (crit (k + p) vs) = v /\ (fst (crit (k + p) vs) = false <-> s = false /\ S p = length ms)) /\
  (s = false -> ms <> []).

Lemma named_fun idx vs vs' : named vars idx vs -> named vars idx vs' -> vs = vs'.
Proof.
  unfold named; intros A B. rewrite <- B in A. clear B idx. revert vs' A.
  induction vs as [|x vs IH]; intros [|y vs'] A; cbn in A; try discriminate; auto.
  inversion A; subst. f_equal; auto.
Qed.

Lemma group_spec cur : forall rest k, ok_idx cur -> ok_idx rest ->
  exists s k' ms, group crit vars cur rest k = Ok (s, k', ms) /\ ans k s ms /\ k' = k + length ms /\
    length ms <= length rest /\
    (s = true -> exists vals, length vals = length rest /\
       ms = combine (map (fun x => cur ++ [x]) rest) vals).
Proof.
  induction rest as [|j rest IH]; intros k C D; cbn.
  - exists true, k, []. split; auto. split; [split; [intros [|p]; discriminate|discriminate]|].
    split; [cbn; lia|]. split; auto. intros _. exists []. auto.
  - destruct (convert_ok vars (cur ++ [j])) as (vs & E & N).
    { intros i I. apply in_app_iff in I as [I|[<-|[]]]; [apply C; auto|apply D; left; auto]. }
    rewrite E; cbn. destruct (crit k vs) as [ok v] eqn:V. destruct ok.
    + destruct (IH (S k) C) as (s & k' & ms & A1 & (A2 & A2') & A3 & A4 & A5).
      { intros i I; apply D; right; auto. }
      rewrite A1; cbn. exists s, k', ((cur ++ [j], v) :: ms). split; auto. split; [split|].
      * intros [|p] idx u H; cbn in H.
        -- inversion H; subst. exists vs. rewrite Nat.add_0_r, V. repeat split; auto; try discriminate.
           intros [-> L]. cbn in L. exfalso. apply A2'; auto. destruct ms; auto; discriminate.
        -- destruct (A2 p idx u H) as (ws & B1 & B2 & B3). exists ws.
           rewrite Nat.add_succ_r. split; auto. split; auto. cbn [length].
           rewrite B3. split; intros [? ?]; split; auto; lia.
      * intros _; discriminate.
      * split; [cbn; lia|]. split; [cbn; lia|]. intros Es. destruct (A5 Es) as (vals & L & M).
        exists (v :: vals). cbn. rewrite M. split; auto.
    + exists false, (S k), [(cur ++ [j], v)]. split; auto. split; [split|].
      * intros [|p] idx u H; cbn in H; [|destruct p; discriminate].
        inversion H; subst. exists vs. rewrite Nat.add_0_r, V. repeat split; auto.
      * intros _; discriminate.
      * cbn. split; [lia|]. split; [lia|]. discriminate.
Qed.

Lemma combine_split {A B} (a : list A) j b (vals : list B) x : length vals = length (a ++ j :: b) ->
  nth_error vals (length a) = Some x -> exists va vb, vals = va ++ x :: vb /\ length va = length a /\ length vb = length b.
Proof.
  intros L N. apply nth_error_split in N as (va & vb & -> & E). exists va, vb. split; auto. split; auto.
  rewrite !app_length in L; cbn in L. lia.
Qed.

Lemma erase_app a j b : erase (length a) (a ++ j :: b) = a ++ b.
Proof.
  unfold erase. rewrite firstn_app, Nat.sub_diag, firstn_all; cbn [firstn]. rewrite app_nil_r.
  f_equal. rewrite skipn_app. replace (S (length a) - length a) with 1 by lia.
  rewrite skipn_all2 by lia. reflexivity.
Qed.

Lemma map_snd_combine {A B} (l : list A) (vals : list B) : length vals = length l -> map snd (combine l vals) = vals.
Proof. revert vals; induction l; intros [|v vals] H; cbn in *; try discriminate; auto. f_equal; auto. Qed.

Lemma ans_app k ms s' ms' : ans k true ms -> ans (k + length ms) s' ms' -> (s' = false -> ms' <> []) ->
  ans k s' (ms ++ ms').
Proof.
  intros [A _] [B _] N. split.
  - intros p idx v H. destruct (Nat.lt_ge_cases p (length ms)) as [L|L].
    + rewrite nth_error_app1 in H by auto. destruct (A _ _ _ H) as (vs & C & D & E). exists vs. split; auto. split; auto.
      rewrite E. split; [intros [? _]; discriminate|]. intros [F G]. rewrite app_length in G.
      exfalso. apply N; auto. destruct ms'; auto. cbn in G. lia.
    + rewrite nth_error_app2 in H by auto. destruct (B _ _ _ H) as (vs & C & D & E). exists vs.
      replace (k + length ms + (p - length ms)) with (k + p) in D, E by lia. split; auto. split; auto.
      rewrite E, app_length. split; intros [F G]; split; auto; lia.
  - intros F. specialize (N F). destruct ms; cbn; auto; discriminate.
Qed.

Lemma outer_spec n : forall cur rest k, length rest = n -> ok_idx cur -> ok_idx rest ->
  exists s ms, outer crit vars n cur rest k = Ok (s, ms) /\ ans k s ms /\
    (s = true -> forward cur rest ms /\ 2 * length ms = n * (n + 1)).
Proof.
  induction n as [|n IH]; intros cur rest k L C D.
  - destruct rest; [|discriminate]. exists true, []. cbn. split; auto. split.
    + split; [intros [|p]; discriminate | discriminate].
    + intros _; split; [constructor|auto].
  - cbn [outer]. destruct (group_spec cur rest k C D) as (s & k' & ms & A1 & A2 & A3 & A4 & A5).
    rewrite A1; cbn [obind].
    assert (NE : criterions rest ms <> []).
    { unfold criterions. intros E. apply (f_equal (@length _)) in E. rewrite app_length, map_length, repeat_length in E. cbn [length] in E. lia. }
    destruct (index_min_spec _ NE) as (b & x & B1 & B2 & B3). rewrite B1; cbn [obind].
    assert (Lb : b < length rest).
    { assert (b < length (criterions rest ms)) by (apply nth_error_Some; congruence).
      unfold criterions in H. rewrite app_length, map_length, repeat_length in H. lia. }
    destruct (nth_error rest b) as [j|] eqn:J; [|apply nth_error_None in J; lia].
    destruct s.
    + apply nth_error_split in J as (a & c & -> & Ea). subst b.
      destruct (A5 eq_refl) as (vals & L1 & M1).
      assert (Cv : criterions (a ++ j :: c) ms = vals).
      { unfold criterions. rewrite M1 at 1. rewrite map_snd_combine by (rewrite map_length; auto).
        rewrite M1, combine_length, map_length, L1, Nat.min_id, Nat.sub_diag. cbn. apply app_nil_r. }
      rewrite Cv in B2, B3.
      destruct (combine_split a j c vals x L1 B2) as (va & vb & -> & Lva & Lvb).
      rewrite erase_app.
      rewrite app_length in L; cbn in L.
      destruct (IH (cur ++ [j]) (a ++ c) k') as (s' & ms' & E1 & E2 & E3).
      * rewrite app_length; lia.
      * intros i I. apply in_app_iff in I as [I|[<-|[]]]; [auto|]. apply D, in_app_iff; right; left; auto.
      * intros i I. apply D. apply in_app_iff in I as [I|I]; apply in_app_iff; [left|right; right]; auto.
      * rewrite E1; cbn [obind]. exists s', (ms ++ ms'). split; auto. split.
        -- apply ans_app; auto; [rewrite <- A3; auto | apply E2].
        -- intros Es. destruct (E3 Es) as [F1 F2]. split.
           ++ rewrite M1. apply forward_group; auto. intros v I. apply B3.
              apply in_app_iff in I as [I|I]; apply in_app_iff; [left|right; right]; auto.
           ++ rewrite app_length, M1, combine_length, map_length, L1, Nat.min_id, app_length; cbn [length]. lia.
    + exists false, ms. split; auto. split; auto. discriminate.
Qed.

Lemma seq_ok : ok_idx (seq 0 (length vars)).
Proof. intros i I. apply in_seq in I. lia. Qed.

Lemma search_spec : exists s ms, search crit vars = Ok (s, ms) /\ ans 0 s ms /\
  (s = true -> forward [] (seq 0 (length vars)) ms /\ 2 * length ms = length vars * (length vars + 1)).
Proof. unfold search. apply outer_spec; [apply seq_length | intros i [] | apply seq_ok]. Qed.

(** Models of a forward search use distinct candidates. *)
Lemma forward_idx cur rest ms : forward cur rest ms -> NoDup (cur ++ rest) ->
  forall idx v, In (idx, v) ms -> NoDup idx /\ incl idx (cur ++ rest).
Proof.
  induction 1 as [cur|cur a j b va vj vb ms La Lb Mn F IH]; intros N idx v I; [destruct I|].
  apply in_app_iff in I as [I|I].
  - apply in_combine_l in I. apply in_map_iff in I as (x & <- & I). split.
    + apply in_split in I as (l1 & l2 & E). rewrite E in N. apply (NoDup_Add (a := x) (l := cur ++ l1 ++ l2)) in N.
      * destruct N as [N1 N2]. apply (NoDup_Add (a := x) (l := cur)).
        -- rewrite <- (app_nil_r cur) at 1. apply Add_app.
        -- split; [|intros K; apply N2, in_app_iff; auto].
           clear -N1. induction cur as [|c cur IH]; [constructor|]. cbn in N1. inversion N1; subst.
           constructor; auto. intros K; apply H1, in_app_iff; auto.
      * rewrite !app_assoc. apply Add_app.
    + intros y K. apply in_app_iff in K as [K|[<-|[]]]; apply in_app_iff; auto.
  - assert (P : Permutation ((cur ++ [j]) ++ a ++ b) (cur ++ a ++ j :: b)).
    { rewrite <- app_assoc. apply Permutation_app_head. cbn. apply Permutation_middle. }
    destruct (IH (Permutation_NoDup (Permutation_sym P) N) idx v I) as [A B]. split; auto.
    intros y K. eapply Permutation_in; [exact P|]. auto.
Qed.

Lemma named_length idx vs : named vars idx vs -> length vs = length idx.
Proof. intros H. apply (f_equal (@length _)) in H. rewrite !map_length in H. auto. Qed.
Lemma named_in idx vs : named vars idx vs -> incl vs vars.
Proof.
  unfold named. revert vs; induction idx as [|i idx IH]; intros [|v vs] H; cbn in H; try discriminate;
    [intros x []|]; intros x I; destruct I as [I|I]; subst.
  - inversion H. eapply nth_error_In; eauto.
  - inversion H. eapply IH; eauto.
Qed.
Lemma named_nodup idx vs : NoDup vars -> NoDup idx -> named vars idx vs -> NoDup vs.
Proof.
  unfold named. intros V. revert vs; induction idx as [|i idx IH]; intros [|v vs] N H; cbn in H; try discriminate; [constructor|].
  inversion H as [[H1 H2]]. inversion N as [|? ? N1 N2]; subst. constructor; auto.
  intros I. apply In_nth_error in I as [q Q].
  assert (Z : nth_error (map Some vs) q = Some (Some v)) by (rewrite nth_error_map, Q; auto).
  rewrite H2, nth_error_map in Z. destruct (nth_error idx q) as [i'|] eqn:I'; [|discriminate]. cbn in Z.
  inversion Z as [Z']. rewrite H1 in Z'. apply N1.
  assert (i = i'); [|subst; eapply nth_error_In; eauto].
  eapply (proj1 (NoDup_nth_error vars) V); [|congruence].
  apply nth_error_Some; congruence.
Qed.

Lemma select_from_spec ms : forall i, i < length ms ->
  (exists k b, k <= i /\ improves t ms k /\ nth_error ms k = Some b /\ select_from t ms i = Ok b /\
     forall j, k < j -> j <= i -> ~ improves t ms j) \/
  ((forall j, j <= i -> ~ improves t ms j) /\ select_from t ms i = UB).
Proof.
  induction i as [|p IH]; intros L; cbn [select_from].
  - right. split; auto. intros j Hj (q & a & b & E & _). lia.
  - destruct (nth_error ms p) as [a|] eqn:A; [|apply nth_error_None in A; lia].
    destruct (nth_error ms (S p)) as [b|] eqn:B; [|apply nth_error_None in B; lia].
    destruct (xleb (XF t) (xsub (snd a) (snd b))) eqn:E.
    + left. exists (S p), b. split; auto. split; [exists p, a, b; auto|]. split; auto. split; auto. intros; lia.
    + assert (NI : ~ improves t ms (S p)).
      { intros (q & a' & b' & Q & A' & B' & E'). assert (q = p) by lia; subst. congruence. }
      destruct IH as [(k & b' & K1 & K2 & K3 & K4 & K5)|[K1 K2]]; [lia| |].
      * left. exists k, b'. split; [lia|]. split; auto. split; auto. split; auto.
        intros j J1 J2. destruct (Nat.eq_dec j (S p)); [subst; auto|apply K5; lia].
      * right. split; auto. intros j J. destruct (Nat.eq_dec j (S p)); [subst; auto|apply K1; lia].
Qed.

Lemma select_spec ms :
  (exists k b, improves t ms k /\ nth_error ms k = Some b /\ select t ms = Ok b /\
     forall j, k < j -> ~ improves t ms j) \/
  ((forall j, ~ improves t ms j) /\ select t ms = UB).
Proof.
  assert (Big : forall j, length ms <= j -> ~ improves t ms j).
  { intros j J (p & a & b & _ & _ & B & _). assert (j < length ms) by (apply nth_error_Some; congruence). lia. }
  unfold select. destruct ms as [|m ms'] eqn:M.
  - right. split; auto. intros j. apply Big. cbn; lia.
  - rewrite <- M in *. assert (0 < length ms) by (rewrite M; cbn; lia).
    destruct (select_from_spec ms (length ms - 1)) as [(k & b & K1 & K2 & K3 & K4 & K5)|[K1 K2]]; [lia| |].
    + left. exists k, b. repeat split; auto. intros j J. destruct (Nat.lt_ge_cases j (length ms)); [apply K5; lia|auto].
    + right. split; auto. intros j. destruct (Nat.lt_ge_cases j (length ms)); [apply K1; lia|auto].
Qed.

Lemma sort_groups_perm n : forall ms r, sorter srt -> sort_groups srt n ms = Ok r ->
  Permutation r ms /\
  Forall2 (fun g g' => Permutation g' g /\ descending g') (slices n ms) (slices n r).
Proof.
  induction n as [|n IH]; intros ms r W H.
  - cbn in H. inversion H; subst. split; auto. constructor.
  - cbn [sort_groups] in H. destruct (Nat.ltb (length ms) (S n)) eqn:L; [discriminate|].
    apply Nat.ltb_ge in L.
    destruct (existsb (fun m => xisnan (snd m)) (firstn (S n) ms)) eqn:X; [discriminate|].
    destruct (sort_groups srt n (skipn (S n) ms)) as [r'| |] eqn:R; cbn [obind] in H; try discriminate.
    assert (r = srt (firstn (S n) ms) ++ r') as -> by congruence. clear H.
    destruct (IH _ _ W R) as [P1 P2].
    assert (Hn : forall m, In m (firstn (S n) ms) -> snd m <> XN).
    { intros m I Hm. assert (existsb (fun m => xisnan (snd m)) (firstn (S n) ms) = true).
      { apply existsb_exists. exists m; split; auto. rewrite Hm; auto. } congruence. }
    destruct (W _ Hn) as [Q1 Q2].
    assert (Ls : length (srt (firstn (S n) ms)) = S n).
    { rewrite (Permutation_length Q1), firstn_length. lia. }
    split.
    + rewrite <- (firstn_skipn (S n) ms) at 2. apply Permutation_app; auto.
    + cbn [slices].
      replace (firstn (S n) (srt (firstn (S n) ms) ++ r')) with (srt (firstn (S n) ms)).
      2:{ rewrite firstn_app, Ls, Nat.sub_diag, firstn_O, app_nil_r. symmetry. apply firstn_all2. rewrite Ls; auto. }
      replace (skipn (S n) (srt (firstn (S n) ms) ++ r')) with r'.
      2:{ rewrite skipn_app, Ls, Nat.sub_diag, (skipn_all2 (n := S n) (srt (firstn (S n) ms))) by (rewrite Ls; auto). reflexivity. }
      constructor; [split; assumption|exact P2].
Qed.

Lemma sort_groups_ok n : forall ms, 2 * length ms = n * (n + 1) -> (forall m, In m ms -> snd m <> XN) ->
  exists r, sort_groups srt n ms = Ok r.
Proof.
  induction n as [|n IH]; intros ms L H; cbn [sort_groups]; [eauto|].
  destruct (Nat.ltb (length ms) (S n)) eqn:K; [apply Nat.ltb_lt in K; nia|]. apply Nat.ltb_ge in K.
  destruct (existsb (fun m => xisnan (snd m)) (firstn (S n) ms)) eqn:X.
  { exfalso. apply existsb_exists in X as (m & I & E). apply (H m).
    - rewrite <- (firstn_skipn (S n) ms). apply in_app_iff; auto.
    - destruct (snd m); cbn in E; congruence. }
  destruct (IH (skipn (S n) ms)) as [r R].
  - rewrite skipn_length. nia.
  - intros m I. apply H. rewrite <- (firstn_skipn (S n) ms). apply in_app_iff; auto.
  - rewrite R. cbn. eauto.
Qed.

(** Statements used by the property file. *)
Lemma C29_main sel rep : sorter srt -> NoDup vars ->
  vs_optimize crit srt vars t = Ok (sel, rep) -> NoDup sel /\ incl sel vars.
Proof.
  intros W V H. unfold vs_optimize in H.
  destruct search_spec as (s & ms & S1 & S2 & S3). rewrite S1 in H; cbn [obind] in H.
  destruct s.
  - destruct (S3 eq_refl) as [F _].
    destruct (sort_groups srt (length vars) ms) as [r| |] eqn:R; cbn [obind] in H; try discriminate.
    destruct (select_spec r) as [(k & b & K1 & K2 & K3 & _)|[_ K]]; [|rewrite K in H; discriminate].
    rewrite K3 in H; cbn [obind] in H.
    destruct (convert vars (fst b)) as [vs| |] eqn:C; cbn [obind] in H; inversion H; subst.
    apply convert_named in C. split; [|eapply named_in; eauto].
    refine (named_nodup _ _ V _ C). destruct b as [idx v].
    apply (forward_idx _ _ _ F (seq_NoDup _ _) idx v).
    destruct (sort_groups_perm _ _ _ W R) as [P _]. eapply Permutation_in; [exact P|].
    eapply nth_error_In; eauto.
  - inversion H; subst. split; auto. intros x I; auto.
Qed.

Lemma C30_main : exists s ms, search crit vars = Ok (s, ms) /\
  (s = true -> forward [] (seq 0 (length vars)) ms /\ 2 * length ms = length vars * (length vars + 1)) /\
  (forall p idx v, nth_error ms p = Some (idx, v) -> exists vs, named vars idx vs /\ snd (crit p vs) = v).
Proof.
  destruct search_spec as (s & ms & A & [B B'] & C). exists s, ms. split; auto. split; auto.
  intros p idx v H. destruct (B _ _ _ H) as (vs & N & V & _). eauto.
Qed.

Lemma C32_main ms sel rep : sorter srt -> search crit vars = Ok (true, ms) ->
  vs_optimize crit srt vars t = Ok (sel, Some rep) ->
  Permutation rep ms /\
  Forall2 (fun g g' => Permutation g' g /\ descending g') (slices (length vars) ms) (slices (length vars) rep).
Proof.
  intros W S H. unfold vs_optimize in H. rewrite S in H; cbn [obind] in H.
  destruct (sort_groups srt (length vars) ms) as [r| |] eqn:R; cbn [obind] in H; try discriminate.
  destruct (select t r) as [b| |]; cbn [obind] in H; try discriminate.
  destruct (convert vars (fst b)) as [vs| |]; cbn [obind] in H; inversion H; subst.
  apply sort_groups_perm; auto.
Qed.

Lemma slices_concat n : forall ms, 2 * length ms = n * (n + 1) -> concat (slices n ms) = ms.
Proof.
  induction n as [|n IH]; intros ms L; cbn [slices concat].
  - destruct ms; auto; cbn in L; lia.
  - rewrite IH; [apply firstn_skipn|]. rewrite skipn_length. nia.
Qed.

Lemma C33_main ms rep : sorter srt -> search crit vars = Ok (true, ms) ->
  sort_groups srt (length vars) ms = Ok rep ->
  (exists sel, vs_optimize crit srt vars t = Ok (sel, Some rep)) <-> (exists i, improves t rep i).
Proof.
  intros W S R. unfold vs_optimize. rewrite S; cbn [obind]. rewrite R; cbn [obind].
  destruct (select_spec rep) as [(k & b & K1 & K2 & K3 & K4)|[K1 K2]].
  - split; [intros _; eauto|]. intros _. rewrite K3; cbn [obind].
    destruct search_spec as (s & ms' & S1 & S2 & S3). rewrite S in S1; inversion S1; subst.
    destruct (sort_groups_perm _ _ _ W R) as [P _].
    assert (I : In b ms') by (eapply Permutation_in; [exact P|]; eapply nth_error_In; eauto).
    destruct b as [idx v]. destruct (S3 eq_refl) as [F _].
    destruct (forward_idx _ _ _ F (seq_NoDup _ _) idx v I) as [_ Inc].
    destruct (convert_ok vars idx) as (vs & C & _); [intros i J; apply seq_ok; apply Inc in J; auto|].
    cbn [fst]. rewrite C; cbn. eauto.
  - rewrite K2; cbn. split; [intros [sel E]; discriminate|]. intros [i I]. exfalso; eapply K1; eauto.
Qed.

Lemma C33_exact_main ms rep : sorter srt -> search crit vars = Ok (true, ms) ->
  sort_groups srt (length vars) ms = Ok rep ->
  ((exists sel, vs_optimize crit srt vars t = Ok (sel, Some rep)) <-> (exists i, improves t rep i)) /\
  (vs_optimize crit srt vars t = UB <-> forall i, ~ improves t rep i).
Proof.
  intros W S R. pose proof (C33_main ms rep W S R) as M. split; auto.
  destruct (select_spec rep) as [(k & b & K1 & K2 & K3 & K4)|[K1 K2]].
  - destruct (proj2 M (ex_intro _ k K1)) as [sel E]. rewrite E.
    split; [discriminate|]. intros N. exfalso; eapply N; eauto.
  - unfold vs_optimize. rewrite S; cbn [obind]. rewrite R; cbn [obind]. rewrite K2. cbn. tauto.
Qed.

Lemma C33_choice_main ms rep : search crit vars = Ok (true, ms) ->
  sort_groups srt (length vars) ms = Ok rep ->
  forall sel rep', vs_optimize crit srt vars t = Ok (sel, rep') ->
  exists i m, improves t rep i /\ (forall j, i < j -> ~ improves t rep j) /\
    nth_error rep i = Some m /\ named vars (fst m) sel.
Proof.
  intros S R sel rep' H. unfold vs_optimize in H. rewrite S in H; cbn [obind] in H. rewrite R in H; cbn [obind] in H.
  destruct (select_spec rep) as [(k & b & K1 & K2 & K3 & K4)|[K1 K2]]; [|rewrite K2 in H; discriminate].
  rewrite K3 in H; cbn [obind] in H. destruct (convert vars (fst b)) as [vs| |] eqn:C; cbn [obind] in H; inversion H; subst.
  exists k, b. repeat split; auto. apply convert_named; auto.
Qed.

Lemma C34_main : exists s ms, search crit vars = Ok (s, ms) /\
  (s = false <-> exists p idx v vs, nth_error ms p = Some (idx, v) /\ named vars idx vs /\ fst (crit p vs) = false) /\
  (s = false -> vs_optimize crit srt vars t = Ok (vars, None)).
Proof.
  destruct search_spec as (s & ms & A & [B B'] & C). exists s, ms. split; auto. split.
  - split.
    + intros E. specialize (B' E). destruct (exists_last B') as (ms0 & [idx v] & ->).
      assert (N : nth_error (ms0 ++ [(idx, v)]) (length ms0) = Some (idx, v)).
      { rewrite nth_error_app2, Nat.sub_diag; auto. }
      destruct (B _ _ _ N) as (vs & D1 & D2 & D3). exists (length ms0), idx, v, vs.
      split; auto. split; auto. apply D3. split; auto. rewrite app_length; cbn; lia.
    + intros (p & idx & v & vs & N & D & F). destruct (B _ _ _ N) as (vs' & D1 & D2 & D3).
      rewrite (named_fun _ _ _ D D1) in F. apply D3 in F. tauto.
  - intros E. unfold vs_optimize. rewrite A; cbn. rewrite E. reflexivity.
Qed.
End S.

(** A concrete sorter: insertion sort. *)
Fixpoint vinsert (m : vmodel) (l : list vmodel) : list vmodel :=
  match l with
  | [] => [m]
  | q :: t => if xltb (snd m) (snd q) then q :: vinsert m t else m :: l
  end.
Fixpoint vsort (l : list vmodel) : list vmodel :=
  match l with [] => [] | m :: t => vinsert m (vsort t) end.
Lemma vinsert_perm m l : Permutation (vinsert m l) (m :: l).
Proof.
  induction l as [|q l IH]; cbn; auto. destruct (xltb (snd m) (snd q)); auto.
  rewrite IH. apply perm_swap.
Qed.
Lemma vsort_perm l : Permutation (vsort l) l.
Proof. induction l; cbn; auto. rewrite vinsert_perm. auto. Qed.

Fixpoint desc (l : list vmodel) : Prop :=
  match l with [] => True | m :: t => (forall q, In q t -> xltb (snd m) (snd q) = false) /\ desc t end.
Lemma xltb_neg_trans a b c : b <> XN -> xltb a b = false -> xltb b c = false -> xltb a c = false.
Proof.
  destruct a as [r| |[]|], b as [r'| |[]|], c as [r''| |[]|]; cbn; try congruence; auto;
    rewrite !Rltb_false; lra.
Qed.
Lemma xltb_asym a b : xltb a b = true -> xltb b a = false.
Proof.
  intros H. destruct (xltb b a) eqn:E; auto. assert (xltb a a = true) by (eapply xltb_trans; eauto).
  rewrite xltb_irr in H0. discriminate.
Qed.
Lemma vinsert_desc m l : snd m <> XN -> (forall q, In q l -> snd q <> XN) -> desc l -> desc (vinsert m l).
Proof.
  induction l as [|q l IH]; cbn; intros Nm Nl D.
  - split; auto; intros ? [].
  - destruct D as [D1 D2]. destruct (xltb (snd m) (snd q)) eqn:E; cbn.
    + split; [|apply IH; auto]. intros u I. apply (Permutation_in _ (vinsert_perm m l)) in I as [<-|I]; auto.
      apply xltb_asym; auto.
    + split; [|auto]. intros u [<-|I]; auto. eapply xltb_neg_trans; [|exact E|auto]. auto.
Qed.
Lemma vsort_desc l : (forall q, In q l -> snd q <> XN) -> desc (vsort l).
Proof.
  induction l as [|m l IH]; cbn; auto. intros H. apply vinsert_desc; auto.
  intros q I. apply H. right. eapply Permutation_in; [apply vsort_perm|auto].
Qed.
Lemma desc_descending l : desc l -> descending l.
Proof.
  induction l as [|m l IH]; intros D i j a b L Hi Hj; [destruct i; discriminate|].
  cbn [desc] in D. destruct D as [D1 D2]. destruct j as [|j]; [lia|]. destruct i as [|i]; cbn in *.
  - inversion Hi; subst. apply D1. eapply nth_error_In; eauto.
  - eapply (IH D2 i j); eauto. lia.
Qed.
Lemma vsort_sorter : sorter vsort.
Proof.
  intros l H. split; [apply vsort_perm|]. apply desc_descending, vsort_desc; auto.
Qed.

(** C33: with one candidate every run is undefined behaviour; with several, a
    threshold above all improvements suffices. *)
Lemma C33_single_main : forall crit srt v t, sorter srt ->
  (forall k vs, fst (crit k vs) = true) -> (forall k vs, snd (crit k vs) <> XN) ->
  vs_optimize crit srt [v] t = UB.
Proof.
  intros crit srt v t W A B.
  destruct (search_spec crit [v]) as (s & ms & S1 & [S2 S2'] & S3).
  assert (s = true) as ->.
  { destruct s; auto. specialize (S2' eq_refl). destruct (exists_last S2') as (ms0 & [idx u] & ->).
    destruct (S2 (length ms0) idx u) as (vs & _ & _ & K).
    { rewrite nth_error_app2, Nat.sub_diag; auto. }
    assert (fst (crit (0 + length ms0) vs) = false) by (apply K; split; auto; rewrite app_length; cbn; lia).
    rewrite A in H; discriminate. }
  destruct (S3 eq_refl) as [_ L]. cbn in L. destruct ms as [|[idx u] [|? ?]]; cbn in L; try lia.
  unfold vs_optimize. rewrite S1; cbn [obind].
  destruct (sort_groups_ok srt (length [v]) [(idx, u)]) as [r R]; [reflexivity| |].
  - intros m [<-|[]]. destruct (S2 0 idx u eq_refl) as (vs & _ & E & _). cbn in *. rewrite <- E. apply B.
  - rewrite R; cbn [obind]. destruct (sort_groups_perm _ _ _ _ W R) as [P _].
    apply Permutation_sym, Permutation_length_1_inv in P. subst r. reflexivity.
Qed.

Local Open Scope R_scope.
(** Demonstration: two candidates; the second halves the criterion. *)
Definition vdemo_crit : vcriterion := fun _ vs =>
  (true, XF (if existsb (Nat.eqb 8) vs then 10 else 20)).
Lemma xleb_fin a b : a <= b -> xleb (XF a) (XF b) = true.
Proof. intros H. unfold xleb. cbn. apply negb_true_iff, Rltb_false; auto. Qed.
Lemma vdemo_search : search vdemo_crit [7; 8]%nat =
  Ok (true, [([0]%nat, XF 20); ([1]%nat, XF 10); ([1; 0]%nat, XF 10)]).
Proof.
  unfold search. cbn [length seq outer group convert app nth_error obind vdemo_crit].
  cbn. replace (Rltb 10 20) with true by (symmetry; apply Rltb_true; lra). cbn. reflexivity.
Qed.
Lemma vdemo_ok : exists sel rep, vs_optimize vdemo_crit vsort [7; 8]%nat 3 = Ok (sel, Some rep).
Proof.
  assert (R : sort_groups vsort 2 [([0]%nat, XF 20); ([1]%nat, XF 10); ([1; 0]%nat, XF 10)] =
    Ok [([0]%nat, XF 20); ([1]%nat, XF 10); ([1; 0]%nat, XF 10)]).
  { cbn. replace (Rltb 20 10) with false by (symmetry; apply Rltb_false; lra). reflexivity. }
  destruct (proj2 (C33_main vdemo_crit vsort [7; 8]%nat 3 _ _ vsort_sorter vdemo_search R)) as [sel H]; [|eauto].
  exists 1%nat, 0%nat, ([0]%nat, XF 20), ([1]%nat, XF 10). split; auto. split; auto. split; auto.
  cbn [snd]. unfold xsub. cbn [xopp]. replace (Reqb 10 0) with false by (symmetry; apply Reqb_false; lra).
  cbn [xadd]. apply xleb_fin. lra.
Qed.
Lemma C33_refuted_two_main : vs_optimize vdemo_crit vsort [7; 8]%nat 11 = UB.
Proof.
  assert (R : sort_groups vsort 2 [([0]%nat, XF 20); ([1]%nat, XF 10); ([1; 0]%nat, XF 10)] =
    Ok [([0]%nat, XF 20); ([1]%nat, XF 10); ([1; 0]%nat, XF 10)]).
  { cbn. replace (Rltb 20 10) with false by (symmetry; apply Rltb_false; lra). reflexivity. }
  unfold vs_optimize. rewrite vdemo_search; cbn [obind length]. rewrite R; cbn [obind select length Nat.sub select_from nth_error snd].
  unfold xsub. cbn [xopp]. replace (Reqb 10 0) with false by (symmetry; apply Reqb_false; lra). cbn [xadd].
  unfold xleb; cbn. replace (Rltb (10 + - (10)) 11) with true by (symmetry; apply Rltb_true; lra).
  replace (Rltb (20 + - (10)) 11) with true by (symmetry; apply Rltb_true; lra). reflexivity.
Qed.
(** A cancelled run. *)
Lemma vcancel_search : exists ms, search (fun k _ => (Nat.eqb k 0, XF 1)) [7; 8]%nat = Ok (false, ms).
Proof.
  unfold search. cbn. 
  destruct (Rltb 1 1); cbn; eexists; reflexivity.
Qed.
