From Coq Require Import Reals Bool List Arith Lia Lra String.
From Verif Require Import Outcome XReal XRealFacts Sums DiagModel GwdaModel GwdaSpec GwdaProofs GwdaProofs2 GwdaProofs3.
Import ListNotations.
Local Open Scope R_scope.

(** ** Ingredients of the discriminant rule *)
Lemma member_sum : forall y i s f, nth_error (levels y) i = Some s ->
  lsum (map f (members y i)) = label_sum (List.length y) y s f.
Proof. intros y i s f E. unfold members. rewrite E. apply findSame_weight. Qed.
Lemma rmean_label : forall y x wt i s j a, nth_error (levels y) i = Some s ->
  rmean x wt (members y i) j a = label_mean (List.length y) y x wt s j a.
Proof. intros y x wt i s j a E. unfold rmean, label_mean. rewrite !(member_sum y i s _ E). reflexivity. Qed.
Lemma rcov_label : forall y x wt i s j a b, nth_error (levels y) i = Some s ->
  rcov x wt (members y i) j a b = label_cov (List.length y) y x wt s j a b.
Proof.
  intros y x wt i s j a b E. unfold rcov, label_cov; cbv zeta. rewrite !(member_sum y i s _ E).
  rewrite !(rmean_label y x wt i s j _ E). reflexivity.
Qed.
Lemma lev_seq : forall {A B} (f : A -> B) (g : nat -> B) l, (forall i s, nth_error l i = Some s -> g i = f s) ->
  map g (seq 0 (List.length l)) = map f l.
Proof.
  intros A B f g l; revert g; induction l as [|s l IH]; intros g H; [reflexivity|].
  cbn [List.length seq map]. f_equal; [apply (H 0%nat); reflexivity|].
  rewrite <- seq_shift, map_map. apply (IH (fun i => g (S i))). intros i t E. apply (H (S i)); exact E.
Qed.
Lemma rprod_same : forall {A} (f g : A -> R) l, rprod (map f l) (map g l) = map (fun k => f k * g k) l.
Proof. intros A f g l; induction l as [|k l IH]; [reflexivity|]. unfold rprod in *; cbn. f_equal; exact IH. Qed.
Lemma xvals_ext : forall {A} (l : list A) f g, (forall a, In a l -> xval (f a) = Some (g a)) -> xvals (map f l) (map g l).
Proof.
  intros A l f g; unfold xvals; induction l as [|a l IH]; intros H; [reflexivity|]. cbn [map]. f_equal; [apply H; left; reflexivity|].
  apply IH. intros b I; apply H; right; exact I.
Qed.
Lemma C96_deviation_main : forall x y wt xpr o i s j, nth_error (levels y) i = Some s ->
  let n := List.length y in
  let w := if hasMean o then wt else fun _ _ => 1 in
  label_sum n y s (fun k => w k j) <> 0 ->
  forall a, has_value (pdiff x y wt xpr o i j a) (xpr j a - label_mean n y x w s j a).
Proof.
  intros x y wt xpr o i s j E n w N a. unfold has_value, pdiff, pmean. apply xval_xsub; [reflexivity|].
  change (pick wt (hasMean o)) with w. unfold n. rewrite <- (rmean_label y x w i s j a E). apply wMean_val.
  rewrite (member_sum y i s _ E). exact N.
Qed.
Lemma C96_pooled_main : forall p x y wt o j, (2 <= p)%nat -> y <> [] ->
  let n := List.length y in
  let w := if hasCov o then wt else fun _ _ => 1 in
  (forall s, In s y -> 0 < label_sum n y s (fun k => w k j)) ->
  (forall s, In s y -> label_sum n y s (fun k => w k j * w k j) < label_sum n y s (fun k => w k j) * label_sum n y s (fun k => w k j)) ->
  forall a b, has_value (pcov p x y wt o j a b)
    (lsum (map (fun s => INR (count_occ string_dec y s) * label_cov n y x w s j a b) (levels y)) / INR n).
Proof.
  intros p x y wt o j P NE n w W1 W2 a b. unfold has_value, pcov.
  change (pick wt (hasCov o)) with w. rewrite map_map.
  assert (LI : forall i s, nth_error (levels y) i = Some s -> In s y).
  { intros i s E. apply (proj1 (proj2 (levels_spec y))). eapply nth_error_In; eauto. }
  assert (S1 : xvals (map (fun s => XF (INR (count_of s (ytable y)))) (levels y)) (map (fun s => INR (count_occ string_dec y s)) (levels y))).
  { apply xvals_ext. intros s _. rewrite ytable_spec. reflexivity. }
  assert (S2 : xvals (map (fun i => wVarCov p x w (members y i) j a b) (seq 0 (m y))) (map (fun s => label_cov n y x w s j a b) (levels y))).
  { rewrite <- (lev_seq (fun s => label_cov n y x w s j a b) (fun i => rcov x w (members y i) j a b)).
    - apply xvals_ext. intros i I. apply in_seq in I. unfold m in I. destruct (nth_error (levels y) i) as [s|] eqn:E.
      + apply cov_val; [exact P| |].
        * rewrite (member_sum y i s _ E). assert (A := W1 s (LI i s E)). fold n. apply A.
        * rewrite !(member_sum y i s _ E). apply (W2 s (LI i s E)).
      + apply nth_error_None in E. lia.
    - intros i s E. apply rcov_label; exact E. }
  assert (T : lsum (map (fun s => INR (count_occ string_dec y s)) (levels y)) = INR n).
  { assert (Q := ytable_total y). fold n in Q. rewrite <- Q. clear. induction (levels y) as [|s l IH]; [reflexivity|].
    cbn [map fold_right]. rewrite plus_INR, <- IH, ytable_spec. reflexivity. }
  apply xval_xdiv.
  - rewrite (xdotl_val _ _ _ _ S1 S2). rewrite rprod_same. reflexivity.
  - rewrite (xlsum_val _ _ S1), T. reflexivity.
  - unfold n. destruct y; [contradiction|]. apply not_0_INR. discriminate.
Qed.

(** ** What a run reports *)
Lemma mapO_inv : forall {A B} (f : A -> outcome B) l bs, mapO f l = Ok bs ->
  List.length bs = List.length l /\ forall i a, nth_error l i = Some a -> exists b, nth_error bs i = Some b /\ f a = Ok b.
Proof.
  intros A B f l; induction l as [|a l IH]; intros bs H; cbn [mapO] in H.
  - injection H as <-. split; [reflexivity|]. intros i a E; destruct i; discriminate.
  - destruct (f a) as [b| |] eqn:E; cbn [obind] in H; try discriminate.
    destruct (mapO f l) as [bs'| |] eqn:E'; cbn [obind] in H; try discriminate. injection H as <-.
    destruct (IH _ eq_refl) as [L N]. split; [cbn; lia|]. intros [|i] a' Ea.
    + injection Ea as <-. exists b; auto.
    + apply (N i); exact Ea.
Qed.
Lemma nth_seq : forall i n, (i < n)%nat -> nth_error (seq 0 n) i = Some i.
Proof. intros i n L. rewrite (nth_error_nth' (seq 0 n) 0%nat) by (rewrite seq_length; lia). rewrite seq_nth by lia. reflexivity. Qed.
Lemma mapO_seq : forall {B} (f : nat -> outcome B) n bs, mapO f (seq 0 n) = Ok bs ->
  List.length bs = n /\ forall i, (i < n)%nat -> exists b, nth_error bs i = Some b /\ f i = Ok b.
Proof.
  intros B f n bs H. destruct (mapO_inv _ _ _ H) as [L N]. rewrite seq_length in L. split; [exact L|].
  intros i Li. apply (N i); apply nth_seq; exact Li.
Qed.
Lemma matches_spec : forall group y ok, matches group y = Ok ok ->
  (List.length group <= List.length y)%nat /\ ok = map (fun q => String.eqb (fst q) (snd q)) (combine group y).
Proof.
  unfold matches. induction group as [|g group IH]; intros y ok H.
  - cbn in H. injection H as <-. split; [cbn; lia|reflexivity].
  - cbn [List.length seq mapO] in H. destruct y as [|t y]; [cbn in H; discriminate|]. cbn [nth_error obind] in H.
    rewrite <- seq_shift in H.
    assert (E : forall {A B C} (f : B -> outcome C) (h : A -> B) l, mapO f (map h l) = mapO (fun a => f (h a)) l).
    { intros A B C f h l; induction l as [|a l IHl]; [reflexivity|]. cbn [map mapO]. rewrite IHl. reflexivity. }
    rewrite E in H. cbn [nth_error] in H.
    destruct (mapO _ (seq 0 (List.length group))) as [ok'| |] eqn:M in H; cbn [obind] in H; try discriminate.
    injection H as <-. destruct (IH y ok' M) as [L ->]. split; [cbn; lia|reflexivity].
Qed.
Lemma xlmax_inv : forall l rs b, xvals l rs -> (b = XI true \/ exists v, xval b = Some v) ->
  let r := fold_left (fun b v => if xltb b v then v else b) l b in
  (l = [] /\ r = b) \/ exists q, has_value r q /\ (In q rs \/ xval b = Some q) /\ (forall q', In q' rs -> q' <= q) /\ (forall v, xval b = Some v -> v <= q).
Proof.
  induction l as [|a l IH]; intros rs b H B r; [left; auto|]. right.
  destruct rs as [|v rs]; [discriminate H|]. unfold xvals in H; cbn [map] in H. injection H as Ha Hl.
  cbn [fold_left] in r.
  assert (C : (if xltb b a then a else b) = (if xltb b a then a else b)) by reflexivity.
  destruct (xltb b a) eqn:T.
  - destruct (IH rs a Hl (or_intror (ex_intro _ v Ha))) as [[-> E]|(q & Q1 & Q2 & Q3 & Q4)].
    + exists v. unfold r. cbn. split; [exact Ha|]. split; [left; left; reflexivity|]. destruct rs; [|discriminate Hl].
      split; [intros q' [<-|[]]; lra|]. intros v0 V0. rewrite (xltb_val _ _ _ _ V0 Ha) in T. apply Rltb_true in T. lra.
    + exists q. split; [exact Q1|]. split.
      * left. destruct Q2 as [I|E]; [right; exact I|]. rewrite Ha in E. injection E as ->. left; reflexivity.
      * split; [intros q' [<-|I]; [apply Q4; exact Ha|apply Q3; exact I]|].
        intros v0 V0. rewrite (xltb_val _ _ _ _ V0 Ha) in T. apply Rltb_true in T. assert (A := Q4 v Ha). lra.
  - assert (Bv : exists v0, xval b = Some v0).
    { destruct B as [->|Bv]; [|exact Bv]. destruct a; cbn in Ha; try discriminate; cbn in T; discriminate. }
    destruct Bv as [v0 V0]. rewrite (xltb_val _ _ _ _ V0 Ha) in T. apply Rltb_false in T.
    destruct (IH rs b Hl (or_intror (ex_intro _ v0 V0))) as [[-> E]|(q & Q1 & Q2 & Q3 & Q4)].
    + exists v0. unfold r. cbn. split; [exact V0|]. split; [right; exact V0|]. destruct rs; [|discriminate Hl].
      split; [intros q' [<-|[]]; lra|]. intros v1 V1. rewrite V0 in V1. injection V1 as ->. lra.
    + exists q. split; [exact Q1|]. split.
      * destruct Q2 as [I|E']; [left; right; exact I|right; exact E'].
      * split; [intros q' [<-|I]; [assert (A := Q4 v0 V0); lra|apply Q3; exact I]|exact Q4].
Qed.
Lemma xlmax_val : forall l rs, row_values l rs -> rs <> [] -> exists q, has_value (xlmax l) q /\ In q rs /\ forall q', In q' rs -> q' <= q.
Proof.
  intros l rs H NE. destruct (xlmax_inv l rs (XI true) H (or_introl eq_refl)) as [[-> _]|(q & Q1 & Q2 & Q3 & _)].
  - destruct rs; [contradiction|discriminate H].
  - exists q. split; [exact Q1|]. split; [|exact Q3]. destruct Q2 as [I|E]; [exact I|discriminate E].
Qed.

Section Run.
Variable mnorm : (nat -> nat -> xd) -> xd.
Variable squad : (nat -> nat -> xd) -> (nat -> xd) -> outcome xd.
Variables n p : nat.
Variable x : nat -> nat -> R.
Variable y : list string.
Variable W : nat -> nat -> R.
Variable o : opts.
Lemma C71_reported_main : forall md s r, (0 < n)%nat -> snd (run mnorm squad n p x y W o md s) = Ok r ->
  exists npr xpr wt cols,
    (npr, xpr) = match st_prX s with None => (n, x) | Some q => q end /\
    (forall k j, wt k j = match md, st_prX s, st_prY s with
                          | Serial, None, None => if (k =? j)%nat then 0 else W k j | _, _, _ => W k j end) /\
    (if isWqda o then wqda mnorm squad n p x y wt npr xpr o else wlda mnorm squad n p x y wt npr xpr o) = Ok cols /\
    List.length (r_group r) = npr /\ (npr <= List.length y)%nat /\
    has_value (r_rate r) (INR (List.length (filter (fun q => String.eqb (fst q) (snd q)) (combine (r_group r) y))) / INR n) /\
    (forall j, (j < npr)%nat ->
       (exists g, nth_error (r_group r) j = Some g /\ nth_error (levels y) (index_min (row_of cols j)) = Some g) /\
       nth_error (r_probs r) j = Some (probs_row (row_of cols j)) /\
       (forall ps, row_values (probs_row (row_of cols j)) ps -> ps <> [] ->
          exists v q, nth_error (r_pmax r) j = Some v /\ has_value v q /\ In q ps /\ forall q', In q' ps -> q' <= q)) /\
    (forall j, (j < n)%nat -> nth_error (r_entropy r) j = Some (entropy_row (row_of cols j))).
Proof.
  intros md s r Ln. unfold run. destruct (p <? 2)%nat; [discriminate|]. cbn [snd].
  set (hp := negb _). set (prX := match st_prX s with None => (n, x) | Some q => q end).
  destruct (logPf mnorm squad n p x y (weights md hp W) (fst prX) (snd prX) o) as [cols| |] eqn:E1; cbn [obind]; try discriminate.
  destruct (groups_of (levels y) (fst prX) cols) as [group| |] eqn:E2; cbn [obind]; try discriminate.
  unfold summarise. destruct (matches group y) as [ok| |] eqn:E3; cbn [obind]; try discriminate.
  destruct (List.length cols <=? 1)%nat eqn:E4; try discriminate. cbv zeta.
  destruct (mapO _ (seq 0 n)) as [ent| |] eqn:E5; cbn [obind]; try discriminate.
  intros H; injection H as <-. cbn [r_group r_rate r_probs r_pmax r_entropy].
  destruct (mapO_seq _ _ _ E2) as [LG NG]. destruct (matches_spec _ _ _ E3) as [LL ->]. destruct (mapO_seq _ _ _ E5) as [LE NEn].
  exists (fst prX), (snd prX), (weights md hp W), cols.
  split; [symmetry; apply surjective_pairing|]. split; [|split; [exact E1|split; [exact LG|split; [lia|split; [|split]]]]].
  - intros k j. unfold hp, weights. destruct md; destruct (st_prX s); destruct (st_prY s); reflexivity.
  - assert (C : forall l : list (string * string), List.length (filter (fun b : bool => b) (map (fun q => String.eqb (fst q) (snd q)) l))
      = List.length (filter (fun q => String.eqb (fst q) (snd q)) l)).
    { induction l as [|q l IH]; [reflexivity|]. cbn. destruct (String.eqb _ _); cbn; rewrite IH; reflexivity. }
    unfold has_value. rewrite C. refine (xval_xdiv (XF _) (XF _) _ _ eq_refl eq_refl _). apply not_0_INR; lia.
  - intros j Lj. split; [|split].
    + destruct (NG j Lj) as [g [G1 G2]]. exists g. split; [exact G1|]. destruct (nth_error (levels y) _); congruence.
    + apply (map_nth_error (fun j => probs_row (row_of cols j))). apply nth_seq; exact Lj.
    + intros ps P NE. destruct (xlmax_val _ _ P NE) as [q Q]. exists (xlmax (probs_row (row_of cols j))), q. split; [|exact Q].
      apply (map_nth_error (fun j => xlmax (probs_row (row_of cols j)))). apply nth_seq; exact Lj.
  - intros j Lj. destruct (NEn j Lj) as [b [B1 B2]]. rewrite B1. destruct (j <? fst prX)%nat; congruence.
Qed.
End Run.
