(** Discriminant analysis: whole runs and the concrete cases. *)
From Coq Require Import Reals Bool List Arith Lia Lra String.
From Verif Require Import Outcome XReal XRealFacts Sums DiagModel DiagProofs
  GwdaModel GwdaSpec GwdaProofs GwdaProofs2 GwdaProofs3.
Import ListNotations.
Local Open Scope string_scope.
Local Open Scope R_scope.

(** ** Runs *)

Lemma run_predict_eq : forall mnorm squad n p x y W o s,
  st_prX s <> None \/ st_prY s <> None ->
  run mnorm squad n p x y W o Serial s = run mnorm squad n p x y W o Omp s.
Proof.
  intros mnorm squad n p x y W o [[q|] [r|]] H; simpl in H; try reflexivity.
  destruct H; congruence.
Qed.

Lemma run_again : forall mnorm squad n p x y W o md, (2 <= p)%nat ->
  snd (run mnorm squad n p x y W o Serial (fst (run mnorm squad n p x y W o md fresh))) =
  snd (run mnorm squad n p x y W o Omp fresh).
Proof.
  intros mnorm squad n p x y W o md P. unfold run.
  replace (p <? 2)%nat with false by (symmetry; apply Nat.ltb_ge, P). reflexivity.
Qed.

Lemma wqda_throws : forall mnorm squad n p x y wt npr xpr o, y <> [] ->
  hasMean o && hasCov o && hasPrior o = false ->
  wqda mnorm squad n p x y wt npr xpr o = Throw.
Proof.
  intros mnorm squad n p x y wt npr xpr o N H. unfold wqda. rewrite H.
  replace (0 <? m y)%nat with true; [reflexivity|]. symmetry; apply Nat.ltb_lt. unfold m.
  destruct y as [|s y']; [congruence|]. pose proof (proj1 (proj2 (levels_spec (s :: y'))) s) as I.
  destruct (levels (s :: y')); [exfalso; apply (proj2 I); left; reflexivity|simpl; lia].
Qed.

Lemma run_wqda_throws : forall mnorm squad n p x y W o md s, y <> [] -> isWqda o = true ->
  hasMean o && hasCov o && hasPrior o = false ->
  snd (run mnorm squad n p x y W o md s) = Throw.
Proof.
  intros mnorm squad n p x y W o md s N Q H. unfold run. destruct (p <? 2)%nat; [reflexivity|].
  cbn [snd]. unfold logPf. rewrite Q, wqda_throws by assumption. reflexivity.
Qed.

(** ** Rows with a negative or misordered probability *)

Definition bad_row : list xd := [XF 0; XF (- / 2)].
Lemma bad_row_negative : row_values (probs_row bad_row) [2; -1].
Proof.
  replace [2; -1] with (map (fun r => r / lsum (tmpv [0; - / 2])) (tmpv [0; - / 2])).
  - apply probs_val; [reflexivity|discriminate|]. unfold tmpv; simpl; rewrite exp_0; lra.
  - unfold tmpv; simpl; rewrite exp_0. f_equal; [field; lra|f_equal; field; lra].
Qed.

Definition odd_row : list xd := [XF 0; XF (ln 2); XF 1].
Lemma odd_row_probs : row_values (probs_row odd_row) [1 / 4; 1 / 2; 1 / 4].
Proof.
  replace [1 / 4; 1 / 2; 1 / 4] with (map (fun r => r / lsum (tmpv [0; ln 2; 1])) (tmpv [0; ln 2; 1])).
  - apply probs_val; [reflexivity|discriminate|]. unfold tmpv; simpl; rewrite exp_0, exp_ln; lra.
  - unfold tmpv; simpl; rewrite exp_0, exp_ln by lra. f_equal; [field|f_equal; [field|f_equal; field]].
Qed.
Lemma odd_row_lt : 1 / 4 < 1 / 2.
Proof. lra. Qed.
Lemma odd_row_min : index_min odd_row = 0%nat.
Proof.
  destruct (index_min_spec odd_row [0; ln 2; 1] eq_refl ltac:(discriminate)) as [r [E M]].
  destruct (index_min odd_row) as [|c] eqn:I; [reflexivity|].
  destruct (M 0%nat 0 eq_refl) as [_ M0]. specialize (M0 ltac:(lia)).
  pose proof ln2_pos. destruct c as [|[|[|?]]]; simpl in E; try discriminate; injection E as <-; lra.
Qed.

Definition flat_row : list xd := [XF 0; XF 0; XF 1].
Lemma flat_row_entropy : exists h, has_value (entropy_row flat_row) h /\ 1 < h.
Proof.
  assert (V : xvals (probs_row flat_row) (repeat (1 / 3) 3)).
  { replace (repeat (1 / 3) 3) with (map (fun r => r / lsum (tmpv [0; 0; 1])) (tmpv [0; 0; 1])).
    - apply probs_val; [reflexivity|discriminate|]. unfold tmpv; simpl; rewrite exp_0; lra.
    - unfold tmpv; simpl; rewrite exp_0. f_equal; [field|f_equal; [field|f_equal; field]]. }
  pose proof (uniform_entropy 3 _ (1 / 3) ltac:(lia) ltac:(lra) V) as H.
  pose proof (entMax_val 3 ltac:(lia)) as E. simpl INR in *.
  replace (1 + 1 + 1 - 1) with 2 in E by lra. replace (1 + 1 + 1) with 3 in H by lra.
  pose proof ln2_pos. assert (ln 2 < ln 3) by (apply ln_increasing; lra).
  exists (ln 3 / ln 2 / (ln 2 / ln 2)). split.
  - apply xval_xdiv; [exact H|exact E|]. apply Rgt_not_eq, Rdiv_lt_0_compat; lra.
  - replace (ln 3 / ln 2 / (ln 2 / ln 2)) with (ln 3 / ln 2) by (field; lra).
    apply Rmult_lt_reg_r with (ln 2); [lra|]. unfold Rdiv; rewrite Rmult_assoc, Rinv_l by lra; lra.
Qed.

(** ** Four observations in two groups with equal means *)

Definition ex_labels : list string := ["A"; "B"; "A"; "B"].
Definition ex_vars (k a : nat) : R :=
  match k, a with
  | 0%nat, _ => 0
  | 1%nat, 0%nat => 0 | 1%nat, _ => 2
  | 2%nat, _ => 2
  | _, 0%nat => 2 | _, _ => 0
  end.
Definition ex_wts (k j : nat) : R := if (k =? j)%nat then 1 else / 2.
(** Linear analysis, global means and covariances, local priors. *)
Definition ex_opts : opts := {| isWqda := false; hasCov := false; hasMean := false; hasPrior := true |}.

Section Witness.
Variable mnorm : (nat -> nat -> xd) -> xd.
Variable squad : (nat -> nat -> xd) -> (nat -> xd) -> outcome xd.
Variable Q : (nat -> nat -> xd) -> (nat -> xd) -> R.
Variable N : (nat -> nat -> xd) -> R.
Hypothesis HN : forall M, 0 < N M /\ xval (mnorm M) = Some (N M).
Hypothesis HQ : forall M d, exists q, squad M d = Ok q /\ xval q = Some (Q M d).
Hypothesis HE : forall M d d', (forall a, d a = d' a) -> Q M d = Q M d'.

Variable wt : nat -> nat -> R.
Variable win : nat -> nat.
Hypothesis Win : forall j, (j < 4)%nat -> (win j < 2)%nat.
Hypothesis Wnn : forall k j, (k < 4)%nat -> (j < 4)%nat -> 0 <= wt k j.
Hypothesis Pos : forall s j, In s ex_labels -> (j < 4)%nat -> 0 < label_weight 4 ex_labels wt s j.
Hypothesis Better : forall j s t, (j < 4)%nat -> nth_error ["A"; "B"] (win j) = Some s ->
  nth_error ["A"; "B"] (1 - win j) = Some t ->
  label_weight 4 ex_labels wt t j < label_weight 4 ex_labels wt s j.

Lemma ex_mean : forall i j a, (i < 2)%nat ->
  wMean ex_vars wtOnes (members ex_labels i) j a = XF 1.
Proof.
  intros i j a L.
  assert (V : xval (wMean ex_vars wtOnes (members ex_labels i) j a) = Some 1).
  { assert (E : members ex_labels i = [0; 2]%nat \/ members ex_labels i = [1; 3]%nat)
      by (destruct i as [|[|?]]; [left|right|lia]; reflexivity).
    destruct E as [E|E]; rewrite E, wMean_val by (simpl; unfold wtOnes; lra); f_equal;
      unfold rmean, wtOnes; simpl; destruct a; lra. }
  destruct (wMean ex_vars wtOnes (members ex_labels i) j a); simpl in V; try discriminate; [congruence|].
  injection V as V; lra.
Qed.

Lemma ex_groups : exists cols,
  wlda mnorm squad 4 2 ex_vars ex_labels wt 4 ex_vars ex_opts = Ok cols /\
  List.length cols = 2%nat /\
  groups_of (levels ex_labels) 4 cols = Ok (map (fun j => nth (win j) ["A"; "B"] "") (seq 0 4)).
Proof.
  destruct (lda_rule mnorm squad 4 2 ex_vars ex_labels wt 4 ex_vars ex_opts Q N eq_refl (le_n 4) HN HQ Wnn Pos)
    as [cols [E R]].
  exists cols; split; [exact E|split].
  - rewrite (wlda_ok mnorm squad 4 2 ex_vars ex_labels wt 4 ex_vars ex_opts Q eq_refl (le_n 4) HQ) in E.
    injection E as <-. reflexivity.
  - apply mapO_ok. intros j I. apply in_seq in I.
    destruct (R j ltac:(lia) ltac:(discriminate)) as [c [s [C [Es M]]]]. rewrite C.
    change (levels ex_labels) with ["A"; "B"] in *.
    assert (Lc : (c < 2)%nat) by (assert (c < List.length ["A"; "B"])%nat by (apply nth_error_Some; congruence); assumption).
    assert (QQ : forall c c', (c < 2)%nat -> (c' < 2)%nat ->
      Q (pcov 2 ex_vars ex_labels wt ex_opts j) (pdiff ex_vars ex_labels wt ex_vars ex_opts c j) =
      Q (pcov 2 ex_vars ex_labels wt ex_opts j) (pdiff ex_vars ex_labels wt ex_vars ex_opts c' j)).
    { intros c1 c2 L1 L2. apply HE. intros a. unfold pdiff, pmean. cbn [ex_opts hasMean pick].
      rewrite !ex_mean by assumption. reflexivity. }
    pose proof (Win j ltac:(lia)) as Lw.
    assert (Ew : c = win j).
    { destruct (Nat.eq_dec c (win j)) as [|D]; [assumption|exfalso].
      assert (Ec : c = (1 - win j)%nat) by lia.
      destruct (nth_error ["A"; "B"] (win j)) as [t|] eqn:Et; [|apply nth_error_None in Et; simpl in Et; lia].
      destruct (M (win j) t Et) as [M1 _]. rewrite (QQ c (win j) Lc Lw) in M1.
      assert (B : label_weight 4 ex_labels wt s j < label_weight 4 ex_labels wt t j)
        by (apply Better; [lia|exact Et|rewrite <- Ec; exact Es]).
      assert (Is : In s ex_labels) by (destruct c as [|[|?]]; simpl in Es; [injection Es as <-|injection Es as <-|lia]; simpl; tauto).
      apply ln_increasing in B; [|apply Pos; [exact Is|lia]].
      cbn [pick ex_opts hasPrior] in M1. lra. }
    rewrite <- Ew, Es. f_equal. symmetry. apply nth_error_nth. exact Es.
Qed.
End Witness.

Section Runs.
Variable mnorm : (nat -> nat -> xd) -> xd.
Variable squad : (nat -> nat -> xd) -> (nat -> xd) -> outcome xd.
Variable Q : (nat -> nat -> xd) -> (nat -> xd) -> R.
Variable N : (nat -> nat -> xd) -> R.
Hypothesis HN : forall M, 0 < N M /\ xval (mnorm M) = Some (N M).
Hypothesis HQ : forall M d, exists q, squad M d = Ok q /\ xval q = Some (Q M d).
Hypothesis HE : forall M d d', (forall a, d a = d' a) -> Q M d = Q M d'.

Lemma ex_summary : forall cols g, List.length cols = 2%nat -> List.length g = 4%nat ->
  exists res, summarise 4 4 ex_labels g cols = Ok res /\ r_group res = g /\
    r_rate res = xdiv (XF (INR (List.length (filter (fun q => String.eqb (fst q) (snd q)) (combine g ex_labels))))) (XF (INR 4)).
Proof.
  intros cols g L G. destruct g as [|a [|b [|c [|d [|]]]]]; try discriminate.
  unfold summarise, matches.
  change (List.length [a; b; c; d]) with 4%nat.
  change (mapO _ (seq 0 4)) with
    (@Ok (list bool) [String.eqb a "A"; String.eqb b "B"; String.eqb c "A"; String.eqb d "B"]) at 1.
  cbn [obind]. rewrite L. cbn [Nat.leb].
  rewrite (mapO_ok _ (fun i => entropy_row (row_of cols i)))
    by (intros i I; apply in_seq in I; destruct (Nat.ltb_spec i 4); [reflexivity|lia]).
  cbn [obind]. eexists; split; [reflexivity|split; [reflexivity|]].
  cbn [r_rate combine ex_labels filter fst snd].
  destruct (String.eqb a "A"), (String.eqb b "B"), (String.eqb c "A"), (String.eqb d "B"); reflexivity.
Qed.

Lemma lw_cases : forall wt s j, label_weight 4 ex_labels wt s j =
  (if String.eqb "A" s then wt 0%nat j + wt 2%nat j else 0) +
  (if String.eqb "B" s then wt 1%nat j + wt 3%nat j else 0).
Proof.
  intros wt s j. unfold label_weight, ex_labels; cbn [bigsum nth_error].
  destruct (String.eqb "A" s), (String.eqb "B" s); lra.
Qed.

Ltac crunch := unfold weights, ex_wts; simpl; lra.

Lemma ex_serial : exists res, snd (run mnorm squad 4 2 ex_vars ex_labels ex_wts ex_opts Serial fresh) = Ok res /\
  r_group res = ["B"; "A"; "B"; "A"] /\ has_value (r_rate res) 0.
Proof.
  set (wt := weights Serial false ex_wts).
  destruct (ex_groups mnorm squad Q N HN HQ HE wt (fun j => if Nat.even j then 1%nat else 0%nat)) as [cols [E [L G]]].
  - intros j _; destruct (Nat.even j); lia.
  - intros k j _ _; unfold wt, weights, ex_wts. destruct (k =? j)%nat; simpl; lra.
  - intros s j I Lj. rewrite lw_cases. unfold wt.
    destruct I as [<-|[<-|[<-|[<-|[]]]]]; destruct j as [|[|[|[|?]]]]; try lia; crunch.
  - intros j s t Lj Es Et. rewrite !lw_cases. unfold wt.
    destruct j as [|[|[|[|?]]]]; try lia; simpl in Es, Et; injection Es as <-; injection Et as <-; crunch.
  - destruct (ex_summary cols ["B"; "A"; "B"; "A"] L eq_refl) as [res [R [RG RR]]]. exists res. split; [|split].
    + change (obind (wlda mnorm squad 4 2 ex_vars ex_labels wt 4 ex_vars ex_opts)
                (fun cols => obind (groups_of (levels ex_labels) 4 cols)
                   (fun g => summarise 4 4 ex_labels g cols)) = Ok res).
      rewrite E. cbn [obind]. rewrite G. cbn [obind]. exact R.
    + rewrite RG. reflexivity.
    + rewrite RR. refine (eq_trans (xval_xdiv (XF (INR 0)) (XF (INR 4)) (INR 0) (INR 4) eq_refl eq_refl _) _); [simpl; lra|f_equal; simpl; field].
Qed.

Lemma ex_omp : exists res, snd (run mnorm squad 4 2 ex_vars ex_labels ex_wts ex_opts Omp fresh) = Ok res /\
  r_group res = ["A"; "B"; "A"; "B"] /\ has_value (r_rate res) 1.
Proof.
  set (wt := weights Omp false ex_wts).
  destruct (ex_groups mnorm squad Q N HN HQ HE wt (fun j => if Nat.even j then 0%nat else 1%nat)) as [cols [E [L G]]].
  - intros j _; destruct (Nat.even j); lia.
  - intros k j _ _; unfold wt, weights, ex_wts. destruct (k =? j)%nat; simpl; lra.
  - intros s j I Lj. rewrite lw_cases. unfold wt.
    destruct I as [<-|[<-|[<-|[<-|[]]]]]; destruct j as [|[|[|[|?]]]]; try lia; crunch.
  - intros j s t Lj Es Et. rewrite !lw_cases. unfold wt.
    destruct j as [|[|[|[|?]]]]; try lia; simpl in Es, Et; injection Es as <-; injection Et as <-; crunch.
  - destruct (ex_summary cols ["A"; "B"; "A"; "B"] L eq_refl) as [res [R [RG RR]]]. exists res. split; [|split].
    + change (obind (wlda mnorm squad 4 2 ex_vars ex_labels wt 4 ex_vars ex_opts)
                (fun cols => obind (groups_of (levels ex_labels) 4 cols)
                   (fun g => summarise 4 4 ex_labels g cols)) = Ok res).
      rewrite E. cbn [obind]. rewrite G. cbn [obind]. exact R.
    + rewrite RG. reflexivity.
    + rewrite RR. refine (eq_trans (xval_xdiv (XF (INR 4)) (XF (INR 4)) (INR 4) (INR 4) eq_refl eq_refl _) _); [simpl; lra|f_equal; simpl; field].
Qed.
End Runs.
