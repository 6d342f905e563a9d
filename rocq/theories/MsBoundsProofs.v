From Coq Require Import Reals Bool List Lra.
From Verif Require Import XReal KernelModel GoldModel GoldSpec GoldProofs GoldProofs2 MsBounds.
Import ListNotations.
Local Open Scope R_scope.

Lemma C89_main : forall crit w al n dmin dmax, wadaptive w = false ->
  let r := backfit_search crit w None None al n BInitial dmin dmax in
  (forall w' v, evaluated r w' v -> wvalue w' = 0) /\
  (forall wr, rresult r = Fresh wr -> wvalue wr = 0) /\ (rcalls r <= 2)%nat.
Proof.
intros crit w al n dmin dmax Hw; cbv zeta; unfold backfit_search, search_bounds; rewrite Hw; cbn [fst snd value_or dist_record].
assert (H1 : wvalue (first_weight w 0 0) = 0) by (unfold first_weight; rewrite Hw; cbn [wvalue]; ring).
assert (H2 : wvalue (second_weight w 0 0) = 0) by (unfold second_weight; rewrite Hw; cbn [wvalue]; ring).
unfold optimize, evaluated.
destruct (crit 0%nat (first_weight w 0 0)) as [ok1 v1|]; [|cbn; repeat split; auto; try discriminate; intros; tauto].
destruct (crit 1%nat (second_weight w 0 0)) as [ok2 v2|].
2:{ cbn [rlog rresult rcalls]; repeat split; auto; try discriminate.
    intros w' v [E|[]]; injection E as <- <-; exact H1. }
assert (HL : forall w' v, In (w', v) [(second_weight w 0 0, v2); (first_weight w 0 0, v1)] -> wvalue w' = 0).
{ intros w' v [E|[E|[]]]; injection E as <- <-; assumption. }
destruct (negb (ok1 && ok2)); [cbn [rlog rresult rcalls]; repeat split; auto; discriminate|].
destruct (is_max_dbl v1 && is_max_dbl v2); [cbn [rlog rresult rcalls]; repeat split; auto; discriminate|].
assert (HG : guard (init_vars w 0 0 [] v1 v2) = false).
{ unfold guard, init_vars; cbn [s1 s2 dd].
  replace (golden * (0 - 0)) with 0 by ring. rewrite Rabs_R0.
  unfold Rltb; destruct (Rlt_dec eps 0) as [A|A]; [unfold eps in A; lra|].
  reflexivity. }
assert (HLp : loop 101 crit w (init_vars w 0 0 [] v1 v2) = LDone (init_vars w 0 0 [] v1 v2)).
{ change 101%nat with (S 100). cbn [loop]. rewrite HG. reflexivity. }
rewrite HLp; cbn [s1 s2 init_vars andb calls elog xopt cmap rlog rresult rcalls].
repeat split; auto.
intros wr E; injection E as <-; cbn [wvalue].
unfold better; destruct (xltb v1 v2); assumption.
Qed.

Lemma C89_null_main : forall crit w al n dmin dmax, wadaptive w = false -> dmin < dmax ->
  let r := backfit_search crit w None None al n BNull dmin dmax in
  (forall w' v, evaluated r w' v -> dmin < wvalue w' < dmax) /\
  (forall wr, rresult r = Fresh wr -> dmin < wvalue wr < dmax).
Proof.
intros crit w al n dmin dmax Hw Hd; cbv zeta; unfold backfit_search, search_bounds; rewrite Hw.
exact (C23_main crit w dmin dmax [] Hw Hd).
Qed.

Definition dw : weight := mkWeight Gaussian false 5.
Definition dcrit : criterion := fun _ w => Answer true (XF (wvalue w)).
Lemma C89_refuted_main : exists crit w dmin dmax, wadaptive w = false /\ 0 < dmin < dmax /\
  exists w' v, evaluated (backfit_search crit w None None 20 100 BInitial dmin dmax) w' v /\
    ~ (dmin <= wvalue w' <= dmax).
Proof.
exists dcrit, dw, 1, 2. split; [reflexivity|split; [lra|]].
assert (H : exists p, In p (rlog (backfit_search dcrit dw None None 20 100 BInitial 1 2))).
{ unfold backfit_search, search_bounds; cbn [fst snd value_or dist_record dw wadaptive].
  unfold optimize; unfold dcrit at 1 2; cbn [andb negb].
  destruct (is_max_dbl _ && is_max_dbl _); [eexists; left; reflexivity|].
  match goal with |- context [loop 101 ?c ?w ?i] => destruct (loop 101 c w i) eqn:E end.
  - assert (HE : elog st <> nil).
    { revert E. change 101%nat with (S 100). cbn [loop].
      assert (HG : forall v1 v2, guard (init_vars dw 0 0 [] v1 v2) = false).
      { intros; unfold guard, init_vars; cbn [s1 s2 dd].
        replace (golden * (0 - 0)) with 0 by ring. rewrite Rabs_R0.
        unfold Rltb; destruct (Rlt_dec eps 0) as [A|A]; [unfold eps in A; lra|]. reflexivity. }
      unfold dw in HG; rewrite HG. intros E; injection E as <-. discriminate. }
    destruct (s1 st && s2 st); cbn [rlog]; destruct (elog st); try congruence; eexists; left; reflexivity.
  - exfalso; revert E. change 101%nat with (S 100). cbn [loop]. 
    assert (HG : forall v1 v2, guard (init_vars dw 0 0 [] v1 v2) = false).
      { intros; unfold guard, init_vars; cbn [s1 s2 dd].
        replace (golden * (0 - 0)) with 0 by ring. rewrite Rabs_R0.
        unfold Rltb; destruct (Rlt_dec eps 0) as [A|A]; [unfold eps in A; lra|]. reflexivity. }
      unfold dw in HG; rewrite HG. discriminate.
  - exfalso; revert E. change 101%nat with (S 100). cbn [loop]. 
    assert (HG : forall v1 v2, guard (init_vars dw 0 0 [] v1 v2) = false).
      { intros; unfold guard, init_vars; cbn [s1 s2 dd].
        replace (golden * (0 - 0)) with 0 by ring. rewrite Rabs_R0.
        unfold Rltb; destruct (Rlt_dec eps 0) as [A|A]; [unfold eps in A; lra|]. reflexivity. }
      unfold dw in HG; rewrite HG. discriminate. }
destruct H as [[w' v] H]. exists w', v. split; [exact H|].
destruct (C89_main dcrit dw 20 100 1 2 eq_refl) as [H0 _]. rewrite (H0 w' v H). lra.
Qed.
