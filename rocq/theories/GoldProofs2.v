(** Proofs for C24, C27, C28 and the counterexamples. *)
From Coq Require Import Reals ZArith Bool List Lra Lia Arith Permutation.
From Verif Require Import XReal XRealFacts KernelModel GoldModel GoldSpec GoldProofs.
Import ListNotations.
Local Open Scope R_scope.

(** Floor and round. *)
Lemma rfloor_bounds x : rfloor x <= x < rfloor x + 1.
Proof. unfold rfloor. destruct (base_Int_part x) as [A B]. lra. Qed.
Lemma rfloor_int x : integer (rfloor x).
Proof. exists (Int_part x). reflexivity. Qed.
Lemma rround_int x : integer (rround x).
Proof.
  unfold rround. destruct (Rleb 0 x); [apply rfloor_int|].
  destruct (rfloor_int (- x + 1 / 2)) as [z ->]. exists (- z)%Z. rewrite opp_IZR. reflexivity.
Qed.
Lemma rround_bounds x : x - 1 / 2 <= rround x <= x + 1 / 2.
Proof.
  unfold rround. destruct (Rleb 0 x);
    [pose proof (rfloor_bounds (x + 1 / 2)) | pose proof (rfloor_bounds (- x + 1 / 2))]; lra.
Qed.
Lemma int_lt_le x y : integer x -> integer y -> x < y + 1 -> x <= y.
Proof.
  intros [a ->] [b ->] H. rewrite <- plus_IZR in H. apply lt_IZR in H. apply IZR_le. lia.
Qed.
Lemma rfloor_eq z x : IZR z <= x < IZR z + 1 -> rfloor x = IZR z.
Proof.
  intros H. pose proof (rfloor_bounds x). apply Rle_antisym; apply int_lt_le; try apply rfloor_int; try (eexists; reflexivity); lra.
Qed.
Lemma rround_eq z x : IZR z - 1 / 2 < x < IZR z + 1 / 2 -> rround x = IZR z.
Proof.
  intros H. pose proof (rround_bounds x). apply Rle_antisym; apply int_lt_le; try apply rround_int; try (eexists; reflexivity); lra.
Qed.

(** C24 *)
Definition inv24 (lo up : R) (st : vars) : Prop :=
  integer (xL st) /\ integer (xU st) /\ integer (x1 st) /\ integer (x2 st) /\
  (exists eL eU, lo <= eL /\ eL <= eU /\ eU <= up /\ dd st = golden * (eU - eL) /\
    eL - INR (iter st) <= xL st <= eL + INR (iter st) /\
    eU - INR (iter st) <= xU st <= eU + INR (iter st) /\
    eL + dd st - INR (iter st) - 1 <= x1 st <= eL + dd st + INR (iter st) + 1 /\
    eU - dd st - INR (iter st) - 1 <= x2 st <= eU - dd st + INR (iter st) + 1) /\
  (forall w' v, In (w', v) (elog st) -> integer (wvalue w') /\
     lo - INR (iter st) - 1 <= wvalue w' <= up + INR (iter st) + 1).

Lemma inv24_step crit w lo up st st' : wadaptive w = true -> inv24 lo up st ->
  step crit w st = Some st' -> inv24 lo up st'.
Proof.
  intros W (I1 & I2 & I3 & I4 & (eL & eU & E1 & E2 & E3 & E4 & E5 & E6 & E7 & E8) & L) S.
  pose proof golden_bounds as G. pose proof golden_sq as Q. pose proof (pos_INR (iter st)) as Hk.
  unfold step in S. rewrite W in S.
  destruct (xltb (f1 st) (f2 st)); destruct (crit (calls st) _) as [ok v|]; inversion S; subst st'; clear S;
    unfold inv24; cbn [xL xU dd x1 x2 iter elog].
  - pose proof (rround_bounds (x2 st + golden * dd st)) as B.
    pose proof (rround_int (x2 st + golden * dd st)) as Z.
    assert (N2 : golden * dd st = (eU - eL) - dd st) by (rewrite E4, <- Rmult_assoc, Q; ring).
    assert (N3 : 0 <= dd st <= eU - eL) by (rewrite E4; split; nra).
    assert (N4 : 0 <= golden * dd st <= dd st) by (split; nra).
    split; [auto|]. split; [auto|]. split; [auto|]. split; [auto|]. rewrite !S_INR. split.
    + exists (eU - dd st), eU. repeat split; lra.
    + intros w' v' [J|J].
      * inversion J; subst; cbn. split; auto. lra.
      * destruct (L _ _ J). split; auto. lra.
  - pose proof (rfloor_bounds (x1 st - golden * dd st)) as B.
    pose proof (rfloor_int (x1 st - golden * dd st)) as Z.
    assert (N2 : golden * dd st = (eU - eL) - dd st) by (rewrite E4, <- Rmult_assoc, Q; ring).
    assert (N3 : 0 <= dd st <= eU - eL) by (rewrite E4; split; nra).
    assert (N4 : 0 <= golden * dd st <= dd st) by (split; nra).
    split; [auto|]. split; [auto|]. split; [auto|]. split; [auto|]. rewrite !S_INR. split.
    + exists eL, (eL + dd st). repeat split; lra.
    + intros w' v' [J|J].
      * inversion J; subst; cbn. split; auto. lra.
      * destruct (L _ _ J). split; auto. lra.
Qed.

Lemma first_in w lo up : wadaptive w = true -> integer lo -> integer up -> lo <= up ->
  integer (wvalue (first_weight w lo up)) /\ lo <= wvalue (first_weight w lo up) <= up.
Proof.
  intros W A B H. pose proof golden_bounds as G. unfold first_weight; cbn; rewrite W.
  pose proof (rfloor_bounds (lo + golden * (up - lo))) as F.
  pose proof (rfloor_int (lo + golden * (up - lo))) as Z. split; auto.
  split; [apply int_lt_le; auto; nra | nra].
Qed.
Lemma second_in w lo up : wadaptive w = true -> integer lo -> integer up -> lo <= up ->
  integer (wvalue (second_weight w lo up)) /\ lo <= wvalue (second_weight w lo up) <= up.
Proof.
  intros W A B H. pose proof golden_bounds as G. unfold second_weight; cbn; rewrite W.
  pose proof (rround_bounds (up - golden * (up - lo))) as F.
  pose proof (rround_int (up - golden * (up - lo))) as Z. split; auto.
  split; apply int_lt_le; auto; nra.
Qed.

Lemma inv24_init w lo up m v1 v2 : wadaptive w = true -> integer lo -> integer up -> lo <= up ->
  inv24 lo up (init_vars w lo up m v1 v2).
Proof.
  intros W A B H. pose proof golden_bounds as G.
  pose proof (first_in w lo up W A B H) as [F1 F2]. pose proof (second_in w lo up W A B H) as [S1 S2].
  unfold inv24, init_vars; cbn [xL xU dd x1 x2 iter elog INR].
  split; [auto|]. split; [auto|]. split; [auto|]. split; [auto|]. split.
  - exists lo, up. unfold first_weight, second_weight; cbn. rewrite W.
    pose proof (rfloor_bounds (lo + golden * (up - lo))).
    pose proof (rround_bounds (up - golden * (up - lo))). repeat split; lra.
  - intros w' v [J|[J|[]]]; inversion J; subst; split; auto; lra.
Qed.

Lemma passes_inv24 crit w lo up m v1 v2 st : wadaptive w = true -> integer lo -> integer up -> lo <= up ->
  passes crit w (init_vars w lo up m v1 v2) st -> inv24 lo up st.
Proof.
  intros W A B H P. eapply passes_inv; [|exact P|apply inv24_init; auto].
  intros s s' I _ S. eapply inv24_step; eauto.
Qed.

Lemma C24_main crit w lo up m : wadaptive w = true -> integer lo -> integer up -> lo <= up ->
  let r := optimize crit w lo up m in
  (forall w' v, evaluated r w' v -> integer (wvalue w') /\
     lo - INR (rcalls r) < wvalue w' < up + INR (rcalls r)) /\
  (forall k w' v, (k < 2)%nat -> nth_error (rev (rlog r)) k = Some (w', v) -> lo <= wvalue w' <= up).
Proof.
  intros W A B H r; subst r.
  pose proof (first_in w lo up W A B H) as [F1 F2]. pose proof (second_in w lo up W A B H) as [S1 S2].
  assert (T : forall v1 v2 st, passes crit w (init_vars w lo up m v1 v2) st ->
    exists l, elog st = l ++ [(second_weight w lo up, v2); (first_weight w lo up, v1)]).
  { intros v1 v2 st P. refine (passes_inv crit w (fun s => exists l, elog s = l ++ _) _ _ _ P _).
    - intros s s' [l E] _ S. unfold step in S.
      destruct (xltb _ _); destruct (crit (calls s) _); inversion S; subst; cbn; rewrite E;
        eexists (_ :: l); reflexivity.
    - exists []. reflexivity. }
  unfold evaluated. split.
  - destruct (optimize_cases crit w lo up m) as
      [| | | |v1 v2 st X Y M P _ S|v1 v2 st X Y M P _ S|v1 v2 st X Y M P _ S]; cbn [rlog rcalls]; intros w' v J;
      [repeat (destruct J as [J|J]; [inversion J; subst; split; auto; cbn [INR]; lra|]); destruct J..| | |];
      pose proof (passes_inv22 _ _ _ _ _ _ _ _ P) as (C & _ & _);
      pose proof (passes_inv24 _ _ _ _ _ _ _ _ W A B H P) as (_ & _ & _ & _ & _ & L);
      destruct (L _ _ J) as [Z D]; split; auto; rewrite ?S_INR, C, plus_INR; cbn [INR]; lra.
  - intros [|[|k]] w' v K; [| |lia];
      destruct (optimize_cases crit w lo up m) as
      [| | | |v1 v2 st X Y M P _ S|v1 v2 st X Y M P _ S|v1 v2 st X Y M P _ S]; cbn [rlog];
      try (destruct (T _ _ _ P) as [l ->]; rewrite rev_app_distr); cbn [rev app nth_error];
      intros J; inversion J; subst; auto.
Qed.

(** Counterexample to C24: bounds 20 and 28, criterion |b - 21|. *)
Definition c24_crit : criterion := fun _ w => Answer true (XF (Rabs (wvalue w - 21))).
Definition c24_w : weight := mkWeight Gaussian true 0.

Lemma step_b crit w st b ok v : wadaptive w = true -> xltb (f1 st) (f2 st) = false ->
  rfloor (x1 st - golden * dd st) = b -> crit (calls st) (mkWeight (wkernel w) true b) = Answer ok v ->
  step crit w st = Some (mkVars (xL st) (x1 st) (golden * dd st) (x2 st) b (f2 st) v (s1 st) ok (S (iter st))
     (better (x2 st) b (f2 st) v) (record b v (cmap st)) (S (calls st))
     ((mkWeight (wkernel w) true b, v) :: elog st)).
Proof. intros W F B C. unfold step. rewrite F, W, B, C. reflexivity. Qed.

Lemma guard_ok st a b : s1 st = true -> s2 st = true -> f1 st = XF a -> f2 st = XF b ->
  eps < dd st -> eps < Rabs (b - a) -> (iter st < 100)%nat -> guard st = true.
Proof.
  intros A B C D E F G. unfold guard. rewrite A, B, C, D.
  rewrite (xltb_val _ _ eps (Rabs (b - a))); cbn [xval]; auto.
  - rewrite !andb_true_iff. repeat split; try apply Rltb_true; auto.
    + rewrite Rabs_pos_eq; auto. unfold eps in E. lra.
    + apply Nat.ltb_lt; auto.
  - apply xval_xabs, xval_xsub; reflexivity.
Qed.

Lemma passes_log crit w st e p : passes crit w st e -> In p (elog st) -> In p (elog e).
Proof.
  intros P I. refine (passes_inv crit w (fun s => In p (elog s)) _ _ _ P I).
  intros s s' K _ S. unfold step in S.
  destruct (xltb _ _); destruct (crit (calls s) _); inversion S; subst; cbn; auto.
Qed.

Lemma dbl_max_big : 1000 < DBL_MAX.
Proof. unfold DBL_MAX. apply IZR_lt. reflexivity. Qed.

Lemma loop_unroll fuel crit w st st' : guard st = true -> step crit w st = Some st' ->
  loop (S fuel) crit w st = loop fuel crit w st'.
Proof. intros G S. cbn. rewrite G, S. reflexivity. Qed.

Lemma abs_val x y : (0 <= x -> x = y) -> (x <= 0 -> - x = y) -> Rabs x = y.
Proof. intros A B. unfold Rabs; destruct (Rcase_abs x); [apply B|apply A]; lra. Qed.

Lemma C24_refuted_main : exists crit w lo up, consistent crit /\ never_raises crit /\
  (forall k w' ok v, crit k w' = Answer ok v -> ok = true) /\
  wadaptive w = true /\ integer lo /\ integer up /\ lo < up /\
  exists w' v, evaluated (optimize crit w lo up []) w' v /\ wvalue w' < lo.
Proof.
  exists c24_crit, c24_w, 20, 28.
  split. { unfold consistent, c24_crit; intros; congruence. }
  split. { unfold never_raises, c24_crit; intros; discriminate. }
  split. { unfold c24_crit; intros; congruence. }
  split; [reflexivity|]. split; [exists 20%Z; reflexivity|]. split; [exists 28%Z; reflexivity|]. split; [lra|].
  pose proof golden_bounds as G. pose proof golden_sq as Q.
  set (g := golden) in *.
  assert (D0 : g * (28 - 20) = 8 * g) by lra.
  assert (D1 : g * (8 * g) = 8 - 8 * g) by nra.
  assert (D2 : g * (8 - 8 * g) = 16 * g - 8) by nra.
  assert (D3 : g * (16 * g - 8) = 16 - 24 * g) by nra.
  assert (X1 : first_weight c24_w 20 28 = mkWeight Gaussian true 24).
  { unfold first_weight; cbn. f_equal. fold g. rewrite D0. apply (rfloor_eq 24). lra. }
  assert (X2 : second_weight c24_w 20 28 = mkWeight Gaussian true 23).
  { unfold second_weight; cbn. f_equal. fold g. rewrite D0. apply (rround_eq 23). lra. }
  assert (C : forall k b v, Rabs (b - 21) = v -> c24_crit k (mkWeight Gaussian true b) = Answer true (XF v)).
  { intros k b v <-. reflexivity. }
  set (st0 := init_vars c24_w 20 28 [] (XF 3) (XF 2)).
  set (st1 := mkVars 20 24 (8 - 8 * g) 23 20 (XF 2) (XF 1) true true 1 (better 23 20 (XF 2) (XF 1))
     (record 20 (XF 1) (cmap st0)) 3 ((mkWeight Gaussian true 20, XF 1) :: elog st0)).
  set (st2 := mkVars 20 23 (16 * g - 8) 20 21 (XF 1) (XF 0) true true 2 (better 20 21 (XF 1) (XF 0))
     (record 21 (XF 0) (cmap st1)) 4 ((mkWeight Gaussian true 21, XF 0) :: elog st1)).
  set (st3 := mkVars 20 20 (16 - 24 * g) 21 18 (XF 0) (XF 3) true true 3 (better 21 18 (XF 0) (XF 3))
     (record 18 (XF 3) (cmap st2)) 5 ((mkWeight Gaussian true 18, XF 3) :: elog st2)).
  assert (S0 : step c24_crit c24_w st0 = Some st1).
  { rewrite (step_b c24_crit c24_w st0 20 true (XF 1)); auto.
    - unfold st1, st0, init_vars; rewrite X1, X2; cbn. fold g. rewrite D0, D1. reflexivity.
    - cbn. apply Rltb_false; lra.
    - unfold st0, init_vars; rewrite X1; cbn. fold g. rewrite D0, D1. apply (rfloor_eq 20). lra.
    - apply C. apply abs_val; lra. }
  assert (S1 : step c24_crit c24_w st1 = Some st2).
  { rewrite (step_b c24_crit c24_w st1 21 true (XF 0)); auto.
    - unfold st2; cbn. fold g. rewrite D2. reflexivity.
    - cbn. apply Rltb_false; lra.
    - cbn. fold g. rewrite D2. apply (rfloor_eq 21). lra.
    - apply C. apply abs_val; lra. }
  assert (S2 : step c24_crit c24_w st2 = Some st3).
  { rewrite (step_b c24_crit c24_w st2 18 true (XF 3)); auto.
    - unfold st3; cbn. fold g. rewrite D3. reflexivity.
    - cbn. apply Rltb_false; lra.
    - cbn. fold g. rewrite D3. apply (rfloor_eq 18). lra.
    - apply C. apply abs_val; lra. }
  assert (E : eps < 1 / 10) by (unfold eps; lra).
  assert (G0 : guard st0 = true).
  { apply (guard_ok st0 3 2); auto; cbn; try lia.
    - fold g. rewrite D0. lra.
    - replace (Rabs (2 - 3)) with 1 by (symmetry; apply abs_val; lra). lra. }
  assert (G1 : guard st1 = true).
  { apply (guard_ok st1 2 1); auto; cbn; try lia; [lra|].
    replace (Rabs (1 - 2)) with 1 by (symmetry; apply abs_val; lra). lra. }
  assert (G2 : guard st2 = true).
  { apply (guard_ok st2 1 0); auto; cbn; try lia; [lra|].
    replace (Rabs (0 - 1)) with 1 by (symmetry; apply abs_val; lra). lra. }
  exists (mkWeight Gaussian true 18), (XF 3). split; [|cbn; lra].
  unfold evaluated, optimize. rewrite X1, X2.
  rewrite (C 0%nat 24 3), (C 1%nat 23 2) by (apply abs_val; lra). cbn [andb negb].
  destruct (is_max_dbl (XF 3)) eqn:M.
  { exfalso. apply is_max_dbl_eq in M. inversion M. pose proof dbl_max_big. lra. }
  cbn [andb]. fold st0.
  change 101%nat with (S (S (S 98))).
  rewrite (loop_unroll _ _ _ _ _ G0 S0), (loop_unroll _ _ _ _ _ G1 S1), (loop_unroll _ _ _ _ _ G2 S2).
  pose proof (loop_passes c24_crit c24_w 98 st3) as L.
  pose proof (loop_enough c24_crit c24_w 98 st3) as N.
  destruct (loop 98 c24_crit c24_w st3) as [e|e|].
  - destruct L as [P _]. assert (I : In (mkWeight Gaussian true 18, XF 3) (elog e))
      by (eapply passes_log; [exact P|]; left; reflexivity).
    destruct (s1 e && s2 e); exact I.
  - destruct L as [P _]. cbn. eapply passes_log; [exact P|]. left; reflexivity.
  - exfalso; apply N; [cbn; lia | reflexivity].
Qed.

(** C27 *)
Definition keys (m : list (R * xd)) : list R := map fst m.

Lemma filter_keys x m : NoDup (keys m) -> NoDup (keys (filter (fun p => negb (Reqb (fst p) x)) m)) /\
  ~ In x (keys (filter (fun p => negb (Reqb (fst p) x)) m)).
Proof.
  unfold keys; induction m as [|[y u] m IH]; cbn; intros N; [split; [constructor|auto]|].
  inversion N as [|? ? A B]; subst. destruct (IH B) as [C D].
  destruct (Reqb y x) eqn:E; cbn; auto. apply Reqb_false in E. split.
  - constructor; auto. intros I; apply A. apply in_map_iff in I as ([z t] & <- & I).
    apply filter_In in I as [I _]. apply in_map_iff. exists (z, t); auto.
  - intros [F|F]; auto.
Qed.

Lemma record_keys x v m : NoDup (keys m) -> NoDup (keys (record x v m)).
Proof.
  intros N. unfold record, mput. destruct (xltb v (XF DBL_MAX)); auto. cbn.
  destruct (filter_keys x m N) as [A B]. constructor; auto.
Qed.

Lemma record_in x v m y u : In (y, u) (record x v m) <->
  (if xltb v (XF DBL_MAX) then (y = x /\ u = v) \/ (y <> x /\ In (y, u) m) else In (y, u) m).
Proof.
  unfold record, mput. destruct (xltb v (XF DBL_MAX)); [|tauto]. cbn. rewrite filter_In; cbn.
  rewrite negb_true_iff, Reqb_false. split.
  - intros [E|[A B]]; [inversion E; auto | auto].
  - intros [[-> ->]|[A B]]; auto.
Qed.

Definition merged (l : list (weight * xd)) (m c : list (R * xd)) : Prop :=
  forall x v, In (x, v) c <-> newest x l = Some v \/ (newest x l = None /\ In (x, v) m).

Lemma merged_record w' v l m c x : wvalue w' = x -> merged l m c -> merged ((w', v) :: l) m (record x v c).
Proof.
  intros E M y u. rewrite record_in. cbn. rewrite E.
  destruct (xltb v (XF DBL_MAX)).
  - destruct (Req_EM_T x y) as [->|N].
    + split.
      * intros [[_ ->]|[B _]]; [auto|congruence].
      * intros [B|[B _]]; [inversion B; auto | discriminate].
    + rewrite (M y u). split; [intros [[A _]|[_ A]]; [congruence|exact A] | intros A; right; split; auto].
  - rewrite (M y u). destruct (Req_EM_T x y); tauto.
Qed.

Definition inv27 (m : list (R * xd)) (st : vars) : Prop := NoDup (keys (cmap st)) /\ merged (elog st) m (cmap st).

Lemma inv27_step crit w m st st' : inv27 m st -> step crit w st = Some st' -> inv27 m st'.
Proof.
  intros [A B] S. unfold step in S.
  destruct (xltb (f1 st) (f2 st)); destruct (crit (calls st) _); inversion S; subst; clear S;
    split; cbn; try (apply record_keys; auto); apply merged_record; auto.
Qed.

Lemma inv27_init w lo up m v1 v2 : NoDup (keys m) -> inv27 m (init_vars w lo up m v1 v2).
Proof.
  intros N. split.
  - apply record_keys, record_keys; auto.
  - cbn [elog cmap init_vars]. apply merged_record; [reflexivity|]. apply merged_record; [reflexivity|].
    intros x v; cbn. split; [auto|]. intros [A|[_ A]]; [discriminate|auto].
Qed.

Lemma passes_inv27 crit w lo up m v1 v2 st : NoDup (keys m) ->
  passes crit w (init_vars w lo up m v1 v2) st -> inv27 m st.
Proof.
  intros N P. eapply passes_inv; [|exact P|apply inv27_init; auto]. intros; eapply inv27_step; eauto.
Qed.

Lemma kinsert_perm p l : Permutation (kinsert p l) (p :: l).
Proof.
  induction l as [|q l IH]; cbn; auto. destruct (Rltb (fst q) (fst p)); auto.
  rewrite IH. apply perm_swap.
Qed.
Lemma ksort_perm l : Permutation (ksort l) l.
Proof. induction l; cbn; auto. rewrite kinsert_perm. auto. Qed.

Fixpoint asc (l : list (R * xd)) : Prop :=
  match l with [] => True | p :: t => (forall q, In q t -> fst p < fst q) /\ asc t end.

Lemma asc_kinsert p l : asc l -> ~ In (fst p) (keys l) -> asc (kinsert p l).
Proof.
  induction l as [|q l IH]; cbn; [intros _ _; split; [intros q []|exact I]|].
  intros [A B] N. destruct (Rltb (fst q) (fst p)) eqn:E; cbn.
  - apply Rltb_true in E. split; [|apply IH; auto].
    intros r I. apply (Permutation_in _ (kinsert_perm p l)) in I as [<-|I]; auto.
  - apply Rltb_false in E. split; [|auto].
    intros r [<-|I]; [|apply A in I]; assert (fst q <> fst p) by (intros K; apply N; auto); lra.
Qed.
Lemma asc_ksort l : NoDup (keys l) -> asc (ksort l).
Proof.
  induction l as [|p l IH]; cbn; auto. intros N; inversion N; subst.
  apply asc_kinsert; auto. unfold keys. intros I. apply H1.
  apply in_map_iff in I as (q & <- & I). apply in_map.
  eapply Permutation_in; [apply ksort_perm|auto].
Qed.
Lemma asc_strict l : asc l -> strictly_ascending l.
Proof.
  induction l as [|p l IH]; intros A i j q r L Hi Hj; [destruct i; discriminate|].
  cbn [asc] in A. destruct A as [A B]. destruct j as [|j]; [lia|]. destruct i as [|i]; cbn in *.
  - inversion Hi; subst. apply A. eapply nth_error_In; eauto.
  - eapply (IH B i j); eauto. lia.
Qed.
Lemma listed m : NoDup (keys m) -> strictly_ascending (bandwidth_criterion m) /\
  forall p, In p (bandwidth_criterion m) <-> In p m.
Proof.
  intros N. split; [apply asc_strict, asc_ksort; auto|]. intros p; split; intros I.
  - eapply Permutation_in; [apply ksort_perm|auto].
  - eapply Permutation_in; [apply Permutation_sym, ksort_perm|auto].
Qed.

Lemma optimize_map crit w lo up m : NoDup (map fst m) -> starts_well crit w lo up ->
  NoDup (map fst (rmap (optimize crit w lo up m))) /\
  merged (rlog (optimize crit w lo up m)) m (rmap (optimize crit w lo up m)).
Proof.
  intros N (a & b & A & B & C). destruct (optimize_cases crit w lo up m) as
    [X|ok1 v1 X Y|ok1 v1 ok2 v2 X Y O|v1 v2 X Y M1 M2|v1 v2 st X Y M P G S|v1 v2 st X Y M P _ S|v1 v2 st X Y M P _ S];
    cbn [rmap rlog]; try congruence.
  - rewrite A in X; rewrite B in Y; inversion X; inversion Y; subst; discriminate.
  - exfalso. apply is_max_dbl_eq in M1, M2. apply C. split; congruence.
  - apply (passes_inv27 _ _ _ _ _ _ _ _ N P).
  - apply (passes_inv27 _ _ _ _ _ _ _ _ N P).
  - apply (passes_inv27 _ _ _ _ _ _ _ _ N P).
Qed.

Lemma C27_general_main crit w lo up m : NoDup (map fst m) -> starts_well crit w lo up ->
  let r := optimize crit w lo up m in
  strictly_ascending (bandwidth_criterion (rmap r)) /\
  forall x v, In (x, v) (bandwidth_criterion (rmap r)) <->
    newest x (rlog r) = Some v \/ (newest x (rlog r) = None /\ In (x, v) m).
Proof.
  intros N S r. destruct (optimize_map crit w lo up m N S) as [A B]. destruct (listed _ A) as [C D].
  split; auto. intros x v. subst r; rewrite D. apply B.
Qed.

Lemma newest_in x l v : newest x l = Some v -> exists w', In (w', v) l /\ wvalue w' = x /\ valid v.
Proof.
  induction l as [|[w u] l IH]; cbn; [discriminate|].
  destruct (Req_EM_T (wvalue w) x) as [E|E]; [destruct (xltb u (XF DBL_MAX)) eqn:V|].
  - intros K; inversion K; subst. exists w; auto.
  - intros K; destruct (IH K) as (w' & A & B & C). exists w'; auto.
  - intros K; destruct (IH K) as (w' & A & B & C). exists w'; auto.
Qed.
Lemma in_newest l w v : In (w, v) l -> valid v -> exists v', newest (wvalue w) l = Some v'.
Proof.
  induction l as [|[w' u] l IH]; cbn; [tauto|]. intros [E|I] V.
  - inversion E; subst. destruct (Req_EM_T (wvalue w) (wvalue w)); [|congruence].
    unfold valid in V; rewrite V. eauto.
  - destruct (IH I V) as [v' K]. destruct (Req_EM_T (wvalue w') (wvalue w)); [|eauto].
    destruct (xltb u (XF DBL_MAX)); eauto.
Qed.

Lemma log_answered crit w lo up m : starts_well crit w lo up -> let r := optimize crit w lo up m in
  forall w' v, In (w', v) (rlog r) -> (wkernel w' = wkernel w /\ wadaptive w' = wadaptive w) /\
    exists k ok, crit k w' = Answer ok v.
Proof.
  intros (a & b & A & B & C) r; subst r. destruct (optimize_cases crit w lo up m) as
    [X|ok1 v1 X Y|ok1 v1 ok2 v2 X Y O|v1 v2 X Y M1 M2|v1 v2 st X Y M P G S|v1 v2 st X Y M P _ S|v1 v2 st X Y M P _ S];
    cbn [rlog]; try congruence.
  - intros w' v [J|[J|[]]]; inversion J; subst; split; auto; eauto.
  - intros w' v [J|[J|[]]]; inversion J; subst; split; auto; eauto.
  - pose proof (passes_inv26 _ _ _ _ _ _ _ _ X Y P) as (_ & _ & I & I' & _).
    intros w' v J; split; [eapply I; eauto|]. apply in_rev in J. apply In_nth_error in J as [k J].
    destruct (I' _ _ _ J) as (ok & E & _); eauto.
  - pose proof (passes_inv26 _ _ _ _ _ _ _ _ X Y P) as (_ & _ & I & I' & _).
    intros w' v J; split; [eapply I; eauto|]. apply in_rev in J. apply In_nth_error in J as [k J].
    destruct (I' _ _ _ J) as (ok & E & _); eauto.
  - pose proof (passes_inv26 _ _ _ _ _ _ _ _ X Y P) as (_ & _ & I & I' & _).
    intros w' v J; split; [eapply I; eauto|]. apply in_rev in J. apply In_nth_error in J as [k J].
    destruct (I' _ _ _ J) as (ok & E & _); eauto.
Qed.

Lemma C27_main crit w lo up : consistent crit -> starts_well crit w lo up ->
  let r := optimize crit w lo up [] in
  strictly_ascending (bandwidth_criterion (rmap r)) /\
  forall x v, In (x, v) (bandwidth_criterion (rmap r)) <->
    exists w', evaluated r w' v /\ wvalue w' = x /\ valid v.
Proof.
  intros K S r. destruct (C27_general_main crit w lo up [] (NoDup_nil _) S) as [A B]. split; auto.
  intros x v. fold r in B. rewrite (B x v). split.
  - intros [H|[_ []]]. apply newest_in in H. exact H.
  - intros (w' & I & E & V). left. destruct (in_newest _ _ _ I V) as [v' N]. rewrite E in N.
    destruct (newest_in _ _ _ N) as (w'' & I' & E' & V').
    destruct (log_answered crit w lo up [] S _ _ I) as ((K1 & K2) & k & ok & Q).
    destruct (log_answered crit w lo up [] S _ _ I') as ((K1' & K2') & k' & ok' & Q').
    assert (w' = w'') as <- by (destruct w', w''; cbn in *; congruence).
    rewrite N. f_equal. eapply K; eauto.
Qed.

(** Histories of runs on one selector. *)
Lemma optimize_map_sound crit w lo up m : NoDup (map fst m) ->
  NoDup (map fst (rmap (optimize crit w lo up m))) /\
  forall x v, In (x, v) (rmap (optimize crit w lo up m)) ->
    In (x, v) m \/ exists w', evaluated (optimize crit w lo up m) w' v /\ wvalue w' = x /\ valid v.
Proof.
  intros N. unfold evaluated. destruct (optimize_cases crit w lo up m) as
    [X|ok1 v1 X Y|ok1 v1 ok2 v2 X Y O|v1 v2 X Y M1 M2|v1 v2 st X Y M P G S|v1 v2 st X Y M P _ S|v1 v2 st X Y M P _ S];
    cbn [rmap rlog]; try (split; auto; fail);
    destruct (passes_inv27 _ _ _ _ _ _ _ _ N P) as [A B]; split; auto;
    intros x v I; apply B in I as [I|[_ I]]; auto; right; apply newest_in; auto.
Qed.

Lemma many_sound runs : forall m, NoDup (map fst m) ->
  NoDup (map fst (snd (optimize_many runs m))) /\
  forall x v, In (x, v) (snd (optimize_many runs m)) -> In (x, v) m \/
    exists r w', In r (fst (optimize_many runs m)) /\ evaluated r w' v /\ wvalue w' = x /\ valid v.
Proof.
  induction runs as [|[[[crit w] lo] up] runs IH]; intros m N; cbn [optimize_many]; [cbn; auto|].
  destruct (optimize_map_sound crit w lo up m N) as [A B].
  destruct (IH _ A) as [C D]. destruct (optimize_many runs (rmap (optimize crit w lo up m))) as [rs m'].
  cbn [fst snd] in *. split; auto. intros x v I. apply D in I as [I|(r & w' & I & J)].
  - apply B in I as [I|(w' & I & J)]; auto. right. exists (optimize crit w lo up m), w'. cbn; auto.
  - right. exists r, w'. cbn; auto.
Qed.

Lemma C27_history_main runs : let rm := optimize_many runs [] in
  strictly_ascending (bandwidth_criterion (snd rm)) /\
  forall x v, In (x, v) (bandwidth_criterion (snd rm)) ->
    exists r w', In r (fst rm) /\ evaluated r w' v /\ wvalue w' = x /\ valid v.
Proof.
  intros rm. destruct (many_sound runs [] (NoDup_nil _)) as [A B]. fold rm in A, B.
  destruct (listed _ A) as [C D]. split; auto. intros x v I. apply D in I. apply B in I as [[]|I]; auto.
Qed.

Definition c27_crit : criterion := fun k _ => match k with O => Answer true (XF 1) | _ => Answer false (XF DBL_MAX) end.

Lemma valid_1 : valid (XF 1).
Proof. unfold valid; cbn. apply Rltb_true. pose proof dbl_max_big; lra. Qed.

Lemma C27_refuted_main : exists crit w lo up w' v,
  let r := optimize crit w lo up [] in
  evaluated r w' v /\ valid v /\ bandwidth_criterion (rmap r) = [].
Proof.
  exists c27_crit, (mkWeight Gaussian false 0), 0, 1, (first_weight (mkWeight Gaussian false 0) 0 1), (XF 1).
  cbn zeta. split; [right; left; reflexivity|]. split; [apply valid_1|reflexivity].
Qed.

(** C28 *)
Lemma C28_main crit w lo up m : never_raises crit -> starts_well crit w lo up ->
  leaked (optimize crit w lo up m) = [] /\
  (forall t, In t (rlive (optimize crit w lo up m)) -> t = TWopt /\ exists wr, rresult (optimize crit w lo up m) = Fresh wr).
Proof.
  intros N (a & b & A & B & C). destruct (optimize_cases crit w lo up m) as
    [X|ok1 v1 X Y|ok1 v1 ok2 v2 X Y O|v1 v2 X Y M1 M2|v1 v2 st X Y M P G S|v1 v2 st X Y M P _ S|v1 v2 st X Y M P _ S];
    unfold leaked; cbn; try congruence.
  - rewrite A in X; rewrite B in Y; inversion X; inversion Y; subst; discriminate.
  - exfalso. apply is_max_dbl_eq in M1, M2. apply C. split; congruence.
  - exfalso. unfold step in S. destruct (xltb _ _); destruct (crit (calls st) _) eqn:E; try discriminate; eapply N; eauto.
  - split; auto. intros t [<-|[]]. eauto.
  - split; auto. intros t [].
Qed.

Lemma C28_cancel_main crit w lo up m ok1 v1 ok2 v2 :
  crit 0%nat (first_weight w lo up) = Answer ok1 v1 ->
  crit 1%nat (second_weight w lo up) = Answer ok2 v2 ->
  ok1 && ok2 = false \/ (v1 = XF DBL_MAX /\ v2 = XF DBL_MAX) ->
  leaked (optimize crit w lo up m) = [TW1; TW2].
Proof.
  intros A B H. unfold optimize. rewrite A, B. destruct (ok1 && ok2); cbn [negb]; auto.
  destruct H as [H|[-> ->]]; [discriminate|].
  replace (is_max_dbl (XF DBL_MAX)) with true by (symmetry; apply is_max_dbl_eq; auto). reflexivity.
Qed.

Lemma C28_refuted_main : exists crit w lo up,
  never_raises crit /\ rresult (optimize crit w lo up []) = Original /\ leaked (optimize crit w lo up []) = [TW1; TW2].
Proof.
  exists c27_crit, (mkWeight Gaussian false 0), 0, 1. split; [|split; reflexivity].
  intros [|k] w'; discriminate.
Qed.

(** C21 without the NaN hypothesis. *)
Definition c21_crit : criterion := fun k _ => match k with O => Answer true (XF 1) | _ => Answer true XN end.
Lemma C21_nan_refuted_main : exists crit w lo up wr w',
  let r := optimize crit w lo up [] in
  rresult r = Fresh wr /\ evaluated r w' (XF 1) /\ (forall v, evaluated r wr v -> v = XN).
Proof.
  exists c21_crit, (mkWeight Gaussian false 0), 0, 1.
  exists (second_weight (mkWeight Gaussian false 0) 0 1), (first_weight (mkWeight Gaussian false 0) 0 1).
  assert (M : is_max_dbl XN = false) by reflexivity.
  assert (E : optimize c21_crit (mkWeight Gaussian false 0) 0 1 [] =
    let st := init_vars (mkWeight Gaussian false 0) 0 1 [] (XF 1) XN in
    mkReport (Fresh (mkWeight Gaussian false (xopt st))) 2 (elog st) (cmap st) [TWopt] (Some st)).
  { unfold optimize. cbn [c21_crit andb negb]. rewrite M, andb_false_r.
    assert (Gd : guard (init_vars (mkWeight Gaussian false 0) 0 1 [] (XF 1) XN) = false).
    { unfold guard. cbn [f1 f2 init_vars]. replace (xltb (XF eps) (xabs (xsub XN (XF 1)))) with false by reflexivity.
      rewrite andb_false_r. reflexivity. }
    cbn [loop]. rewrite Gd. reflexivity. }
  cbn zeta. rewrite E. cbn zeta. split; [reflexivity|]. unfold evaluated; cbn [rlog elog init_vars].
  split; [right; left; reflexivity|].
  intros v [H|[H|[]]]; inversion H; auto.
  exfalso. clear E. unfold second_weight in *; cbn in *. pose proof golden_bounds. lra.
Qed.

(** C25: the two stopping rules: flat criteria stop at once. *)
Definition flat (x : R) : R := x / 100000.
Lemma C25_refuted_main : exists crit g lo up m wr,
  unimodal g lo up m /\ answers crit g /\
  rresult (optimize crit (mkWeight Gaussian false 0) lo up []) = Fresh wr /\
  Rabs (wvalue wr - m) > (up - lo) / 3.
Proof.
  exists (fun _ w => Answer true (XF (flat (wvalue w)))), flat, 0, 1, 0,
    (second_weight (mkWeight Gaussian false 0) 0 1).
  set (w := mkWeight Gaussian false 0).
  split. { unfold unimodal, flat. repeat split; try lra; intros; lra. }
  split. { intros k w'; reflexivity. }
  pose proof golden_bounds as G.
  split.
  - unfold optimize. cbn [andb negb].
    set (v1 := flat (wvalue (first_weight w 0 1))). set (v2 := flat (wvalue (second_weight w 0 1))).
    assert (E1 : v1 = golden / 100000) by (unfold v1, flat, first_weight; cbn; lra).
    assert (E2 : v2 = (1 - golden) / 100000) by (unfold v2, flat, second_weight; cbn; lra).
    destruct (is_max_dbl (XF v1)) eqn:M.
    { exfalso. apply is_max_dbl_eq in M. inversion M. pose proof dbl_max_big. lra. }
    cbn [andb].
    assert (Gd : guard (init_vars w 0 1 [] (XF v1) (XF v2)) = false).
    { unfold guard. cbn [f1 f2 init_vars].
      rewrite (xltb_val _ _ eps (Rabs (v2 - v1))); [|reflexivity|apply xval_xabs, xval_xsub; reflexivity].
      replace (Rltb eps (Rabs (v2 - v1))) with false; [rewrite andb_false_r; reflexivity|].
      symmetry; apply Rltb_false. unfold eps, Rabs. destruct (Rcase_abs _); lra. }
    cbn [loop]. rewrite Gd. cbn [s1 s2 init_vars andb rresult]. f_equal. unfold second_weight. f_equal. cbn [xopt init_vars].
    unfold better. replace (xltb (XF v1) (XF v2)) with false by (symmetry; cbn; apply Rltb_false; lra).
    reflexivity.
  - unfold second_weight; cbn. rewrite Rabs_pos_eq; lra.
Qed.

(** Non-vacuity: criterion (b - 4)^2 on [1, 10]. *)
Definition demo_g (x : R) : R := (x - 4) * (x - 4).
Definition demo_crit : criterion := fun _ w => Answer true (XF (demo_g (wvalue w))).
Definition demo_w (a : bool) : weight := mkWeight Bisquare a 7.

Lemma demo_no_nan : no_nan demo_crit.
Proof. intros k w ok v E. unfold demo_crit in E. congruence. Qed.
Lemma demo_never : never_raises demo_crit.
Proof. intros k w; discriminate. Qed.
Lemma demo_answers : answers demo_crit demo_g.
Proof. intros k w; reflexivity. Qed.
Lemma demo_consistent : consistent demo_crit.
Proof. unfold consistent, demo_crit; intros; congruence. Qed.
Lemma demo_unimodal : unimodal demo_g 1 10 4.
Proof. unfold unimodal, demo_g. split; [lra|]. split; intros; nra. Qed.
Lemma demo_starts a : starts_well demo_crit (demo_w a) 1 10.
Proof.
  do 2 eexists. split; [reflexivity|]. split; [reflexivity|]. intros [E _].
  change (XF (demo_g (wvalue (first_weight (demo_w a) 1 10))) = XF DBL_MAX) in E.
  pose proof dbl_max_big as D. pose proof golden_bounds as G.
  assert (B : 1 <= wvalue (first_weight (demo_w a) 1 10) <= 10).
  { destruct a; [apply first_in; auto; [exists 1%Z|exists 10%Z|lra]; reflexivity|].
    unfold first_weight; cbn; lra. }
  set (x := wvalue (first_weight (demo_w a) 1 10)) in *. clearbody x. injection E as E'.
  unfold demo_g in E'. nra.
Qed.
Lemma demo_fresh a m : exists wr st, rresult (optimize demo_crit (demo_w a) 1 10 m) = Fresh wr /\
  rfinal (optimize demo_crit (demo_w a) 1 10 m) = Some st.
Proof.
  pose proof (C26_throw_main demo_crit (demo_w a) 1 10 m demo_never) as T.
  pose proof (C26_cancel_main demo_crit (demo_w a) 1 10 m demo_never) as C.
  destruct (demo_starts a) as (v1 & v2 & A & B & N).
  destruct (optimize_cases demo_crit (demo_w a) 1 10 m) as
    [X|ok1 u1 X Y|ok1 u1 ok2 u2 X Y O|u1 u2 X Y M1 M2|u1 u2 st X Y M P G S|u1 u2 st X Y M P _ S|u1 u2 st X Y M P _ S];
    try (exfalso; apply N; destruct (T eq_refl) as [T1 T2]; split; congruence); cbn [rresult rfinal rlog] in *.
  - exfalso. destruct (proj1 C eq_refl) as (k & w' & v & _ & E). discriminate.
  - eauto.
  - exfalso. destruct (proj1 C eq_refl) as (k & w' & v & _ & E). discriminate.
Qed.
(** The loop does run: the first loop state passes the guard. *)
Lemma demo_guard : exists st st', reaches demo_crit (demo_w false) 1 10 [] st /\
  guard st = true /\ step demo_crit (demo_w false) st = Some st'.
Proof.
  pose proof golden_bounds as G. pose proof golden_sq as Q.
  set (v1 := demo_g (wvalue (first_weight (demo_w false) 1 10))).
  set (v2 := demo_g (wvalue (second_weight (demo_w false) 1 10))).
  set (st := init_vars (demo_w false) 1 10 [] (XF v1) (XF v2)).
  assert (E1 : v1 = (9 * golden - 3) * (9 * golden - 3)) by (unfold v1, demo_g, first_weight; cbn; ring).
  assert (E2 : v2 = (6 - 9 * golden) * (6 - 9 * golden)) by (unfold v2, demo_g, second_weight; cbn; ring).
  assert (S : exists st', step demo_crit (demo_w false) st = Some st').
  { unfold step. destruct (xltb _ _); cbn [demo_crit]; eauto. }
  destruct S as [st' S]. exists st, st'. split; [|split; [|exact S]].
  - exists (XF v1), (XF v2). split; [reflexivity|]. split; [reflexivity|]. constructor.
  - apply (guard_ok st v1 v2); auto; cbn; [unfold eps; lra| |lia].
    unfold eps. replace (v2 - v1) with (27 - 54 * golden) by (rewrite E1, E2; ring). rewrite Rabs_left; lra.
Qed.
