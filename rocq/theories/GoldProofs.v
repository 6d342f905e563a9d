(** Proofs for the bandwidth search (C21-C28). *)
From Coq Require Import Reals ZArith Bool List Lra Lia Arith.
From Verif Require Import XReal XRealFacts KernelModel GoldModel GoldSpec.
Import ListNotations.
Local Open Scope R_scope.

(** Order of non-NaN doubles. *)
Lemma xltb_irrefl a : xltb a a = false.
Proof.
  destruct a as [r| |[]|]; cbn; auto; unfold Rltb; destruct (Rlt_dec _ _); auto; lra.
Qed.

Lemma ng_refl a : a <> XN -> not_greater a a.
Proof. intros; repeat split; auto. apply xltb_irrefl. Qed.

Lemma ng_trans a b c : not_greater a b -> not_greater b c -> not_greater a c.
Proof.
  intros (A & B & H) (_ & C & K); repeat split; auto.
  destruct a as [r| |[]|], b as [r'| |[]|], c as [r''| |[]|]; cbn in *; try congruence; auto;
    repeat match goal with H : Rltb _ _ = false |- _ => apply Rltb_false in H end;
    try (apply Rltb_false; lra).
Qed.

Lemma lt_ng a b : xltb a b = true -> not_greater a b.
Proof.
  intros H; unfold not_greater.
  destruct a as [r| |[]|], b as [r'| |[]|]; cbn in *; try congruence;
    (split; [discriminate|]; split; [discriminate|]); auto;
    apply Rltb_true in H; apply Rltb_false; lra.
Qed.

Lemma nlt_ng a b : a <> XN -> b <> XN -> xltb a b = false -> not_greater b a.
Proof. intros; repeat split; auto. Qed.

Definition best (f : xd) (l : list (weight * xd)) : Prop := forall w' v', In (w', v') l -> not_greater f v'.

(** Invariant for C21: the better of the two kept points is the best logged one. *)
Definition inv21 (w : weight) (st : vars) : Prop :=
  f1 st <> XN /\ f2 st <> XN /\
  In (mkWeight (wkernel w) (wadaptive w) (x1 st), f1 st) (elog st) /\
  In (mkWeight (wkernel w) (wadaptive w) (x2 st), f2 st) (elog st) /\
  xopt st = better (x1 st) (x2 st) (f1 st) (f2 st) /\
  best (if xltb (f1 st) (f2 st) then f1 st else f2 st) (elog st).

Lemma best_step f g h l w' : best (if xltb f g then f else g) l -> f <> XN -> g <> XN -> h <> XN ->
  (xltb f g = true -> best (if xltb h f then h else f) ((w', h) :: l)) /\
  (xltb f g = false -> best (if xltb g h then g else h) ((w', h) :: l)).
Proof.
  intros B F G H; split; intros E; rewrite E in B.
  - destruct (xltb h f) eqn:K.
    + intros w'' v'' [I|I]; [inversion I; subst; apply ng_refl; auto|].
      eapply ng_trans; [apply lt_ng; eassumption | eauto].
    + intros w'' v'' [I|I]; [inversion I; subst; apply nlt_ng; auto | eauto].
  - destruct (xltb g h) eqn:K.
    + intros w'' v'' [I|I]; [inversion I; subst; apply lt_ng; auto | eauto].
    + intros w'' v'' [I|I]; [inversion I; subst; apply ng_refl; auto|].
      eapply ng_trans; [apply nlt_ng; [| |eassumption]; auto | eauto].
Qed.

Lemma inv21_step crit w st st' : no_nan crit -> inv21 w st -> step crit w st = Some st' -> inv21 w st'.
Proof.
  intros N (F1 & F2 & I1 & I2 & X & B) S. unfold step in S.
  destruct (xltb (f1 st) (f2 st)) eqn:E.
  - destruct (crit (calls st) _) as [ok v|] eqn:C; [|discriminate]. inversion S; subst; clear S.
    pose proof (N _ _ _ _ C) as V. unfold inv21; cbn.
    split; [auto|]. split; [auto|]. split; [left; reflexivity|]. split; [right; exact I1|].
    split; [reflexivity|].
    refine (proj1 (best_step (f1 st) (f2 st) v (elog st) _ _ F1 F2 V) E). rewrite E. exact B.
  - destruct (crit (calls st) _) as [ok v|] eqn:C; [|discriminate]. inversion S; subst; clear S.
    pose proof (N _ _ _ _ C) as V. unfold inv21; cbn.
    split; [auto|]. split; [auto|]. split; [right; exact I2|]. split; [left; reflexivity|].
    split; [reflexivity|].
    refine (proj2 (best_step (f1 st) (f2 st) v (elog st) _ _ F1 F2 V) E). rewrite E. exact B.
Qed.

Lemma inv21_init crit w lo up m v1 v2 ok1 ok2 : no_nan crit ->
  crit 0%nat (first_weight w lo up) = Answer ok1 v1 -> crit 1%nat (second_weight w lo up) = Answer ok2 v2 ->
  inv21 w (init_vars w lo up m v1 v2).
Proof.
  intros N A B. pose proof (N _ _ _ _ A) as V1. pose proof (N _ _ _ _ B) as V2.
  unfold inv21; cbn. split; [auto|]. split; [auto|]. split; [right; left; reflexivity|].
  split; [left; reflexivity|]. split; [reflexivity|].
  destruct (xltb v1 v2) eqn:K; intros w' v' [I|[I|[]]]; inversion I; subst.
  - apply lt_ng; auto.
  - apply ng_refl; auto.
  - apply ng_refl; auto.
  - apply nlt_ng; auto.
Qed.

(** The loop: a property kept by steps holds at the end. *)
Lemma loop_inv crit w (P : vars -> Prop) :
  (forall st st', P st -> guard st = true -> step crit w st = Some st' -> P st') ->
  forall fuel st, P st ->
  match loop fuel crit w st with LDone e => P e | LFail e => P e | LFuel => True end.
Proof.
  intros K fuel; induction fuel as [|n IH]; intros st H; cbn.
  - destruct (guard st); auto.
  - destruct (guard st) eqn:G; auto. destruct (step crit w st) as [st'|] eqn:S; auto.
    apply IH. eapply K; eauto.
Qed.

Lemma loop_passes crit w fuel st :
  match loop fuel crit w st with
  | LDone e => passes crit w st e /\ guard e = false
  | LFail e => passes crit w st e /\ guard e = true /\ step crit w e = None
  | LFuel => True end.
Proof.
  revert st; induction fuel as [|n IH]; intros st; cbn.
  - destruct (guard st) eqn:G; auto. split; [constructor|auto].
  - destruct (guard st) eqn:G; [|split; [constructor|auto]].
    destruct (step crit w st) as [st'|] eqn:S; [|split; [constructor|auto]].
    specialize (IH st'). destruct (loop n crit w st') as [e|e|]; auto.
    + destruct IH as [P Q]; split; auto. econstructor; eauto.
    + destruct IH as [P Q]; split; auto. econstructor; eauto.
Qed.

Lemma passes_inv crit w (P : vars -> Prop) :
  (forall st st', P st -> guard st = true -> step crit w st = Some st' -> P st') ->
  forall st e, passes crit w st e -> P st -> P e.
Proof. intros K st e H; induction H; intros; eauto. Qed.

(** Case analysis of optimize. *)
Inductive opt_case (crit : criterion) (w : weight) (lo up : R) (m : list (R * xd)) : report -> Prop :=
| oc_raise1 : crit 0%nat (first_weight w lo up) = Raise ->
    opt_case crit w lo up m (mkReport Thrown 1 [] m [TW1; TW2] None)
| oc_raise2 ok1 v1 : crit 0%nat (first_weight w lo up) = Answer ok1 v1 ->
    crit 1%nat (second_weight w lo up) = Raise ->
    opt_case crit w lo up m (mkReport Thrown 2 [(first_weight w lo up, v1)] m [TW1; TW2] None)
| oc_cancel ok1 v1 ok2 v2 : crit 0%nat (first_weight w lo up) = Answer ok1 v1 ->
    crit 1%nat (second_weight w lo up) = Answer ok2 v2 -> ok1 && ok2 = false ->
    opt_case crit w lo up m (mkReport Original 2
      [(second_weight w lo up, v2); (first_weight w lo up, v1)] m [TW1; TW2] None)
| oc_invalid v1 v2 : crit 0%nat (first_weight w lo up) = Answer true v1 ->
    crit 1%nat (second_weight w lo up) = Answer true v2 ->
    is_max_dbl v1 = true -> is_max_dbl v2 = true ->
    opt_case crit w lo up m (mkReport Thrown 2
      [(second_weight w lo up, v2); (first_weight w lo up, v1)] m [TW1; TW2] None)
| oc_fail v1 v2 st : crit 0%nat (first_weight w lo up) = Answer true v1 ->
    crit 1%nat (second_weight w lo up) = Answer true v2 ->
    is_max_dbl v1 && is_max_dbl v2 = false ->
    passes crit w (init_vars w lo up m v1 v2) st -> guard st = true -> step crit w st = None ->
    opt_case crit w lo up m (mkReport Thrown (S (calls st)) (elog st) (cmap st) [TW1; TW2] (Some st))
| oc_fresh v1 v2 st : crit 0%nat (first_weight w lo up) = Answer true v1 ->
    crit 1%nat (second_weight w lo up) = Answer true v2 ->
    is_max_dbl v1 && is_max_dbl v2 = false ->
    passes crit w (init_vars w lo up m v1 v2) st -> guard st = false -> s1 st && s2 st = true ->
    opt_case crit w lo up m (mkReport (Fresh (mkWeight (wkernel w) (wadaptive w) (xopt st)))
      (calls st) (elog st) (cmap st) [TWopt] (Some st))
| oc_stop v1 v2 st : crit 0%nat (first_weight w lo up) = Answer true v1 ->
    crit 1%nat (second_weight w lo up) = Answer true v2 ->
    is_max_dbl v1 && is_max_dbl v2 = false ->
    passes crit w (init_vars w lo up m v1 v2) st -> guard st = false -> s1 st && s2 st = false ->
    opt_case crit w lo up m (mkReport Original (calls st) (elog st) (cmap st) [] (Some st)).

Lemma loop_enough crit w : forall fuel st, (100 < iter st + fuel)%nat -> loop fuel crit w st <> LFuel.
Proof.
  induction fuel as [|n IH]; intros st H; cbn.
  - destruct (guard st) eqn:G; [|discriminate]. unfold guard in G.
    rewrite !andb_true_iff in G. destruct G as [_ G]. apply Nat.ltb_lt in G. lia.
  - destruct (guard st) eqn:G; [|discriminate]. destruct (step crit w st) as [st'|] eqn:S; [|discriminate].
    apply IH. assert (iter st' = Datatypes.S (iter st)).
    { unfold step in S. destruct (xltb (f1 st) (f2 st)); destruct (crit (calls st) _); inversion S; subst; reflexivity. }
    lia.
Qed.

Lemma optimize_cases crit w lo up m : opt_case crit w lo up m (optimize crit w lo up m).
Proof.
  unfold optimize.
  destruct (crit 0%nat (first_weight w lo up)) as [ok1 v1|] eqn:C1; [|constructor; auto].
  destruct (crit 1%nat (second_weight w lo up)) as [ok2 v2|] eqn:C2; [|econstructor; eauto].
  destruct (ok1 && ok2) eqn:O; cbn [negb]; [|econstructor; eauto].
  apply andb_true_iff in O as [-> ->].
  destruct (is_max_dbl v1 && is_max_dbl v2) eqn:M.
  { apply andb_true_iff in M as [M1 M2]. constructor; auto. }
  pose proof (loop_passes crit w 101 (init_vars w lo up m v1 v2)) as L.
  pose proof (loop_enough crit w 101 (init_vars w lo up m v1 v2)) as E.
  destruct (loop 101 crit w (init_vars w lo up m v1 v2)) as [st|st|].
  - destruct L as [P G]. destruct (s1 st && s2 st) eqn:S; econstructor; eauto.
  - destruct L as (P & G & S). econstructor; eauto.
  - exfalso. apply E; [cbn; lia|reflexivity].
Qed.

(** C21 *)
Lemma C21_main crit w lo up m wr : no_nan crit ->
  rresult (optimize crit w lo up m) = Fresh wr ->
  exists v, evaluated (optimize crit w lo up m) wr v /\
    forall w' v', evaluated (optimize crit w lo up m) w' v' -> not_greater v v'.
Proof.
  intros N. destruct (optimize_cases crit w lo up m) as
    [| | | | |v1 v2 st A B M P G S|]; cbn; try discriminate.
  intros E; inversion E; subst; clear E.
  assert (I : inv21 w st).
  { eapply passes_inv; [|exact P|eapply inv21_init; eauto]. intros; eapply inv21_step; eauto. }
  destruct I as (F1 & F2 & I1 & I2 & X & Bst).
  exists (if xltb (f1 st) (f2 st) then f1 st else f2 st). rewrite X. unfold better, evaluated; cbn.
  split; [destruct (xltb (f1 st) (f2 st)); auto | intros w' v' I; eapply Bst; eauto].
Qed.

(** C22 *)
Definition inv22 (st : vars) : Prop := (calls st = iter st + 2)%nat /\ (iter st <= 100)%nat /\
  length (elog st) = calls st.
Lemma inv22_step crit w st st' : inv22 st -> guard st = true -> step crit w st = Some st' -> inv22 st'.
Proof.
  intros (A & B & C) G S. unfold guard in G. rewrite !andb_true_iff in G. destruct G as [_ G].
  apply Nat.ltb_lt in G. unfold step in S.
  destruct (xltb (f1 st) (f2 st)); destruct (crit (calls st) _); inversion S; subst; unfold inv22; cbn; lia.
Qed.

Lemma passes_inv22 crit w lo up m v1 v2 st : passes crit w (init_vars w lo up m v1 v2) st -> inv22 st.
Proof.
  intros P. eapply passes_inv; [|exact P|unfold inv22; cbn; lia]. intros; eapply inv22_step; eauto.
Qed.

Lemma C22_main crit w lo up m : let r := optimize crit w lo up m in
  (rcalls r <= 102)%nat /\ (length (rlog r) <= rcalls r)%nat /\ rresult r <> Diverged.
Proof.
  cbn zeta. destruct (optimize_cases crit w lo up m) as
    [| | | |v1 v2 st A B M P G S|v1 v2 st A B M P G S|v1 v2 st A B M P G S]; cbn;
    try (repeat split; try lia; discriminate);
    pose proof (passes_inv22 _ _ _ _ _ _ _ _ P) as (K & K' & K'');
    repeat split; try lia; try discriminate.
  unfold guard in G. rewrite !andb_true_iff in G. destruct G as [_ G]. apply Nat.ltb_lt in G. lia.
Qed.

(** Golden ratio. *)
Lemma golden_sq : golden * golden = 1 - golden.
Proof.
  unfold golden. assert (H : sqrt 5 * sqrt 5 = 5) by (apply sqrt_sqrt; lra). lra.
Qed.
Lemma golden_bounds : 618033 / 1000000 < golden < 618034 / 1000000.
Proof.
  pose proof golden_sq as Q. assert (0 < golden).
  { unfold golden. assert (1 < sqrt 5); [|lra]. rewrite <- sqrt_1 at 1. apply sqrt_lt_1; lra. }
  split; nra.
Qed.

(** C23 *)
Definition inv23 (lo up : R) (st : vars) : Prop :=
  lo <= xL st /\ xU st <= up /\ xL st < xU st /\ dd st = golden * (xU st - xL st) /\
  x1 st = xL st + dd st /\ x2 st = xU st - dd st /\ (xopt st = x1 st \/ xopt st = x2 st) /\
  xU st - xL st = golden ^ iter st * (up - lo) /\
  (forall w' v', In (w', v') (elog st) -> lo < wvalue w' < up).

Lemma inv23_order lo up st : inv23 lo up st -> xL st < x2 st /\ x2 st < x1 st /\ x1 st < xU st.
Proof.
  intros (A & B & C & D & E & F & _). pose proof golden_bounds as G.
  rewrite E, F, D. split; [nra|]. split; nra.
Qed.

Lemma better_or a b f g : better a b f g = a \/ better a b f g = b.
Proof. unfold better; destruct (xltb f g); auto. Qed.

Lemma inv23_step crit w lo up st st' : wadaptive w = false -> inv23 lo up st ->
  step crit w st = Some st' -> inv23 lo up st' /\
  xU st' - xL st' = golden * (xU st - xL st) /\ xL st <= xL st' /\ xU st' <= xU st.
Proof.
  intros W I S. pose proof (inv23_order _ _ _ I) as (O1 & O2 & O3).
  pose proof golden_bounds as G. pose proof golden_sq as Q.
  destruct I as (A & B & C & D & E & F & X & H & L).
  unfold step in S. rewrite W in S.
  destruct (xltb (f1 st) (f2 st)) eqn:K; destruct (crit (calls st) _) as [ok v|] eqn:Cr; inversion S; subst st'; clear S;
    unfold inv23; cbn [xL xU dd x1 x2 f1 f2 s1 s2 iter xopt elog].
  - assert (Wd : xU st - x2 st = dd st) by lra.
    assert (Y1 : x2 st + golden * dd st < xU st) by nra.
    assert (Y2 : x2 st < x2 st + golden * dd st) by nra.
    assert (Wd' : xU st - x2 st = golden * (xU st - xL st)) by lra.
    split; [|split; [lra|split; lra]].
    split; [lra|]. split; [lra|]. split; [lra|]. split; [rewrite Wd; lra|]. split; [lra|].
    split; [rewrite E, D; nra|].
    split; [apply better_or|].
    split; [rewrite Wd', H; cbn [pow]; ring|].
    intros w' v' [J|J]; [inversion J; subst; cbn; lra | eapply L; eauto].
  - assert (Wd : x1 st - xL st = dd st) by lra.
    assert (Y1 : x1 st - golden * dd st > xL st) by nra.
    assert (Y2 : x1 st - golden * dd st < x1 st) by nra.
    assert (Wd' : x1 st - xL st = golden * (xU st - xL st)) by lra.
    split; [|split; [lra|split; lra]].
    split; [lra|]. split; [lra|]. split; [lra|]. split; [rewrite Wd; lra|].
    split; [rewrite F, D; nra|]. split; [lra|].
    split; [apply better_or|].
    split; [rewrite Wd', H; cbn [pow]; ring|].
    intros w' v' [J|J]; [inversion J; subst; cbn; lra | eapply L; eauto].
Qed.

Lemma inv23_init w lo up m v1 v2 : wadaptive w = false -> lo < up -> inv23 lo up (init_vars w lo up m v1 v2).
Proof.
  intros W H. pose proof golden_bounds as G. unfold inv23, init_vars, first_weight, second_weight; cbn.
  rewrite W; cbn.
  repeat match goal with |- _ /\ _ => split end; try lra; try nra.
  - apply better_or.
  - intros w' v' [J|[J|[]]]; inversion J; subst; cbn; split; nra.
Qed.

Lemma passes_inv23 crit w lo up m v1 v2 st : wadaptive w = false -> lo < up ->
  passes crit w (init_vars w lo up m v1 v2) st -> inv23 lo up st.
Proof.
  intros W H P. eapply passes_inv; [|exact P|apply inv23_init; auto].
  intros s s' I _ S. exact (proj1 (inv23_step _ _ _ _ _ _ W I S)).
Qed.

Lemma C23_main crit w lo up m : wadaptive w = false -> lo < up ->
  let r := optimize crit w lo up m in
  (forall w' v, evaluated r w' v -> lo < wvalue w' < up) /\
  (forall wr, rresult r = Fresh wr -> lo < wvalue wr < up).
Proof.
  intros W H r; subst r. pose proof golden_bounds as G.
  assert (D1 : lo < wvalue (first_weight w lo up) < up) by (unfold first_weight; cbn; rewrite W; split; nra).
  assert (D2 : lo < wvalue (second_weight w lo up) < up) by (unfold second_weight; cbn; rewrite W; split; nra).
  destruct (optimize_cases crit w lo up m) as
    [| | | |v1 v2 st A B M P _ S|v1 v2 st A B M P _ S|v1 v2 st A B M P _ S]; unfold evaluated; cbn;
    (split; [|intros wr E; try discriminate]);
    try (intros w' v' J; repeat (destruct J as [J|J]; [inversion J; subst; auto|]); destruct J);
    try (pose proof (passes_inv23 _ _ _ _ _ _ _ _ W H P) as I; intros w' v' J; apply I in J; auto).
  inversion E; subst; clear E; cbn.
  pose proof (passes_inv23 _ _ _ _ _ _ _ _ W H P) as I.
  pose proof (inv23_order _ _ _ I) as O. destruct I as (I1 & I2 & I3 & I4 & I5 & I6 & [X|X] & I8 & I9);
    rewrite X; lra.
Qed.

Lemma C23_bracket_main crit w lo up m st st' : wadaptive w = false -> lo < up ->
  reaches crit w lo up m st -> guard st = true -> step crit w st = Some st' ->
  lo <= xL st /\ xL st < x2 st /\ x2 st < x1 st /\ x1 st < xU st /\ xU st <= up /\
  xL st <= xL st' /\ xU st' <= xU st /\
  xU st' - xL st' = (sqrt 5 - 1) / 2 * (xU st - xL st) /\
  xU st - xL st = ((sqrt 5 - 1) / 2) ^ iter st * (up - lo).
Proof.
  intros W H (v1 & v2 & A & B & P) G S.
  pose proof (passes_inv23 _ _ _ _ _ _ _ _ W H P) as I.
  pose proof (inv23_order _ _ _ I) as (O1 & O2 & O3).
  pose proof (inv23_step _ _ _ _ _ _ W I S) as (I' & R1 & R2 & R3).
  destruct I as (I1 & I2 & I3 & I4 & I5 & I6 & X & I8 & I9).
  fold golden. repeat split; auto.
Qed.

Lemma final_reaches crit w lo up m st :
  rfinal (optimize crit w lo up m) = Some st -> reaches crit w lo up m st.
Proof.
  destruct (optimize_cases crit w lo up m) as
    [| | | |v1 v2 e A B M P _ S|v1 v2 e A B M P _ S|v1 v2 e A B M P _ S]; cbn; try discriminate;
    intros E; inversion E; subst; exists v1, v2; auto.
Qed.

(** C25 *)
Definition inv25 (g : R -> R) (m : R) (st : vars) : Prop :=
  xL st <= m <= xU st /\ f1 st = XF (g (x1 st)) /\ f2 st = XF (g (x2 st)).

Lemma inv25_step crit w lo up g m st st' : wadaptive w = false -> unimodal g lo up m -> answers crit g ->
  inv23 lo up st -> inv25 g m st -> step crit w st = Some st' -> inv25 g m st'.
Proof.
  intros W (Um & Ud & Ui) A I (J1 & J2 & J3) S. pose proof (inv23_order _ _ _ I) as (O1 & O2 & O3).
  destruct I as (I1 & I2 & I3 & I4 & I5 & I6 & X & I8 & I9).
  unfold step in S. rewrite W in S.
  assert (K : xltb (f1 st) (f2 st) = Rltb (g (x1 st)) (g (x2 st))) by (rewrite J2, J3; reflexivity).
  rewrite K in S. destruct (Rltb (g (x1 st)) (g (x2 st))) eqn:L; rewrite A in S; inversion S; subst st'; clear S;
    unfold inv25; cbn.
  - apply Rltb_true in L. split; [|auto]. split; [|lra].
    destruct (Rle_dec (x2 st) m) as [?|N]; auto. exfalso.
    assert (g (x2 st) < g (x1 st)) by (apply Ui; lra). lra.
  - apply Rltb_false in L. split; [|auto]. split; [lra|].
    destruct (Rle_dec m (x1 st)) as [?|N]; auto. exfalso.
    assert (g (x1 st) < g (x2 st)) by (apply Ud; lra). lra.
Qed.

Lemma C25_main crit w lo up g m mp st : wadaptive w = false -> lo < up -> unimodal g lo up m -> answers crit g ->
  reaches crit w lo up mp st -> xL st <= m <= xU st.
Proof.
  intros W H U A (v1 & v2 & A1 & A2 & P). rewrite A in A1, A2. inversion A1; inversion A2; subst.
  assert (I : inv23 lo up st /\ inv25 g m st); [|apply I].
  refine (passes_inv crit w (fun s => inv23 lo up s /\ inv25 g m s) _ _ _ P _).
  - intros s s' (I & J) G S. split; [exact (proj1 (inv23_step _ _ _ _ _ _ W I S))|].
    eapply inv25_step; eauto.
  - split; [apply inv23_init; auto|]. unfold inv25; cbn. split; auto. apply U.
Qed.

Lemma C25_result_main crit w lo up g m mp wr st : wadaptive w = false -> lo < up ->
  unimodal g lo up m -> answers crit g ->
  rresult (optimize crit w lo up mp) = Fresh wr -> rfinal (optimize crit w lo up mp) = Some st ->
  xL st <= m <= xU st /\ xL st < wvalue wr < xU st /\ Rabs (wvalue wr - m) < xU st - xL st.
Proof.
  intros W H U A E F. pose proof (final_reaches _ _ _ _ _ _ F) as Rch.
  pose proof (C25_main _ _ _ _ _ _ _ _ W H U A Rch) as M.
  assert (B : xL st < wvalue wr < xU st).
  { destruct Rch as (v1 & v2 & A1 & A2 & P).
    pose proof (passes_inv23 _ _ _ _ _ _ _ _ W H P) as I. pose proof (inv23_order _ _ _ I) as O.
    destruct I as (I1 & I2 & I3 & I4 & I5 & I6 & X & I8 & I9).
    revert E F. destruct (optimize_cases crit w lo up mp) as [| | | | | |]; cbn; try discriminate.
    intros E F; inversion E; inversion F; subst; cbn. destruct X as [X|X]; rewrite X; lra. }
  split; auto. split; auto. unfold Rabs; destruct (Rcase_abs _); lra.
Qed.

(** C26 *)
Definition nth_call (r : report) (k : nat) (w : weight) (v : xd) : Prop := nth_error (rev (rlog r)) k = Some (w, v).

Lemma is_max_dbl_eq v : is_max_dbl v = true <-> v = XF DBL_MAX.
Proof.
  unfold is_max_dbl; split.
  - destruct v as [r| |[]|]; cbn; try discriminate.
    + rewrite andb_true_iff, !negb_true_iff. intros [A B]. apply Rltb_false in A, B. f_equal; lra.
    + rewrite andb_true_iff, !negb_true_iff. intros [A B]. apply Rltb_false in A, B.
      exfalso. assert (0 < DBL_MAX); [|lra]. unfold DBL_MAX. apply IZR_lt. reflexivity.
  - intros ->; cbn. rewrite andb_true_iff, !negb_true_iff. split; apply Rltb_false; lra.
Qed.

Definition inv26 (crit : criterion) (w : weight) (st : vars) : Prop :=
  (calls st = length (elog st)) /\ (2 <= calls st)%nat /\
  (forall w' v, In (w', v) (elog st) -> wkernel w' = wkernel w /\ wadaptive w' = wadaptive w) /\
  (forall k w' v, nth_error (rev (elog st)) k = Some (w', v) -> exists ok, crit k w' = Answer ok v /\
     (ok = false -> s1 st && s2 st = false)) /\
  (s1 st && s2 st = false -> exists k w' v, nth_error (rev (elog st)) k = Some (w', v) /\ crit k w' = Answer false v).

Lemma inv26_init crit w lo up m v1 v2 : crit 0%nat (first_weight w lo up) = Answer true v1 ->
  crit 1%nat (second_weight w lo up) = Answer true v2 -> inv26 crit w (init_vars w lo up m v1 v2).
Proof.
  intros A B. unfold inv26; cbn. split; auto. split; auto. split; [|split; [|discriminate]].
  - intros w' v [J|[J|[]]]; inversion J; subst; auto.
  - intros [|[|k]] w' v J; cbn in J; [inversion J; subst; eauto..|destruct k; discriminate].
Qed.

Lemma guard_s st : guard st = true -> s1 st && s2 st = true.
Proof. unfold guard. rewrite !andb_true_iff. tauto. Qed.

Lemma nth_error_snoc {A} (l : list A) a k x : nth_error (l ++ [a]) k = Some x ->
  nth_error l k = Some x \/ (k = length l /\ x = a).
Proof.
  intros H. destruct (Nat.lt_ge_cases k (length l)) as [L|L].
  - left. rewrite nth_error_app1 in H; auto.
  - right. rewrite nth_error_app2 in H by lia. destruct (k - length l)%nat as [|j] eqn:E; cbn in H.
    + inversion H; split; auto; lia.
    + destruct j; discriminate.
Qed.

Lemma nth_error_snoc_l {A} (l : list A) a k x : nth_error l k = Some x -> nth_error (l ++ [a]) k = Some x.
Proof. intros H. rewrite nth_error_app1; auto. apply nth_error_Some. congruence. Qed.

Lemma nth_error_snoc_r {A} (l : list A) a : nth_error (l ++ [a]) (length l) = Some a.
Proof. rewrite nth_error_app2 by lia. rewrite Nat.sub_diag. reflexivity. Qed.

Lemma inv26_step crit w st st' : inv26 crit w st -> guard st = true -> step crit w st = Some st' -> inv26 crit w st'.
Proof.
  intros (A & A' & B & C & D) G S. apply guard_s in G. pose proof G as G'. apply andb_true_iff in G' as [G1 G2].
  unfold step in S.
  destruct (xltb (f1 st) (f2 st)); destruct (crit (calls st) _) as [ok v|] eqn:Cr; inversion S; subst st'; clear S;
    unfold inv26; cbn [elog calls s1 s2];
    (split; [cbn; lia|]); (split; [lia|]); split;
    try (intros w' v' [J|J]; [inversion J; subst; auto | eauto]); cbn [rev]; split.
  - intros k w' v' J. apply nth_error_snoc in J as [J|[K J]].
    + destruct (C _ _ _ J) as (ok' & E & F). exists ok'; split; auto. intros; exfalso; rewrite F in G; auto; discriminate.
    + inversion J; subst. rewrite rev_length, <- A. exists ok; split; auto. intros ->; reflexivity.
  - rewrite G2, andb_true_r. intros ->. exists (calls st). do 2 eexists. split; [|exact Cr].
    rewrite A, <- rev_length. apply nth_error_snoc_r.
  - intros k w' v' J. apply nth_error_snoc in J as [J|[K J]].
    + destruct (C _ _ _ J) as (ok' & E & F). exists ok'; split; auto. intros; exfalso; rewrite F in G; auto; discriminate.
    + inversion J; subst. rewrite rev_length, <- A. exists ok; split; auto. intros ->; apply andb_false_r.
  - rewrite G1, andb_true_l. intros ->. exists (calls st). do 2 eexists. split; [|exact Cr].
    rewrite A, <- rev_length. apply nth_error_snoc_r.
Qed.

Lemma passes_inv26 crit w lo up m v1 v2 st : crit 0%nat (first_weight w lo up) = Answer true v1 ->
  crit 1%nat (second_weight w lo up) = Answer true v2 ->
  passes crit w (init_vars w lo up m v1 v2) st -> inv26 crit w st.
Proof.
  intros A B P. eapply passes_inv; [|exact P|eapply inv26_init; eauto]. intros; eapply inv26_step; eauto.
Qed.

Lemma C26_main crit w lo up m : let r := optimize crit w lo up m in
  (forall w' v, evaluated r w' v -> wkernel w' = wkernel w /\ wadaptive w' = wadaptive w) /\
  (forall wr, rresult r = Fresh wr -> wkernel wr = wkernel w /\ wadaptive wr = wadaptive w).
Proof.
  intros r; subst r. unfold evaluated. destruct (optimize_cases crit w lo up m) as
    [| | | |v1 v2 st A B M P _ S|v1 v2 st A B M P _ S|v1 v2 st A B M P _ S]; cbn;
    (split; [|intros wr E; inversion E; subst; auto]);
    try (intros w' v' J; repeat (destruct J as [J|J]; [inversion J; subst; auto|]); destruct J);
    pose proof (passes_inv26 _ _ _ _ _ _ _ _ A B P) as (_ & _ & I & _); auto.
Qed.

Lemma C26_cancel_main crit w lo up m : never_raises crit -> let r := optimize crit w lo up m in
  (rresult r = Original <->
   exists k w' v, nth_error (rev (rlog r)) k = Some (w', v) /\ crit k w' = Answer false v).
Proof.
  intros N r; subst r. destruct (optimize_cases crit w lo up m) as
    [X|ok1 v1 X Y|ok1 v1 ok2 v2 X Y O|v1 v2 X Y M1 M2|v1 v2 st A B M P G S|v1 v2 st A B M P _ S|v1 v2 st A B M P _ S];
    cbn [rresult rlog].
  - exfalso; eapply N; eauto.
  - exfalso; eapply N; eauto.
  - split; auto. intros _. cbn. destruct ok1; [destruct ok2; [discriminate|]|].
    + exists 1%nat; do 2 eexists; split; [reflexivity|]; auto.
    + exists 0%nat; do 2 eexists; split; [reflexivity|]; auto.
  - split; [discriminate|]. intros (k & w' & v & J & K). exfalso. destruct k as [|[|k]]; cbn in J;
      [inversion J; subst; congruence..|destruct k; discriminate].
  - exfalso. unfold step in S. destruct (xltb _ _); destruct (crit (calls st) _) eqn:E; try discriminate; eapply N; eauto.
  - split; [discriminate|]. intros (k & w' & v & J & K). exfalso.
    pose proof (passes_inv26 _ _ _ _ _ _ _ _ A B P) as (_ & _ & _ & I & _).
    destruct (I _ _ _ J) as (ok & E & F). rewrite K in E; inversion E; subst. rewrite F in S; auto; discriminate.
  - split; auto. intros _. pose proof (passes_inv26 _ _ _ _ _ _ _ _ A B P) as (_ & _ & _ & _ & I). auto.
Qed.

Lemma C26_invalid_main crit w lo up m ok1 ok2 :
  crit 0%nat (first_weight w lo up) = Answer ok1 (XF DBL_MAX) ->
  crit 1%nat (second_weight w lo up) = Answer ok2 (XF DBL_MAX) ->
  rresult (optimize crit w lo up m) = (if ok1 && ok2 then Thrown else Original).
Proof.
  intros A B. assert (M : is_max_dbl (XF DBL_MAX) = true) by (apply is_max_dbl_eq; auto).
  unfold optimize. rewrite A, B. destruct (ok1 && ok2); cbn [negb]; [rewrite M|]; reflexivity.
Qed.

Lemma C26_throw_main crit w lo up m : never_raises crit ->
  rresult (optimize crit w lo up m) = Thrown ->
  crit 0%nat (first_weight w lo up) = Answer true (XF DBL_MAX) /\
  crit 1%nat (second_weight w lo up) = Answer true (XF DBL_MAX).
Proof.
  intros N. destruct (optimize_cases crit w lo up m) as
    [X|ok1 v1 X Y|ok1 v1 ok2 v2 X Y O|v1 v2 X Y M1 M2|v1 v2 st A B M P G S|v1 v2 st A B M P _ S|v1 v2 st A B M P _ S];
    cbn [rresult]; try discriminate; intros _.
  - exfalso; eapply N; eauto.
  - exfalso; eapply N; eauto.
  - apply is_max_dbl_eq in M1, M2. subst; auto.
  - exfalso. unfold step in S. destruct (xltb _ _); destruct (crit (calls st) _) eqn:E; try discriminate; eapply N; eauto.
Qed.

Lemma C25_stop_main crit w lo up g m wr st : wadaptive w = false -> lo < up -> answers crit g ->
  rresult (optimize crit w lo up m) = Fresh wr -> rfinal (optimize crit w lo up m) = Some st ->
  xU st - xL st = ((sqrt 5 - 1) / 2) ^ iter st * (up - lo) /\
  ((sqrt 5 - 1) / 2 * (xU st - xL st) <= / 10000 \/ Rabs (g (x2 st) - g (x1 st)) <= / 10000 \/ iter st = 100%nat).
Proof.
  intros W H A E F. revert E F.
  destruct (optimize_cases crit w lo up m) as
    [| | | |v1 v2 e A1 A2 M P G S|v1 v2 e A1 A2 M P G S|v1 v2 e A1 A2 M P G S]; cbn; try discriminate.
  intros _ F; inversion F; subst e. clear F.
  pose proof (passes_inv23 _ _ _ _ _ _ _ _ W H P) as I.
  pose proof (passes_inv22 _ _ _ _ _ _ _ _ P) as (_ & K & _).
  pose proof golden_bounds as GB.
  rewrite A in A1, A2. inversion A1; inversion A2; subst v1 v2. clear A1 A2.
  assert (V : f1 st = XF (g (x1 st)) /\ f2 st = XF (g (x2 st))).
  { refine (passes_inv crit w (fun s => f1 s = XF (g (x1 s)) /\ f2 s = XF (g (x2 s))) _ _ _ P _); [|cbn; auto].
    intros s s' (V1 & V2) _ T. unfold step in T.
    destruct (xltb (f1 s) (f2 s)); rewrite A in T; inversion T; subst s'; cbn; auto. }
  destruct V as (V1 & V2).
  destruct I as (I1 & I2 & I3 & I4 & I5 & I6 & X & I8 & I9). split; [exact I8|].
  unfold guard in G. rewrite S in G. rewrite V1, V2 in G. cbn [andb] in G.
  fold golden. rewrite <- I4.
  destruct (Rltb eps (Rabs (dd st))) eqn:G1.
  - cbn [andb] in G. right.
    destruct (Nat.ltb (iter st) 100) eqn:G3.
    + left. rewrite andb_true_r in G.
      assert (D : xval (xsub (XF (g (x2 st))) (XF (g (x1 st)))) = Some (g (x2 st) - g (x1 st))) by (apply xval_xsub; reflexivity).
      assert (D' : xval (xabs (xsub (XF (g (x2 st))) (XF (g (x1 st))))) = Some (Rabs (g (x2 st) - g (x1 st)))) by (apply xval_xabs; exact D).
      rewrite (xltb_val _ _ _ _ (eq_refl : xval (XF eps) = Some eps) D') in G. apply Rltb_false in G. exact G.
    + right. apply Nat.ltb_ge in G3. lia.
  - left. apply Rltb_false in G1. unfold eps in G1. pose proof (Rle_abs (dd st)). lra.
Qed.
