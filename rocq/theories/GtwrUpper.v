(** The upper end of the bandwidth search of GTWR is the largest entry of the distance vectors (C98). *)
From Coq Require Import Reals List Arith Lra Lia.
From Verif Require Import Outcome XReal XRealFacts DistModel DistSpec DistProofs DistProofs2 GtwrModel GtwrSpec GtwrProofs.
Import ListNotations.
Local Open Scope R_scope.

Lemma omax_attained : forall rows rrows, Forall2 (fun o r => exists v, o = Ok v /\ xvals v r) rows rrows ->
  Forall (fun r => r <> []) rrows -> forall acc a, xval acc = Some a ->
  exists m r, omax_loop rows acc = Ok m /\ xval m = Some r /\ a <= r /\
    (forall l s, In l rrows -> In s l -> s <= r) /\ (r = a \/ exists l, In l rrows /\ In r l).
Proof.
  intros rows rrows F; induction F as [|o r rows rrows [v [-> V]] F IH]; intros N acc a A.
  - exists acc, a; repeat split; auto; [lra|intros l s []].
  - inversion N; subst. destruct (vmax_val v r V H1) as (m1 & r1 & E1 & V1 & I1 & B1).
    cbn [omax_loop obind]. rewrite E1. cbn [obind]. rewrite (xltb_val _ _ _ _ A V1).
    destruct (Rltb a r1) eqn:C; [apply Rltb_true in C|apply Rltb_false in C].
    + destruct (IH H2 m1 r1 V1) as (m & r0 & E & W & L & Bd & At). exists m, r0; repeat split; auto; [lra| |].
      * intros l s [->|Il] Is; [specialize (B1 s Is); lra|eauto].
      * right. destruct At as [->|[l [Il Ir]]]; [exists r; split; [left; reflexivity|exact I1]|exists l; split; [right; exact Il|exact Ir]].
    + destruct (IH H2 acc a A) as (m & r0 & E & W & L & Bd & At). exists m, r0; repeat split; auto.
      * intros l s [->|Il] Is; [specialize (B1 s Is); lra|eauto].
      * destruct At as [->|[l [Il Ir]]]; [left; reflexivity|right; exists l; split; [right; exact Il|exact Ir]].
Qed.

Lemma xvals_in v : forall rs r, xvals v rs -> In r rs -> exists i x, nth_error v i = Some x /\ xval x = Some r.
Proof.
  induction v as [|x v IH]; intros rs r V I.
  - destruct rs; [destruct I|discriminate V].
  - destruct rs as [|s rs]; [destruct I|]. apply xvals_inv in V as [V1 V2]. destruct I as [->|I]; [exists 0%nat, x; auto|].
    destruct (IH rs r V2 I) as (i & y & N & Y). exists (S i), y. auto.
Qed.
Lemma in_xvals v : forall rs i x r, xvals v rs -> nth_error v i = Some x -> xval x = Some r -> In r rs.
Proof.
  induction v as [|y v IH]; intros rs i x r V N X; [destruct i; discriminate|].
  destruct rs as [|s rs]; [discriminate V|]. apply xvals_inv in V as [V1 V2]. destruct i as [|i]; [injection N as <-; left; congruence|].
  right. eapply IH; eauto.
Qed.

Section U.
Variables (lambda : R) (pts : list point) (ts : list R).
Hypothesis (L01 : 0 <= lambda <= 1) (Lg : lambda = 1 \/ lambda <= 1 - / 10 ^ 16) (LL : length pts = length ts).
Let d := spacetime lambda pts pts ts ts.

Lemma row f : (f < length pts)%nat -> exists v rs, st_distance d f = Ok v /\ xvals v rs /\ length v = length pts /\ (forall r, In r rs -> 0 <= r).
Proof.
  intros Lf. destruct (nth_error pts f) as [o|] eqn:Eo; [|apply nth_error_None in Eo; lia].
  destruct (nth_error ts f) as [tf|] eqn:Et; [|apply nth_error_None in Et; lia].
  destruct (C18_main lambda pts pts ts ts f o tf L01 Lg LL Eo Et) as (v & E & Lv & _).
  assert (Ev : st_distance d f = Ok v). { unfold d. rewrite (st_api lambda pts pts ts ts (length pts)) by congruence. exact E. }
  assert (ENT : forall k, (k < length pts)%nat -> exists x r, nth_error v k = Some x /\ xval x = Some r /\ 0 <= r).
  { intros k Lk. destruct (nth_error pts k) as [p|] eqn:Ep; [|apply nth_error_None in Ep; lia].
    destruct (nth_error ts k) as [t|] eqn:Etk; [|apply nth_error_None in Etk; lia].
    destruct (C18_api_main lambda pts pts ts ts (length pts) f k o p tf t) as [r [(v' & x & E' & N & X) (_ & _ & _ & _ & P)]]; auto.
    fold d in E'. assert (v' = v) by congruence. subst. eauto. }
  destruct (entries_xvals v (length pts) Lv) as [rs V]. { intros k Lk. destruct (ENT k Lk) as (x & r & A & B & _). eauto. }
  exists v, rs. repeat split; auto. intros r Ir. destruct (xvals_in v rs r V Ir) as (i & x & N & X).
  assert (Hi : (i < length pts)%nat) by (rewrite <- Lv; apply nth_error_Some; congruence).
  destruct (ENT i Hi) as (x' & r' & N' & X' & P). congruence.
Qed.

Lemma upper_exact : pts <> [] -> exists u r, gtwr_upper d = Ok u /\ xval u = Some r /\
  (forall f i v, entry (st_distance d f) i v -> v <= r) /\ (exists f i, (f < length pts)%nat /\ (i < length pts)%nat /\ entry (st_distance d f) i r).
Proof.
  intros NE.
  assert (G : forall l, (forall f, In f l -> (f < length pts)%nat) ->
      exists rrows, Forall2 (fun o r => exists v, o = Ok v /\ xvals v r) (map (st_distance d) l) rrows
               /\ Forall (fun r => r <> []) rrows
               /\ (forall f v, In f l -> st_distance d f = Ok v -> exists rs, In rs rrows /\ xvals v rs)
               /\ (forall rs, In rs rrows -> exists f v, In f l /\ st_distance d f = Ok v /\ xvals v rs)).
  { induction l as [|f l IH]; intros Hl; [exists []; repeat split; try constructor; intros ? ? *; contradiction|].
    destruct IH as [rr [A [B [C D]]]]. { intros; apply Hl; right; assumption. }
    destruct (row f (Hl f (or_introl eq_refl))) as [v [rs [E [V [Lv P]]]]].
    exists (rs :: rr). split; [constructor; eauto|]. split; [constructor; [|exact B]; intros ->; apply xvals_nil_inv in V; subst; destruct pts; [congruence|discriminate]|].
    split.
    - intros f' v' [<-|I] E'; [exists rs; split; [left; reflexivity|congruence]|]. destruct (C f' v' I E') as [rs' [I' V']]. exists rs'. split; [right; exact I'|exact V'].
    - intros rs' [<-|I]; [exists f, v; split; [left; reflexivity|auto]|]. destruct (D rs' I) as [f' [v' [I' [E' V']]]]. exists f', v'. split; [right; exact I'|auto]. }
  destruct (G (seq 0 (length pts))) as [rrows [F2 [NN [C D]]]]. { intros f If. apply in_seq in If; lia. }
  destruct (omax_attained _ _ F2 NN (XF 0) 0 eq_refl) as (u & r & E & V & P & Bd & At).
  exists u, r. split; [unfold gtwr_upper, st_maxDistance; unfold d; rewrite spacetime_par by exact LL; fold d; rewrite st_rows_map; exact E|].
  split; [exact V|].
  assert (UB : forall f i s, entry (st_distance d f) i s -> s <= r).
  { intros f i s (v & x & Ev & N & X). assert (Lf : (f < length pts)%nat).
    { destruct (Nat.lt_ge_cases f (length pts)) as [H|H]; [exact H|]. exfalso.
      unfold d in Ev. rewrite (st_api lambda pts pts ts ts (length pts)) in Ev by congruence.
      unfold st_distance, crs_distance in Ev. cbn [s_spatial c_par] in Ev.
      rewrite (proj2 (nth_error_None pts f) H) in Ev. discriminate Ev. }
    destruct (C f v) as [rs [I W]]; [apply in_seq; lia|exact Ev|]. eapply Bd; [exact I|]. eapply in_xvals; eauto. }
  split; [exact UB|]. 
  assert (FIN : forall f v rs s, In f (seq 0 (length pts)) -> st_distance d f = Ok v -> xvals v rs -> In s rs ->
            exists i, (f < length pts)%nat /\ (i < length pts)%nat /\ entry (st_distance d f) i s).
  { intros f v rs s If Ev Vv Is. destruct (xvals_in v rs s Vv Is) as (i & x & N & X). exists i. apply in_seq in If.
    destruct (row f ltac:(lia)) as (v' & rs' & Ev' & _ & Lv & _). assert (v' = v) by congruence. subst v'.
    split; [lia|]. split; [rewrite <- Lv; apply nth_error_Some; congruence|]. exists v, x. auto. }
  destruct At as [->|[l [Il Ir]]].
  - assert (L0 : (0 < length pts)%nat) by (destruct pts; [congruence|cbn; lia]).
    destruct (row 0 L0) as (v & rs & Ev & Vv & Lv & Pos). destruct rs as [|s rs].
    { apply xvals_nil_inv in Vv. subst. cbn in Lv. lia. }
    destruct (FIN 0%nat v (s :: rs) s) as (i & A & B & H); [apply in_seq; lia|exact Ev|exact Vv|left; reflexivity|].
    assert (s = 0). { apply Rle_antisym; [exact (UB _ _ _ H)|apply Pos; left; reflexivity]. } subst s. exists 0%nat, i. auto.
  - destruct (D l Il) as (f & v & If & Ev & Vv). destruct (FIN f v l r If Ev Vv Ir) as (i & H). exists f, i. exact H.
Qed.
Lemma upper_contemporary t : pts <> [] -> (forall s, In s ts -> s = t) -> exists u r, gtwr_upper d = Ok u /\ xval u = Some r /\
  (forall o p, In o pts -> In p pts -> lambda * euclid o p <= r) /\ (exists o p, In o pts /\ In p pts /\ r = lambda * euclid o p).
Proof.
  intros NE HT. destruct (upper_exact NE) as (u & r & E & V & UB & (f & i & Lf & Li & At)). exists u, r. split; [exact E|]. split; [exact V|].
  assert (VAL : forall f i o p, nth_error pts f = Some o -> nth_error pts i = Some p -> entry (st_distance d f) i (lambda * euclid o p)).
  { intros f' i' o p No Np. assert (Hf : (f' < length pts)%nat) by (apply nth_error_Some; congruence).
    assert (Hi : (i' < length pts)%nat) by (apply nth_error_Some; congruence).
    destruct (nth_error ts f') as [tf|] eqn:Et; [|apply nth_error_None in Et; lia].
    destruct (nth_error ts i') as [ti|] eqn:Ei; [|apply nth_error_None in Ei; lia].
    destruct (C18_api_main lambda pts pts ts ts (length pts) f' i' o p tf ti) as [s [En (_ & H & _)]]; auto.
    assert (tf = t) by (apply HT; eapply nth_error_In; eauto). assert (ti = t) by (apply HT; eapply nth_error_In; eauto). subst.
    rewrite (H ltac:(lra)) in En. unfold st_formula in En.
    replace (lambda * euclid o p + (1 - lambda) * (t - t) + 2 * sqrt (lambda * (1 - lambda) * euclid o p * (t - t))) with (lambda * euclid o p) in En; [exact En|].
    replace (lambda * (1 - lambda) * euclid o p * (t - t)) with 0 by ring. rewrite sqrt_0. ring. }
  split.
  - intros o p Io Ip. destruct (In_nth_error _ _ Io) as [a Na]. destruct (In_nth_error _ _ Ip) as [b Nb]. exact (UB _ _ _ (VAL a b o p Na Nb)).
  - destruct (nth_error pts f) as [o|] eqn:Eo; [|apply nth_error_None in Eo; lia]. destruct (nth_error pts i) as [p|] eqn:Ep; [|apply nth_error_None in Ep; lia].
    exists o, p. split; [eapply nth_error_In; eauto|]. split; [eapply nth_error_In; eauto|].
    destruct (VAL f i o p Eo Ep) as (v1 & x1 & A1 & A2 & A3). destruct At as (v2 & x2 & B1 & B2 & B3). congruence.
Qed.
End U.

(** Two observations of the same time, five apart. *)
Lemma upper_same_time : exists u, gtwr_upper (spacetime (/ 2) [(0, 0); (3, 4)] [(0, 0); (3, 4)] [7; 7] [7; 7]) = Ok u /\ xval u = Some (5 / 2).
Proof.
  assert (L : / 10 ^ 16 <= / 2) by (apply Rinv_le_contravar; lra).
  assert (E34 : euclid (0, 0) (3, 4) = 5).
  { unfold euclid. cbn [fst snd]. replace ((3 - 0) * (3 - 0) + (4 - 0) * (4 - 0)) with (5 * 5) by ring. apply sqrt_square. lra. }
  assert (E43 : euclid (3, 4) (0, 0) = 5).
  { unfold euclid. cbn [fst snd]. replace ((0 - 3) * (0 - 3) + (0 - 4) * (0 - 4)) with (5 * 5) by ring. apply sqrt_square. lra. }
  assert (Z : forall p, euclid p p = 0).
  { intros p. unfold euclid. rewrite !Rminus_diag_eq by reflexivity. replace (0 * 0 + 0 * 0) with 0 by ring. apply sqrt_0. }
  destruct (upper_contemporary (/ 2) [(0, 0); (3, 4)] [7; 7] ltac:(lra) ltac:(right; lra) eq_refl 7) as (u & r & E & V & UB & (o & p & Io & Ip & Hr)).
  { discriminate. } { intros s [<-|[<-|[]]]; reflexivity. }
  exists u. split; [exact E|]. rewrite V. f_equal. pose proof (UB (0, 0) (3, 4) ltac:(left; reflexivity) ltac:(right; left; reflexivity)) as H.
  rewrite E34 in H. destruct Io as [<-|[<-|[]]]; destruct Ip as [<-|[<-|[]]]; rewrite ?E34, ?E43, ?Z in Hr; lra.
Qed.
