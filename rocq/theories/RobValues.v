From Coq Require Import Reals Bool List Arith Lia Lra.
From Verif Require Import Outcome XReal XRealFacts Sums GlmModel GlmSpec RobModel RobProofs.
Import ListNotations.
Local Open Scope R_scope.
Section Cal.
Variables (A : Type) (n : nat) (fit : xvec -> outcome A) (resid stud : A -> xvec) (stop : nat -> bool) (zero : A).
Definition msq (b : A) : xd := mean_square n (resid b).
Definition nextm (b : A) : xvec := filtWeight (resid b) (msq b).
Definition moved (b b' : A) : bool := xltb (XF delta) (xdiv (xabs (xsub (msq b) (msq b'))) (msq b')).
Definition tests (t0 : bool) (bs : nat -> A) (j : nat) : bool := match j with O => t0 | S i => moved (bs i) (bs j) end.
Lemma second_trace : forall k b diff made r,
  second_loop A n fit resid stop zero k b (nextm b) (msq b) diff made = Ok r ->
  exists (bs : nat -> A) L, bs 0%nat = b /\ (L <= k)%nat /\
    snd r = made ++ map (fun j => nextm (bs j)) (seq 0 L) /\
    (forall j, (j < L)%nat -> fit (nextm (bs j)) = Ok (bs (S j)) /\ tests (xltb (XF delta) diff) bs j = true) /\
    (forall j, (S j < L)%nat -> stop (length made + j)%nat = false) /\
    ((exists j, L = S j /\ stop (length made + j)%nat = true /\ fst r = zero) \/
     ((forall j, L = S j -> stop (length made + j)%nat = false) /\ fst r = bs L /\
      ((L < k)%nat -> tests (xltb (XF delta) diff) bs L = false))).
Proof.
  induction k as [|k IH]; intros b diff made r; cbn [second_loop].
  - intros H; injection H as <-. exists (fun _ => b), 0%nat. cbn [fst snd seq map].
    split; [reflexivity|]. split; [lia|]. split; [symmetry; apply app_nil_r|]. split; [intros; lia|]. split; [intros; lia|].
    right. split; [discriminate|]. split; [reflexivity|lia].
  - destruct (xltb (XF delta) diff) eqn:T.
    + destruct (fit (nextm b)) as [b'| |] eqn:E; cbn [obind]; try discriminate. cbv zeta.
      destruct (stop (length made)) eqn:St.
      * intros H; injection H as <-. exists (fun j => match j with O => b | S _ => b' end), 1%nat. cbn [fst snd seq map].
        split; [reflexivity|]. split; [lia|]. split; [reflexivity|]. split; [|split; [intros; lia|]].
        -- intros j Lj. destruct j; [split; [exact E|reflexivity]|lia].
        -- left. exists 0%nat. rewrite Nat.add_0_r. auto.
      * intros H. destruct (IH _ _ _ _ H) as (bs & L & E0 & LL & ES & EF & EN & ED).
        rewrite app_length in EN, ED. cbn [length] in EN, ED.
        exists (fun j => match j with O => b | S j' => bs j' end), (S L).
        assert (TT : forall j, tests true (fun j => match j with O => b | S j' => bs j' end) (S j)
                   = tests (xltb (XF delta) (xdiv (xabs (xsub (msq b) (msq b'))) (msq b'))) bs j).
        { intros j. unfold tests. destruct j; [rewrite E0|]; reflexivity. }
        split; [reflexivity|]. split; [lia|]. split; [|split; [|split]].
        -- rewrite ES, <- app_assoc. f_equal. cbn [seq map app]. f_equal. rewrite <- seq_shift, map_map. reflexivity.
        -- intros j Lj. destruct j as [|j]; [split; [rewrite E0; exact E|reflexivity]|]. rewrite TT. apply EF; lia.
        -- intros j Lj. destruct j as [|j]; [rewrite Nat.add_0_r; exact St|].
           replace (length made + S j)%nat with (length made + 1 + j)%nat by lia. apply EN; lia.
        -- destruct ED as [(j & -> & Sj & Z)|(SN & FB & TF)].
           ++ left. exists (S j). split; [reflexivity|]. split; [|exact Z].
              replace (length made + S j)%nat with (length made + 1 + j)%nat by lia. exact Sj.
           ++ right. split; [|split; [exact FB|]].
              ** intros j Ej. injection Ej as Ej. subst L. destruct j as [|j]; [rewrite Nat.add_0_r; exact St|].
                 replace (length made + S j)%nat with (length made + 1 + j)%nat by lia. apply SN; reflexivity.
              ** intros Lk. rewrite TT. apply TF; lia.
    + intros H; injection H as <-. exists (fun _ => b), 0%nat. cbn [fst snd seq map].
      split; [reflexivity|]. split; [lia|]. split; [symmetry; apply app_nil_r|]. split; [intros; lia|]. split; [intros; lia|].
      right. split; [discriminate|]. split; [reflexivity|]. intros _; reflexivity.
Qed.
Lemma C69_rounds_main : forall r, cali_second A n fit resid stop zero = Ok r ->
  exists (bs : nat -> A) (last : nat),
    let weights k := filtWeight (resid (bs k)) (mean_square n (resid (bs k))) in
    let mse k := mean_square n (resid (bs k)) in
    let moved k := xltb (XF (1 / 100000)) (xdiv (xabs (xsub (mse k) (mse (S k)))) (mse (S k))) in
    length (snd r) = S last /\
    snd r = (fun _ => XF 1) :: map weights (seq 0 last) /\
    fit (fun _ => XF 1) = Ok (bs 0%nat) /\
    (forall k, (k < last)%nat -> fit (weights k) = Ok (bs (S k)) /\ stop k = false) /\
    (forall k, (S k < last)%nat -> moved k = true) /\
    (fst r = if stop last then match last with O => bs 0%nat | S _ => zero end else bs last) /\
    (stop last = false -> exists k, last = S k /\ ((last < 20)%nat -> moved k = false)).
Proof.
  intros r H. unfold cali_second in H. change (fun _ : nat => XF 1) with ones_mask.
  destruct (fit ones_mask) as [b| |] eqn:E; cbn [obind] in H; try discriminate.
  destruct (stop 0%nat) eqn:St.
  - injection H as <-. exists (fun _ => b), 0%nat. cbv zeta. cbn [fst snd length seq map]. rewrite St.
    split; [reflexivity|]. split; [reflexivity|]. split; [reflexivity|]. split; [intros; lia|]. split; [intros; lia|]. split; [reflexivity|discriminate].
  - cbv zeta in H. destruct (second_trace _ _ _ _ _ H) as (bs & L & E0 & LL & ES & EF & EN & ED).
    cbn [length app] in *.
    assert (T0 : xltb (XF delta) (XF 1) = true).
    { rewrite (xltb_val (XF delta) (XF 1) delta 1 eq_refl eq_refl). apply Rltb_true. unfold delta; lra. }
    rewrite T0 in *.
    exists bs, L. cbv zeta. rewrite ES. cbn [length]. rewrite map_length, seq_length.
    split; [reflexivity|]. split; [reflexivity|]. split; [rewrite E0; reflexivity|].
    split; [|split; [|split]].
    + intros k Lk. split; [apply EF; exact Lk|]. destruct k as [|k]; [exact St|]. apply (EN k); lia.
    + intros k Lk. apply (EF (S k)); lia.
    + destruct ED as [(j & -> & Sj & Z)|(SN & FB & TF)].
      * cbn [plus] in Sj. rewrite Sj. exact Z.
      * destruct L as [|L]; [rewrite St; exact FB|]. rewrite (SN L eq_refl : stop (S L) = false). exact FB.
    + intros SL. destruct ED as [(j & -> & Sj & Z)|(SN & FB & TF)].
      * cbn [plus] in Sj. rewrite Sj in SL; discriminate.
      * destruct L as [|L]; [specialize (TF ltac:(lia)); discriminate|]. exists L. split; [reflexivity|]. exact TF.
Qed.
Lemma C69_cancel_main : forall r, stop 0%nat || stop 1%nat = true -> cali_first A fit stud stop zero = Ok r -> fst r = zero.
Proof.
  intros r S H. unfold cali_first in H. destruct (fit ones_mask) as [b| |]; cbn [obind] in H; try discriminate.
  destruct (stop 0%nat); [injection H as <-; reflexivity|]. cbv zeta in H.
  destruct (fit (outlier_mask (stud b))) as [b'| |]; cbn [obind] in H; try discriminate.
  cbn [orb] in S. rewrite S in H. injection H as <-. reflexivity.
Qed.
End Cal.
