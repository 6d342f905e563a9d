(** Rounded sums in any order. *)
From Coq Require Import Reals Bool List ZArith Lra Lia Permutation.
From Verif Require Import Outcome XReal XRealFacts Sums RoundModel RoundSpec RoundProofs RoundAcc RgwssModel RgwssSpec.
Import ListNotations.
Local Open Scope R_scope.

Definition eta : R := p2 (-999).
Lemma eta_pos : 0 < eta. Proof. apply p2_pos. Qed.
Fixpoint lsumf (f : nat -> R) (l : list nat) : R := match l with [] => 0 | j :: t => f j + lsumf f t end.
Lemma lsumf_app f l k : lsumf f (l ++ k) = lsumf f l + lsumf f k.
Proof. induction l as [|a l IH]; cbn [app lsumf]; lra. Qed.
Lemma lsumf_nonneg f l : (forall j, In j l -> 0 <= f j) -> 0 <= lsumf f l.
Proof.
  induction l as [|a l IH]; intros H; cbn [lsumf]; [lra|].
  assert (0 <= f a) by (apply H; left; reflexivity). assert (0 <= lsumf f l) by (apply IH; intros; apply H; right; assumption). lra.
Qed.
Lemma lsumf_le f g l : (forall j, In j l -> f j <= g j) -> lsumf f l <= lsumf g l.
Proof.
  induction l as [|a l IH]; intros H; cbn [lsumf]; [lra|].
  assert (f a <= g a) by (apply H; left; reflexivity). assert (lsumf f l <= lsumf g l) by (apply IH; intros; apply H; right; assumption). lra.
Qed.
Lemma lsumf_abs f l : Rabs (lsumf f l) <= lsumf (fun j => Rabs (f j)) l.
Proof.
  induction l as [|a l IH]; cbn [lsumf]; [rewrite Rabs_R0; lra|].
  eapply Rle_trans; [apply Rabs_triang|]. lra.
Qed.
Lemma lsumf_minus f g l : lsumf f l - lsumf g l = lsumf (fun j => f j - g j) l.
Proof. induction l as [|a l IH]; cbn [lsumf]; lra. Qed.
Lemma lsumf_lin c d f l : lsumf (fun j => c * f j + d) l = c * lsumf f l + INR (length l) * d.
Proof. induction l as [|a l IH]; [cbn; lra|]. cbn [lsumf length]. rewrite S_INR. lra. Qed.
Lemma lsumf_seq f n : lsumf f (seq 0 n) = bigsum n f.
Proof. induction n as [|n IH]; [reflexivity|]. rewrite seq_S, lsumf_app, IH. cbn [Nat.add lsumf bigsum]. lra. Qed.
Lemma lsumf_perm f l k : Permutation l k -> lsumf f l = lsumf f k.
Proof. induction 1; cbn [lsumf]; lra. Qed.
Lemma leaves_pos t : (1 <= length (leaves t))%nat.
Proof. induction t; cbn [leaves]; [cbn; lia|]. rewrite app_length. lia. Qed.

Section P.
Variables (rn : R -> R) (big : R).
Hypothesis RN : rounding rn big.
Hypothesis FA : faithful rn.

Lemma rn_err x : Rabs (rn x - x) <= e * Rabs x + eta.
Proof.
  destruct (Rle_or_lt (p2 (-1000)) (Rabs x)) as [H|H].
  - assert (A := FA x H). assert (B := eta_pos). unfold e. lra.
  - assert (B : bnd (-1000) (rn x)) by (apply (rbnd rn big RN); [lia|]; unfold bnd; lra). unfold bnd in B.
    assert (T : Rabs (rn x - x) <= Rabs (rn x) + Rabs x) by (unfold Rminus; rewrite <- (Rabs_Ropp x); apply Rabs_triang).
    assert (E : eta = 2 * p2 (-1000)) by (unfold eta; change (-999)%Z with (1 + -1000)%Z; rewrite p2_add, p2_1; reflexivity).
    assert (0 <= e * Rabs x) by (apply Rmult_le_pos; [left; apply p2_pos|apply Rabs_pos]). lra.
Qed.

Fixpoint tsum (a : nat -> R) (t : order) : R := match t with Leaf j => a j | Node l r => rn (tsum a l + tsum a r) end.
Lemma tsum_err a t : INR (length (leaves t)) * e <= / 2 ->
  let A := lsumf (fun j => Rabs (a j)) (leaves t) in
  Rabs (tsum a t - lsumf a (leaves t)) <= 2 * (INR (length (leaves t)) - 1) * (e * A + eta).
Proof.
  cbv zeta. induction t as [j|l IHl r IHr]; intros H.
  - cbn [tsum leaves length]. cbn [lsumf]. rewrite Rplus_0_r. unfold Rminus at 1. rewrite Rplus_opp_r, Rabs_R0. cbn. lra.
  - cbn [tsum leaves] in *. rewrite app_length, plus_INR, !lsumf_app in *.
    set (nl := INR (length (leaves l))) in *. set (nr := INR (length (leaves r))) in *.
    set (sl := lsumf a (leaves l)) in *. set (sr := lsumf a (leaves r)) in *.
    assert (Al : 0 <= lsumf (fun j => Rabs (a j)) (leaves l)) by (apply lsumf_nonneg; intros; apply Rabs_pos).
    assert (Ar : 0 <= lsumf (fun j => Rabs (a j)) (leaves r)) by (apply lsumf_nonneg; intros; apply Rabs_pos).
    assert (Bl : Rabs sl <= lsumf (fun j => Rabs (a j)) (leaves l)) by apply lsumf_abs.
    assert (Br : Rabs sr <= lsumf (fun j => Rabs (a j)) (leaves r)) by apply lsumf_abs.
    set (L := lsumf (fun j => Rabs (a j)) (leaves l)) in *. set (Rr := lsumf (fun j => Rabs (a j)) (leaves r)) in *.
    assert (E := e_small). assert (P := eta_pos).
    assert (Nl : 1 <= nl) by (apply (le_INR 1), leaves_pos). assert (Nr : 1 <= nr) by (apply (le_INR 1), leaves_pos).
    assert (IHl' := IHl ltac:(nra)). assert (IHr' := IHr ltac:(nra)). clear IHl IHr.
    set (tl := tsum a l) in *. set (tr := tsum a r) in *.
    assert (Q := rn_err (tl + tr)).
    assert (T1 : Rabs (tl + tr) <= L + Rr + (Rabs (tl - sl) + Rabs (tr - sr))).
    { replace (tl + tr) with ((sl + sr) + ((tl - sl) + (tr - sr))) by ring.
      eapply Rle_trans; [apply Rabs_triang|]. assert (X := Rabs_triang sl sr). assert (Y := Rabs_triang (tl - sl) (tr - sr)). lra. }
    assert (T2 : Rabs (rn (tl + tr) - (sl + sr)) <= Rabs (rn (tl + tr) - (tl + tr)) + (Rabs (tl - sl) + Rabs (tr - sr))).
    { replace (rn (tl + tr) - (sl + sr)) with ((rn (tl + tr) - (tl + tr)) + ((tl - sl) + (tr - sr))) by ring.
      eapply Rle_trans; [apply Rabs_triang|]. assert (Y := Rabs_triang (tl - sl) (tr - sr)). lra. }
    set (D := Rabs (tl - sl) + Rabs (tr - sr)) in *.
    assert (HD : D <= 2 * (nl + nr - 2) * (e * (L + Rr) + eta)).
    { assert (2 * (nl - 1) * (e * L + eta) <= 2 * (nl - 1) * (e * (L + Rr) + eta)) by (apply Rmult_le_compat_l; nra).
      assert (2 * (nr - 1) * (e * Rr + eta) <= 2 * (nr - 1) * (e * (L + Rr) + eta)) by (apply Rmult_le_compat_l; nra).
      unfold D. lra. }
    set (G := e * (L + Rr) + eta) in *. assert (0 <= G) by (unfold G; nra).
    assert (F : Rabs (rn (tl + tr) - (sl + sr)) <= G + (1 + e) * D).
    { unfold G. assert (e * Rabs (tl + tr) <= e * (L + Rr + D)) by (apply Rmult_le_compat_l; lra). lra. }
    assert ((1 + e) * D <= (1 + e) * (2 * (nl + nr - 2) * G)) by (apply Rmult_le_compat_l; lra).
    assert (K : (1 + e) * (2 * (nl + nr - 2)) <= 2 * (nl + nr - 1) - 1) by nra.
    assert ((1 + e) * (2 * (nl + nr - 2)) * G <= (2 * (nl + nr - 1) - 1) * G) by (apply Rmult_le_compat_r; lra). lra.
Qed.

Lemma tsum_bound a t : INR (length (leaves t)) * e <= / 4 ->
  let A := lsumf (fun j => Rabs (a j)) (leaves t) in Rabs (tsum a t) <= 2 * A + 1.
Proof.
  cbv zeta. intros H. set (A := lsumf (fun j => Rabs (a j)) (leaves t)).
  assert (E := e_small). assert (T := tsum_err a t ltac:(lra)). cbv zeta in T. fold A in T.
  assert (0 <= A) by (apply lsumf_nonneg; intros; apply Rabs_pos).
  assert (B : Rabs (lsumf a (leaves t)) <= A) by apply lsumf_abs.
  assert (S : Rabs (tsum a t) <= Rabs (tsum a t - lsumf a (leaves t)) + Rabs (lsumf a (leaves t))).
  { replace (tsum a t) with ((tsum a t - lsumf a (leaves t)) + lsumf a (leaves t)) at 1 by ring. apply Rabs_triang. }
  assert (N : 1 <= INR (length (leaves t))) by (apply (le_INR 1), leaves_pos).
  set (n := INR (length (leaves t))) in *.
  assert (eta <= e) by (apply p2_le; lia).
  assert (2 * (n - 1) * (e * A + eta) <= 2 * n * e * (A + 1)) by nra.
  assert (2 * n * e * (A + 1) <= / 2 * (A + 1)) by (apply Rmult_le_compat_r; lra). lra.
Qed.

Lemma sub_leaves (P : nat -> Prop) l r : (forall j, In j (leaves (Node l r)) -> P j) -> (forall j, In j (leaves l) -> P j) /\ (forall j, In j (leaves r) -> P j).
Proof. intros H. split; intros j Hj; apply H; cbn [leaves]; apply in_or_app; auto. Qed.
Lemma osum_val f a t : (forall j, In j (leaves t) -> xval (f j) = Some (a j)) ->
  INR (length (leaves t)) * e <= / 4 -> lsumf (fun j => Rabs (a j)) (leaves t) <= p2 990 ->
  xval (osum rn big f t) = Some (tsum a t).
Proof.
  induction t as [j|l IHl r IHr]; intros V N A.
  - cbn. apply V. left. reflexivity.
  - cbn [osum tsum]. destruct (sub_leaves _ _ _ V) as [Vl Vr].
    cbn [leaves] in N, A. rewrite app_length, plus_INR in N. rewrite lsumf_app in A.
    assert (Al : 0 <= lsumf (fun j => Rabs (a j)) (leaves l)) by (apply lsumf_nonneg; intros; apply Rabs_pos).
    assert (Ar : 0 <= lsumf (fun j => Rabs (a j)) (leaves r)) by (apply lsumf_nonneg; intros; apply Rabs_pos).
    assert (E := e_small). assert (Pl := pos_INR (length (leaves l))). assert (Pr := pos_INR (length (leaves r))).
    assert (Nl : INR (length (leaves l)) * e <= / 4) by nra. assert (Nr : INR (length (leaves r)) * e <= / 4) by nra.
    apply (v_add rn big RN 1000 _ _ (tsum a l) (tsum a r)); [lia|apply IHl; auto; lra|apply IHr; auto; lra|].
    assert (Bl := tsum_bound a l Nl). assert (Br := tsum_bound a r Nr). cbv zeta in Bl, Br.
    unfold bnd. eapply Rle_trans; [apply Rabs_triang|].
    assert (X : p2 1000 = 1024 * p2 990) by (change 1000%Z with (10 + 990)%Z; rewrite p2_add; f_equal; unfold p2; simpl; lra).
    assert (1 <= p2 990) by (rewrite <- p2_0; apply p2_le; lia). lra.
Qed.
Lemma tsum_nonneg a t : (forall j, In j (leaves t) -> 0 <= a j) -> 0 <= tsum a t.
Proof.
  induction t as [j|l IHl r IHr]; intros H; cbn [tsum]; [apply H; left; reflexivity|].
  destruct (sub_leaves _ _ _ H). apply (pos rn big RN). specialize (IHl ltac:(assumption)). specialize (IHr ltac:(assumption)). lra.
Qed.
End P.
