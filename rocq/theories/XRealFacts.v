(** Value lemmas for extended doubles: on finite operands the operations are the
    real ones. *)
From Coq Require Import Reals Bool List ZArith Lra Lia Psatz.
From Verif Require Import XReal.
Import ListNotations.
Local Open Scope R_scope.

Lemma Rltb_true x y : Rltb x y = true <-> x < y.
Proof. unfold Rltb; destruct (Rlt_dec x y); split; auto; discriminate. Qed.
Lemma Rltb_false x y : Rltb x y = false <-> y <= x.
Proof. unfold Rltb; destruct (Rlt_dec x y); split; intros; try discriminate; try lra; auto. Qed.
Lemma Rleb_true x y : Rleb x y = true <-> x <= y.
Proof. unfold Rleb; destruct (Rle_dec x y); split; auto; discriminate. Qed.
Lemma Rleb_false x y : Rleb x y = false <-> y < x.
Proof. unfold Rleb; destruct (Rle_dec x y); split; intros; try discriminate; try lra; auto. Qed.
Lemma Reqb_true x y : Reqb x y = true <-> x = y.
Proof. unfold Reqb; destruct (Req_EM_T x y); split; auto; discriminate. Qed.
Lemma Reqb_false x y : Reqb x y = false <-> x <> y.
Proof. unfold Reqb; destruct (Req_EM_T x y); split; auto; try discriminate; intros; contradiction. Qed.

Lemma xval_xfin s r : xval (xfin s r) = Some r.
Proof.
  unfold xfin. destruct (Reqb r 0) eqn:E; simpl; auto.
  apply Reqb_true in E. subst. destruct s; reflexivity.
Qed.

Lemma xval_xopp x a : xval x = Some a -> xval (xopp x) = Some (- a).
Proof.
  destruct x; simpl; intros H; inversion H; subst; clear H.
  - destruct (Reqb a 0) eqn:E; simpl; auto. apply Reqb_true in E. subst. f_equal; lra.
  - f_equal; lra.
Qed.

Lemma xval_xadd x y a b :
  xval x = Some a -> xval y = Some b -> xval (xadd x y) = Some (a + b).
Proof.
  destruct x, y; simpl; intros H H'; inversion H; inversion H'; subst; f_equal; lra.
Qed.

Lemma xval_xsub x y a b :
  xval x = Some a -> xval y = Some b -> xval (xsub x y) = Some (a - b).
Proof.
  intros. unfold xsub, Rminus. apply xval_xadd; auto. apply xval_xopp; auto.
Qed.

Lemma xval_xmul x y a b :
  xval x = Some a -> xval y = Some b -> xval (xmul x y) = Some (a * b).
Proof.
  destruct x, y; simpl; intros H H'; inversion H; inversion H'; subst;
    apply xval_xfin.
Qed.

Lemma xval_xdiv x y a b :
  xval x = Some a -> xval y = Some b -> b <> 0 -> xval (xdiv x y) = Some (a / b).
Proof.
  destruct x, y; simpl; intros H H' Hb; inversion H; inversion H'; subst;
    try contradiction; rewrite (proj2 (Reqb_false _ _) Hb); apply xval_xfin.
Qed.

Lemma xval_xexp x a : xval x = Some a -> xval (xexp x) = Some (exp a).
Proof.
  destruct x; simpl; intros H; inversion H; subst; auto. rewrite exp_0. reflexivity.
Qed.

Lemma xltb_val x y a b : xval x = Some a -> xval y = Some b -> xltb x y = Rltb a b.
Proof.
  destruct x, y; simpl; intros H H'; inversion H; inversion H'; subst; auto.
Qed.

Lemma xleb_val x y a b : xval x = Some a -> xval y = Some b -> xleb x y = Rleb a b.
Proof.
  intros Hx Hy.
  assert (xleb x y = negb (xltb y x)) as ->.
  { destruct x, y; simpl in *; try discriminate; reflexivity. }
  rewrite (xltb_val _ _ _ _ Hy Hx).
  unfold Rltb, Rleb. destruct (Rlt_dec b a), (Rle_dec a b); simpl; auto; lra.
Qed.

Lemma xval_xofbool b : xval (xofbool b) = Some (if b then 1 else 0).
Proof. destruct b; reflexivity. Qed.

Lemma xval_isnan x a : xval x = Some a -> xisnan x = false.
Proof. destruct x; simpl; intros; auto; discriminate. Qed.

Lemma xvals_length xs rs : xvals xs rs -> length xs = length rs.
Proof.
  intros H. apply (f_equal (@length _)) in H. now rewrite !map_length in H.
Qed.

Lemma xvals_map_XF rs : xvals (map XF rs) rs.
Proof. unfold xvals. rewrite map_map. reflexivity. Qed.

Lemma xvals_cons x xs r rs : xval x = Some r -> xvals xs rs -> xvals (x :: xs) (r :: rs).
Proof. unfold xvals; simpl; intros -> ->; reflexivity. Qed.

Lemma xvals_inv x xs r rs : xvals (x :: xs) (r :: rs) -> xval x = Some r /\ xvals xs rs.
Proof. unfold xvals; simpl; intros H; inversion H; auto. Qed.

Lemma xvals_nil_inv xs : xvals xs [] -> xs = [].
Proof. destruct xs; auto. discriminate. Qed.

Lemma xvals_no_nan xs rs : xvals xs rs -> existsb xisnan xs = false.
Proof.
  revert rs; induction xs; intros [|r rs] H; simpl; auto; try discriminate.
  apply xvals_inv in H as [H1 H2]. rewrite (xval_isnan _ _ H1). simpl. eauto.
Qed.

Lemma xvals_nth xs rs i r : xvals xs rs -> nth_error rs i = Some r ->
  exists x, nth_error xs i = Some x /\ xval x = Some r.
Proof.
  intros H Hr.
  assert (nth_error (map xval xs) i = Some (Some r)) as E.
  { rewrite H. apply map_nth_error. exact Hr. }
  destruct (nth_error xs i) as [x|] eqn:Ex.
  - exists x; split; auto. rewrite (map_nth_error xval _ _ Ex) in E. congruence.
  - apply nth_error_None in Ex. assert (i >= length (map xval xs))%nat as F
      by (rewrite map_length; lia).
    apply nth_error_None in F. congruence.
Qed.

Lemma xvals_map (f : xd -> xd) (g : R -> R) xs rs :
  xvals xs rs -> (forall x r, In r rs -> xval x = Some r -> xval (f x) = Some (g r)) ->
  xvals (map f xs) (map g rs).
Proof.
  revert rs; induction xs; intros [|r rs] H Hf; try discriminate; [reflexivity|].
  apply xvals_inv in H as [H1 H2]. simpl. apply xvals_cons.
  - apply Hf; simpl; auto.
  - apply IHxs; auto. intros; apply Hf; simpl; auto.
Qed.

Lemma xvals_inj xs rs rs' : xvals xs rs -> xvals xs rs' -> rs = rs'.
Proof.
  revert rs rs'; induction xs; intros [|r rs] [|r' rs'] H H'; try discriminate; auto.
  apply xvals_inv in H as [H1 H2]. apply xvals_inv in H' as [H1' H2'].
  f_equal; [congruence|eauto].
Qed.

Lemma xval_xsqrt x a : xval x = Some a -> 0 <= a -> xval (xsqrt x) = Some (sqrt a).
Proof.
  destruct x; simpl; intros H P; inversion H; subst.
  - rewrite (proj2 (Rltb_false a 0) P). reflexivity.
  - rewrite sqrt_0. reflexivity.
Qed.
Lemma xval_xabs x a : xval x = Some a -> xval (xabs x) = Some (Rabs a).
Proof. destruct x; simpl; intros H; inversion H; subst; auto. rewrite Rabs_R0; auto. Qed.
Lemma xval_xatan x a : xval x = Some a -> xval (xatan x) = Some (atan a).
Proof. destruct x; simpl; intros H; inversion H; subst; auto. rewrite atan_0; auto. Qed.
