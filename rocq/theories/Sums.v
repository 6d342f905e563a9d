(** Finite sums of reals: the specification [bigsum] and the accumulating loop
    [sumloop], with the facts used elsewhere. *)
From Coq Require Import Reals Bool List Arith Lia Lra Permutation.
Import ListNotations.
Local Open Scope R_scope.

(** Sum of f 0 ... f (n-1). *)
Fixpoint bigsum (n : nat) (f : nat -> R) : R :=
  match n with O => 0 | S m => bigsum m f + f m end.

(** Accumulating loop "acc += f(i)" over the indices [l]. *)
Definition sumloop (f : nat -> R) (l : list nat) : R :=
  fold_left (fun acc i => acc + f i) l 0.

(** Sum of a list. *)
Definition lsum (l : list R) : R := fold_right Rplus 0 l.

Lemma fold_plus_acc : forall f l a,
  fold_left (fun acc i => acc + f i) l a = a + sumloop f l.
Proof.
  unfold sumloop; intros f l; induction l as [|x t IH]; intros a; simpl; [lra|].
  rewrite IH, (IH (0 + f x)); lra.
Qed.

Lemma sumloop_cons : forall f x l, sumloop f (x :: l) = f x + sumloop f l.
Proof. intros; unfold sumloop at 1; simpl; rewrite fold_plus_acc; lra. Qed.
Lemma sumloop_nil : forall f, sumloop f [] = 0.
Proof. reflexivity. Qed.

Lemma sumloop_app : forall f l k, sumloop f (l ++ k) = sumloop f l + sumloop f k.
Proof.
  intros f l k; induction l as [|x t IH]; [simpl; rewrite sumloop_nil; lra|].
  rewrite <- app_comm_cons, !sumloop_cons, IH; lra.
Qed.

Lemma sumloop_lsum : forall f l, sumloop f l = lsum (map f l).
Proof.
  intros f l; induction l as [|x t IH]; [reflexivity|].
  rewrite sumloop_cons, IH; reflexivity.
Qed.

Lemma sumloop_perm : forall f l k, Permutation l k -> sumloop f l = sumloop f k.
Proof.
  intros f l k P; induction P; rewrite ?sumloop_cons, ?IHP; try reflexivity; try lra.
Qed.

Lemma lsum_perm : forall l k, Permutation l k -> lsum l = lsum k.
Proof. intros l k P; induction P; simpl; try lra. Qed.

Lemma lsum_app : forall l k, lsum (l ++ k) = lsum l + lsum k.
Proof. intros l k; induction l; simpl; lra. Qed.

Lemma sumloop_ext : forall f g l, (forall i, In i l -> f i = g i) -> sumloop f l = sumloop g l.
Proof.
  intros f g l; induction l as [|x t IH]; intros E; [reflexivity|].
  rewrite !sumloop_cons, (E x), IH; [reflexivity| |left; reflexivity].
  intros; apply E; right; assumption.
Qed.

Lemma bigsum_seq : forall n f, bigsum n f = sumloop f (seq 0 n).
Proof.
  intros n f; induction n as [|m IH]; [reflexivity|].
  rewrite seq_S, sumloop_app, sumloop_cons, sumloop_nil; simpl; rewrite IH; simpl; lra.
Qed.

Lemma bigsum_ext : forall n f g, (forall i, (i < n)%nat -> f i = g i) -> bigsum n f = bigsum n g.
Proof.
  intros n f g E; induction n as [|m IH]; [reflexivity|]; simpl.
  rewrite IH, E by auto; reflexivity.
Qed.

Lemma bigsum_plus : forall n f g, bigsum n (fun i => f i + g i) = bigsum n f + bigsum n g.
Proof. intros n f g; induction n; simpl; lra. Qed.
Lemma bigsum_scal : forall n c f, bigsum n (fun i => c * f i) = c * bigsum n f.
Proof. intros n c f; induction n; simpl; lra. Qed.
Lemma bigsum_0 : forall n, bigsum n (fun _ => 0) = 0.
Proof. induction n; simpl; lra. Qed.

Lemma bigsum_app : forall a b f, bigsum (a + b) f = bigsum a f + bigsum b (fun i => f (a + i)%nat).
Proof.
  intros a b f; induction b as [|m IH]; [rewrite Nat.add_0_r; simpl; lra|].
  rewrite Nat.add_succ_r; simpl; rewrite IH; lra.
Qed.

Lemma bigsum_le : forall n f g, (forall i, (i < n)%nat -> f i <= g i) -> bigsum n f <= bigsum n g.
Proof.
  intros n f g E; induction n as [|m IH]; simpl; [lra|].
  specialize (E m (Nat.lt_succ_diag_r m)) as Em; enough (bigsum m f <= bigsum m g) by lra.
  apply IH; intros; apply E; lia.
Qed.

Lemma bigsum_swap : forall n m f, bigsum n (fun i => bigsum m (fun j => f i j)) =
  bigsum m (fun j => bigsum n (fun i => f i j)).
Proof.
  intros n m f; induction n as [|k IH]; simpl.
  - rewrite bigsum_0; reflexivity.
  - rewrite IH, <- bigsum_plus; reflexivity.
Qed.

(** Exactly one index carries a nonzero term. *)
Lemma bigsum_single : forall n f k, (k < n)%nat -> (forall i, (i < n)%nat -> i <> k -> f i = 0) ->
  bigsum n f = f k.
Proof.
  intros n f k; induction n as [|m IH]; intros L Z; [lia|]; simpl.
  destruct (Nat.eq_dec k m) as [->|N].
  - rewrite (bigsum_ext m f (fun _ => 0)), bigsum_0; [lra|]. intros; apply Z; lia.
  - rewrite (Z m), IH; [lra|lia|intros; apply Z; lia|lia|lia].
Qed.

(** Grouping: splitting indices below n by an owner function below w. *)
Lemma bigsum_owner : forall n w (own : nat -> nat) f, (forall i, (i < n)%nat -> (own i < w)%nat) ->
  bigsum w (fun s => bigsum n (fun i => if Nat.eqb (own i) s then f i else 0)) = bigsum n f.
Proof.
  intros n w own f O; rewrite bigsum_swap; apply bigsum_ext; intros i Li.
  rewrite (bigsum_single w _ (own i)), Nat.eqb_refl; auto.
  intros s _ N; destruct (Nat.eqb_spec (own i) s); congruence.
Qed.

Lemma bigsum_if_range : forall n a b f, (b <= n)%nat ->
  bigsum n (fun i => if (a <=? i)%nat && (i <? b)%nat then f i else 0) = sumloop f (seq a (b - a)).
Proof.
  intros n a b f L.
  destruct (le_lt_dec b a) as [G|G].
  { replace (b - a)%nat with 0%nat by lia; simpl; rewrite sumloop_nil.
    transitivity (bigsum n (fun _ => 0)); [|apply bigsum_0]; apply bigsum_ext; intros i _.
    destruct (Nat.leb_spec a i); destruct (Nat.ltb_spec i b); simpl; auto; lia. }
  replace n with (a + ((b - a) + (n - b)))%nat by lia.
  rewrite bigsum_app, bigsum_app.
  rewrite (bigsum_ext a _ (fun _ => 0)), bigsum_0.
  2:{ intros i Hi; destruct (Nat.leb_spec a i); simpl; auto; lia. }
  rewrite (bigsum_ext (n - b) _ (fun _ => 0)), bigsum_0.
  2:{ intros i Hi; destruct (Nat.ltb_spec (a + (b - a + i)) b); try lia.
      rewrite andb_false_r; reflexivity. }
  rewrite (bigsum_ext (b - a) _ (fun i => f (a + i)%nat)).
  2:{ intros i Hi; destruct (Nat.leb_spec a (a + i)); try lia.
      destruct (Nat.ltb_spec (a + i) b); try lia; reflexivity. }
  rewrite bigsum_seq.
  enough (E : forall k, sumloop (fun i => f (a + i)%nat) (seq 0 k) = sumloop f (seq a k))
    by (rewrite E; lra).
  intros k; induction k as [|k IH]; [reflexivity|].
  rewrite !seq_S, !sumloop_app, IH, !sumloop_cons, !sumloop_nil; simpl; lra.
Qed.
