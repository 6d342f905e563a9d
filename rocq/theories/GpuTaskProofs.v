(** Proofs about GpuTaskModel.v. *)
From Coq Require Import Reals Bool List Arith ZArith Lia Lra.
From Verif Require Import Outcome GpuTaskModel CudaModel CudaProofs.
Import ListNotations.
Local Open Scope R_scope.

Lemma int_part_bounds u : IZR (Int_part u) <= u < IZR (Int_part u) + 1.
Proof. destruct (base_Int_part u). split; lra. Qed.
Lemma big : IZR (2 ^ 64) > 2.
Proof. apply Rlt_gt, (IZR_lt 2 (2 ^ 64)). reflexivity. Qed.

Lemma to_index_zero u : -1 < u < 1 -> to_index u = Ok 0%nat.
Proof.
  intros [H1 H2]. assert (B := big). unfold to_index. destruct (Rle_dec u (-1)); [lra|]. destruct (Rle_dec (IZR (2 ^ 64)) u); [lra|].
  destruct (Rlt_dec u 0); [reflexivity|]. f_equal. destruct (int_part_bounds u) as [L U].
  assert (Int_part u < 1)%Z by (apply lt_IZR; lra). assert (-1 < Int_part u)%Z by (apply lt_IZR; lra).
  replace (Int_part u) with 0%Z by lia. reflexivity.
Qed.
Lemma to_index_one u : 1 <= u < 2 -> to_index u = Ok 1%nat.
Proof.
  intros [H1 H2]. assert (B := big). unfold to_index. destruct (Rle_dec u (-1)); [lra|]. destruct (Rle_dec (IZR (2 ^ 64)) u); [lra|].
  destruct (Rlt_dec u 0); [lra|]. f_equal. destruct (int_part_bounds u) as [L U].
  assert (Int_part u < 2)%Z by (apply lt_IZR; lra). assert (0 < Int_part u)%Z by (apply lt_IZR; lra).
  replace (Int_part u) with 1%Z by lia. reflexivity.
Qed.
Lemma to_index_large u : 2 <= u < IZR (2 ^ 64) -> exists c, to_index u = Ok c /\ (2 <= c)%nat.
Proof.
  intros [H1 H2]. unfold to_index. destruct (Rle_dec u (-1)); [lra|]. destruct (Rle_dec (IZR (2 ^ 64)) u); [lra|].
  destruct (Rlt_dec u 0); [lra|]. eexists. split; [reflexivity|]. destruct (int_part_bounds u) as [L U].
  assert (1 < Int_part u)%Z by (apply lt_IZR; lra). lia.
Qed.
Lemma to_index_cases u : u <= -1 \/ -1 < u < 1 \/ 1 <= u < 2 \/ 2 <= u < IZR (2 ^ 64) \/ IZR (2 ^ 64) <= u.
Proof.
  assert (B := big). destruct (Rle_dec u (-1)); [auto|]. destruct (Rlt_dec u 1); [right; left; lra|].
  destruct (Rlt_dec u 2); [right; right; left; lra|]. destruct (Rlt_dec u (IZR (2 ^ 64))); [right; right; right; left; lra|]. right; right; right; right; lra.
Qed.

Lemma put_zero l : forall i v, (i < length l)%nat -> exists l', put_coord l i 0 v = Ok l' /\
  nth_error l' i = Some (v, snd (nth i l (0, 0))) /\ forall j, j <> i -> nth_error l' j = nth_error l j.
Proof.
  induction l as [|[a b] l IH]; intros i v H; [cbn in H; lia|]. destruct i as [|i]; cbn.
  - eexists. split; [reflexivity|]. split; [reflexivity|]. intros [|j] N; [lia|reflexivity].
  - destruct (IH i v) as (l' & E & A & B); [cbn in H; lia|]. rewrite E. eexists. split; [reflexivity|]. split; [exact A|].
    intros [|j] N; cbn; [reflexivity|]. apply B. lia.
Qed.
Lemma put_one l : forall i v, (i < length l)%nat -> exists l', put_coord l i 1 v = Ok l' /\
  nth_error l' i = Some (fst (nth i l (0, 0)), v) /\ forall j, j <> i -> nth_error l' j = nth_error l j.
Proof.
  induction l as [|[a b] l IH]; intros i v H; [cbn in H; lia|]. destruct i as [|i]; cbn.
  - eexists. split; [reflexivity|]. split; [reflexivity|]. intros [|j] N; [lia|reflexivity].
  - destruct (IH i v) as (l' & E & A & B); [cbn in H; lia|]. rewrite E. eexists. split; [reflexivity|]. split; [exact A|].
    intros [|j] N; cbn; [reflexivity|]. apply B. lia.
Qed.
Lemma put_throw l : forall i c v, (2 <= c)%nat -> put_coord l i c v = Throw.
Proof.
  induction l as [|[a b] l IH]; intros i c v H; [destruct i; reflexivity|]. destruct i as [|i]; cbn.
  - destruct c as [|[|c]]; try lia. reflexivity.
  - rewrite IH by auto. reflexivity.
Qed.

Lemma coords_first l i u v : (i < length l)%nat -> -1 < u < 1 -> exists l', setCoords l i u v = Ok l' /\
  nth_error l' i = Some (v, snd (nth i l (0, 0))) /\ forall j, j <> i -> nth_error l' j = nth_error l j.
Proof. intros H U. unfold setCoords. rewrite to_index_zero by auto. apply put_zero. exact H. Qed.
Lemma coords_second l i u v : (i < length l)%nat -> 1 <= u < 2 -> exists l', setCoords l i u v = Ok l' /\
  nth_error l' i = Some (fst (nth i l (0, 0)), v) /\ forall j, j <> i -> nth_error l' j = nth_error l j.
Proof. intros H U. unfold setCoords. rewrite to_index_one by auto. apply put_one. exact H. Qed.
Lemma coords_throw l i u v : 2 <= u < IZR (2 ^ 64) -> setCoords l i u v = Throw.
Proof. intros U. unfold setCoords. destruct (to_index_large u U) as (c & -> & C). apply put_throw. exact C. Qed.
Lemma coords_ub l i u v : u <= -1 -> setCoords l i u v = UB.
Proof. intros U. unfold setCoords, to_index. destruct (Rle_dec u (-1)); [reflexivity|lra]. Qed.

Lemma coords_never n i u v l' : setCoords (repeat (0, 0) n) i u v = Ok l' -> nth_error l' i = Some (u, v) -> u = 0 /\ v = 0.
Proof.
  intros H E. assert (N : (i < n)%nat -> nth i (repeat (0, 0) n) (0, 0) = (0, 0)) by (intros; apply nth_repeat).
  destruct (Nat.lt_ge_cases i n) as [L|L].
  - destruct (to_index_cases u) as [C|[C|[C|[C|C]]]].
    + rewrite coords_ub in H by auto. discriminate.
    + destruct (coords_first (repeat (0, 0) n) i u v) as (l1 & E1 & A & _); auto; [rewrite repeat_length; auto|].
      rewrite H in E1. inversion E1; subst l1. rewrite E in A. rewrite N in A by auto. cbn in A. inversion A. lra.
    + destruct (coords_second (repeat (0, 0) n) i u v) as (l1 & E1 & A & _); auto; [rewrite repeat_length; auto|].
      rewrite H in E1. inversion E1; subst l1. rewrite E in A. rewrite N in A by auto. cbn in A. inversion A. lra.
    + rewrite coords_throw in H by auto. discriminate.
    + unfold setCoords, to_index in H. destruct (Rle_dec u (-1)); [discriminate|]. destruct (Rle_dec (IZR (2 ^ 64)) u); [discriminate|contradiction].
  - exfalso. unfold setCoords in H. destruct (to_index u) as [c| |]; cbn in H; try discriminate.
    assert (T : forall l i c v, (length l <= i)%nat -> put_coord l i c v = Throw).
    { induction l as [|[a b] l IH]; intros k d w K; [destruct k; reflexivity|]. destruct k; cbn in K; [lia|]. cbn. rewrite IH by lia. reflexivity. }
    rewrite T in H by (rewrite repeat_length; exact L). discriminate.
Qed.

Section Task.
Context {Res Diag : Type}.
Implicit Types (s l c : @task Res Diag) (h : list bool).

Lemma nth_app_old h e a : nth a h false = true -> nth a (h ++ e) false = true.
Proof. intros H. rewrite app_nth1; auto. destruct (Nat.lt_ge_cases a (length h)); auto. rewrite nth_overflow in H by lia. discriminate. Qed.
Lemma live_lt h a : nth a h false = true -> (a < length h)%nat.
Proof. intros H. destruct (Nat.lt_ge_cases a (length h)); auto. rewrite nth_overflow in H by lia. discriminate. Qed.

Lemma copy_main d0 h s h' c : copy d0 h s = Ok (h', c) ->
  t_coords c = t_coords s /\ t_res c = t_res s /\ t_bandwidth c = t_bandwidth s /\ t_diag c = d0 /\
  (exists a b k, t_dist s = Some (a, k) /\ t_dist c = Some (b, k) /\ nth b h' false = true /\ (length h <= b)%nat /\ t_weight c <> b) /\
  nth (t_weight c) h' false = true /\ (length h <= t_weight c)%nat /\
  forall a, nth a h false = true -> nth a h' false = true.
Proof.
  unfold copy. intros H. destruct (t_dist s) as [[a k]|] eqn:D; [|discriminate].
  destruct (nth a h false && nth (t_weight s) h false); [|discriminate]. inversion H; subst. cbn.
  repeat (split; [reflexivity|]). split.
  { exists a, (length h), k. repeat (split; [reflexivity|]). split; [|lia]. rewrite app_nth2, Nat.sub_diag by lia. reflexivity. }
  split; [rewrite app_nth2 by lia; replace (S (length h) - length h)%nat with 1%nat by lia; reflexivity|]. split; [lia|].
  intros x. apply nth_app_old.
Qed.
Lemma assign_main h l s h' r : assign h l s = Ok (h', r) ->
  t_coords r = t_coords s /\ t_res r = t_res s /\ t_bandwidth r = t_bandwidth s /\ t_diag r = t_diag l /\
  (forall a, nth a h false = true -> nth a h' false = true) /\
  (exists b k, t_dist r = Some (b, k) /\ (length h <= b)%nat) /\ (length h <= t_weight r)%nat.
Proof.
  unfold assign. intros H. destruct (t_dist s) as [[a k]|] eqn:D; [|discriminate].
  destruct (nth a h false && nth (t_weight s) h false); [|discriminate]. inversion H; subst. cbn.
  repeat (split; [reflexivity|]). split; [intros x; apply nth_app_old|]. split; [exists (length h), k; auto|lia].
Qed.
Lemma assign_leak h l s h' r a b k : assign h l s = Ok (h', r) -> t_dist l = Some (a, k) -> t_weight l = b ->
  nth a h false = true -> nth b h false = true ->
  nth a h' false = true /\ nth b h' false = true /\
  (forall x k', t_dist r = Some (x, k') -> x <> a /\ x <> b) /\ t_weight r <> a /\ t_weight r <> b.
Proof.
  intros H D W A B. destruct (assign_main h l s h' r H) as (_ & _ & _ & _ & K & (x & k' & X & L) & L').
  apply live_lt in A as A'. apply live_lt in B as B'. split; [apply K; exact A|]. split; [apply K; exact B|]. split; [|subst; lia].
  intros y k2 Y. rewrite X in Y. inversion Y; subst. lia.
Qed.
Lemma set_distance_leak h s type k a k0 : made type = Some k -> t_dist s = Some (a, k0) -> nth a h false = true ->
  forall h' s', setDistanceType h s type = (h', s') -> nth a h' false = true /\ (exists b, t_dist s' = Some (b, k) /\ b <> a) .
Proof.
  intros M D A h' s' H. unfold setDistanceType in H. rewrite M in H. inversion H; subst. cbn. split; [apply nth_app_old; auto|].
  exists (length h). split; [reflexivity|]. apply live_lt in A. lia.
Qed.
Lemma destroy_created n type r0 d0 h h1 s : create n type r0 d0 h = (h1, s) -> exists h2, @destroy Res Diag h1 s = Ok h2 /\
  forall a, nth a h2 false = nth a h false.
Proof.
  unfold create. intros H. destruct (made type) as [k|]; inversion H; subst; unfold destroy, delete1; cbn [t_dist t_weight obind].
  - assert (N1 : nth (length h) (h ++ [true; true]) false = true) by (rewrite app_nth2, Nat.sub_diag by lia; reflexivity).
    rewrite N1. cbn [obind].
    assert (E : firstn (length h) (h ++ [true; true]) ++ false :: skipn (S (length h)) (h ++ [true; true]) = h ++ [false; true]).
    { rewrite firstn_app, firstn_all, Nat.sub_diag, app_nil_r. rewrite skipn_app, skipn_all2 by lia.
      replace (S (length h) - length h)%nat with 1%nat by lia. reflexivity. }
    rewrite E. assert (N2 : nth (S (length h)) (h ++ [false; true]) false = true).
    { rewrite app_nth2 by lia. replace (S (length h) - length h)%nat with 1%nat by lia. reflexivity. }
    rewrite N2. eexists. split; [reflexivity|]. intros a.
    assert (E2 : firstn (S (length h)) (h ++ [false; true]) ++ false :: skipn (S (S (length h))) (h ++ [false; true]) = h ++ [false; false]).
    { rewrite firstn_app, firstn_all2 by lia. replace (S (length h) - length h)%nat with 1%nat by lia. rewrite skipn_all2 by (rewrite app_length; cbn; lia).
      rewrite <- app_assoc. reflexivity. }
    rewrite E2. destruct (Nat.lt_ge_cases a (length h)) as [L|L]; [rewrite app_nth1 by auto; reflexivity|].
    rewrite app_nth2, (nth_overflow h) by auto. destruct (a - length h)%nat as [|[|?]]; reflexivity || (destruct n0; reflexivity).
  - assert (N1 : nth (length h) (h ++ [true]) false = true) by (rewrite app_nth2, Nat.sub_diag by lia; reflexivity).
    rewrite N1. eexists. split; [reflexivity|]. intros a.
    assert (E : firstn (length h) (h ++ [true]) ++ false :: skipn (S (length h)) (h ++ [true]) = h ++ [false]).
    { rewrite firstn_app, firstn_all, Nat.sub_diag, app_nil_r. rewrite skipn_all2 by (rewrite app_length; cbn; lia). reflexivity. }
    rewrite E. destruct (Nat.lt_ge_cases a (length h)) as [L|L]; [rewrite app_nth1 by auto; reflexivity|].
    rewrite app_nth2, (nth_overflow h) by auto. destruct (a - length h)%nat as [|?]; reflexivity || (destruct n0; reflexivity).
Qed.
Lemma fit_true s opt run s' : fit s opt run = Ok (true, s') <->
  t_dist s <> None /\ exists r d bw, run = Fitted r d bw /\ s' = mkTask (t_coords s) (t_dist s) (t_weight s) r d (if opt then bw else t_bandwidth s).
Proof.
  unfold fit. split.
  - destruct (t_dist s) as [p|] eqn:D; [|discriminate]. destruct run; try discriminate. intros H. inversion H; subst. split; [discriminate|]. eauto.
  - intros (N & r & d & bw & -> & ->). destruct (t_dist s) as [p|]; [reflexivity|congruence].
Qed.
Lemma fit_false s opt run s' : fit s opt run = Ok (false, s') <-> t_dist s <> None /\ run = StdException /\ s' = s.
Proof.
  unfold fit. split.
  - destruct (t_dist s) as [p|] eqn:D; [|discriminate]. destruct run; try discriminate. intros H. inversion H; subst. split; [discriminate|auto].
  - intros (N & -> & ->). destruct (t_dist s) as [p|]; [reflexivity|congruence].
Qed.
End Task.

Lemma set_unsupported (Res Diag : Type) h (s : task Res Diag) type : (2 <= type)%nat -> setDistanceType h s type = (h, s).
Proof. intro T. destruct type as [|[|t]]; try lia. reflexivity. Qed.
Lemma delete1_dead h a h' : delete1 h a = Ok h' -> nth a h' false = false /\ forall b, nth b h false = false -> nth b h' false = false.
Proof.
  unfold delete1. destruct (nth a h false) eqn:E; [|discriminate]. intro X. inversion X; subst. clear X.
  assert (L : (a < length h)%nat).
  { destruct (Nat.lt_ge_cases a (length h)) as [L|L]; [exact L|]. rewrite nth_overflow in E by exact L. discriminate. }
  assert (FL : length (firstn a h) = a) by (rewrite firstn_length; lia).
  split.
  - rewrite app_nth2 by lia. rewrite FL, Nat.sub_diag. reflexivity.
  - intros b B. destruct (Nat.lt_ge_cases b a) as [Lb|Lb].
    + rewrite app_nth1 by lia. transitivity (nth b h false); [|exact B]. rewrite <- (firstn_skipn a h) at 2. rewrite app_nth1 by lia. reflexivity.
    + rewrite app_nth2 by lia. rewrite FL. destruct (b - a)%nat as [|k] eqn:K; [reflexivity|]. cbn [nth].
      transitivity (nth b h false); [|exact B]. rewrite <- (firstn_skipn (S a) h) at 2. rewrite app_nth2; rewrite firstn_length; [|lia].
      f_equal. lia.
Qed.
Lemma delete1_ub h a : nth a h false = false -> delete1 h a = UB.
Proof. unfold delete1. intros ->. reflexivity. Qed.
Lemma destroy_twice (Res Diag : Type) h (s : task Res Diag) h' : destroy h s = Ok h' -> destroy h' s = UB.
Proof.
  unfold destroy. destruct (t_dist s) as [[a k]|]; cbn.
  - destruct (delete1 h a) as [h1| |] eqn:E1; cbn; try discriminate. intro E2.
    rewrite delete1_ub; [reflexivity|]. exact (proj2 (delete1_dead _ _ _ E2) a (proj1 (delete1_dead _ _ _ E1))).
  - intro E. apply delete1_ub. exact (proj1 (delete1_dead _ _ _ E)).
Qed.
