(** The neighbour lists of scalable GWR hold the nearest observations. *)
From Coq Require Import Reals Bool List ZArith Lra Lia Permutation Sorted.
From Verif Require Import Outcome XReal KernelModel KernelProofs GwssSpec GwdrModel ScaNnModel ScaNnSpec ScaOptModel ScaNnProofs.
Import ListNotations.
Local Open Scope R_scope.

Section P.
Variable sort_index : list R -> list nat.
Hypothesis SI : sorts_indices sort_index.

Lemma sorted_split {A} (Q : A -> A -> Prop) (u v : list A) : StronglySorted Q (u ++ v) ->
  StronglySorted Q u /\ forall a b, In a u -> In b v -> Q a b.
Proof.
  induction u as [|x u IH]; intros H; [split; [constructor|intros ? ? []]|].
  inversion H as [|? ? S F]; subst. destruct (IH S) as [S1 S2]. rewrite Forall_app in F. destruct F as [F1 F2].
  split; [constructor; assumption|]. intros a b [<-|Ha] Hb; [|auto]. rewrite Forall_forall in F2. auto.
Qed.
Lemma sorted_nth d (u : list nat) : StronglySorted (fun i j => nth i d 0 <= nth j d 0) u ->
  forall a b, (a <= b < length u)%nat -> nth a (map (fun j => nth j d 0) u) 0 <= nth b (map (fun j => nth j d 0) u) 0.
Proof.
  induction u as [|x u IH]; intros H a b L; [cbn in L; lia|].
  inversion H as [|? ? S F]; subst. cbn [length] in L. destruct b as [|b].
  - replace a with 0%nat by lia. apply Rle_refl.
  - destruct a as [|a]; cbn [map nth].
    + rewrite Forall_forall in F. set (f := fun j => nth j d 0) in *.
      assert (I : In (nth b (map f u) 0) (map f u)) by (apply nth_In; rewrite map_length; lia).
      apply in_map_iff in I. destruct I as (y & <- & Iy). apply F, Iy.
    + apply (IH S). lia.
Qed.

Lemma row_nearest dist k i : (k <= length (dist i))%nat ->
  nearest_to (dist i) k (fst (row_of sort_index dist k i)) (snd (row_of sort_index dist k i)).
Proof.
  intros K. unfold row_of, nearest_to. cbn [fst snd]. set (d := dist i) in *.
  destruct (SI d) as [P S]. pose proof (si_length _ SI d) as L.
  assert (ND : NoDup (sort_index d)) by (apply (Permutation_NoDup (Permutation_sym P)), seq_NoDup).
  rewrite <- (firstn_skipn k (sort_index d)) in S, ND. destruct (sorted_split _ _ _ S) as [S1 S2].
  rewrite firstn_map. split; [rewrite firstn_length; lia|]. split.
  { clear -ND. induction (firstn k (sort_index d)) as [|x u IH]; [constructor|]. inversion ND; subst.
    constructor; [|auto]. intros H. apply H1, in_or_app. auto. }
  split; [|split; [reflexivity|split]].
  - intros j Hj. assert (In j (seq 0 (length d))); [|apply in_seq in H; lia].
    apply (Permutation_in _ P). rewrite <- (firstn_skipn k (sort_index d)). apply in_or_app. auto.
  - intros a b H. apply sorted_nth; [exact S1|]. rewrite firstn_length. lia.
  - intros j j' Hj Hj' N. apply S2; [exact Hj|].
    assert (In j' (sort_index d)) by (apply (Permutation_in _ (Permutation_sym P)), in_seq; lia).
    rewrite <- (firstn_skipn k (sort_index d)) in H. apply in_app_or in H. tauto.
Qed.

Section D.
Variables (dist : nat -> list R) (n : nat) (bw : R).
Hypothesis N' : (Z.of_nat n < 2 ^ 61)%Z.
Hypothesis B1 : bw < IZR (2 ^ 64).

(** Prediction: the neighbours of every location. *)
Lemma nb_main rows : (forall i, (i < rows)%nat -> length (dist i) = n) -> 1 <= bw -> (0 < n)%nat ->
  exists l, find_nb sort_index bw dist n rows = Ok l /\ length l = rows /\
  forall i, (i < rows)%nat -> exists idx ds, nth_error l i = Some (idx, ds) /\
    nearest_to (dist i) (Nat.min (Z.to_nat (Int_part bw)) n) idx ds.
Proof.
  intros D B0 N. unfold find_nb. destruct (to_uword_nonneg bw) as [E Z0]; [lra|exact B1|]. rewrite E. cbn [obind].
  assert (Z1 : (1 <= Int_part bw)%Z).
  { pose proof (Int_part_spec bw). assert (IZR 0 < IZR (Int_part bw)) by (simpl; lra). apply lt_IZR in H0. lia. }
  rewrite min_bw_asked by exact Z0. unfold asked.
  rewrite (nearest_ok _ SI dist rows n) by (try assumption; lia).
  eexists; split; [reflexivity|]. split; [rewrite map_length, seq_length; reflexivity|].
  intros i Hi. set (k := Nat.min _ _).
  exists (fst (row_of sort_index dist k i)), (snd (row_of sort_index dist k i)). split.
  - erewrite map_nth_error; [|rewrite (nth_error_nth' _ 0%nat) by (rewrite seq_length; lia); rewrite seq_nth by lia; reflexivity].
    rewrite <- surjective_pairing. reflexivity.
  - apply row_nearest. rewrite D by lia. unfold k. lia.
Qed.

(** Fitting: the neighbours of every observation; the CV list is one shorter, the AIC list one longer. *)
Hypothesis D : forall i, (i < n)%nat -> length (dist i) = n.
Hypothesis B0 : 0 <= bw.
Lemma dp_main cv l i : find_dp sort_index cv bw dist n = Ok l -> (i < n)%nat ->
  let k := Nat.min (Z.to_nat (Int_part bw)) n in
  if cv then exists idx ds, nth_error l i = Some (idx, ds) /\ nearest_to (dist i) (k - 1) idx ds
  else exists idx ds, nth_error l i = Some (i :: idx, 0 :: ds) /\ nearest_to (dist i) k idx ds.
Proof.
  intros E Hi k. assert (N : (0 < n)%nat) by lia.
  assert (Nth : forall {A} (f : nat -> A), nth_error (map f (seq 0 n)) i = Some (f i)) by (intros; apply nth_rows; assumption).
  destruct cv.
  - rewrite (find_dp_cv _ SI dist n bw D N N' B0 B1) in E. fold (asked bw n) in k. fold k in E.
    destruct (Nat.leb_spec 2 k); [|discriminate]. injection E as <-. rewrite Nth.
    do 2 eexists; split; [rewrite (surjective_pairing (row_of _ _ _ _)); reflexivity|].
    apply row_nearest. rewrite D by exact Hi. unfold k, asked. lia.
  - rewrite (find_dp_aic _ SI dist n bw D N N' B0 B1) in E. fold (asked bw n) in k. fold k in E.
    destruct (Nat.leb_spec 1 k); [|discriminate]. injection E as <-. rewrite Nth.
    do 2 eexists; split; [reflexivity|].
    apply row_nearest. rewrite D by exact Hi. unfold k, asked. lia.
Qed.
End D.
End P.

Lemma valid_iff kernel bw : sca_valid kernel bw = true <-> (kernel = Gaussian \/ kernel = Exponential) /\ 0 < bw.
Proof.
  unfold sca_valid. destruct kernel; rewrite ?XRealFacts.Rltb_true; intuition (try discriminate).
Qed.
Lemma valid_band kernel bw med : sca_valid kernel bw = true -> exists b, band0 kernel med = Some b.
Proof. intros H. apply valid_iff in H. destruct H as [[-> | ->] _]; eexists; reflexivity. Qed.
Lemma setup_failed f g m start : g_status g 0 <> 0%Z -> sca_optimize f g m start = Some (None, start).
Proof. intros H. unfold sca_optimize. rewrite (proj2 (Z.eqb_neq _ _) H). reflexivity. Qed.
