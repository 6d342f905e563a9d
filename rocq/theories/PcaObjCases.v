(** Objects for the examples of C169: two locations, two variables. *)
From Coq Require Import Reals Bool List Arith ZArith Lia Lra.
From Verif Require Import XReal XRealFacts Sums PcaObjModel PcaObjSpec PcaObjProofs PcaObjMain.
Import ListNotations.
Local Open Scope R_scope.

(** A table is its number of rows; the weights of location i sum to 2 (i + 1). *)
Definition ex_d (i : nat) : list R := [4; 3].
Definition ex_V (i : nat) : list (list R) := [[1; 0]; [0; 1]].
Definition ex_dec (t : nat) (w : nat -> R) : option (list R * list (list R)) := Some (ex_d 0, ex_V 0).
(** The decomposition fails when the weights exceed one. *)
Definition ex_bad (t : nat) (w : nat -> R) : option (list R * list (list R)) := if Rltb 1 (w 0%nat) then None else Some (ex_d 0, ex_V 0).
Definition ex_w (i j : nat) : R := INR (S i).
Definition ex_o (k : Z) : obj nat := mkObj nat 2%nat 2 ex_w k false [[XF 7]] [] [[XF 8]].
Definition two (t : nat) : nat := 2%nat.
Lemma ex_complete i : complete 2 (ex_d i) (ex_V i).
Proof. unfold complete, ex_d, ex_V. split; [reflexivity|]. split; [repeat constructor; lra|]. split; [reflexivity|]. repeat constructor. Qed.
Lemma ex_sum i : bigsum 2 (ex_w i) = 2 * INR (S i).
Proof. unfold ex_w. cbn [bigsum]. ring. Qed.
Lemma ex_sum_pos i : 0 < bigsum 2 (ex_w i).
Proof. rewrite ex_sum. pose proof (lt_0_INR (S i)). cut (0 < INR (S i)); [lra|]. apply H. lia. Qed.
Lemma ex_all i : (i < 2)%nat -> ex_dec (o_x _ (ex_o 2)) (o_weight _ (ex_o 2) i) = Some (ex_d i, ex_V i) /\ complete 2 (ex_d i) (ex_V i).
Proof. intros _. split; [reflexivity|apply ex_complete]. Qed.
Lemma ex_last : last_reached 2 (fun _ => false) 1.
Proof. split; [lia|]. split; [intros j _; reflexivity|]. intros j J. lia. Qed.
Lemma ex_last1 : last_reached 2 (fun i => Nat.eqb i 1) 0.
Proof.
  split; [lia|]. split; [intros j J; now replace j with 0%nat by lia|]. intros j J R. assert (j = 1)%nat as -> by lia.
  specialize (R 1%nat (le_n _)). discriminate.
Qed.
Lemma ex_results : exists o', run nat (fun t => t) two ex_dec false (fun i => Nat.eqb i 1) false (ex_o 2) = Returns _ o' /\ o_term _ o' = true /\
  loading (o_loadings _ o') 0 0 0 = Some 1 /\ has (o_sdev _ o') 0 0 (4 / sqrt 2) /\ has (o_pv _ o') 0 0 64 /\
  loading (o_loadings _ o') 0 1 0 = Some 0 /\ has (o_sdev _ o') 1 0 0 /\ entry (o_pv _ o') 1 0 = Some XN.
Proof.
  destruct (results_general (rows := fun t => t) (columns := two) (decompose := ex_dec) (ex_o 2) (fun i => Nat.eqb i 1) false 2 2 2 ex_d ex_V
    eq_refl eq_refl eq_refl eq_refl (conj (le_S _ _ (le_n 1)) (le_n 2)) (fun i L _ => ex_all i L) 0%nat ex_last1 (ex_sum_pos 0))
    as (o' & E & _ & T & _ & _ & _ & _ & G & B).
  destruct (G 0%nat) as (G1 & G2 & G3 & _); [lia|intros j J; now replace j with 0%nat by lia|].
  destruct (B 1%nat) as (B1 & B2 & B3); [lia|intros R; specialize (R 1%nat (le_n _)); discriminate|].
  exists o'. split; [exact E|]. split; [apply T; right; right; exists 1%nat; split; [lia|reflexivity]|].
  split; [rewrite G1 by lia; reflexivity|]. split.
  { replace 2 with (bigsum 2 (ex_w 0)) by (rewrite ex_sum; cbn; ring). apply G2. reflexivity. }
  split.
  { replace 64 with (100 * (4 * 4) / squares (ex_d 0)) by (unfold squares, ex_d; cbn [map fold_right]; field). apply G3; [lia|reflexivity|]. unfold squares, ex_d. cbn [map fold_right]. lra. }
  split; [apply B1; lia|]. split; [apply B2; lia|apply B3; lia].
Qed.
Lemma ex_scale : exists o1 o2 a b, run nat (fun t => t) two ex_dec false (fun i => Nat.eqb i 1) false (ex_o 2) = Returns _ o1 /\
  run nat (fun t => t) two ex_dec false (fun _ => false) false (ex_o 2) = Returns _ o2 /\ has (o_sdev _ o1) 0 0 a /\ has (o_sdev _ o2) 0 0 b /\ a <> b.
Proof.
  destruct (results_general (rows := fun t => t) (columns := two) (decompose := ex_dec) (ex_o 2) (fun i => Nat.eqb i 1) false 2 2 2 ex_d ex_V
    eq_refl eq_refl eq_refl eq_refl (conj (le_S _ _ (le_n 1)) (le_n 2)) (fun i L _ => ex_all i L) 0%nat ex_last1 (ex_sum_pos 0)) as (o1 & E1 & _).
  destruct (results_general (rows := fun t => t) (columns := two) (decompose := ex_dec) (ex_o 2) (fun _ => false) false 2 2 2 ex_d ex_V
    eq_refl eq_refl eq_refl eq_refl (conj (le_S _ _ (le_n 1)) (le_n 2)) (fun i L _ => ex_all i L) 1%nat ex_last (ex_sum_pos 1)) as (o2 & E2 & _).
  destruct (scale_general (rows := fun t => t) (columns := two) (decompose := ex_dec) (ex_o 2) _ _ false false 2 2 2 ex_d ex_V 0%nat 1%nat o1 o2 0%nat 0%nat 4
    eq_refl eq_refl eq_refl eq_refl (conj (le_S _ _ (le_n 1)) (le_n 2)) ex_all ex_last1 ex_last (ex_sum_pos 0) (ex_sum_pos 1)) as (a & b & H1 & H2 & NE).
  - change (o_weight _ (ex_o 2)) with ex_w. rewrite !ex_sum. cbn. lra.
  - exact E1.
  - exact E2.
  - lia.
  - intros j J. now replace j with 0%nat by lia.
  - intros j J. reflexivity.
  - reflexivity.
  - lra.
  - exists o1, o2, a, b. repeat split; assumption.
Qed.
Lemma ex_failure : exists o', run nat (fun t => t) two ex_bad false (fun _ => false) false (ex_o 2) = Throws _ o' /\ o_pv _ o' = [[XF 7]] /\ o_sdev _ o' = [[XF 8]] /\
  loading (o_loadings _ o') 1 0 1 = Some 1 /\ loading (o_loadings _ o') 1 1 1 = Some 0.
Proof.
  destruct (failure_general (rows := fun t => t) (columns := two) (decompose := ex_bad) (ex_o 2) (fun _ => false) false 2 2 2 ex_d ex_V 1%nat
    eq_refl eq_refl eq_refl eq_refl (le_n 2)) as (o' & E & _ & _ & P & S & _ & _ & G & B); [lia|lia|intros j _; reflexivity| | |].
  - unfold ex_bad. cbn [ex_o o_weight]. unfold ex_w. cbn [INR]. rewrite (proj2 (Rltb_true 1 (1 + 1))) by lra. reflexivity.
  - intros i L. assert (i = 0)%nat as -> by lia. split; [|apply ex_complete]. unfold ex_bad. cbn [ex_o o_weight]. unfold ex_w. cbn [INR].
    now rewrite (proj2 (Rltb_false 1 1)) by lra.
  - exists o'. split; [exact E|]. split; [exact P|]. split; [exact S|]. split; [rewrite G by lia; reflexivity|apply B; lia].
Qed.
Lemma ex_many : exists o', run nat (fun t => t) two ex_dec false (fun _ => false) false (ex_o 3) = Throws _ o' /\ o_sdev _ o' = [[XF 8]] /\
  loading (o_loadings _ o') 1 0 1 = Some 1 /\ loading (o_loadings _ o') 2 0 1 = Some 0.
Proof.
  destruct (keep_many (rows := fun t => t) (columns := two) (decompose := ex_dec) (ex_o 3) (fun _ => false) false 2 2 3 (ex_d 0) (ex_V 0)
    eq_refl eq_refl eq_refl eq_refl) as (o' & E & _ & _ & _ & S & _ & G & B); [lia|lia|reflexivity|reflexivity|apply ex_complete|].
  exists o'. split; [exact E|]. split; [exact S|]. split; [rewrite G by lia; reflexivity|apply B; lia].
Qed.
Lemma ex_nothing : exists o', run nat (fun t => t) two ex_dec false (fun _ => false) false (ex_o 0) = Throws _ o' /\ o_pv _ o' = [[XF 7]] /\ has (o_sdev _ o') 0 0 (4 / sqrt 4).
Proof.
  destruct (keep_none (rows := fun t => t) (columns := two) (decompose := ex_dec) (ex_o 0) (fun _ => false) false 2 2 ex_d ex_V 1%nat
    eq_refl eq_refl eq_refl eq_refl (fun i L _ => ex_all i L) ex_last (ex_sum_pos 1)) as (o' & E & _ & P & _ & _ & G).
  exists o'. split; [exact E|]. split; [exact P|]. replace 4 with (bigsum 2 (ex_w 1)) at 2 by (rewrite ex_sum; cbn; ring).
  apply G; [lia|intros j _; reflexivity|reflexivity].
Qed.
Lemma ex_none : exists o', run nat (fun t => t) two ex_dec false (fun _ => true) false (ex_o 2) = Returns _ o' /\ entry (o_sdev _ o') 1 1 = Some XN /\ loading (o_loadings _ o') 1 1 1 = Some 0.
Proof.
  destruct (none_general (rows := fun t => t) (columns := two) (decompose := ex_dec) (ex_o 2) (fun _ => true) false 2 2 2
    eq_refl eq_refl eq_refl eq_refl) as (o' & E & _ & _ & _ & _ & _ & _ & G); [lia|lia|reflexivity|].
  destruct (G 1%nat) as (G1 & G2 & _); [lia|]. exists o'. split; [exact E|]. split; [apply G2; lia|apply G1; lia].
Qed.
