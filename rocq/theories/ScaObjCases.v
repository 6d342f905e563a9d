(** Cases for C160: data sets are numbers of observations on a line, coefficients the number of observations and the number
    of neighbours used; for four observations the criterion is not computable. *)
From Coq Require Import Reals Bool List ZArith Lra Lia.
From Verif Require Import Outcome XReal XRealFacts KernelModel KernelProofs GwssSpec GwssCases ScaNnModel ScaNnSpec ScaOptModel ScaNnProofs ScaOptProofs ScaNb ScaObjModel ScaObjSpec ScaObjProofs.
Import ListNotations.
Local Open Scope R_scope.

Definition t_dist (d i : nat) : list R := map (fun j => Rabs (INR j - INR i)) (seq 0 d).
Definition t_ldist (d : nat) (l : nat) (i : nat) : list R := map (fun j => Rabs (INR j - / 2)) (seq 0 d).
Definition t_optimum (d : nat) (k : kernel) (cv : bool) (rows : list (list nat * list R)) (col : list R) (t : unit) : outcome (option (R * R * R)) :=
  if Nat.eqb d 4 then Ok None else Ok (Some (1, 1, 1)).
Definition t_fitting (d : nat) (k : kernel) (b a : R) (rows : list (list nat * list R)) (col : list R) (t : unit) : outcome ((nat * nat) * unit) :=
  Ok ((d, length (fst (hd ([], []) rows))), tt).
Definition t_predicting (d l : nat) (k : kernel) (b a : R) (rows : list (list nat * list R)) (col : list R) (t : unit) : outcome (nat * nat) :=
  Ok (l, length (fst (hd ([], []) rows))).
Definition t_report (d : nat) (m : nat * nat) (s : unit) : nat * unit := (d, tt).
Notation t_fit := (fit isort_index (fun d => d) (fun _ => 1%nat) t_dist t_optimum t_fitting t_report).
Notation t_predict := (predict isort_index (fun d => d) t_dist (fun l => l) t_ldist t_optimum t_predicting).
Notation t_run := (run isort_index (fun d => d) (fun _ => 1%nat) t_dist (fun l => l) t_ldist t_optimum t_fitting t_predicting t_report).
Notation t_step := (step isort_index (fun d => d) (fun _ => 1%nat) t_dist (fun l => l) t_ldist t_optimum t_fitting t_predicting t_report).
Definition t_new (d : nat) (b : R) (k : kernel) (cv : bool) : object nat (nat * nat) unit nat := fresh (0, 0)%nat tt 0%nat d b k cv.

Lemma t_sound d : (2 <= d)%nat -> (Z.of_nat d < 2 ^ 61)%Z -> sound (fun d => d) t_dist d.
Proof. intros A B. split; [exact A|]. split; [exact B|]. intros i _. unfold t_dist. rewrite map_length, seq_length. reflexivity. Qed.
Lemma t_fit_value (o : object nat (nat * nat) unit nat) : (2 <= o_data o)%nat -> (Z.of_nat (o_data o) < 2 ^ 61)%Z -> o_data o <> 4%nat -> supported (o_kernel o) = true ->
  accepted (o_cv o) (o_bw o) (o_data o) -> fst (t_fit false false false tt o) = Matrix (o_data o, count (o_bw o) (o_data o)) /\
  o_bw (snd (t_fit false false false tt o)) = bandwidth_after (o_bw o) (o_data o).
Proof.
  intros N N' N4 K A.
  destruct (fit_main isort_index isort_index_ok nat (nat * nat) unit nat unit (fun d => d) (fun _ => 1%nat) t_dist t_optimum t_fitting t_report o tt
    (t_sound _ N N') (proj1 (supported_spec _) K) A) as (rows & col & rows' & col' & _ & (L & _ & H) & F).
  destruct (H 0%nat) as (idx & ds & E & (Li & _) & _); [cbv beta; lia|]. destruct rows' as [|r rows']; [discriminate|]. injection E as ->.
  rewrite (F 1 1 1 (o_data o, length idx) tt (o_data o) tt); [|unfold t_optimum; rewrite (proj2 (Nat.eqb_neq _ _) N4); reflexivity|reflexivity|reflexivity].
  cbn [fst snd o_bw]. rewrite Li. split; reflexivity.
Qed.
Lemma t_predict_value (o : object nat (nat * nat) unit nat) l : (0 < l)%nat -> (2 <= o_data o)%nat -> (Z.of_nat (o_data o) < 2 ^ 61)%Z -> o_data o <> 4%nat ->
  supported (o_kernel o) = true -> accepted (o_cv o) (o_bw o) (o_data o) ->
  fst (t_predict l false false false tt o) = Matrix (l, count (o_bw o) (o_data o)) /\
  o_betas (snd (t_predict l false false false tt o)) = (l, count (o_bw o) (o_data o)) /\ o_diag (snd (t_predict l false false false tt o)) = o_diag o.
Proof.
  intros L0 N N' N4 K A.
  destruct (predict_main isort_index isort_index_ok nat nat (nat * nat) unit nat unit (fun d => d) t_dist (fun l => l) t_ldist t_optimum t_predicting o l tt
    (t_sound _ N N') ltac:(intros; unfold t_ldist; rewrite map_length, seq_length; reflexivity) (proj1 (supported_spec _) K) A) as (rows & col & rows' & col' & _ & (L & _ & H) & F).
  destruct (H 0%nat) as (idx & ds & E & (Li & _) & _); [exact L0|]. destruct rows' as [|r rows']; [discriminate|]. injection E as ->.
  rewrite (F 1 1 1 (l, length idx)); [|unfold t_optimum; rewrite (proj2 (Nat.eqb_neq _ _) N4); reflexivity|reflexivity].
  cbn [fst snd o_betas o_diag]. rewrite Li. repeat split.
Qed.
Lemma I5 : Int_part 5 = 5%Z. Proof. apply Int_part_unique; lra. Qed.
Lemma I2 : Int_part 2 = 2%Z. Proof. apply Int_part_unique; lra. Qed.
Lemma big64 : 5 < IZR (2 ^ 64). Proof. apply IZR_lt. reflexivity. Qed.
Lemma acc5 n : accepted false 5 n. Proof. pose proof big64. split; [lra|]. rewrite I5. lia. Qed.
Lemma acc2 n : accepted false 2 n. Proof. pose proof big64. split; [lra|]. rewrite I2. lia. Qed.
Lemma after53 : bandwidth_after 5 3 = 2.
Proof. unfold bandwidth_after. rewrite I5. cbn [Z.leb Z.of_nat Pos.of_succ_nat Z.compare Pos.compare Pos.compare_cont Pos.succ]. simpl. lra. Qed.

(** Three observations first, then ten: two neighbours instead of the five asked for. *)
Lemma t_shrunk : let o := t_run [Fit false false false tt; SetData 10%nat] (t_new 3 5 Gaussian false) in
  fst (t_fit false false false tt (t_new 10 5 Gaussian false)) = Matrix (10, 5)%nat /\
  fst (t_fit false false false tt o) = Matrix (10, 2)%nat.
Proof.
  cbv zeta. split.
  - destruct (t_fit_value (t_new 10 5 Gaussian false)) as [E _]; try (cbn [t_new fresh o_data o_kernel o_cv o_bw]); try lia; auto using acc5.
    rewrite E. cbn [t_new fresh o_data o_bw]. unfold count. rewrite I5. reflexivity.
  - destruct (t_fit_value (t_new 3 5 Gaussian false)) as [_ E]; try (cbn [t_new fresh o_data o_kernel o_cv o_bw]); try lia; auto using acc5.
    cbn [t_new fresh o_data o_bw] in E. rewrite after53 in E.
    assert (ST : forall o : object nat (nat * nat) unit nat, (2 <= o_data o)%nat -> (Z.of_nat (o_data o) < 2 ^ 61)%Z -> 0 <= o_bw o < IZR (2 ^ 64) ->
      o_kernel (snd (t_fit false false false tt o)) = o_kernel o /\ o_cv (snd (t_fit false false false tt o)) = o_cv o).
    { intros o N N' B. destruct (comp_settings isort_index isort_index_ok nat nat (nat * nat) unit nat unit (fun d => d) (fun _ => 1%nat) t_dist (fun l => l) t_ldist t_optimum t_fitting t_predicting t_report
        o (Fit false false false tt) I (t_sound _ N N') B) as (_ & A2 & A3 & _). exact (conj A2 A3). }
    destruct (ST (t_new 3 5 Gaussian false)) as [K C]; [cbn; lia|cbn; lia|cbn [t_new fresh o_bw]; pose proof big64; lra|].
    cbn [run step snd]. fold (t_new 3 5 Gaussian false). set (o1 := snd (t_fit false false false tt (t_new 3 5 Gaussian false))) in *.
    match goal with |- fst (_ _ _ _ _ ?p) = _ => destruct (t_fit_value p) as [F _] end; cbn [o_data o_kernel o_cv o_bw]; try lia.
    + rewrite K. reflexivity.
    + rewrite C, E. apply acc2.
    + rewrite F. cbn [o_data o_bw]. rewrite E. unfold count. rewrite I2. reflexivity.
Qed.
(** Another kernel, or four observations: the coefficients of ten observations. *)
Lemma t_stale : let o := t_new 10 5 Gaussian false in
  fst (t_fit false false false tt o) = Matrix (10, 5)%nat /\
  fst (t_fit false false false tt (t_run [Fit false false false tt; SetData 7%nat; SetWeight 5 Bisquare] o)) = Matrix (10, 5)%nat /\
  fst (t_fit false false false tt (t_run [Fit false false false tt; SetData 4%nat; SetWeight 5 Gaussian] o)) = Matrix (10, 5)%nat.
Proof.
  cbv zeta. destruct t_shrunk as [E _]. split; [exact E|]. split.
  - apply stale_refuted; [exact isort_index_ok|exact E|apply t_sound; lia|apply acc5|left; intros [X|X]; discriminate].
  - apply stale_refuted; [exact isort_index_ok|exact E|apply t_sound; lia|apply acc5|right; reflexivity].
Qed.
(** A prediction at six locations. *)
Lemma t_predicted : let o := snd (t_fit false false false tt (t_new 10 5 Gaussian false)) in
  o_betas o = (10, 5)%nat /\ o_betas (snd (t_predict 6%nat false false false tt o)) = (6, 5)%nat /\ o_diag (snd (t_predict 6%nat false false false tt o)) = 10%nat /\
  fst (t_predict 6%nat true false false tt o) = Zeros 6 10.
Proof.
  assert (F := fit_main isort_index isort_index_ok nat (nat * nat) unit nat unit (fun d => d) (fun _ => 1%nat) t_dist t_optimum t_fitting t_report (t_new 10 5 Gaussian false) tt
    (t_sound 10%nat ltac:(lia) ltac:(lia)) (or_introl eq_refl) (acc5 10%nat)). cbv zeta in F.
  destruct F as (rows & col & rows' & col' & _ & (L & _ & H) & F).
  destruct (H 0%nat) as (idx & ds & E & (Li & _) & _); [cbn; lia|]. destruct rows' as [|r rows']; [discriminate|]. injection E as ->.
  specialize (F 1 1 1 (10, length idx)%nat tt 10%nat tt eq_refl eq_refl eq_refl).
  assert (Li' : length idx = 5%nat). { rewrite Li. cbn [t_new fresh o_data o_bw]. unfold count. rewrite I5. reflexivity. }
  rewrite Li' in F. cbv zeta. rewrite F. cbn [snd t_new fresh o_data o_bw o_kernel o_cv o_term].
  assert (A5 : bandwidth_after 5 10%nat = 5) by (apply bw_after_id; rewrite I5; lia). rewrite A5.
  split; [reflexivity|].
  match goal with |- context [t_predict 6%nat false false false tt ?p] => destruct (t_predict_value p 6%nat) as (_ & P2 & P3) end; cbn [o_data o_kernel o_cv o_bw]; try lia; auto using acc5.
  split; [rewrite P2; cbn [o_data o_bw]; unfold count; rewrite I5; reflexivity|]. split; [exact P3|].
  refine (shape_case isort_index isort_index_ok nat nat (nat * nat) unit nat unit (fun d => d) t_dist (fun l => l) t_ldist t_optimum t_predicting _ 6%nat false false tt _ _ _);
    [apply t_sound; cbn; lia|left; reflexivity|apply acc5].
Qed.
