From mathcomp Require Import all_ssreflect all_algebra ring.
From Verif Require Import Outcome GwrModel GwrSpec GwrProofs GwrCases RidgeFitCases MsModel MsSpec MsProofs MsCases MsRefitProofs MsSeModel MsSeSpec.
Set Implicit Arguments. Unset Strict Implicit. Unset Printing Implicit Defensive.
Import Order.TTheory GRing.Theory Num.Theory.
Local Open Scope ring_scope.

Section P.
Variables (F : realFieldType) (n p : nat).
Variables (inv1 : 'M[F]_1 -> option 'M[F]_1) (inv : 'M[F]_p -> option 'M[F]_p).

Definition mapC (x : 'M[F]_(n, p)) W (j : 'I_n) (i : 'I_p) : 'rV[F]_n := row i (cof inv x W j).

Lemma core_never hat (x : 'M[F]_(n, p)) y W s b : fit_core inv hat hat 0 n x y W (fun _ => false) = Ok (s, b) -> b = false.
Proof.
rewrite /fit_core; elim: (range _ _ _) (fit0 F n p) => [|i t IH] s0 /=; first by case.
case: (fit_step _ _ _ _ _ _ _ _ _) => // s1; exact: IH.
Qed.

Lemma core_map hat (x : 'M[F]_(n, p)) y W s : fit_core inv hat hat 0 n x y W (fun _ => false) = Ok (s, false) ->
  linear_coefficients (mapC x W) y (betas s)^T.
Proof.
move=> /fit_core_desc D j i; rewrite [LHS]mxE.
have jr : j \in range n 0 n by rewrite in_range ltn_ord.
have /colP/(_ i) := d_betas D jr; rewrite [LHS]mxE beta_cof [RHS]mxE => ->.
by apply: eq_bigr => k _; rewrite /mapC [row _ _ _ _]mxE.
Qed.

Lemma core_se hat (x : 'M[F]_(n, p)) y W s V : fit_core inv hat hat 0 n x y W (fun _ => false) = Ok (s, false) ->
  gwr_se2 x y s = Some V ->
  let S := hat_of x (mapC x W) in
  let edf := n%:R - 2%:R * (\sum_j S j j) + \sum_j \sum_k S j k ^+ 2 in
  edf != 0 /\ forall j i, V j i = variance ((\sum_j (y j ord0 - \sum_k S j k * y k ord0) ^+ 2) / edf) (mapC x W) j i.
Proof.
move=> E; have D := fit_core_desc E; cbv zeta.
have HS j k : hat_of x (mapC x W) j k = sof inv x W j ord0 k.
  by rewrite !mxE; apply: eq_bigr => a _; rewrite [row a _ _ _]mxE [row j _ _ _]mxE.
have S0 : shat0 s = \sum_j hat_of x (mapC x W) j j.
  by rewrite (d_sh0 D) /= add0r range_full big_enum /=; apply: eq_bigr => j _; rewrite HS.
have S1 : shat1 s = \sum_j \sum_k hat_of x (mapC x W) j k ^+ 2.
  rewrite (d_sh1 D) /= add0r range_full big_enum /=; apply: eq_bigr => j _.
  rewrite det_mx11 mxE; apply: eq_bigr => k _; by rewrite HS [_^T _ _]mxE expr2.
rewrite /gwr_se2 S0 S1; case: eqP => // /eqP ne [<-]; split=> // j i.
rewrite mxE /variance.
have jr : j \in range n 0 n by rewrite in_range ltn_ord.
have /colP/(_ i) := d_se D jr; rewrite [LHS]mxE [RHS]mxE => ->.
congr (_ / _ * _); last by apply: eq_bigr => k _; rewrite /mapC [row _ _ _ _]mxE.
apply: eq_bigr => a _; rewrite [(y - _) a ord0]mxE; congr ((_ + _) ^+ 2); rewrite [LHS]mxE; congr (- _).
have L c : betas s c a = \sum_k mapC x W a c ord0 k * y k ord0 by rewrite -(core_map E) mxE.
rewrite mxE; under eq_bigr => c _ do rewrite L mulr_sumr.
rewrite exchange_big /=; apply: eq_bigr => k _; rewrite [hat_of _ _ _ _]mxE mulr_suml.
by apply: eq_bigr => c _; rewrite mulrA.
Qed.

Lemma report_split hat ic flags (x0 : 'M[F]_(n, p)) y W0 init bw0 select0
    wt select threshold retry stop_iter stop_var stop_sel stop_in ctype cthreshold root maxiter st V :
  ms_report inv1 inv hat ic flags x0 y W0 init bw0 select0 wt select threshold retry
    stop_iter stop_var stop_sel stop_in ctype cthreshold root maxiter = Ok (st, V) ->
  exists s r, [/\ fit_core inv hat hat 0 n (centre ic flags x0) y W0 (fun _ => false) = Ok (s, false),
    ms_fit inv1 inv hat ic flags x0 y W0 init bw0 select0 wt select threshold retry
      stop_iter stop_var stop_sel stop_in ctype cthreshold root maxiter = Ok (st, r) &
    V = gwr_se2 (centre ic flags x0) y s].
Proof.
rewrite /ms_report /obind; case: (ms_fit _ _ _ _ _ _ _ _ _ _ _ _ _ _ _ _ _ _ _ _ _ _ _) => [[st1 r]| |] //.
rewrite /ms_se2; case E: (fit_core _ _ _ _ _ _ _ _ _) => [[s b]| |] // [<- <-].
by exists s, r; rewrite -(core_never E).
Qed.

Lemma computed_main hat ic flags (x0 : 'M[F]_(n, p)) y (W0 : 'I_n -> 'cV[F]_n) init bw0 select0
    wt select threshold retry stop_iter stop_var stop_sel stop_in ctype cthreshold root maxiter st V :
  inverse_contract inv -> (forall j k, 0 <= W0 j k ord0) ->
  ms_report inv1 inv hat ic flags x0 y W0 init bw0 select0 wt select threshold retry
    stop_iter stop_var stop_sel stop_in ctype cthreshold root maxiter = Ok (st, Some V) ->
  let x := centre ic flags x0 in
  exists C : 'I_n -> 'I_p -> 'rV[F]_n,
    (forall y' j, only_minimiser x y' (W0 j) (\col_i \sum_k C j i ord0 k * y' k ord0)) /\
    let S := hat_of x C in
    let edf := n%:R - 2%:R * (\sum_j S j j) + \sum_j \sum_k S j k ^+ 2 in
    edf <> 0 /\ forall j i, V j i = variance ((\sum_j (y j ord0 - \sum_k S j k * y k ord0) ^+ 2) / edf) C j i.
Proof.
move=> c w0 /report_split [s [r [E _ Ev]]]; cbv zeta.
exists (mapC (centre ic flags x0) W0); split; last first.
  by have [/eqP H1 H2] := core_se E (esym Ev).
move=> y' j; have D := fit_core_desc E.
have jr : j \in range n 0 n by rewrite in_range ltn_ord.
have ok := allP (d_ok D) _ jr.
rewrite (_ : \col_i _ = Bof inv (centre ic flags x0) W0 j *m (xtw (centre ic flags x0) (W0 j) *m y')); first exact: minimal.
apply/colP => i; rewrite beta_cof [LHS]mxE [RHS]mxE; apply: eq_bigr => k _; by rewrite /mapC [row _ _ _ _]mxE.
Qed.

Lemma unaffected_main hat ic flags (x0 : 'M[F]_(n, p)) y W0 init bw0 select0
    wt select threshold retry stop_iter stop_var stop_sel stop_in ctype cthreshold root maxiter st V
    init' bw0' select0' wt' select' threshold' retry' stop_iter' stop_var' stop_sel' stop_in' ctype' cthreshold' root' maxiter' st' V' :
  ms_report inv1 inv hat ic flags x0 y W0 init bw0 select0 wt select threshold retry
    stop_iter stop_var stop_sel stop_in ctype cthreshold root maxiter = Ok (st, V) ->
  ms_report inv1 inv hat ic flags x0 y W0 init' bw0' select0' wt' select' threshold' retry'
    stop_iter' stop_var' stop_sel' stop_in' ctype' cthreshold' root' maxiter' = Ok (st', V') -> V = V'.
Proof.
move=> /report_split [s [r [E _ ->]]] /report_split [s' [r' [E' _ ->]]].
by move: E'; rewrite E => -[->].
Qed.
End P.

(** One variable *)
Section One.
Variables (F : realFieldType) (n : nat).
Variables (inv1 inv : 'M[F]_1 -> option 'M[F]_1).
Hypotheses (c1 : inverse_contract inv1) (c : inverse_contract inv).

Lemma one_response (x : 'M[F]_(n, 1)) (y : 'cV[F]_n) b : y - mfitted x b + part x b ord0 = y.
Proof. by apply/colP => j; rewrite !mxE big_ord_recl big_ord0 addr0 [b _ _ * _]mulrC subrK. Qed.

Lemma col_one (x : 'M[F]_(n, 1)) i : col i x = x.
Proof. by apply/matrixP => a k; rewrite mxE !ord1. Qed.

Lemma one_main hat ic flags (x0 : 'M[F]_(n, 1)) y (W0 : 'I_n -> 'cV[F]_n) init bw0 select0
    (wt : 'I_1 -> F -> 'I_n -> 'cV[F]_n) select threshold retry stop_iter stop_var stop_sel ctype cthreshold root maxiter st V :
  (forall i bw, wt i bw = W0) ->
  ms_report inv1 inv hat ic flags x0 y W0 init bw0 select0 wt select threshold retry
    stop_iter stop_var stop_sel (fun _ _ _ => false) ctype cthreshold root maxiter = Ok (st, V) ->
  linear_coefficients (mapC inv (centre ic flags x0) W0) y (mbetas st).
Proof.
move=> Hw /report_split [s [r [E Em Ev]]]; have L := core_map E; have D := fit_core_desc E.
suff -> : mbetas st = (betas s)^T by [].
move: Em; rewrite /ms_fit E; case: (init_bandwidths _ _ _ _ _ _) => [bw| |] //.
set x := centre ic flags x0.
pose I (t : ms F n 1) := mresid t = y - mfitted x (betas s)^T /\ mbetas t = (betas s)^T.
rewrite /backfitting => H.
have [] // : I st.
apply: (@keep_iterate _ _ _ inv1 hat x y wt select threshold retry stop_iter stop_var stop_sel (fun _ _ _ => false) ctype cthreshold root I _ _ _ _ _ _ _ _ _ _ H) => //.
- by move=> it i yi t t' [H1 H2] /select_same [E1 E2 _ _ _]; rewrite /I E1 E2.
- move=> it i t0 t t' [H1 H2] [H3 H4] _; rewrite H1 H2 /fit_var.
  have -> : i = ord0 by apply: ord1.
  rewrite one_response Hw col_one; case Ec: (fit_var_core _ _ _ _ _) => [[b Sv]| |] // [<-].
  rewrite /I /=.
  suff -> : put_col (mbetas t) ord0 b = (betas s)^T by [].
  apply/matrixP => j k; rewrite [LHS]mxE ord1 eqxx [RHS]mxE.
  have [B EB ->] := core_local Ec j.
  have jr : j \in range n 0 n by rewrite in_range ltn_ord.
  have /colP/(_ ord0) := d_betas D jr; rewrite [LHS]mxE => ->.
  have ok := allP (d_ok D) _ jr.
  by rewrite (left_unique (c1 EB) (Bof_inv c ok)).
Qed.

Lemma one_variable_main hat ic flags (x0 : 'M[F]_(n, 1)) (W0 : 'I_n -> 'cV[F]_n) init bw0 select0
    (wt : 'I_1 -> F -> 'I_n -> 'cV[F]_n) select threshold retry stop_iter stop_var stop_sel ctype cthreshold root maxiter :
  (forall i bw, wt i bw = W0) ->
  let run y := ms_report inv1 inv hat ic flags x0 y W0 init bw0 select0 wt select threshold retry
    stop_iter stop_var stop_sel (fun _ _ _ => false) ctype cthreshold root maxiter in
  exists C, (forall y st V, run y = Ok (st, V) -> linear_coefficients C y (mbetas st)) /\
    forall y st V, run y = Ok (st, Some V) -> exists s2, forall j i, V j i = variance s2 C j i.
Proof.
move=> Hw run; exists (mapC inv (centre ic flags x0) W0); split=> y st V.
  exact: (one_main Hw).
move=> /report_split [s [r [E _ Ev]]]; have [_ H] := core_se E (esym Ev).
by eexists; exact: H.
Qed.
End One.

(** Two observations, one regressor; the first variable has local weights at the first observation. *)
Definition one_x : 'M[rat]_(2, 1) := const_mx 1.
Definition one_y : 'cV[rat]_2 := \col_j (if j == ord0 then 0 else 2%:R).
Definition one_wt (i : 'I_1) (bw : rat) (j : 'I_2) : 'cV[rat]_2 := if j == ord0 then \col_k (if k == ord0 then 1 else 0) else const_mx 1.
Definition one_C (j : 'I_2) (i : 'I_1) : 'rV[rat]_2 := if j == ord0 then \row_k (if k == ord0 then 1 else 0) else const_mx 2%:R^-1.
Definition one_run (y : 'cV[rat]_2) : outcome (ms _ 2 1 * option 'M[rat]_(2, 1)) :=
  ms_report (@exact_inv _ 1) (@exact_inv _ 1) true false (fun _ => false) one_x y (fun _ => const_mx 1) (fun _ => ISpecified) (fun _ => 1)
    (fun _ _ _ b => Ok b) one_wt (fun _ _ _ _ b => Ok b) (fun _ => 1) 1 (fun _ => false) (fun _ _ => false) (fun _ _ => false)
    (fun _ _ _ => false) CVR 2%:R^-1 id 1.

Lemma one_gram (w : 'cV[rat]_2) : xtw one_x w *m one_x = (w ord0 ord0 + w ord_max ord0)%:M.
Proof.
apply/matrixP => a b; rewrite !ord1 !mxE !big_ord_recl big_ord0 !mxE /= !mulr1n !mul1r !mulr1 addr0.
by congr (_ + w _ _); apply: val_inj.
Qed.
Lemma one_centre : centre false (fun _ => false) one_x = one_x.
Proof. by apply/matrixP => j i; rewrite centre_off // andbF. Qed.
Lemma one_inv (w : 'cV[rat]_2) : w ord0 ord0 + w ord_max ord0 != 0 ->
  exact_inv (xtw one_x w *m one_x) = Some ((w ord0 ord0 + w ord_max ord0)^-1%:M).
Proof. by move=> ne; apply: exact_inv_eq; rewrite one_gram -scalar_mxM mulVf. Qed.
Lemma one_wt0 i bw j : one_wt i bw j ord0 ord0 + one_wt i bw j ord_max ord0 != 0.
Proof. by rewrite /one_wt; case: ifP; rewrite !mxE. Qed.

Lemma two_cases (j : 'I_2) : j = ord0 \/ j = ord_max.
Proof. by case: j => [[|[|//]] h]; [left|right]; apply: val_inj. Qed.

Lemma one_linear y : exists st V, one_run y = Ok (st, V) /\ linear_coefficients one_C y (mbetas st).
Proof.
rewrite /one_run /ms_report /ms_fit /ms_se2 one_centre.
have [s ->] : exists s, fit_core (@exact_inv _ 1) true true 0 2 one_x y (fun _ => const_mx 1) (fun _ => false) = Ok (s, false).
  by apply: fit_total => i _; rewrite one_inv // !mxE.
rewrite init_none // /backfitting /=.
have -> : enum 'I_1 = [:: ord0] by apply: (inj_map val_inj); rewrite val_enum_ord.
rewrite /sweep /var_pass /select_var /= /fit_var /=.
have [b [Sv Ec]] := @core_total _ 2 (@exact_inv _ 1) one_x y (one_wt ord0 1) (fun _ => false)
  (fun j => eq_ind_r (fun o => o <> None) (fun e : Some _ = None => ltac:(discriminate e)) (one_inv (one_wt0 ord0 1 j))).
rewrite one_response col_one Ec /=.
do 2!eexists; split; first reflexivity.
move=> j i; have -> : i = ord0 by exact: ord1.
rewrite [LHS]mxE eqxx.
have [B] := core_local Ec j; rewrite (one_inv (one_wt0 _ _ _)) => -[<-] ->.
rewrite mul_scalar_mx mxE /one_wt /one_C.
case: (two_cases j) => ->; rewrite /= !mxE !big_ord_recl !big_ord0 !mxE /=.
- rewrite (_ : (1 + 0)^-1 = 1 :> rat); last by apply/eqP; vm_compute.
  by rewrite !mul1r !mul0r !addr0.
- by rewrite !mul1r !addr0 mulrDr.
Qed.

Lemma one_values : exists st V, one_run one_y = Ok (st, Some V) /\ forall j i, V j i = 1.
Proof.
have [st [V [E _]]] := one_linear one_y.
have [s [r [Es _ Ev]]] := report_split E.
have Em j i k : mapC (@exact_inv _ 1) one_x (fun _ => const_mx 1) j i ord0 k = 2%:R^-1.
  rewrite /mapC mxE /cof /Bof one_inv; last by rewrite !mxE.
  by rewrite /= mul_scalar_mx !mxE !mulr1.
rewrite one_centre in Es Ev.
case: V Ev E => [V|] Ev E.
  exists st, V; split=> // j i; have [_ ->] := core_se Es (esym Ev).
  rewrite /variance !big_ord_recl !big_ord0 !Em !mxE !big_ord_recl !big_ord0 !Em !mxE /=.
  by apply/eqP; vm_compute.
exfalso; move: Ev; rewrite /gwr_se2; case: eqP => // K _; move: K.
have D := fit_core_desc Es.
rewrite (d_sh0 D) (d_sh1 D) /= range_full !big_enum /= !big_ord_recl !big_ord0 !det_mx11 /=.
have Ef j k : sof (@exact_inv _ 1) one_x (fun _ => const_mx 1) j ord0 k = 2%:R^-1.
  by rewrite /sof mxE big_ord_recl big_ord0 addr0 [row _ _ _ _]mxE [one_x _ _]mxE mul1r -(Em j ord0 k) [RHS]mxE.
have Eq j : (sof (@exact_inv _ 1) one_x (fun _ => const_mx 1) j *m (sof (@exact_inv _ 1) one_x (fun _ => const_mx 1) j)^T) ord0 ord0 = 2%:R^-1.
  by rewrite mxE !big_ord_recl big_ord0 ![_^T _ _]mxE !Ef; apply/eqP; vm_compute.
rewrite !Eq !Ef; by move/eqP; vm_compute.
Qed.

Lemma refuted_main : exists st V, one_run one_y = Ok (st, Some V) /\
  (forall y, exists st' V', one_run y = Ok (st', V') /\ linear_coefficients one_C y (mbetas st')) /\
  ~ exists s2, forall j i, V j i = variance s2 one_C j i.
Proof.
have [st [V [E Hv]]] := one_values; exists st, V; split=> //; split; first exact: one_linear.
move=> [s2 H]; move: (H ord0 ord0) (H ord_max ord0).
rewrite !Hv /variance !big_ord_recl !big_ord0 /one_C /= !mxE /= => H1 H2.
move: H1; rewrite expr1n expr0n /= !addr0 mulr1 => H1.
by move: H2; rewrite -H1; move/eqP; vm_compute.
Qed.

(** The same weights in both stages. *)
Lemma one_same : exists st V, ms_report (@exact_inv _ 1) (@exact_inv _ 1) true false (fun _ => false) one_x one_y
    (fun _ => const_mx 1) (fun _ => ISpecified) (fun _ => 1)
    (fun _ _ _ b => Ok b) (fun _ _ _ => const_mx 1) (fun _ _ _ _ b => Ok b) (fun _ => 1) 1 (fun _ => false) (fun _ _ => false) (fun _ _ => false)
    (fun _ _ _ => false) CVR 2%:R^-1 id 3 = Ok (st, Some V).
Proof.
have [st0 [V [E0 _]]] := one_values.
set M := ms_report _ _ _ _ _ _ _ _ _ _ _ _ _ _ _ _ _ _ _ _ _ _ _.
have [[st V'] E] : exists r, M = Ok r.
  rewrite /M /ms_report /ms_fit /ms_se2 one_centre.
  have [s ->] : exists s, fit_core (@exact_inv _ 1) true true 0 2 one_x one_y (fun _ => const_mx 1) (fun _ => false) = Ok (s, false).
    by apply: fit_total => i _; rewrite one_inv // !mxE.
  rewrite init_none //.
  have [r ->] : exists r, backfitting (@exact_inv _ 1) true one_x one_y (fun _ _ _ => const_mx 1) (fun _ _ _ _ b => Ok b) (fun _ => 1) 1
      (fun _ => false) (fun _ _ => false) (fun _ _ => false) (fun _ _ _ => false) CVR 2%:R^-1 id 3
      (ms_start one_x one_y s (fun _ => 1) (fun _ => ISpecified)) = Ok r.
    apply: iterate_total => [i bw j|it i xi yi b]; last by eexists.
    by rewrite col_one one_inv // !mxE.
  by eexists.
exists st, V; rewrite E; congr (Ok (_, _)); exact: unaffected_main E E0.
Qed.
