(** Concrete local ridge regression objects over several calls. *)
From Coq Require Import Reals Bool List Arith Lra Lia.
From Verif Require Import Outcome XReal XRealFacts KernelModel GoldModel GoldSpec GoldProofs FlowModel LcObjModel LcObjSpec LcObjProofs.
Import ListNotations.
Local Open Scope R_scope.

(** Coordinates and data are numbers of rows and columns; a matrix shows the points, the bandwidth and whether it was predicted; the telegram [true]
    stops the regression, which then returns its sums so far. *)
Definition lc_mat : Type := (option (nat * nat) * R * bool).
Definition lc_cv (_ : bool) (_ : nat) (_ : bool) (_ : nat) (_ : option (nat * nat)) (_ : R) (w : weight) : bool * option xd := (false, Some (XF (sin (wvalue w)))).
Definition lc_reg (t : bool) (_ : bool) (_ : nat) (d : option (nat * nat)) (_ : R) (w : weight) : outcome (lc_mat * (R * R) * bool) :=
  if t then Throw else Ok ((d, wvalue w, false), (4, 3), false).
Definition lc_lost (_ : bool) (_ : nat) (_ : option (nat * nat)) (_ : R) (_ : weight) : R * R := (1, 1).
Definition lc_pred (_ : bool) (_ : nat) (d : option (nat * nat)) (_ : R) (w : weight) : outcome (lc_mat * bool) := Ok ((d, wvalue w, true), false).
Definition lc_zeros (r c : nat) : lc_mat := (Some (r, c), 0, true).
Definition lc_diag (crd xy : nat) (_ : lc_mat) (tr : R * R) : R := 100 - 2 * fst tr + snd tr.
Notation lc_fit := (@fit nat nat lc_mat R R bool (fun c => c) (fun x => x) (fun _ => 10) lc_cv lc_reg lc_lost lc_diag).
Notation lc_predict := (@predict nat nat lc_mat R R bool (fun c => c) (fun x => x) (fun x => (2 * x)%nat) lc_zeros lc_pred (fun _ => false)).
Notation lc_run := (@run nat nat lc_mat R R bool (fun c => c) (fun x => x) (fun x => (2 * x)%nat) (fun _ => 10) lc_zeros lc_cv lc_reg lc_lost lc_pred (fun _ => false) lc_diag).
Definition lc_object (n : nat) (auto omp : bool) : object nat nat lc_mat R R :=
  Object n 3%nat 0 (mkWeight Gaussian true 9) None auto omp (0, 0) (None, 0, false) 0 [] false.
Definition lc_quiet : nat -> bool := fun _ => false.
Lemma lc_quiet_quiet : quiet lc_quiet.
Proof. intros i. reflexivity. Qed.

(** A criterion that always answers and is always valid selects. *)
Lemma selects crit w lo up g : (forall k v, crit k v = Answer true (XF (g v))) -> (forall v, Rabs (g v) < DBL_MAX) -> exists w', rresult (optimize crit w lo up []) = Fresh w'.
Proof.
  intros Cr G.
  assert (NM : forall v, is_max_dbl (XF (g v)) = false).
  { intros v. destruct (is_max_dbl (XF (g v))) eqn:E; [|reflexivity]. apply is_max_dbl_eq in E. injection E as E. specialize (G v). apply Rabs_def2 in G. lra. }
  assert (K : forall st st', s1 st && s2 st = true -> guard st = true -> GoldModel.step crit w st = Some st' -> s1 st' && s2 st' = true).
  { intros st st' I _ S. apply andb_true_iff in I as [I1 I2]. unfold GoldModel.step in S. rewrite !Cr in S. destruct (xltb (f1 st) (f2 st)); injection S as <-; cbn [s1 s2]; rewrite ?I1, ?I2; reflexivity. }
  destruct (optimize_cases crit w lo up []) as
    [H|? ? ? H|ok1 v1 ok2 v2 H1 H2 H3|v1 v2 H1 H2 H3 H4|v1 v2 st H1 H2 M P Gd S|v1 v2 st H1 H2 M P Gd S|v1 v2 st H1 H2 M P Gd S].
  - rewrite Cr in H. discriminate.
  - rewrite Cr in H. discriminate.
  - rewrite Cr in H1, H2. injection H1 as <- _. injection H2 as <- _. discriminate.
  - rewrite Cr in H1. injection H1 as <-. rewrite NM in H3. discriminate.
  - exfalso. unfold GoldModel.step in S. rewrite !Cr in S. destruct (xltb (f1 st) (f2 st)); discriminate.
  - eexists. reflexivity.
  - exfalso. rewrite (passes_inv _ _ (fun st => s1 st && s2 st = true) K _ _ P) in S by reflexivity. discriminate.
Qed.
Lemma lc_small : exists m, fst (lc_fit false lc_quiet (lc_object 9 true false)) = Matrix m.
Proof.
  unfold fit, checkpoint, lc_quiet. cbn [andthen]. unfold set_dist, lc_object. cbn [o_auto o_crd o_xy o_par o_weight o_dist o_omp o_traces o_betas o_diag o_blist o_term].
  unfold bw_stage. cbn [o_auto o_crd o_xy o_par o_weight o_dist o_omp o_traces o_betas o_diag o_blist o_term wadaptive]. cbv zeta.
  match goal with |- context [optimize ?c ?w ?lo ?up []] => destruct (selects c w lo up (fun v => sin (wvalue v))) as [w' E] end.
  - intros k v. reflexivity.
  - intros v. apply Rle_lt_trans with 1; [apply Rabs_le; split; apply SIN_bound|]. unfold DBL_MAX. apply IZR_lt. reflexivity.
  - rewrite E. cbn [andthen]. unfold fit_stage, set_bw. cbn [o_auto o_crd o_xy o_par o_weight o_dist o_omp o_traces o_betas o_diag o_blist o_term]. unfold lc_reg. cbv zeta.
    unfold checkpoint. cbn [andthen fst]. eexists. reflexivity.
Qed.
Lemma lc_twice : o_diag (lc_run [Fit false lc_quiet] (lc_object 9 false false)) = 95 /\ o_diag (lc_run [Fit false lc_quiet; Fit false lc_quiet] (lc_object 9 false false)) = 90.
Proof. cbn. unfold lc_diag. cbn. split; lra. Qed.
Lemma lc_valid : (forall k w, lc_cv false k false 3 (Some (9, 9)%nat) 0 w = (false, Some (XF (sin (wvalue w))))) /\ forall w, Rabs (sin (wvalue w)) < DBL_MAX.
Proof.
  split; [reflexivity|]. intros v. apply Rle_lt_trans with 1; [apply Rabs_le; split; apply SIN_bound|]. unfold DBL_MAX. apply IZR_lt. reflexivity.
Qed.
Lemma lc_terminated : o_term (lc_run [Fit false (fun _ => true)] (lc_object 9 true false)) = true /\ forall k w, snd (lc_cv false k false 3 (Some (9, 9)%nat) 0 w) <> None.
Proof.
  split; [|intros k w; discriminate]. cbn [run step]. unfold fit, checkpoint. cbn [andthen snd]. reflexivity.
Qed.
