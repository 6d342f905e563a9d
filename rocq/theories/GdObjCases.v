(** Concrete GWDR objects over several calls. *)
From Coq Require Import Reals Bool List Arith ZArith Lra Lia.
From Verif Require Import Outcome XReal XRealFacts KernelModel KernelProofs DistModel VarModel VarSpec VarProofs FlowModel GwdrModel GdObjModel GdObjSpec GdObjProofs GdObjMain.
Import ListNotations.
Local Open Scope R_scope.

(** Columns are labels; models with column 7 have criterion 10, others 20; the matrix consists of the columns and bandwidths used;
    the minimiser doubles its start point and reports [code]. *)
Definition gd_global (x : list nat) (_ : nat) : option xd := Some (XF (if existsb (Nat.eqb 7) x then 10 else 20)).
Definition gd_local (_ : unit) (_ : nat) (x : list nat) (y : nat) (_ : list dimension) : bool * option xd := (false, gd_global x y).
Definition gd_crit (_ : unit) (_ : list nat) (_ : nat) (_ : list dimension) : option xd := Some (XF 1).
Definition gd_simplex (code : Z) (_ : unit) (s : list R) (_ : list R -> xd) : gsl :=
  mkGsl (fun _ => []) (fun _ => 0%Z) (fun _ => map (fun v => 2 * v) s) (fun _ => code) (fun _ => false).
(** A minimiser that gives up at (1/2, 1/4). *)
Definition gd_stuck (_ : unit) (_ : list R) (_ : list R -> xd) : gsl :=
  mkGsl (fun _ => []) (fun _ => 0%Z) (fun _ => [/ 2; / 4]) (fun _ => 27%Z) (fun _ => false).
Definition gd_fitting (_ : unit) (x : list nat) (_ : nat) (ds : list dimension) : outcome (list nat * list R * unit * bool) := Ok (x, map d_bw ds, tt, false).
Definition gd_spoiled (_ : unit) (_ : list nat) (_ : nat) (_ : list dimension) (_ : unit) : unit := tt.
Definition gd_report (_ : list nat) (_ : nat) (_ : list nat * list R) (_ : unit) : nat * unit := (1%nat, tt).
Definition gd_step (code : Z) := @step nat nat (list nat * list R) unit nat unit vsort gd_global gd_local gd_crit (gd_simplex code) gd_fitting gd_spoiled gd_report.
Definition gd_run (code : Z) := @run nat nat (list nat * list R) unit nat unit vsort gd_global gd_local gd_crit (gd_simplex code) gd_fitting gd_spoiled gd_report.
Definition gd_fit (code : Z) := @fit nat nat (list nat * list R) unit nat unit vsort gd_global gd_local gd_crit (gd_simplex code) gd_fitting gd_spoiled gd_report.
Definition gd_column : list R := repeat 0 8.
Definition gd_dim : dimension := Dim true Gaussian 3 None.
Definition gd_object (x : list nat) (auto_bw auto_vars : bool) : object nat nat (list nat * list R) unit nat :=
  Object [gd_column; gd_column] 8 x 0%nat [gd_dim; gd_dim] true auto_bw auto_vars 3 100 ([], []) tt 0%nat [] [] false.
Definition gd_quiet : nat -> bool := fun _ => false.

Lemma gd_matching x b v : matching (gd_object x b v).
Proof. split; [reflexivity|]. intros c [<-|[<-|[]]]; reflexivity. Qed.
Lemma gd_quiet_quiet : quiet gd_quiet.
Proof. intros i. reflexivity. Qed.

Lemma round_whole k : round_half_up (INR k) = INR k.
Proof.
  unfold round_half_up. rewrite INR_IZR_INZ. f_equal. apply Int_part_unique. lra.
Qed.
(** One optimised fit doubles the bandwidths. *)
Lemma gd_doubles : forall o b k, o_rows o = 8%nat -> o_x o = [5%nat] -> o_auto_bw o = true -> o_auto_vars o = false -> o_maxiter o = 100%nat -> o_term o = false ->
  o_coords o = [gd_column; gd_column] -> map chosen (o_dims o) = [(true, Gaussian, b); (true, Gaussian, b)] -> 2 < b < 8 -> 2 * b = INR k ->
  fst (gd_fit 0 tt gd_quiet o) = Matrix ([5%nat], [INR k; INR k]) /\ map d_bw (o_dims (snd (gd_fit 0 tt gd_quiet o))) = [INR k; INR k] /\
  o_term (snd (gd_fit 0 tt gd_quiet o)) = false.
Proof.
  intros o b k Er Ex Eb Ev Em Et Ec Ed B K.
  destruct o as [oc or ox oy od oi oa ov ot om ob os og ol ow oe].
  cbn [o_coords o_rows o_x o_y o_dims o_intercept o_auto_bw o_auto_vars o_threshold o_maxiter o_term] in *. subst.
  destruct od as [|[a1 k1 b1 x1] [|[a2 k2 b2 x2] [|? ?]]]; try discriminate. cbn [map chosen d_adaptive d_kernel d_bw] in Ed. injection Ed as -> -> -> -> -> ->.
  unfold gd_fit. rewrite !fit_before. unfold before, checkpoint. unfold gd_quiet at 1 3 5. cbn [andthen]. unfold coords_stage. cbn [o_coords o_dims place option_map andthen].
  unfold set_dims. cbn [o_auto_vars o_auto_bw andthen o_coords o_rows o_x o_y o_dims o_intercept o_threshold o_maxiter o_term]. unfold bw_stage.
  cbn [o_coords o_rows o_x o_y o_dims o_maxiter o_term length d_adaptive d_kernel d_bw].
  assert (St : start_bandwidth (INR 1 + 1) (INR 8) b = b).
  { unfold start_bandwidth. rewrite (proj2 (Rleb_false b (INR 1 + 1))) by (cbn; lra). rewrite (proj2 (Rleb_false (INR 8) b)) by (cbn; lra). reflexivity. }
  cbn [starts ends d_adaptive d_bw with_bw d_kernel d_dist]. rewrite St. cbv zeta. set (g := mkGsl _ _ _ _ _).
  assert (G : forall i, g_status g i = 0%Z /\ g_test g i = 0%Z /\ g_stopped g i = false /\ g_x g i = [2 * (b / INR 8); 2 * (b / INR 8)]) by (intros i; repeat split).
  clearbody g. unfold optimize. rewrite (proj1 (G 0%nat)). cbn [Z.eqb opt_loop]. rewrite (proj1 (G 1%nat)), (proj1 (proj2 (G 1%nat))). cbn [Z.eqb negb andb].
  rewrite (proj1 (proj2 (proj2 (G 1%nat)))), (proj2 (proj2 (proj2 (G 1%nat)))). cbn [o_bws o_code Z.eqb final map].
  assert (Rd : round_half_up (Rabs (2 * (b / INR 8)) * INR 8) = INR k).
  { rewrite Rabs_right by (cbn; lra). replace (2 * (b / INR 8) * INR 8) with (INR k) by (rewrite <- K; cbn; lra). apply round_whole. }
  rewrite Rd. unfold checkpoint, gd_quiet. cbn [andthen]. unfold fit_stage, gd_fitting. cbn. repeat split.
Qed.
Lemma drift_main :
  fst (gd_fit 0 tt gd_quiet (gd_object [5%nat] true false)) = Matrix ([5%nat], [6; 6]) /\
  fst (gd_fit 0 tt gd_quiet (gd_run 0 [Fit tt gd_quiet] (gd_object [5%nat] true false))) = Matrix ([5%nat], [12; 12]).
Proof.
  destruct (gd_doubles (gd_object [5%nat] true false) 3 6) as (A1 & A2 & A3); try reflexivity; [lra|cbn; lra|].
  replace (INR 6) with 6 in * by (cbn; lra). split; [exact A1|].
  change (gd_run 0 [Fit tt gd_quiet] (gd_object [5%nat] true false)) with (snd (gd_fit 0 tt gd_quiet (gd_object [5%nat] true false))).
  pose proof (kept_main nat nat (list nat * list R) unit nat unit vsort gd_global gd_local gd_crit (gd_simplex 0) gd_fitting gd_spoiled gd_report
    (gd_object [5%nat] true false) tt gd_quiet vsort_sorter) as ((K1 & K2 & K3 & K4 & K5 & K6 & K7 & K8 & K9) & _ & K10).
  fold (gd_fit 0) in K1, K2, K3, K4, K5, K6, K7, K8, K9, K10. specialize (K10 eq_refl).
  revert A2 A3 K1 K2 K3 K4 K5 K6 K7 K8 K9 K10. generalize (snd (gd_fit 0 tt gd_quiet (gd_object [5%nat] true false))). intros o A2 A3 K1 K2 K3 K4 K5 K6 K7 K8 K9 K10.
  destruct (gd_doubles o 6 12) as (B1 & _); try assumption; [|lra|cbn; lra|].
  - destruct (o_dims o) as [|d1 [|d2 [|? ?]]]; try discriminate. cbn [map] in *. unfold chosen, kind in *. cbn [gd_object o_dims map gd_dim d_adaptive d_kernel] in K4.
    injection K4 as -> -> -> ->. injection A2 as -> ->. reflexivity.
  - rewrite B1. replace (INR 12) with 12 by (cbn; lra). reflexivity.
Qed.
Lemma gd_select bw : exists vl, select_stage vsort gd_global gd_local tt (set_dims (located [gd_column; gd_column] [gd_dim; gd_dim]) (gd_object [5; 6; 7]%nat bw true)) =
  Go (set_x [5; 7]%nat vl (set_selected [2%nat] (set_dims (located [gd_column; gd_column] [gd_dim; gd_dim]) (gd_object [5; 6; 7]%nat bw true)))).
Proof.
  set (o := set_dims _ _). unfold select_stage.
  assert (P : forallb (placed (o_rows o)) (o_dims o) = true) by reflexivity. rewrite P, andb_false_r. cbn [andb].
  assert (Cr : forall k vs, var_criterion gd_global gd_local tt o k vs =
    (true, XF (if existsb (Nat.eqb 7) (picked [5; 6; 7]%nat (index2uvec vs true)) then 10 else 20))).
  { intros k vs. unfold var_criterion. cbv zeta. replace (if is_global o then _ else _) with (false, gd_global (picked (o_x o) (index2uvec vs (o_intercept o))) (o_y o)) by (destruct (is_global o); reflexivity). reflexivity. }
  assert (S : search (var_criterion gd_global gd_local tt o) [1; 2]%nat = Ok (true, [([0]%nat, XF 20); ([1]%nat, XF 10); ([1; 0]%nat, XF 10)])).
  { unfold search. cbn [length seq outer group convert app nth_error obind]. rewrite !Cr. cbn. replace (Rltb 10 20) with true by (symmetry; apply Rltb_true; lra). cbn. rewrite !Cr. cbn. reflexivity. }
  assert (R : sort_groups vsort 2 [([0]%nat, XF 20); ([1]%nat, XF 10); ([1; 0]%nat, XF 10)] = Ok [([0]%nat, XF 20); ([1]%nat, XF 10); ([1; 0]%nat, XF 10)]).
  { cbn. replace (Rltb 20 10) with false by (symmetry; apply Rltb_false; lra). reflexivity. }
  assert (V : vs_optimize (var_criterion gd_global gd_local tt o) vsort [1; 2]%nat 3 = Ok ([2]%nat, Some [([0]%nat, XF 20); ([1]%nat, XF 10); ([1; 0]%nat, XF 10)])).
  { unfold vs_optimize. rewrite S; cbn [obind length]. rewrite R; cbn [obind select length Nat.sub select_from nth_error snd].
    unfold xsub. cbn [xopp]. replace (Reqb 10 0) with false by (symmetry; apply Reqb_false; lra). cbn [xadd].
    replace (xleb (XF 3) (XF (10 + - (10)))) with false.
    2:{ symmetry. cbn. apply negb_false_iff, Rltb_true. lra. }
    replace (xleb (XF 3) (XF (20 + - (10)))) with true by (symmetry; apply xleb_fin; lra). reflexivity. }
  change (candidates o) with [1; 2]%nat. change (o_threshold o) with 3. rewrite V.
  eexists. reflexivity.
Qed.
Lemma gd_selects : exists o', gd_fit 0 tt gd_quiet (gd_object [5; 6; 7]%nat false true) = (Matrix ([5; 7]%nat, [3; 3]), o') /\ o_selected o' = [2%nat] /\ o_x o' = [5; 7]%nat /\ o_term o' = false.
Proof.
  destruct (gd_select false) as [vl E]. eexists. split.
  - unfold gd_fit. rewrite fit_before. unfold before, checkpoint at 1, gd_quiet at 1. cbn [andthen]. rewrite coords_go by reflexivity. cbn [andthen].
    change (o_auto_vars (set_dims (located (o_coords (gd_object [5; 6; 7]%nat false true)) (o_dims (gd_object [5; 6; 7]%nat false true))) (gd_object [5; 6; 7]%nat false true))) with true.
    change (o_coords (gd_object [5; 6; 7]%nat false true)) with [gd_column; gd_column]. change (o_dims (gd_object [5; 6; 7]%nat false true)) with [gd_dim; gd_dim].
    cbv iota. rewrite E. cbn [andthen]. reflexivity.
  - repeat split.
Qed.
Lemma gd_blind : o_term (gd_run 0 [Fit tt (fun _ => true)] (gd_object [5%nat] true false)) = true.
Proof. reflexivity. Qed.
Lemma gd_adaptive : forall d, In d (o_dims (gd_object [5%nat] true false)) -> d_adaptive d = true.
Proof. intros d [<-|[<-|[]]]; reflexivity. Qed.
