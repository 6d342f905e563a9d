From Coq Require Import Reals Bool List Arith Lia Lra.
From Verif Require Import Outcome XReal DistModel DevDistModel DevDistSpec.
Import ListNotations.
Local Open Scope R_scope.

Lemma run_app cs : forall d ds, run d (cs ++ ds) = let* e := run d cs in run e ds.
Proof. induction cs as [|c t IH]; intros d ds; cbn [run app obind]; [reflexivity|]. destruct (step d c); cbn [obind]; [apply IH|reflexivity|reflexivity]. Qed.
(** Both calculators follow mGeographic. *)
Definition kind (geo : bool) : calc := if geo then CalcSpatial else CalcEuclid.
Definition agree (d : dev) : Prop := c_calc (v_host d) = kind (c_geo (v_host d)) /\ v_calc d = kind (c_geo (v_host d)).
Lemma make_geo h pl : c_geo (fst (crs_makeParameter h pl)) = c_geo h /\ c_calc (fst (crs_makeParameter h pl)) = c_calc h.
Proof.
  unfold crs_makeParameter. destruct pl as [|a [|b [|c t]]]; try (split; reflexivity).
  destruct (get_mat a), (get_mat b); try (split; reflexivity).
  destruct (_ && _)%bool; split; reflexivity.
Qed.
Lemma copy_host h : crs_copy h = mkCrs (c_geo h) (kind (c_geo h)) (c_par h).
Proof. unfold crs_copy. destruct (c_par h); reflexivity. Qed.
Lemma make_fst d pl : fst (dev_makeParameter d pl) =
  mkDev (fst (crs_makeParameter (v_host d) pl)) (v_calc d) (v_mem d) (v_use d) (v_prepared d) (v_threads d).
Proof. unfold dev_makeParameter. destruct (crs_makeParameter (v_host d) pl). reflexivity. Qed.
Lemma prepare_inv d e : dev_prepare d = Ok e ->
  v_host e = v_host d /\ v_calc e = v_calc d /\ v_use e = true /\ v_prepared e = true /\
  ((v_prepared d = true /\ v_mem e = v_mem d /\ v_threads e = v_threads d) \/
   (v_prepared d = false /\ v_mem e = c_par (v_host d) /\ c_par (v_host d) <> None /\ v_threads e = true)).
Proof.
  unfold dev_prepare. destruct (v_prepared d) eqn:P.
  - intros [= <-]. cbn. repeat split; try reflexivity. left. repeat split.
  - destruct (c_par (v_host d)) eqn:Q; [|discriminate]. intros [= <-]. cbn. repeat split; try reflexivity. right. repeat split. discriminate.
Qed.
Lemma copy_inv d e : dev_copy d = Ok e ->
  v_host e = crs_copy (v_host d) /\ v_calc e = kind (c_geo (v_host d)) /\ v_use e = v_use d /\
  ((c_par (v_host d) = None /\ v_mem e = None /\ v_prepared e = v_prepared d) \/
   (c_par (v_host d) <> None /\ v_use d = true /\ v_mem e = c_par (v_host d) /\ v_prepared e = true /\ v_threads e = true) \/
   (c_par (v_host d) <> None /\ v_use d = false /\ v_mem e = None /\ v_prepared e = false)).
Proof.
  unfold dev_copy. fold (kind (c_geo (v_host d))). destruct (c_par (v_host d)) as [m|] eqn:Q; [destruct (v_use d) eqn:U|].
  - intros E. destruct (prepare_inv _ _ E) as (A & B & C & D & [[F _]|[_ [G [_ H]]]]); [discriminate F|].
    cbn in A, B, G. rewrite copy_host in A, G |- *. rewrite A, B, C, D, G, H. cbn. rewrite Q. repeat split; try reflexivity.
    right; left. repeat split. discriminate.
  - intros [= <-]. cbn. repeat split; try reflexivity. right; right. repeat split. discriminate.
  - intros [= <-]. cbn. repeat split; try reflexivity. left. repeat split.
Qed.
Lemma step_agree d c e : agree d -> step d c = Ok e -> agree e.
Proof.
  intros [A B] E. destruct c as [pl|g|b| |]; cbn [step] in E.
  - injection E as <-. rewrite make_fst. unfold agree; cbn. destruct (make_geo (v_host d) pl) as [-> ->]. split; assumption.
  - injection E as <-. split; reflexivity.
  - injection E as <-. split; assumption.
  - destruct (prepare_inv _ _ E) as (P & Q & _). unfold agree. rewrite P, Q. split; assumption.
  - destruct (copy_inv _ _ E) as (P & Q & _). unfold agree. rewrite P, Q, copy_host. split; reflexivity.
Qed.
Lemma run_agree cs : forall d e, agree d -> run d cs = Ok e -> agree e.
Proof.
  induction cs as [|c t IH]; intros d e A E; cbn [run] in E; [injection E as <-; exact A|].
  destruct (step d c) as [d'| |] eqn:S; cbn [obind] in E; try discriminate. exact (IH _ _ (step_agree _ _ _ A S) E).
Qed.
Lemma new_agree geo : agree (dev_new geo).
Proof. destruct geo; split; reflexivity. Qed.

(** The distances *)
Lemma euclid_between o p : XF (euclid o p) = between false o p.
Proof. unfold between, euclid. do 2 f_equal. ring. Qed.
Lemma dev_fn_between geo o ps : dev_fn (kind geo) o ps = map (between geo o) ps.
Proof. destruct geo; reflexivity. Qed.
Lemma calc_fn_between geo o ps : calc_fn (kind geo) o ps = map (between geo o) ps.
Proof. destruct geo; [reflexivity|]. cbn. unfold EuclideanDistance. apply map_ext. intros p. apply euclid_between. Qed.
Lemma host_value d f fp dp o : agree d -> c_par (v_host d) = Some (fp, dp) -> nth_error fp f = Some o ->
  host_distance d f = Ok (map (between (c_geo (v_host d)) o) dp).
Proof. intros [A _] P N. unfold host_distance, crs_distance. rewrite P, N, A, calc_fn_between. reflexivity. Qed.

(** Before anything is prepared *)
Lemma host_prefix cs : forall d, Forall host_only cs -> v_prepared d = false -> v_mem d = None ->
  exists e, run d cs = Ok e /\ v_prepared e = false /\ v_mem e = None.
Proof.
  induction cs as [|c t IH]; intros d H P M; [exists d; cbn; auto|]. inversion H as [|? ? H1 H2]; subst.
  destruct c as [pl|g|b| |]; cbn [run step obind] in *; try contradiction; apply IH; auto; rewrite ?make_fst; assumption.
Qed.
(** Coordinates on the device are those of the host, as long as none are set. *)
Definition current (d : dev) : Prop := v_prepared d = true -> v_mem d = c_par (v_host d) /\ (c_par (v_host d) <> None -> v_threads d = true).
Lemma current_step d c e : no_coordinates c -> current d -> step d c = Ok e -> current e.
Proof.
  intros N C E. destruct c as [pl|g|b| |]; cbn [step] in E; cbn in N; try contradiction.
  - injection E as <-. exact C.
  - injection E as <-. exact C.
  - destruct (prepare_inv _ _ E) as (P & _ & _ & R & [[S [T U]]|[_ [T [_ U]]]]); intros _; rewrite P, T, U.
    + exact (C S).
    + split; [reflexivity|]. reflexivity.
  - destruct (copy_inv _ _ E) as (P & _ & _ & [[S [T U]]|[[S [_ [T [U V]]]]|[S [_ [T U]]]]]); intros Hp; rewrite P, copy_host; cbn [c_par].
    + rewrite S, T. split; [reflexivity|congruence].
    + rewrite T, V. split; reflexivity.
    + congruence.
Qed.
Lemma current_run cs : forall d e, Forall no_coordinates cs -> current d -> run d cs = Ok e -> current e.
Proof.
  induction cs as [|c t IH]; intros d e F C E; cbn [run] in E; [injection E as <-; exact C|]. inversion F; subst.
  destruct (step d c) as [d'| |] eqn:S; cbn [obind] in E; try discriminate. eapply IH; [eassumption| |exact E]. eapply current_step; eauto.
Qed.
Lemma current_distance d f fp dp : agree d -> current d -> v_prepared d = true -> c_par (v_host d) = Some (fp, dp) -> length fp = length dp ->
  dev_distance d f = host_distance d f.
Proof.
  intros A C P Q L. destruct (C P) as [M T]. rewrite Q in M, T. specialize (T ltac:(discriminate)).
  destruct (nth_error fp f) as [o|] eqn:N.
  - rewrite (host_value d f fp dp o A Q N). unfold dev_distance. rewrite Q, P, M, T, N. cbn [negb].
    assert (Hf : (f < length fp)%nat) by (apply nth_error_Some; congruence). apply Nat.ltb_lt in Hf as ->.
    rewrite L, Nat.leb_refl, firstn_all. destruct A as [_ ->]. rewrite dev_fn_between. reflexivity.
  - unfold dev_distance, host_distance, crs_distance. rewrite Q, P, M, T, N. cbn [negb].
    apply nth_error_None in N. apply Nat.ltb_ge in N as ->. reflexivity.
Qed.
Lemma first_main geo before after d f fp dp : Forall host_only before -> Forall no_coordinates after ->
  run (dev_new geo) (before ++ after ++ [Prepare]) = Ok d -> c_par (v_host d) = Some (fp, dp) -> length fp = length dp ->
  dev_distance d f = host_distance d f.
Proof.
  intros H1 H2 E Q L. assert (A := run_agree _ _ _ (new_agree geo) E).
  destruct (host_prefix before (dev_new geo) H1) as [e [E1 [P1 M1]]]; [destruct geo; reflexivity|destruct geo; reflexivity|].
  rewrite run_app, E1 in E. cbn [obind] in E.
  assert (C : current d). { apply (current_run _ e d) with (3 := E); [|intro; congruence]. apply Forall_app. split; [exact H2|]. repeat constructor. }
  rewrite run_app in E. destruct (run e after) as [e2| |]; cbn [obind run step] in E; try discriminate.
  destruct (dev_prepare e2) as [e3| |] eqn:EP; cbn [obind] in E; try discriminate. injection E as <-.
  destruct (prepare_inv _ _ EP) as (_ & _ & _ & P & _). eapply current_distance; eauto.
Qed.

(** After the first upload *)
Definition holds (m : list point * list point) (d : dev) : Prop := v_mem d = Some m /\ v_prepared d = true /\ v_threads d = true.
Lemma holds_run m cs : forall d, holds m d -> Forall not_copy cs -> exists e, run d cs = Ok e /\ holds m e.
Proof.
  induction cs as [|c t IH]; intros d H F; [exists d; auto|]. inversion F as [|? ? F1 F2]; subst. destruct H as [M [P T]].
  destruct c as [pl|g|b| |]; cbn [run step obind] in *; try contradiction.
  - apply IH; [|assumption]. rewrite make_fst. split; [|split]; assumption.
  - apply IH; [|assumption]. split; [|split]; assumption.
  - apply IH; [|assumption]. split; [|split]; assumption.
  - unfold dev_prepare. rewrite P. cbn [obind]. apply IH; [|assumption]. split; [|split]; try assumption; reflexivity.
Qed.
Lemma holds_distance fp0 dp0 d f fp dp : agree d -> holds (fp0, dp0) d -> c_par (v_host d) = Some (fp, dp) ->
  dev_distance d f = if Nat.ltb f (length fp) then
                       match nth_error fp0 f with
                       | None => UB
                       | Some o => if Nat.leb (length fp) (length dp0) then Ok (map (between (c_geo (v_host d)) o) (firstn (length fp) dp0)) else UB
                       end
                     else Throw.
Proof.
  intros [_ A] [M [P T]] Q. unfold dev_distance. rewrite Q, P, M, T. cbn [negb]. rewrite A.
  destruct (Nat.ltb f (length fp)); [|reflexivity]. destruct (nth_error fp0 f); [|reflexivity].
  destruct (Nat.leb (length fp) (length dp0)); [|reflexivity]. rewrite dev_fn_between. reflexivity.
Qed.
Lemma upload d0 m : v_prepared d0 = false -> c_par (v_host d0) = Some m -> exists e, dev_prepare d0 = Ok e /\ holds m e /\ v_host e = v_host d0.
Proof. intros P Q. unfold dev_prepare. rewrite P, Q. eexists. repeat split; reflexivity. Qed.
Lemma stale_main geo before after d0 fp0 dp0 : Forall host_only before -> Forall not_copy after ->
  run (dev_new geo) before = Ok d0 -> c_par (v_host d0) = Some (fp0, dp0) ->
  exists d, run (dev_new geo) (before ++ Prepare :: after) = Ok d /\
  forall f fp dp, c_par (v_host d) = Some (fp, dp) ->
  dev_distance d f = if Nat.ltb f (length fp) then
                       match nth_error fp0 f with
                       | None => UB
                       | Some o => if Nat.leb (length fp) (length dp0) then Ok (map (between (c_geo (v_host d)) o) (firstn (length fp) dp0)) else UB
                       end
                     else Throw.
Proof.
  intros H1 H2 E Q. destruct (host_prefix before (dev_new geo) H1) as [e [E1 [P1 M1]]]; [destruct geo; reflexivity|destruct geo; reflexivity|].
  rewrite E in E1. injection E1 as <-. destruct (upload d0 (fp0, dp0) P1 Q) as [e [E2 [H3 _]]].
  destruct (holds_run _ after e H3 H2) as [d [E3 H4]]. exists d.
  assert (E4 : run (dev_new geo) (before ++ Prepare :: after) = Ok d).
  { rewrite run_app, E. cbn [obind run step]. rewrite E2. cbn [obind]. exact E3. }
  split; [exact E4|]. intros f fp dp Q'. apply (holds_distance fp0 dp0 d f fp dp); auto. exact (run_agree _ _ _ (new_agree geo) E4).
Qed.
