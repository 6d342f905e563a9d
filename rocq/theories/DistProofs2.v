(** Proofs about distance objects: histories, extremes, clones, Minkowski,
    space-time. *)
From Coq Require Import Reals Bool List ZArith Lra Lia Psatz.
From Verif Require Import Outcome XReal XRealFacts DistModel DistSpec DistProofs.
Import ListNotations.
Local Open Scope R_scope.

Lemma exists_last_or_nil {A} (l : list A) : l = [] \/ exists l' a, l = l' ++ [a].
Proof. induction l using rev_ind; eauto. Qed.

(** ** Histories of CRSDistance *)
Definition consistent (c : crs) : Prop := c_calc c = if c_geo c then CalcSpatial else CalcEuclid.

Lemma crs_copy_id c : consistent c -> crs_copy c = c.
Proof.
  unfold consistent, crs_copy, crs_setGeographic. destruct c as [g k p]; simpl. intros ->.
  destruct p as [[fp dp]|]; reflexivity.
Qed.

Lemma step_consistent c o : consistent c -> consistent (crs_step c o).
Proof.
  intros H. destruct o; simpl.
  - reflexivity.
  - unfold crs_makeParameter.
    destruct pl as [|a [|b [|? ?]]]; simpl; auto.
    destruct a, b; simpl; auto.
    destruct (_ && _)%bool; simpl; auto.
  - rewrite crs_copy_id; auto.
Qed.
Lemma run_consistent ops c : consistent c -> consistent (crs_run c ops).
Proof.
  revert c; induction ops; simpl; intros; auto. apply IHops, step_consistent; auto.
Qed.
Lemma new_consistent g : consistent (crs_new g).
Proof. reflexivity. Qed.

Lemma step_geo c o : consistent c -> c_geo (crs_step c o) =
  match o with SetGeographic g => g | _ => c_geo c end.
Proof.
  intros H. destruct o; simpl; auto.
  - unfold crs_makeParameter. destruct pl as [|a [|b [|? ?]]]; simpl; auto.
    destruct a, b; simpl; auto. destruct (_ && _)%bool; auto.
  - rewrite crs_copy_id; auto.
Qed.
Lemma run_geo ops c : consistent c -> c_geo (crs_run c ops) = last_geo ops (c_geo c).
Proof.
  revert c; induction ops as [|o ops IH]; simpl; intros c H; auto.
  rewrite IH by (apply step_consistent; auto). rewrite step_geo by auto.
  destruct o; auto.
Qed.

Definition param_of (pl : list dparam) : option (list point * list point) :=
  match pl with
  | [PMat m1; PMat m2] =>
      if (Nat.eqb (m_cols m1) 2 && Nat.eqb (m_cols m2) 2)%bool
      then Some (points m1, points m2) else None
  | _ => None
  end.

Lemma make_param_matrices c pl : Forall (fun p => exists m, p = PMat m) pl ->
  c_par (fst (crs_makeParameter c pl)) = param_of pl.
Proof.
  intros F. unfold crs_makeParameter, param_of.
  destruct pl as [|a [|b [|? ?]]]; simpl; auto.
  - destruct a; auto.
  - inversion F as [|? ? [m1 ->] F1]; subst. inversion F1 as [|? ? [m2 ->] F2]; subst. simpl.
    destruct (_ && _)%bool; reflexivity.
  - destruct a; auto. destruct b; auto.
Qed.

Lemma run_par ops c : consistent c -> only_matrices ops ->
  c_par (crs_run c ops) = match last_param ops with Some pl => param_of pl | None => c_par c end.
Proof.
  revert c; induction ops as [|o ops IH]; simpl; intros c H OM; auto.
  rewrite IH; [|apply step_consistent; auto|intros pl I; apply OM; simpl; auto].
  destruct (last_param ops); auto. destruct o; simpl; auto.
  - apply make_param_matrices. apply OM; simpl; auto.
  - rewrite crs_copy_id; auto.
Qed.

Lemma calc_between (g : bool) o dp :
  calc_fn (if g then CalcSpatial else CalcEuclid) o dp = map (crs_between g o) dp.
Proof. destruct g; reflexivity. Qed.

Lemma param_of_describes pl fp dp : param_of pl = Some (fp, dp) <-> describes pl fp dp.
Proof.
  unfold param_of, describes. split.
  - destruct pl as [|[m1| |] [|[m2| |] [|? ?]]]; try discriminate.
    destruct (_ && _)%bool eqn:E; try discriminate. intros H; inversion H; subst.
    apply andb_true_iff in E as [E1 E2]. apply Nat.eqb_eq in E1, E2.
    exists m1, m2; auto.
  - intros (m1 & m2 & -> & -> & -> & -> & ->). simpl. reflexivity.
Qed.

Lemma C15_crs_main : forall g0 ops f v,
  only_matrices ops -> crs_distance (crs_run (crs_new g0) ops) f = Ok v ->
  exists pl fp dp o, last_param ops = Some pl /\ describes pl fp dp /\
    nth_error fp f = Some o /\ v = map (crs_between (last_geo ops g0) o) dp.
Proof.
  intros g0 ops f v OM E. unfold crs_distance in E.
  rewrite (run_par ops (crs_new g0) (new_consistent g0) OM) in E.
  destruct (last_param ops) as [pl|]; [|discriminate].
  destruct (param_of pl) as [[fp dp]|] eqn:P; [|discriminate].
  destruct (nth_error fp f) as [o|] eqn:N; [|discriminate]. inversion E; subst.
  exists pl, fp, dp, o. rewrite param_of_describes in P.
  rewrite (run_consistent ops (crs_new g0) (new_consistent g0)), calc_between.
  rewrite (run_geo ops (crs_new g0) (new_consistent g0)). auto.
Qed.

(** The converse: an accepted last call makes every in-range query succeed. *)
Lemma C15_crs_converse : forall g0 ops f pl fp dp o,
  only_matrices ops -> last_param ops = Some pl -> describes pl fp dp ->
  nth_error fp f = Some o ->
  crs_distance (crs_run (crs_new g0) ops) f = Ok (map (crs_between (last_geo ops g0) o) dp).
Proof.
  intros g0 ops f pl fp dp o OM L D N. unfold crs_distance.
  rewrite (run_par ops (crs_new g0) (new_consistent g0) OM), L.
  apply param_of_describes in D. rewrite D, N.
  rewrite (run_consistent ops (crs_new g0) (new_consistent g0)), calc_between.
  rewrite (run_geo ops (crs_new g0) (new_consistent g0)). auto.
Qed.

(** ** Extremes *)
Lemma vmax_val xs rs : xvals xs rs -> rs <> [] ->
  exists m r, vmax xs = Ok m /\ xval m = Some r /\ In r rs /\ (forall s, In s rs -> s <= r).
Proof.
  assert (forall xs rs m0 r0, xvals xs rs -> xval m0 = Some r0 ->
    exists r, xval (fold_left (fun m x => if xltb m x then x else m) xs m0) = Some r /\
      (r = r0 \/ In r rs) /\ r0 <= r /\ forall s, In s rs -> s <= r) as G.
  { clear. induction xs; intros [|s rs] m0 r0 H H0; try discriminate; simpl.
    - exists r0; repeat split; auto; try lra. intros ? [].
    - apply xvals_inv in H as [H1 H2]. rewrite (xltb_val _ _ _ _ H0 H1).
      destruct (Rltb r0 s) eqn:E; [apply Rltb_true in E|apply Rltb_false in E].
      + destruct (IHxs rs a s H2 H1) as (r & V & I & L & F).
        exists r; repeat split; auto; try lra. destruct I; auto. intros ? [->|]; auto.
      + destruct (IHxs rs m0 r0 H2 H0) as (r & V & I & L & F).
        exists r; repeat split; auto; try lra. destruct I; auto. intros ? [->|]; auto. lra. }
  destruct xs, rs as [|s rs]; intros H N; try discriminate; try congruence.
  apply xvals_inv in H as [H1 H2]. destruct (G xs rs x s H2 H1) as (r & V & I & L & F).
  exists (fold_left (fun m x => if xltb m x then x else m) xs x), r. repeat split; auto.
  - destruct x; simpl in *; auto; discriminate.
  - destruct I; [left; auto|right; auto].
  - intros ? [->|]; auto.
Qed.
Lemma vmin_val xs rs : xvals xs rs -> rs <> [] ->
  exists m r, vmin xs = Ok m /\ xval m = Some r /\ In r rs /\ (forall s, In s rs -> r <= s).
Proof.
  assert (forall xs rs m0 r0, xvals xs rs -> xval m0 = Some r0 ->
    exists r, xval (fold_left (fun m x => if xltb x m then x else m) xs m0) = Some r /\
      (r = r0 \/ In r rs) /\ r <= r0 /\ forall s, In s rs -> r <= s) as G.
  { clear. induction xs; intros [|s rs] m0 r0 H H0; try discriminate; simpl.
    - exists r0; repeat split; auto; try lra. intros ? [].
    - apply xvals_inv in H as [H1 H2]. rewrite (xltb_val _ _ _ _ H1 H0).
      destruct (Rltb s r0) eqn:E; [apply Rltb_true in E|apply Rltb_false in E].
      + destruct (IHxs rs a s H2 H1) as (r & V & I & L & F).
        exists r; repeat split; auto; try lra. destruct I; auto. intros ? [->|]; auto.
      + destruct (IHxs rs m0 r0 H2 H0) as (r & V & I & L & F).
        exists r; repeat split; auto; try lra. destruct I; auto. intros ? [->|]; auto. lra. }
  destruct xs, rs as [|s rs]; intros H N; try discriminate; try congruence.
  apply xvals_inv in H as [H1 H2]. destruct (G xs rs x s H2 H1) as (r & V & I & L & F).
  exists (fold_left (fun m x => if xltb x m then x else m) xs x), r. repeat split; auto.
  - destruct x; simpl in *; auto; discriminate.
  - destruct I; [left; auto|right; auto].
  - intros ? [->|]; auto.
Qed.

Lemma max_loop_val rows rrows : Forall2 xvals rows rrows -> Forall (fun r => r <> []) rrows ->
  forall acc a, xval acc = Some a ->
  exists m r, max_loop rows acc = Ok m /\ xval m = Some r /\ a <= r /\
    (forall l d, In l rrows -> In d l -> d <= r) /\ (r = a \/ exists l, In l rrows /\ In r l).
Proof.
  induction 1 as [|x l rows rrows Hx HF IH]; intros N acc a Ha.
  - exists acc, a; simpl; repeat split; auto; try lra. intros ? ? [].
  - inversion N; subst. simpl. destruct (vmax_val _ _ Hx H1) as (m1 & r1 & E1 & V1 & I1 & B1).
    rewrite E1. simpl. rewrite (xltb_val _ _ _ _ Ha V1).
    destruct (Rltb a r1) eqn:E; [apply Rltb_true in E|apply Rltb_false in E].
    + destruct (IH H2 m1 r1 V1) as (m & r & Em & V & L & B & I). exists m, r. repeat split; auto; try lra.
      * intros l' d [<-|I'] Id; [specialize (B1 _ Id); lra|eauto].
      * right. destruct I as [->|(l' & I' & J')]; [exists l|exists l']; simpl; auto.
    + destruct (IH H2 acc a Ha) as (m & r & Em & V & L & B & I). exists m, r. repeat split; auto; try lra.
      * intros l' d [<-|I'] Id; [specialize (B1 _ Id); lra|eauto].
      * destruct I as [->|(l' & I' & J')]; auto. right; exists l'; simpl; auto.
Qed.
Lemma min_loop_val rows rrows : Forall2 xvals rows rrows -> Forall (fun r => r <> []) rrows ->
  forall acc a, xval acc = Some a ->
  exists m r, min_loop rows acc = Ok m /\ xval m = Some r /\ r <= a /\
    (forall l d, In l rrows -> In d l -> r <= d) /\ (r = a \/ exists l, In l rrows /\ In r l).
Proof.
  induction 1 as [|x l rows rrows Hx HF IH]; intros N acc a Ha.
  - exists acc, a; simpl; repeat split; auto; try lra. intros ? ? [].
  - inversion N; subst. simpl. destruct (vmin_val _ _ Hx H1) as (m1 & r1 & E1 & V1 & I1 & B1).
    rewrite E1. simpl. rewrite (xltb_val _ _ _ _ V1 Ha).
    destruct (Rltb r1 a) eqn:E; [apply Rltb_true in E|apply Rltb_false in E].
    + destruct (IH H2 m1 r1 V1) as (m & r & Em & V & L & B & I). exists m, r. repeat split; auto; try lra.
      * intros l' d [<-|I'] Id; [specialize (B1 _ Id); lra|eauto].
      * right. destruct I as [->|(l' & I' & J')]; [exists l|exists l']; simpl; auto.
    + destruct (IH H2 acc a Ha) as (m & r & Em & V & L & B & I). exists m, r. repeat split; auto; try lra.
      * intros l' d [<-|I'] Id; [specialize (B1 _ Id); lra|eauto].
      * destruct I as [->|(l' & I' & J')]; auto. right; exists l'; simpl; auto.
Qed.

Lemma max_loop_is_max rows rrows : Forall2 xvals rows rrows -> Forall (fun r => r <> []) rrows ->
  rrows <> [] -> (forall l d, In l rrows -> In d l -> 0 <= d) ->
  exists m r, max_loop rows (XF 0) = Ok m /\ xval m = Some r /\ is_max rrows r.
Proof.
  intros F N NE P. destruct (max_loop_val _ _ F N (XF 0) 0 eq_refl) as (m & r & E & V & L & B & I).
  exists m, r; repeat split; auto. destruct I as [->|I]; auto.
  destruct rrows as [|l rr]; [congruence|]. inversion N; subst. destruct l as [|d l]; [congruence|].
  exists (d :: l). simpl; split; auto. left.
  specialize (B (d :: l) d (or_introl eq_refl) (or_introl eq_refl)).
  specialize (P (d :: l) d (or_introl eq_refl) (or_introl eq_refl)). lra.
Qed.
Lemma min_loop_is_min rows rrows : Forall2 xvals rows rrows -> Forall (fun r => r <> []) rrows ->
  rrows <> [] -> (forall l d, In l rrows -> In d l -> d <= DBL_MAX) ->
  exists m r, min_loop rows (XF DBL_MAX) = Ok m /\ xval m = Some r /\ is_min rrows r.
Proof.
  intros F N NE P. destruct (min_loop_val _ _ F N (XF DBL_MAX) DBL_MAX eq_refl) as (m & r & E & V & L & B & I).
  exists m, r; repeat split; auto. destruct I as [->|I]; auto.
  destruct rrows as [|l rr]; [congruence|]. inversion N; subst. destruct l as [|d l]; [congruence|].
  exists (d :: l). simpl; split; auto. left.
  specialize (B (d :: l) d (or_introl eq_refl) (or_introl eq_refl)).
  specialize (P (d :: l) d (or_introl eq_refl) (or_introl eq_refl)). lra.
Qed.

Lemma Forall2_rows {A} (f : A -> list xd) (g : A -> list R) l :
  (forall a, In a l -> xvals (f a) (g a)) -> Forall2 xvals (map f l) (map g l).
Proof. induction l; simpl; constructor; auto. Qed.
Lemma xvals_map_XF' {A} (f : A -> R) l : xvals (map (fun a => XF (f a)) l) (map f l).
Proof. unfold xvals. rewrite !map_map. reflexivity. Qed.

Definition euclid_rows (fp dp : list point) : list (list R) :=
  map (fun o => map (euclid o) dp) fp.

Lemma rows_nonempty {A B} (f : A -> list B) l : (forall a, In a l -> f a <> []) ->
  Forall (fun r => r <> []) (map f l).
Proof. intros H. apply Forall_map, Forall_forall; auto. Qed.

Lemma crs_max_euclid c fp dp : c_calc c = CalcEuclid -> c_par c = Some (fp, dp) ->
  fp <> [] -> dp <> [] ->
  exists m r, crs_maxDistance c = Ok m /\ xval m = Some r /\
    is_max (map (fun o => map (euclid o) dp) fp) r.
Proof.
  intros K P Nf Nd. unfold crs_maxDistance. rewrite P, K. simpl.
  apply max_loop_is_max.
  - apply Forall2_rows. intros. apply xvals_map_XF'.
  - apply rows_nonempty. intros. destruct dp; [congruence|discriminate].
  - destruct fp; [congruence|discriminate].
  - intros l d Hl Hd. apply in_map_iff in Hl as (o & <- & _). apply in_map_iff in Hd as (p & <- & _).
    apply euclid_nonneg.
Qed.
Lemma crs_min_euclid c fp dp : c_calc c = CalcEuclid -> c_par c = Some (fp, dp) ->
  fp <> [] -> dp <> [] -> (forall o p, In o fp -> In p dp -> euclid o p <= DBL_MAX) ->
  exists m r, crs_minDistance c = Ok m /\ xval m = Some r /\
    is_min (map (fun o => map (euclid o) dp) fp) r.
Proof.
  intros K P Nf Nd B. unfold crs_minDistance. rewrite P, K. simpl.
  apply min_loop_is_min.
  - apply Forall2_rows. intros. apply xvals_map_XF'.
  - apply rows_nonempty. intros. destruct dp; [congruence|discriminate].
  - destruct fp; [congruence|discriminate].
  - intros l d Hl Hd. apply in_map_iff in Hl as (o & <- & Io). apply in_map_iff in Hd as (p & <- & Ip). auto.
Qed.

Lemma C14_crs_main : forall g0 ops pl fp dp,
  only_matrices ops -> last_param ops = Some pl -> describes pl fp dp -> last_geo ops g0 = false ->
  fp <> [] -> dp <> [] -> (forall o p, In o fp -> In p dp -> euclid o p <= DBL_MAX) ->
  exists xmax rmax xmin rmin,
    crs_maxDistance (crs_run (crs_new g0) ops) = Ok xmax /\ xval xmax = Some rmax /\
    is_max (map (fun o => map (euclid o) dp) fp) rmax /\
    crs_minDistance (crs_run (crs_new g0) ops) = Ok xmin /\ xval xmin = Some rmin /\
    is_min (map (fun o => map (euclid o) dp) fp) rmin.
Proof.
  intros g0 ops pl fp dp OM L D G Nf Nd B.
  pose proof (run_par ops (crs_new g0) (new_consistent g0) OM) as P. rewrite L in P.
  apply param_of_describes in D. rewrite D in P.
  pose proof (run_consistent ops (crs_new g0) (new_consistent g0)) as K. unfold consistent in K.
  rewrite (run_geo ops (crs_new g0) (new_consistent g0)) in K. simpl in K. rewrite G in K.
  destruct (crs_max_euclid _ _ _ K P Nf Nd) as (m & r & A1 & A2 & A3).
  destruct (crs_min_euclid _ _ _ K P Nf Nd B) as (m' & r' & B1 & B2 & B3).
  exists m, r, m', r'; repeat split; auto; try apply A3; apply B3.
Qed.

Lemma C14_onedim_main : forall (fp dp : list R), fp <> [] -> dp <> [] ->
  (forall o p, In o fp -> In p dp -> Rabs (p - o) <= DBL_MAX) ->
  exists xmax rmax xmin rmin,
    onedim_maxDistance (Some (fp, dp)) = Ok xmax /\ xval xmax = Some rmax /\
    is_max (map (fun o => map (fun p => Rabs (p - o)) dp) fp) rmax /\
    onedim_minDistance (Some (fp, dp)) = Ok xmin /\ xval xmin = Some rmin /\
    is_min (map (fun o => map (fun p => Rabs (p - o)) dp) fp) rmin.
Proof.
  intros fp dp Nf Nd B. unfold onedim_maxDistance, onedim_minDistance.
  assert (Forall2 xvals (map (fun x => map (fun d => XF (Rabs (d - x))) dp) fp)
     (map (fun o => map (fun p => Rabs (p - o)) dp) fp)) as F.
  { apply Forall2_rows. intros a _. apply (xvals_map_XF' (fun d => Rabs (d - a))). }
  assert (Forall (fun r => r <> []) (map (fun o => map (fun p => Rabs (p - o)) dp) fp)) as N.
  { apply rows_nonempty. intros. destruct dp; [congruence|discriminate]. }
  assert (map (fun o => map (fun p => Rabs (p - o)) dp) fp <> []) as NE by (destruct fp; [congruence|discriminate]).
  destruct (max_loop_is_max _ _ F N NE) as (m & r & A1 & A2 & A3).
  { intros l d Hl Hd. apply in_map_iff in Hl as (o & <- & Io). apply in_map_iff in Hd as (p & <- & Ip). apply Rabs_pos. }
  destruct (min_loop_is_min _ _ F N NE) as (m' & r' & B1 & B2 & B3).
  { intros l d Hl Hd. apply in_map_iff in Hl as (o & <- & Io). apply in_map_iff in Hd as (p & <- & Ip). auto. }
  exists m, r, m', r'; repeat split; auto; try apply A3; apply B3.
Qed.

(** ** Minkowski *)
Lemma Reqb_refl x : Reqb x x = true.
Proof. apply Reqb_true; auto. Qed.
Lemma Reqb_neq x y : x <> y -> Reqb x y = false.
Proof. apply Reqb_false. Qed.

Definition mink_pt (m : mink) (p : point) : point :=
  if (negb (Reqb (k_poly m) 2) && negb (Reqb (k_theta m) 0))%bool then rotate (k_theta m) p else p.

Lemma mink_values m fp dp f o : c_par (k_crs m) = Some (fp, dp) -> c_geo (k_crs m) = false ->
  nth_error fp f = Some o ->
  mink_distance m f =
    if Reqb (k_poly m) 1 then Ok (map (fun p => XF (chebyshev (mink_pt m o) (mink_pt m p))) dp)
    else if Reqb (k_poly m) (-1) then Ok (map (fun p => XF (manhattan (mink_pt m o) (mink_pt m p))) dp)
    else Throw.
Proof.
  intros P G N. unfold mink_distance. rewrite P, G, N. unfold mink_pt.
  destruct (_ && _)%bool; destruct (Reqb (k_poly m) 1), (Reqb (k_poly m) (-1)); auto;
    unfold ChessDistance, ManhattonDist; rewrite ?map_map; auto.
Qed.

Lemma mink_pt_isometry m o p : euclid (mink_pt m o) (mink_pt m p) = euclid o p.
Proof. unfold mink_pt. destruct (_ && _)%bool; auto. apply euclid_rotate. Qed.

Lemma C17_bound_main : forall p theta fp dp f o v,
  (p = 1 \/ p = -1) ->
  let m := mkMink (mkCrs false CalcEuclid (Some (fp, dp))) p theta in
  dp <> [] -> nth_error fp f = Some o -> mink_distance m f = Ok v ->
  (forall o p, In o fp -> In p dp -> euclid o p <= DBL_MAX) ->
  exists xb b, xval xb = Some b /\
   (if Reqb p 1
    then mink_maxDistance m = Ok xb /\ forall d x, In x v -> xval x = Some d -> d <= b
    else mink_minDistance m = Ok xb /\ forall d x, In x v -> xval x = Some d -> b <= d).
Proof.
  intros p theta fp dp f o v Hp m Nd N E B.
  assert (Nf : fp <> []) by (destruct fp; [destruct f; discriminate|discriminate]).
  rewrite (mink_values m fp dp f o eq_refl eq_refl N) in E. simpl in E.
  assert (In o fp) as Io by (eapply nth_error_In; eauto).
  destruct Hp as [->| ->].
  - rewrite Reqb_refl in *. inversion E; subst; clear E.
    destruct (crs_max_euclid (k_crs m) fp dp eq_refl eq_refl Nf Nd) as (xm & b & E1 & V & M & _).
    exists xm, b. split; auto. split; auto. intros d x I Vx.
    apply in_map_iff in I as (q & <- & Iq). simpl in Vx. inversion Vx; subst.
    eapply Rle_trans; [apply chebyshev_le_euclid|]. rewrite mink_pt_isometry.
    apply (M (map (euclid o) dp)); [apply (in_map (fun o => map (euclid o) dp)); auto|apply in_map; auto].
  - assert (Reqb (-1) 1 = false) as N1 by (apply Reqb_false; lra). rewrite N1 in *. rewrite Reqb_refl in *.
    inversion E; subst; clear E.
    destruct (crs_min_euclid (k_crs m) fp dp eq_refl eq_refl Nf Nd B) as (xm & b & E1 & V & M & _).
    exists xm, b. split; auto. split; auto. intros d x I Vx.
    apply in_map_iff in I as (q & <- & Iq). simpl in Vx. inversion Vx; subst.
    eapply Rle_trans; [|apply euclid_le_manhattan]. rewrite mink_pt_isometry.
    apply (M (map (euclid o) dp)); [apply (in_map (fun o => map (euclid o) dp)); auto|apply in_map; auto].
Qed.

(** ** Space-time distance *)
Lemma st_entry_future ob lambda angle s t : xval t <> None -> xltb t (XF 0) = true ->
  st_entry ob lambda angle s t = XF (10 ^ 13).
Proof. intros _ E. unfold st_entry. rewrite E. auto. Qed.

Lemma st_entry_past ob lambda angle xs xt s t : 0 <= lambda <= 1 -> xval xs = Some s -> xval xt = Some t ->
  0 <= s -> 0 <= t ->
  xval (st_entry ob lambda angle xs xt) =
    Some (lambda * s + (1 - lambda) * t +
          (if ob then 2 * sqrt (lambda * (1 - lambda) * s * t) * cos angle
           else 2 * sqrt (lambda * (1 - lambda) * s * t))).
Proof.
  intros L Hs Ht Ps Pt. unfold st_entry.
  rewrite (xltb_val xt (XF 0) t 0 Ht eq_refl).
  assert (Rltb t 0 = false) as -> by (apply Rltb_false; auto).
  assert (0 <= lambda * (1 - lambda)) by nra.
  assert (0 <= lambda * (1 - lambda) * s) by nra.
  assert (0 <= lambda * (1 - lambda) * s * t) by nra.
  assert (xval (xmul (XF 2) (xsqrt (xmul (xmul (XF (lambda * (1 - lambda))) xs) xt))) =
    Some (2 * sqrt (lambda * (1 - lambda) * s * t))) as R.
  { apply xval_xmul; auto. apply xval_xsqrt; auto. apply xval_xmul; auto. apply xval_xmul; auto. }
  destruct ob; (apply xval_xadd; [apply xval_xadd; apply xval_xmul; auto|]).
  - apply xval_xmul; auto.
  - exact R.
Qed.

Lemma vzip_ok f a b : length a = length b ->
  exists r, vzip f a b = Ok r /\ length r = length a /\
  forall i x y, nth_error a i = Some x -> nth_error b i = Some y -> nth_error r i = Some (f x y).
Proof.
  revert b; induction a; intros [|y b] H; try discriminate; simpl.
  - exists []; repeat split; auto. intros [|]; discriminate.
  - inversion H. destruct (IHa _ H1) as (r & E & L & F). rewrite E. simpl.
    exists (f a y :: r); repeat split; simpl; auto.
    intros [|i] x z; simpl; auto. intros A B; inversion A; inversion B; auto.
Qed.

Lemma st_formula_mono_s lambda s s' t : 0 <= lambda <= 1 -> 0 <= s <= s' -> 0 <= t ->
  st_formula lambda s t <= st_formula lambda s' t.
Proof.
  intros L S T. unfold st_formula. assert (0 <= lambda * (1 - lambda)) by nra.
  assert (sqrt (lambda * (1 - lambda) * s * t) <= sqrt (lambda * (1 - lambda) * s' * t)).
  { apply sqrt_le_1_alt. apply Rmult_le_compat_r; auto. apply Rmult_le_compat_l; lra. }
  assert (lambda * s <= lambda * s') by (apply Rmult_le_compat_l; lra). lra.
Qed.
Lemma st_formula_mono_t lambda s t t' : 0 <= lambda <= 1 -> 0 <= s -> 0 <= t <= t' ->
  st_formula lambda s t <= st_formula lambda s t'.
Proof.
  intros L S T. unfold st_formula. assert (0 <= lambda * (1 - lambda)) by nra.
  assert (sqrt (lambda * (1 - lambda) * s * t) <= sqrt (lambda * (1 - lambda) * s * t')).
  { apply sqrt_le_1_alt. apply Rmult_le_compat_l; try nra. }
  assert ((1 - lambda) * t <= (1 - lambda) * t') by (apply Rmult_le_compat_l; lra). lra.
Qed.
Lemma st_formula_nonneg lambda s t : 0 <= lambda <= 1 -> 0 <= s -> 0 <= t -> 0 <= st_formula lambda s t.
Proof.
  intros. unfold st_formula. pose proof (sqrt_pos (lambda * (1 - lambda) * s * t)).
  assert (0 <= lambda * s) by nra. assert (0 <= (1 - lambda) * t) by nra. lra.
Qed.
Lemma st_formula_0 s t : st_formula 0 s t = t.
Proof. unfold st_formula. replace (0 * (1 - 0) * s * t) with 0 by ring. rewrite sqrt_0. ring. Qed.
Lemma st_formula_1 s t : st_formula 1 s t = s.
Proof. unfold st_formula. replace (1 * (1 - 1) * s * t) with 0 by ring. rewrite sqrt_0. ring. Qed.

(** Full functional description for a parameterised orthogonal object. *)
Lemma C18_main : forall lambda fp dp tfp tdp f o tf,
  0 <= lambda <= 1 -> (lambda = 1 \/ lambda <= 1 - / 10 ^ 16) ->
  length dp = length tdp -> nth_error fp f = Some o -> nth_error tfp f = Some tf ->
  let d := mkST (mkCrs false CalcEuclid (Some (fp, dp))) (Some (tfp, tdp)) lambda (PI / 2) false
                (Some (length fp)) in
  exists v, st_distance d f = Ok v /\ length v = length dp /\
    forall i p t, nth_error dp i = Some p -> nth_error tdp i = Some t ->
      exists x r, nth_error v i = Some x /\ xval x = Some r /\
        (lambda < 1 -> tf < t -> r = 10 ^ 13) /\
        (t <= tf -> r = st_formula lambda (euclid o p) (tf - t)) /\
        (lambda = 1 -> r = euclid o p) /\
        (lambda = 0 -> t <= tf -> r = tf - t).
Proof.
  intros lambda fp dp tfp tdp f o tf L L1 LEN Nf Nt d.
  unfold st_distance, d. cbn -[pow]. unfold crs_distance; cbn -[pow]. rewrite Nf. cbn -[pow].
  assert (0 < / 10 ^ 16) as E16 by (apply Rinv_0_lt_compat, pow_lt; lra).
  destruct (Rltb (Rabs (lambda - 1)) (/ 10 ^ 16)) eqn:EL.
  - apply Rltb_true in EL. assert (lambda = 1).
    { destruct L1; auto. rewrite Rabs_minus_sym, Rabs_right in EL by lra. lra. }
    subst. rewrite Nt. cbn -[pow].
    destruct (vzip_ok (st_entry false 1 (PI / 2)) (EuclideanDistance o dp)
      (map (fun d => XF (Rabs (d - tf))) tdp)) as (r & E & LR & F).
    { unfold EuclideanDistance. rewrite !map_length; auto. }
    exists r. split; auto. unfold EuclideanDistance in LR. rewrite map_length in LR. split; auto.
    intros i p t Ei Et. pose proof (F i (XF (euclid o p)) (XF (Rabs (t - tf)))) as Fi.
    unfold EuclideanDistance in Fi. rewrite (map_nth_error _ _ _ Ei), (map_nth_error _ _ _ Et) in Fi.
    specialize (Fi eq_refl eq_refl).
    pose proof (st_entry_past false 1 (PI / 2) (XF (euclid o p)) (XF (Rabs (t - tf))) _ _ ltac:(lra) eq_refl eq_refl
      (euclid_nonneg o p) (Rabs_pos _)) as V. cbv iota in V.
    do 2 eexists; split; [exact Fi|]. split; [exact V|].
    replace (1 * (1 - 1) * euclid o p * Rabs (t - tf)) with 0 by ring. rewrite sqrt_0.
    split; [lra|]. split; [intros; rewrite st_formula_1; ring|]. split; [intros; ring|lra].
  - apply Rltb_false in EL. assert (lambda <= 1 - / 10 ^ 16) as L2.
    { destruct L1 as [->|]; auto. rewrite Rminus_diag_eq, Rabs_R0 in EL; lra. }
    rewrite Nt. cbn -[pow].
    destruct (vzip_ok (st_entry false lambda (PI / 2)) (EuclideanDistance o dp)
      (map (fun d => XF (tf - d)) tdp)) as (r & E & LR & F).
    { unfold EuclideanDistance. rewrite !map_length; auto. }
    exists r. split; auto. unfold EuclideanDistance in LR. rewrite map_length in LR. split; auto.
    intros i p t Ei Et. pose proof (F i (XF (euclid o p)) (XF (tf - t))) as Fi.
    unfold EuclideanDistance in Fi. rewrite (map_nth_error _ _ _ Ei), (map_nth_error _ _ _ Et) in Fi.
    specialize (Fi eq_refl eq_refl).
    destruct (Rlt_dec tf t) as [Lt|Ge].
    + assert (st_entry false lambda (PI / 2) (XF (euclid o p)) (XF (tf - t)) = XF (10 ^ 13)) as V.
      { unfold st_entry. rewrite (xltb_val (XF (tf - t)) (XF 0) (tf - t) 0 eq_refl eq_refl).
        assert (Rltb (tf - t) 0 = true) as -> by (apply Rltb_true; lra). auto. }
      rewrite V in Fi. exists (XF (10 ^ 13)), (10 ^ 13).
      split; [exact Fi|]. split; [reflexivity|]. repeat split; intros; auto; lra.
    + pose proof (st_entry_past false lambda (PI / 2) (XF (euclid o p)) (XF (tf - t)) _ _ L eq_refl eq_refl
        (euclid_nonneg o p) ltac:(lra)) as V. cbv iota in V.
      do 2 eexists; split; [exact Fi|]. split; [exact V|]. fold (st_formula lambda (euclid o p) (tf - t)).
      split; [lra|]. split; [auto|]. split; [lra|]. intros -> _. apply st_formula_0.
Qed.

(** setLambda histories. *)
Lemma C18_lambda_main : forall d ls,
  (s_lambda (st_sets d ls) = s_lambda d \/ 0 <= s_lambda (st_sets d ls) <= 1) /\
  (forall l, snd (st_setLambda (st_sets d ls) l) = Ok tt <-> 0 <= l <= 1) /\
  (forall l, 0 <= l <= 1 -> s_lambda (fst (st_setLambda (st_sets d ls) l)) = l) /\
  (forall l, ~ 0 <= l <= 1 -> fst (st_setLambda (st_sets d ls) l) = st_sets d ls).
Proof.
  intros d ls.
  assert (forall (d : crsst) l, (Rleb 0 l && Rleb l 1)%bool = true <-> 0 <= l <= 1) as T.
  { intros _ l. rewrite andb_true_iff, !Rleb_true. tauto. }
  split; [|split; [|split]].
  - revert d; induction ls; intros d; auto.
    change (st_sets d (a :: ls)) with (st_sets (fst (st_setLambda d a)) ls).
    destruct (IHls (fst (st_setLambda d a))) as [H|H]; auto. rewrite H.
    unfold st_setLambda. destruct (Rleb 0 a && Rleb a 1)%bool eqn:E; auto.
    apply (T d) in E. right. auto.
  - intros l. unfold st_setLambda. destruct (Rleb 0 l && Rleb l 1)%bool eqn:E; simpl.
    + apply (T d) in E. tauto.
    + split; [discriminate|]. intros H. apply (T d) in H. congruence.
  - intros l H. unfold st_setLambda. apply (T d) in H. rewrite H. auto.
  - intros l H. unfold st_setLambda. destruct (Rleb 0 l && Rleb l 1)%bool eqn:E; auto.
    apply (T d) in E. contradiction.
Qed.

(** ** API level statements *)
Lemma points_coords ps : points (coords ps) = ps.
Proof.
  unfold points, coords; simpl. induction ps as [|p ps IH]; simpl; auto.
  destruct p as [x y]; simpl. rewrite <- seq_shift, map_map. simpl. rewrite IH. reflexivity.
Qed.
Lemma planar_eq fp dp : planar fp dp = mkCrs false CalcEuclid (Some (fp, dp)).
Proof. unfold planar, crs_makeParameter. simpl. rewrite !points_coords. reflexivity. Qed.
Lemma entry_planar fp dp i j o p : nth_error fp i = Some o -> nth_error dp j = Some p ->
  entry (crs_distance (planar fp dp) i) j (euclid o p).
Proof.
  intros A B. rewrite planar_eq. unfold entry, crs_distance; simpl. rewrite A.
  exists (EuclideanDistance o dp), (XF (euclid o p)). split; [reflexivity|]. split; [|reflexivity].
  unfold EuclideanDistance. apply (map_nth_error (fun p => XF (euclid o p))). auto.
Qed.
Lemma entry_fun o j a b : entry o j a -> entry o j b -> a = b.
Proof. unfold entry. intros (v & x & -> & N & V) (v' & x' & E & N' & V'). inversion E; subst. congruence. Qed.
Lemma nth_some {A} (l : list A) i : (i < length l)%nat -> exists x, nth_error l i = Some x.
Proof. intros H. destruct (nth_error l i) eqn:E; eauto. apply nth_error_None in E. lia. Qed.

Lemma C12_metric_main : forall pts i j k,
  (i < length pts)%nat -> (j < length pts)%nat -> (k < length pts)%nat ->
  exists dij dji djk dik,
    entry (crs_distance (planar pts pts) i) j dij /\ entry (crs_distance (planar pts pts) j) i dji /\
    entry (crs_distance (planar pts pts) j) k djk /\ entry (crs_distance (planar pts pts) i) k dik /\
    0 <= dij /\ (dij = 0 <-> nth_error pts i = nth_error pts j) /\ dij = dji /\ dik <= dij + djk.
Proof.
  intros pts i j k Hi Hj Hk.
  destruct (nth_some pts i Hi) as [a A], (nth_some pts j Hj) as [b B], (nth_some pts k Hk) as [c C].
  exists (euclid a b), (euclid b a), (euclid b c), (euclid a c).
  do 4 (split; [apply entry_planar; auto|]). split; [apply euclid_nonneg|].
  split; [|split; [apply euclid_sym|apply euclid_triangle]].
  rewrite euclid_zero, A, B. split; [congruence|intros H; inversion H; auto].
Qed.
Lemma C12_invariance_main : forall theta t fp dp i j d,
  entry (crs_distance (planar fp dp) i) j d ->
  entry (crs_distance (planar (map (move theta t) fp) (map (move theta t) dp)) i) j d.
Proof.
  intros theta t fp dp i j d E. assert (exists o p, nth_error fp i = Some o /\ nth_error dp j = Some p) as (o & p & A & B).
  { destruct E as (v & x & E & N & V). rewrite planar_eq in E. unfold crs_distance in E; simpl in E.
    destruct (nth_error fp i) as [o|]; [|discriminate]. inversion E; subst.
    destruct (nth_error dp j) as [p|] eqn:B; eauto.
    apply nth_error_None in B. assert (nth_error (EuclideanDistance o dp) j = None).
    { apply nth_error_None. unfold EuclideanDistance. rewrite map_length; auto. } congruence. }
  rewrite (entry_fun _ _ _ _ E (entry_planar _ _ _ _ _ _ A B)).
  replace (euclid o p) with (euclid (move theta t o) (move theta t p)).
  - apply entry_planar; apply map_nth_error; auto.
  - change (euclid (translate t (rotate theta o)) (translate t (rotate theta p)) = euclid o p).
    rewrite euclid_translate. apply euclid_rotate.
Qed.

Lemma st_api lambda fp dp tfp tdp n :
  length fp = n -> length dp = n -> length tfp = n -> length tdp = n ->
  spacetime lambda fp dp tfp tdp =
    mkST (mkCrs false CalcEuclid (Some (fp, dp))) (Some (tfp, tdp)) lambda (PI / 2) false (Some (length fp)).
Proof.
  intros A B C D. unfold spacetime, st_makeParameter, st_new. simpl.
  rewrite A, B, C, D, !Nat.eqb_refl. simpl. rewrite !points_coords. reflexivity.
Qed.
Lemma st_makeParameter_Ok lambda fp dp tfp tdp n :
  length fp = n -> length dp = n -> length tfp = n -> length tdp = n ->
  snd (st_makeParameter (st_new (crs_new false) onedim_new lambda)
         [PMat (coords fp); PMat (coords dp); PVec tfp; PVec tdp]) = Ok tt.
Proof.
  intros A B C D. unfold st_makeParameter, st_new. simpl.
  rewrite A, B, C, D, !Nat.eqb_refl. reflexivity.
Qed.

Lemma C18_api_main : forall lambda fp dp tfp tdp n f i o p tf t,
  0 <= lambda <= 1 -> (lambda = 1 \/ lambda <= 1 - / 10 ^ 16) ->
  length fp = n -> length dp = n -> length tfp = n -> length tdp = n ->
  nth_error fp f = Some o -> nth_error tfp f = Some tf ->
  nth_error dp i = Some p -> nth_error tdp i = Some t ->
  exists r, entry (st_distance (spacetime lambda fp dp tfp tdp) f) i r /\
    (lambda < 1 -> tf < t -> r = 10 ^ 13) /\
    (t <= tf -> r = st_formula lambda (euclid o p) (tf - t)) /\
    (lambda = 1 -> r = euclid o p) /\
    (lambda = 0 -> t <= tf -> r = tf - t) /\
    0 <= r.
Proof.
  intros lambda fp dp tfp tdp n f i o p tf t L L1 A B C D Nf Nt Nd Ndt.
  rewrite (st_api lambda fp dp tfp tdp n A B C D).
  destruct (C18_main lambda fp dp tfp tdp f o tf L L1 ltac:(congruence) Nf Nt) as (v & E & _ & F).
  destruct (F i p t Nd Ndt) as (x & r & N & V & R1 & R2 & R3 & R4).
  exists r. split; [exists v, x; auto|]. do 4 (split; auto).
  destruct (Rle_dec t tf) as [T|T].
  - rewrite R2 by auto. apply st_formula_nonneg; auto; [apply euclid_nonneg|lra].
  - destruct (Req_EM_T lambda 1) as [->|].
    + rewrite R3 by auto. apply euclid_nonneg.
    + rewrite R1 by lra. apply pow_le; lra.
Qed.
Lemma C18_mono_main : forall lambda s t s' t', 0 <= lambda <= 1 -> 0 <= s <= s' -> 0 <= t <= t' ->
  0 <= st_formula lambda s t <= st_formula lambda s' t'.
Proof.
  intros. split; [apply st_formula_nonneg; lra|].
  eapply Rle_trans; [apply st_formula_mono_s with (s' := s')|apply st_formula_mono_t]; lra.
Qed.

(** Central angle. *)
Lemma cos_2a' x : cos (2 * x) = 1 - 2 * (sin x ^ 2).
Proof. rewrite cos_2a_sin. ring. Qed.
Lemma central_cos lon1 lon2 lat1 lat2 :
  1 - 2 * gc_S lon1 lon2 lat1 lat2 =
  sin (rad lat1) * sin (rad lat2) + cos (rad lat1) * cos (rad lat2) * cos (rad lon1 - rad lon2).
Proof.
  unfold gc_S, gc_F, gc_G, gc_L, gc_de2ra, rad.
  set (a := lat1 * (PI / 180)); set (b := lat2 * (PI / 180)).
  set (l := lon1 * (PI / 180)); set (m := lon2 * (PI / 180)).
  assert (sin ((a - b) / 2) ^ 2 = (1 - cos (a - b)) / 2) as ->.
  { replace (cos (a - b)) with (cos (2 * ((a - b) / 2))) by (f_equal; field). rewrite cos_2a'. field. }
  assert (cos ((a + b) / 2) ^ 2 = (1 + cos (a + b)) / 2) as ->.
  { replace (cos (a + b)) with (cos (2 * ((a + b) / 2))) by (f_equal; field). rewrite cos_2a_cos. field. }
  assert (sin ((l - m) / 2) ^ 2 = (1 - cos (l - m)) / 2) as ->.
  { replace (cos (l - m)) with (cos (2 * ((l - m) / 2))) by (f_equal; field). rewrite cos_2a'. field. }
  assert (cos ((l - m) / 2) ^ 2 = (1 + cos (l - m)) / 2) as ->.
  { replace (cos (l - m)) with (cos (2 * ((l - m) / 2))) by (f_equal; field). rewrite cos_2a_cos. field. }
  rewrite cos_plus. rewrite (cos_minus a b). field.
Qed.
Lemma C13_accurate_main : forall lon1 lon2 lat1 lat2 theta,
  central_angle lon1 lon2 lat1 lat2 theta -> 0 < theta < PI ->
  ~ (Rabs (lat1 - lat2) < / 10 ^ 8 /\
     (Rabs (lon1 - lon2) < / 10 ^ 8 \/ Rabs (Rabs lon1 + Rabs lon2 - 360) < / 10 ^ 8)) ->
  exists d, xval (SpGcdist lon1 lon2 lat1 lat2) = Some d /\ 0 < d /\
    Rabs (d - equatorial_radius_km * theta) <= 3 * flattening * (equatorial_radius_km * theta).
Proof.
  intros lon1 lon2 lat1 lat2 theta [T1 T2] T NS.
  rewrite <- central_cos in T2.
  assert (cos theta = 1 - 2 * sin (theta / 2) ^ 2) as CT.
  { replace theta with (2 * (theta / 2)) at 1 by field. apply cos_2a'. }
  assert (gc_S lon1 lon2 lat1 lat2 = sin (theta / 2) ^ 2) as ES by lra.
  assert (0 < sin (theta / 2)) as P1 by (apply sin_gt_0; lra).
  assert (0 < cos (theta / 2)) as P2 by (apply cos_gt_0; lra).
  pose proof (gc_sum lon1 lon2 lat1 lat2) as SC.
  assert (gc_C lon1 lon2 lat1 lat2 = cos (theta / 2) ^ 2) as EC.
  { pose proof (sin2_cos2' (theta / 2)). lra. }
  assert (PS : 0 < gc_S lon1 lon2 lat1 lat2) by (rewrite ES; apply pow_lt; auto).
  assert (PC : 0 < gc_C lon1 lon2 lat1 lat2) by (rewrite EC; apply pow_lt; auto).
  destruct (gc_formula_near _ _ _ _ PS PC) as (d & V & Pw & B).
  assert (gc_shortcut lon1 lon2 lat1 lat2 = false) as SH.
  { destruct (gc_shortcut lon1 lon2 lat1 lat2) eqn:E; auto. exfalso. apply NS.
    unfold gc_shortcut in E. apply andb_true_iff in E as [E1 E2]. apply Rltb_true in E1. split; auto.
    apply orb_true_iff in E2 as [E2|E2]; apply Rltb_true in E2; auto. }
  unfold SpGcdist. rewrite SH.
  assert (atan (sqrt (gc_S lon1 lon2 lat1 lat2 / gc_C lon1 lon2 lat1 lat2)) = theta / 2) as W.
  { rewrite ES, EC. replace (sin (theta / 2) ^ 2 / cos (theta / 2) ^ 2) with (Rsqr (tan (theta / 2))).
    - assert (0 < tan (theta / 2)) by (apply tan_gt_0; lra).
      rewrite sqrt_Rsqr by lra. apply atan_tan. lra.
    - unfold tan, Rsqr. field. lra. }
  rewrite W in *. exists d. split; auto.
  replace (2 * gc_a * (theta / 2)) with (gc_a * theta) in B by field.
  change equatorial_radius_km with gc_a. 
  assert (flattening = gc_f) as -> by (unfold flattening, gc_f; field).
  split; auto.
  pose proof gc_f_range. assert (0 < gc_a) by (unfold gc_a; lra).
  assert (3 * gc_f < 1) by lra.
  assert (0 < gc_a * theta) by nra.
  assert (Q : Rabs (d - gc_a * theta) < gc_a * theta) by nra.
  apply Rabs_def2 in Q. lra.
Qed.

(** Extremes in terms of the values distance() returns, for either mode. *)
Lemma C14_general_main : forall c fp dp rows,
  c_par c = Some (fp, dp) -> length rows = length fp -> rows <> [] ->
  (forall i r, nth_error rows i = Some r -> r <> [] /\
     exists v, crs_distance c i = Ok v /\ xvals v r) ->
  (forall r d, In r rows -> In d r -> 0 <= d <= DBL_MAX) ->
  exists xmax rmax xmin rmin,
    crs_maxDistance c = Ok xmax /\ xval xmax = Some rmax /\ is_max rows rmax /\
    crs_minDistance c = Ok xmin /\ xval xmin = Some rmin /\ is_min rows rmin.
Proof.
  intros c fp dp rows P L NE H B. unfold crs_maxDistance, crs_minDistance. rewrite P.
  assert (Forall2 xvals (map (fun o => calc_fn (c_calc c) o dp) fp) rows) as F.
  { unfold crs_distance in H. rewrite P in H. clear P NE B. revert rows L H.
    induction fp as [|o fp IH]; intros [|r rows] L H; try discriminate; simpl; constructor.
    - destruct (H 0%nat r eq_refl) as (_ & v & E & V). simpl in E. inversion E; subst; auto.
    - apply IH; [simpl in L; lia|]. intros i r' N. apply (H (S i) r' N). }
  assert (Forall (fun r => r <> []) rows) as N.
  { apply Forall_forall. intros r I. apply In_nth_error in I as [i I]. apply (H i r I). }
  destruct (max_loop_is_max _ _ F N NE) as (m & r & A1 & A2 & A3). { intros; apply (B l d); auto. }
  destruct (min_loop_is_min _ _ F N NE) as (m' & r' & B1 & B2 & B3). { intros; apply (B l d); auto. }
  exists m, r, m', r'; repeat split; auto; try apply A3; apply B3.
Qed.

Lemma C15_range_main :
  (forall c f v, crs_distance c f = Ok v -> exists fp dp, c_par c = Some (fp, dp) /\ (f < length fp)%nat) /\
  (forall m f v, mink_distance m f = Ok v -> exists fp dp, c_par (k_crs m) = Some (fp, dp) /\ (f < length fp)%nat) /\
  (forall o f v, onedim_distance o f = Ok v -> exists fp dp, o = Some (fp, dp) /\ (f < length fp)%nat) /\
  (forall d f v, st_distance d f = Ok v -> exists fp dp tfp tdp, c_par (s_spatial d) = Some (fp, dp) /\
     s_temporal d = Some (tfp, tdp) /\ (f < length fp)%nat /\ (f < length tfp)%nat) /\
  (forall d f v, dmatd_distance d f = Ok v -> exists r n, d = Some (r, n) /\ (f < n)%nat).
Proof.
  assert (forall A (l : list A) i x, nth_error l i = Some x -> (i < length l)%nat) as NL.
  { intros A l i x E. apply nth_error_Some. congruence. }
  assert (forall c f v, crs_distance c f = Ok v -> exists fp dp, c_par c = Some (fp, dp) /\ (f < length fp)%nat) as CR.
  { intros c f v. unfold crs_distance. destruct (c_par c) as [[fp dp]|]; [|discriminate].
    destruct (nth_error fp f) eqn:E; [|discriminate]. intros _. exists fp, dp. eauto. }
  assert (forall o f v, onedim_distance o f = Ok v -> exists fp dp, o = Some (fp, dp) /\ (f < length fp)%nat) as OD.
  { intros o f v. unfold onedim_distance. destruct o as [[fp dp]|]; [|discriminate].
    destruct (nth_error fp f) eqn:E; [|discriminate]. intros _. exists fp, dp. eauto. }
  assert (forall o f v, onedim_noAbs o f = Ok v -> exists fp dp, o = Some (fp, dp) /\ (f < length fp)%nat) as ON.
  { intros o f v. unfold onedim_noAbs. destruct o as [[fp dp]|]; [|discriminate].
    destruct (nth_error fp f) eqn:E; [|discriminate]. intros _. exists fp, dp. eauto. }
  split; [auto|]. split; [|split; [auto|split]].
  - intros m f v. unfold mink_distance. destruct (c_par (k_crs m)) as [[fp dp]|] eqn:P; [|discriminate].
    destruct (c_geo (k_crs m)).
    + intros E. destruct (CR _ _ _ E) as (a & b & Q & ?). rewrite P in Q. inversion Q; subst. eauto.
    + destruct (nth_error fp f) eqn:E; [|discriminate]. intros _. exists fp, dp. eauto.
  - intros d f v. unfold st_distance. destruct (crs_distance (s_spatial d) f) as [sd| |] eqn:E1; try discriminate.
    destruct (CR _ _ _ E1) as (fp & dp & P & L). simpl.
    destruct (Rltb _ _).
    + destruct (onedim_distance (s_temporal d) f) as [td| |] eqn:E2; try discriminate.
      destruct (OD _ _ _ E2) as (tfp & tdp & Q & L'). intros _. exists fp, dp, tfp, tdp. auto.
    + destruct (onedim_noAbs (s_temporal d) f) as [td| |] eqn:E2; try discriminate.
      destruct (ON _ _ _ E2) as (tfp & tdp & Q & L'). intros _. exists fp, dp, tfp, tdp. auto.
  - intros d f v. unfold dmatd_distance. destruct d as [[r n]|]; [|discriminate].
    destruct (n <=? f)%nat eqn:E; [discriminate|]. apply Nat.leb_gt in E. intros _. exists r, n; auto.
Qed.

(** The object after a history of OneDimDistance parameter calls whose arguments
    all have the vector alternative. *)
Lemma C15_onedim_main : forall (pls : list (list dparam)) f v,
  (forall pl, In pl pls -> Forall (fun p => exists x, p = PVec x) pl) ->
  onedim_distance (fold_left (fun o pl => fst (onedim_makeParameter o pl)) pls onedim_new) f = Ok v ->
  exists fp dp x pls', pls = pls' ++ [[PVec fp; PVec dp]] /\ nth_error fp f = Some x /\
    v = map (fun d => XF (Rabs (d - x))) dp.
Proof.
  intros pls f v. destruct (exists_last_or_nil pls) as [->|(pls' & pl & ->)]; [discriminate|].
  intros H. rewrite fold_left_app. simpl.
  assert (Forall (fun p => exists x, p = PVec x) pl) as F by (apply H, in_or_app; simpl; auto).
  unfold onedim_makeParameter at 1.
  destruct pl as [|a [|b [|c pl]]]; try (simpl; discriminate).
  inversion F as [|? ? [x ->] F1]; subst. inversion F1 as [|? ? [y ->] _]; subst. simpl.
  destruct (nth_error x f) as [z|] eqn:E; [|discriminate]. intros Q; inversion Q; subst.
  exists x, y, z, pls'. auto.
Qed.
