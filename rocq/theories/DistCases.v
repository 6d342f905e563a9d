(** Remaining lemmas and concrete cases for the distance properties. *)
From Coq Require Import Reals Bool List ZArith Lra Lia Psatz.
From Verif Require Import Outcome XReal XRealFacts DistModel DistSpec DistProofs DistProofs2.
Import ListNotations.
Local Open Scope R_scope.

Lemma sqrt_eq a b : 0 <= b -> a = b * b -> sqrt a = b.
Proof. intros H ->. apply sqrt_square; auto. Qed.
Lemma euclid_345 : euclid (0, 0) (3, 4) = 5.
Proof. unfold euclid; simpl. apply sqrt_eq; lra. Qed.
Lemma eps_small : 0 < / 10 ^ 8 < 1.
Proof. split; [apply DOUBLE_EPS_pos|]. simpl. lra. Qed.

Lemma C12_case_main :
  entry (crs_distance (planar [(0, 0); (3, 4); (6, 8)] [(0, 0); (3, 4); (6, 8)]) 0) 1 5.
Proof. rewrite <- euclid_345. apply entry_planar; reflexivity. Qed.

Lemma C13_symmetric_main : forall lon1 lon2 lat1 lat2,
  SpGcdist lon1 lon2 lat1 lat2 = SpGcdist lon2 lon1 lat2 lat1 /\ SpGcdist lon1 lon1 lat1 lat1 = XF 0.
Proof. intros. split; [apply SpGcdist_sym|apply SpGcdist_same]. Qed.
Lemma C13_case_main : central_angle 0 90 0 0 (PI / 2) /\ 0 < PI / 2 < PI /\
  ~ (Rabs (0 - 0) < / 10 ^ 8 /\
     (Rabs (0 - 90) < / 10 ^ 8 \/ Rabs (Rabs 0 + Rabs 90 - 360) < / 10 ^ 8)).
Proof.
  pose proof PI_RGT_0. split; [|split; [lra|]].
  - split; [lra|]. unfold rad. rewrite !Rmult_0_l, sin_0, cos_0, cos_PI2.
    replace (0 - 90 * (PI / 180)) with (- (PI / 2)) by field. rewrite cos_neg, cos_PI2. ring.
  - intros (_ & [H1|H1]); apply Rabs_def2 in H1; pose proof eps_small; [lra|].
    rewrite Rabs_R0, (Rabs_right 90) in H1 by lra. lra.
Qed.
Lemma C13_close_main : forall lon1 lon2 lat1 lat2,
  -180 <= lon1 <= 180 -> -180 <= lon2 <= 180 ->
  Rabs (lat1 - lat2) < / 10 ^ 8 /\
    (Rabs (lon1 - lon2) < / 10 ^ 8 \/ Rabs (Rabs lon1 + Rabs lon2 - 360) < / 10 ^ 8) ->
  Rabs (lat1 - lat2) < / 10 ^ 8 /\ exists k : Z, Rabs (lon1 - lon2 - 360 * IZR k) < / 10 ^ 8.
Proof.
  intros lon1 lon2 lat1 lat2 H1 H2 [A B]. apply C13_shortcut_main; auto.
  unfold gc_shortcut. apply andb_true_iff. split; [apply Rltb_true; auto|].
  apply orb_true_iff. destruct B; [left|right]; apply Rltb_true; auto.
Qed.
Lemma C13_refuted_main : exists lon1 lon2 lat1 lat2 theta,
  0 <= lon1 < 360 /\ 0 <= lon2 < 360 /\ central_angle lon1 lon2 lat1 lat2 theta /\
  theta = PI / 9 /\ SpGcdist lon1 lon2 lat1 lat2 = XF 0.
Proof.
  pose proof PI_RGT_0. exists 170, 190, 0, 0, (PI / 9). split; [lra|]. split; [lra|]. split; [|split; auto].
  - split; [lra|]. unfold rad. rewrite !Rmult_0_l, sin_0, cos_0.
    replace (170 * (PI / 180) - 190 * (PI / 180)) with (- (PI / 9)) by field. rewrite cos_neg. ring.
  - unfold SpGcdist. assert (gc_shortcut 170 190 0 0 = true) as ->; auto.
    unfold gc_shortcut. pose proof DOUBLE_EPS_pos. apply andb_true_iff. split.
    + apply Rltb_true. rewrite Rminus_0_r, Rabs_R0. auto.
    + apply orb_true_iff. right. apply Rltb_true. rewrite (Rabs_right 170), (Rabs_right 190) by lra.
      replace (170 + 190 - 360) with 0 by ring. rewrite Rabs_R0. auto.
Qed.

Lemma DBL_MAX_big : 10 <= DBL_MAX.
Proof. unfold DBL_MAX. apply IZR_le. vm_compute. discriminate. Qed.
Lemma C14_case_main :
  let ops := [SetGeographic true; MakeParameter [PMat (coords [(0, 0)])]; SetGeographic false;
              MakeParameter [PMat (coords [(0, 0); (1, 0)]); PMat (coords [(3, 4); (1, 0)])]; ReplaceByClone] in
  let pl := [PMat (coords [(0, 0); (1, 0)]); PMat (coords [(3, 4); (1, 0)])] in
  only_matrices ops /\ last_param ops = Some pl /\ describes pl [(0, 0); (1, 0)] [(3, 4); (1, 0)] /\
  last_geo ops true = false /\
  (forall o p, In o [(0, 0); (1, 0)] -> In p [(3, 4); (1, 0)] -> euclid o p <= DBL_MAX).
Proof.
  intros ops pl. split; [|split; [reflexivity|split; [|split; [reflexivity|]]]].
  - intros q I. unfold ops in I. simpl in I.
    repeat destruct I as [I|I]; try discriminate; try contradiction; inversion I; subst; repeat constructor; eauto.
  - exists (coords [(0, 0); (1, 0)]), (coords [(3, 4); (1, 0)]). rewrite !points_coords. auto.
  - intros o p Io Ip. pose proof DBL_MAX_big. eapply Rle_trans; [apply euclid_le_manhattan|].
    unfold manhattan. simpl in Io, Ip.
    destruct Io as [<-|[<-|[]]], Ip as [<-|[<-|[]]]; simpl;
      rewrite !Rabs_right by lra; lra.
Qed.

Lemma C15_refuted_main : exists c pl v,
  c = planar [(0, 0)] [(3, 4)] /\ snd (crs_makeParameter c pl) = Throw /\
  crs_distance (fst (crs_makeParameter c pl)) 0 = Ok v /\ v <> [].
Proof.
  exists (planar [(0, 0)] [(3, 4)]), [PVec [1]; PMat (coords [(1, 1)])], [XF (euclid (0, 0) (3, 4))].
  split; [reflexivity|]. split; [reflexivity|]. split; [|discriminate]. reflexivity.
Qed.
Lemma st_example : exists v, st_distance (spacetime (1/2) [(0, 0)] [(3, 4)] [5] [1]) 0 = Ok v /\ length v = 1%nat.
Proof.
  rewrite (st_api (1/2) _ _ _ _ 1) by reflexivity.
  assert (E : 1 / 2 <= 1 - / 10 ^ 16).
  { assert (/ 10 ^ 16 <= / 2) by (apply Rinv_le_contravar; [lra|]; simpl; lra). lra. }
  destruct (C18_main (1/2) [(0, 0)] [(3, 4)] [5] [1] 0 (0, 0) 5 ltac:(lra) (or_intror E) eq_refl eq_refl eq_refl)
    as (v & A & B & _). exists v. auto.
Qed.
Lemma C15_st_refuted_main : forall pl,
  length pl <> 4%nat ->
  let d := spacetime (1/2) [(0, 0)] [(3, 4)] [5] [1] in
  snd (st_makeParameter d pl) = Throw /\
  exists v, st_distance (fst (st_makeParameter d pl)) 0 = Ok v /\ length v = 1%nat.
Proof.
  intros pl N d. destruct st_example as (v & E & L). fold d in E.
  assert (st_makeParameter d pl =
    (mkST (s_spatial d) (s_temporal d) (s_lambda d) (s_angle d) (s_oblique d) None, Throw)) as ->.
  { destruct pl as [|? [|? [|? [|? [|? ?]]]]]; auto. simpl in N. lia. }
  split; [reflexivity|]. exists v. split; auto.
Qed.

Lemma C16_clone_main : forall g0 ops more f p theta,
  let c := crs_run (crs_new g0) ops in
  crs_distance (crs_run (crs_copy c) more) f = crs_distance (crs_run c more) f /\
  crs_maxDistance (crs_run (crs_copy c) more) = crs_maxDistance (crs_run c more) /\
  crs_minDistance (crs_run (crs_copy c) more) = crs_minDistance (crs_run c more) /\
  mink_distance (mink_copy (mkMink c p theta)) f = mink_distance (mkMink c p theta) f.
Proof.
  intros. assert (crs_copy c = c) as E by (apply crs_copy_id, run_consistent, new_consistent).
  unfold mink_copy. simpl. rewrite E. auto.
Qed.
Lemma C16_case_main : crs_distance (crs_copy (planar [(0, 0)] [(3, 4)])) 0 = Ok [XF (euclid (0, 0) (3, 4))].
Proof. rewrite planar_eq. reflexivity. Qed.
Lemma C16_refuted_main :
  (exists (o : onedim) v, onedim_distance o 0 = Ok v /\ onedim_distance (onedim_copy o) 0 = Throw) /\
  (exists (d d' : crsst) v, st_copy d = Ok d' /\ st_distance d 0 = Ok v /\ st_distance d' 0 = Throw) /\
  (exists (d : dmatd) v, dmatd_distance d 0 = Ok v /\ dmatd_distance (dmatd_copy d) 0 = Throw).
Proof.
  split; [|split].
  - exists (Some ([1], [2])), [XF (Rabs (2 - 1))]. split; reflexivity.
  - destruct st_example as (v & E & _). set (d := spacetime (1/2) [(0, 0)] [(3, 4)] [5] [1]) in *.
    exists d, (mkST (crs_copy (s_spatial d)) None (s_lambda d) (s_angle d) (s_oblique d) None), v.
    split; [|split; auto].
    + unfold st_copy.
      assert ((Rleb 0 (s_lambda d) && Rleb (s_lambda d) 1)%bool = true) as ->; auto.
      unfold d. rewrite (st_api (1/2) _ _ _ _ 1) by reflexivity. simpl.
      apply andb_true_iff. split; apply Rleb_true; lra.
    + unfold d. rewrite (st_api (1/2) _ _ _ _ 1) by reflexivity. unfold st_distance. cbn -[pow].
      destruct (Rltb _ _); reflexivity.
  - exists (Some (1, 1)%nat), []. split; reflexivity.
Qed.
Lemma C16_st_throw_main : forall s t lambda, ~ (0 <= lambda <= 1) ->
  st_copy (st_new s t lambda) = Throw.
Proof.
  intros s t l N. unfold st_copy; simpl. destruct (Rleb 0 l && Rleb l 1)%bool eqn:E; auto.
  apply andb_true_iff in E. rewrite !Rleb_true in E. tauto.
Qed.

Lemma C17_dispatch_main : forall p theta fp dp f o,
  nth_error fp f = Some o ->
  let m := mkMink (planar fp dp) p theta in
  let turn q := if Req_EM_T theta 0 then q else rotate theta q in
  (p = 1 -> mink_distance m f = Ok (map (fun q => XF (chebyshev (turn o) (turn q))) dp)) /\
  (p = -1 -> mink_distance m f = Ok (map (fun q => XF (manhattan (turn o) (turn q))) dp)) /\
  (p <> 1 -> p <> -1 -> mink_distance m f = Throw).
Proof.
  intros p theta fp dp f o N m turn.
  assert (E : p <> 2 -> forall q, mink_pt m q = turn q).
  { intros P q. unfold mink_pt, turn, m; simpl. rewrite (Reqb_neq p 2 P). simpl. unfold Reqb.
    destruct (Req_EM_T theta 0); auto. }
  assert (P : c_par (k_crs m) = Some (fp, dp)) by (unfold m; rewrite planar_eq; auto).
  assert (G : c_geo (k_crs m) = false) by (unfold m; rewrite planar_eq; auto).
  rewrite (mink_values m fp dp f o P G N). change (k_poly m) with p.
  split; [|split].
  - intros ->. rewrite Reqb_refl. f_equal. apply map_ext. intros q. rewrite !E by lra. auto.
  - intros ->. rewrite (Reqb_neq (-1) 1), Reqb_refl by lra. f_equal. apply map_ext. intros q. rewrite !E by lra. auto.
  - intros A B. rewrite !Reqb_neq by auto. auto.
Qed.
Lemma mink1_entry o q : entry (mink_distance (mkMink (planar [o] [q]) 1 0) 0) 0 (chebyshev o q).
Proof.
  destruct (C17_dispatch_main 1 0 [o] [q] 0 o eq_refl) as (A & _ & _). rewrite A by auto.
  destruct (Req_EM_T 0 0); [|contradiction].
  exists [XF (chebyshev o q)], (XF (chebyshev o q)). auto.
Qed.
Lemma minkm1_entry o q : entry (mink_distance (mkMink (planar [o] [q]) (-1) 0) 0) 0 (manhattan o q).
Proof.
  destruct (C17_dispatch_main (-1) 0 [o] [q] 0 o eq_refl) as (_ & A & _). rewrite A by auto.
  destruct (Req_EM_T 0 0); [|contradiction].
  exists [XF (manhattan o q)], (XF (manhattan o q)). auto.
Qed.
Lemma cheb_345 : chebyshev (0, 0) (3, 4) = 4.
Proof. unfold chebyshev; simpl. rewrite !Rabs_right by lra. rewrite Rmax_right; lra. Qed.
Lemma manh_345 : manhattan (0, 0) (3, 4) = 7.
Proof. unfold manhattan; simpl. rewrite !Rabs_right by lra. lra. Qed.
Lemma C17_refuted_main :
  (exists o q r, entry (mink_distance (mkMink (planar [o] [q]) 1 0) 0) 0 r /\ r <> manhattan o q) /\
  (forall theta fp dp f, mink_distance (mkMink (planar fp dp) 2 theta) f = Throw).
Proof.
  split.
  - exists (0, 0), (3, 4), (chebyshev (0, 0) (3, 4)). split; [apply mink1_entry|].
    rewrite cheb_345, manh_345. lra.
  - intros theta fp dp f. destruct (nth_error fp f) as [o|] eqn:N.
    + apply (C17_dispatch_main 2 theta fp dp f o N); lra.
    + unfold mink_distance. rewrite planar_eq. simpl. rewrite N. auto.
Qed.
Lemma C17_bounds_refuted_main :
  (exists fp dp r m xm, entry (mink_distance (mkMink (planar fp dp) 1 0) 0) 0 r /\
     mink_minDistance (mkMink (planar fp dp) 1 0) = Ok xm /\ xval xm = Some m /\ r < m) /\
  (exists fp dp r m xm, entry (mink_distance (mkMink (planar fp dp) (-1) 0) 0) 0 r /\
     mink_maxDistance (mkMink (planar fp dp) (-1) 0) = Ok xm /\ xval xm = Some m /\ m < r).
Proof.
  split.
  - exists [(0, 0)], [(3, 4)], (chebyshev (0, 0) (3, 4)), 5.
    destruct (crs_min_euclid (planar [(0, 0)] [(3, 4)]) [(0, 0)] [(3, 4)]) as (m & r & A & B & _ & (l & I & J)); try discriminate.
    1,2: rewrite planar_eq; reflexivity.
    { intros o p [<-|[]] [<-|[]]. rewrite euclid_345. pose proof DBL_MAX_big. lra. }
    exists m. split; [apply mink1_entry|]. split; auto.
    destruct I as [<-|[]]. destruct J as [<-|[]]. rewrite euclid_345 in B. split; auto. rewrite cheb_345. lra.
  - exists [(0, 0)], [(3, 4)], (manhattan (0, 0) (3, 4)), 5.
    destruct (crs_max_euclid (planar [(0, 0)] [(3, 4)]) [(0, 0)] [(3, 4)]) as (m & r & A & B & _ & (l & I & J)); try discriminate.
    1,2: rewrite planar_eq; reflexivity.
    exists m. split; [apply minkm1_entry|]. split; auto.
    destruct I as [<-|[]]. destruct J as [<-|[]]. rewrite euclid_345 in B. split; auto. rewrite manh_345. lra.
Qed.

Lemma C18_case_main :
  entry (st_distance (spacetime (1/2) [(0, 0); (1, 1)] [(3, 4); (0, 0)] [5; 0] [5; 9]) 0) 0 (5/2) /\
  entry (st_distance (spacetime (1/2) [(0, 0); (1, 1)] [(3, 4); (0, 0)] [5; 0] [5; 9]) 0) 1 (10 ^ 13).
Proof.
  assert (E : 1 / 2 <= 1 - / 10 ^ 16).
  { assert (/ 10 ^ 16 <= / 2) by (apply Rinv_le_contravar; [lra|]; simpl; lra). lra. }
  split.
  - destruct (C18_api_main (1/2) [(0, 0); (1, 1)] [(3, 4); (0, 0)] [5; 0] [5; 9] 2 0 0 (0, 0) (3, 4) 5 5
      ltac:(lra) (or_intror E) eq_refl eq_refl eq_refl eq_refl eq_refl eq_refl eq_refl eq_refl)
      as (r & A & _ & B & _). rewrite B in A by lra.
    replace (5 / 2) with (st_formula (1 / 2) (euclid (0, 0) (3, 4)) (5 - 5)); auto.
    rewrite euclid_345. unfold st_formula. rewrite (sqrt_eq _ 0); lra.
  - destruct (C18_api_main (1/2) [(0, 0); (1, 1)] [(3, 4); (0, 0)] [5; 0] [5; 9] 2 0 1 (0, 0) (0, 0) 5 9
      ltac:(lra) (or_intror E) eq_refl eq_refl eq_refl eq_refl eq_refl eq_refl eq_refl eq_refl)
      as (r & A & B & _). rewrite B in A by lra. auto.
Qed.
Lemma C18_oblique_main : forall s t lambda angle xs xt rs rt,
  0 <= lambda <= 1 -> xval xs = Some rs -> xval xt = Some rt -> 0 <= rs -> 0 <= rt ->
  let d := st_new_angle s t lambda angle in
  exists r, xval (st_entry (s_oblique d) (s_lambda d) (s_angle d) xs xt) = Some r /\
    lambda * rs + (1 - lambda) * rt <= r <= st_formula lambda rs rt.
Proof.
  intros s t lambda angle xs xt rs rt L Vs Vt Ps Pt d.
  change (s_lambda d) with lambda.
  rewrite (st_entry_past (s_oblique d) lambda (s_angle d) xs xt rs rt L Vs Vt Ps Pt).
  eexists. split; [reflexivity|]. unfold st_formula.
  set (q := sqrt _). assert (0 <= q) by apply sqrt_pos.
  change (s_angle d) with (atan (tan angle)).
  pose proof (atan_bound (tan angle)). pose proof (cos_gt_0 (atan (tan angle)) ltac:(lra) ltac:(lra)).
  pose proof (COS_bound (atan (tan angle))). set (c := cos _) in *.
  assert (0 <= q * c <= q * 1) by (split; [apply Rmult_le_pos|apply Rmult_le_compat_l]; lra).
  destruct (s_oblique d); lra.
Qed.

Lemma cos_atan_tan : forall a, cos a <> 0 -> cos (atan (tan a)) = Rabs (cos a).
Proof.
  intros a N.
  pose proof (atan_bound (tan a)) as [B1 B2].
  assert (P : 0 < cos (atan (tan a))) by (apply cos_gt_0; lra).
  pose proof (tan_atan (tan a)) as T. set (b := atan (tan a)) in *.
  unfold tan in T. pose proof (sin2_cos2 a) as Ha. pose proof (sin2_cos2 b) as Hb. unfold Rsqr in *.
  assert (E : sin b * cos a = sin a * cos b).
  { transitivity (sin b / cos b * (cos b * cos a)); [field; lra|]. rewrite T. field. lra. }
  assert (Q : cos b * cos b = cos a * cos a).
  { transitivity (cos b * cos b * (sin a * sin a + cos a * cos a)); [rewrite Ha; ring|].
    transitivity ((sin b * cos a) * (sin b * cos a) + cos b * cos b * (cos a * cos a)); [rewrite E; ring|].
    transitivity ((cos a * cos a) * (sin b * sin b + cos b * cos b)); [ring|rewrite Hb; ring]. }
  rewrite <- (Rabs_right (cos b)) by lra. apply Rsqr_eq_abs_0. exact Q.
Qed.
Lemma C18_oblique_value_main : forall s t lambda angle xs xt rs rt,
  0 <= lambda <= 1 -> / 10 ^ 15 <= Rabs (cos angle) ->
  xval xs = Some rs -> xval xt = Some rt -> 0 <= rs -> 0 <= rt ->
  let d := st_new_angle s t lambda angle in
  xval (st_entry (s_oblique d) (s_lambda d) (s_angle d) xs xt) =
    Some (lambda * rs + (1 - lambda) * rt + 2 * sqrt (lambda * (1 - lambda) * rs * rt) * Rabs (cos angle)).
Proof.
  intros s t lambda angle xs xt rs rt L C Vs Vt Ps Pt d.
  change (s_lambda d) with lambda.
  rewrite (st_entry_past (s_oblique d) lambda (s_angle d) xs xt rs rt L Vs Vt Ps Pt).
  change (s_angle d) with (atan (tan angle)).
  assert (P15 : 0 < / 10 ^ 15) by (apply Rinv_0_lt_compat, pow_lt; lra).
  assert (N : cos angle <> 0) by (intros E; rewrite E, Rabs_R0 in C; lra).
  pose proof (cos_atan_tan angle N) as E. pose proof (atan_bound (tan angle)) as [B1 B2].
  assert (O : s_oblique d = true).
  { unfold d, st_new_angle. cbn [s_oblique]. rewrite Bool.negb_true_iff. apply Rltb_false.
    rewrite <- E in C. set (b := atan (tan angle)) in *.
    assert (cos b <= PI / 2 - b).
    { rewrite cos_sin. destruct (Rtotal_order 0 (PI / 2 - b)) as [Q|[Q|Q]]; try lra.
      rewrite <- (sin_PI_x (PI / 2 + b)). replace (PI - (PI / 2 + b)) with (PI / 2 - b) by lra.
      pose proof (sin_lt_x (PI / 2 - b) Q). lra. }
    rewrite Rabs_left; lra. }
  rewrite O, E. f_equal; ring.
Qed.
Lemma C18_oblique_refuted_main : exists angle xs xt rs rt r,
  cos angle < 0 /\ xval xs = Some rs /\ xval xt = Some rt /\ 0 <= rs /\ 0 <= rt /\
  (let d := st_new_angle (crs_new false) onedim_new (1/2) angle in
   xval (st_entry (s_oblique d) (s_lambda d) (s_angle d) xs xt) = Some r) /\
  r <> 1/2 * rs + (1 - 1/2) * rt + 2 * sqrt (1/2 * (1 - 1/2) * rs * rt) * cos angle.
Proof.
  exists (2 * (PI / 3)), (XF 1), (XF 1), 1, 1, (3 / 2).
  assert (C : cos (2 * (PI / 3)) = - (1 / 2)).
  { rewrite cos_2PI3. lra. }
  rewrite C. split; [lra|]. split; [reflexivity|]. split; [reflexivity|]. split; [lra|]. split; [lra|].
  assert (Q : sqrt (1 / 2 * (1 - 1 / 2) * 1 * 1) = 1 / 2) by (rewrite (sqrt_eq _ (1/2)); lra).
  split.
  - cbv zeta; rewrite (C18_oblique_value_main (crs_new false) onedim_new (1/2) (2 * (PI / 3)) (XF 1) (XF 1) 1 1); try reflexivity; try lra.
    + rewrite Q, C. f_equal. rewrite Rabs_left; lra.
    + rewrite C, Rabs_left by lra. assert (/ 10 ^ 15 <= / 2) by (apply Rinv_le_contravar; [lra|]; simpl; lra). lra.
  - rewrite Q. lra.
Qed.

Lemma C85_main : forall c fp dp f,
  c_par c = Some (fp, dp) -> length fp = length dp -> crs_distance_cuda c f = crs_distance c f.
Proof.
  intros c fp dp f P L. unfold crs_distance_cuda, crs_distance. rewrite P.
  destruct (nth_error fp f); auto. rewrite L, Nat.leb_refl, firstn_all. auto.
Qed.
Lemma C85_refuted_main : forall fp dp f, (f < length fp)%nat ->
  ((length fp < length dp)%nat -> exists v, crs_distance_cuda (planar fp dp) f = Ok v /\ (length v < length dp)%nat) /\
  ((length dp < length fp)%nat -> crs_distance_cuda (planar fp dp) f = UB).
Proof.
  intros fp dp f Hf. rewrite planar_eq. unfold crs_distance_cuda; simpl.
  destruct (nth_some fp f Hf) as [o ->]. split; intros L.
  - assert ((length fp <=? length dp)%nat = true) as -> by (apply Nat.leb_le; lia).
    eexists. split; [reflexivity|]. unfold EuclideanDistance. rewrite map_length, firstn_length. lia.
  - assert ((length fp <=? length dp)%nat = false) as -> by (apply Nat.leb_gt; lia). auto.
Qed.

Lemma C18_oblique_case_main : / 10 ^ 15 <= Rabs (cos 0).
Proof.
  rewrite cos_0, Rabs_R1. rewrite <- Rinv_1. apply Rinv_le_contravar; simpl; lra.
Qed.
Lemma C12_value_main : forall fp dp i j o p,
  nth_error fp i = Some o -> nth_error dp j = Some p ->
  entry (crs_distance (planar fp dp) i) j
    (sqrt ((fst o - fst p) * (fst o - fst p) + (snd o - snd p) * (snd o - snd p))).
Proof.
  intros fp dp i j o p A B.
  replace (sqrt _) with (euclid o p); [apply entry_planar; auto|].
  unfold euclid. f_equal. unfold Rsqr. ring.
Qed.

(** ** Accepted arguments; objects as constructed *)
Lemma C15_arguments_main :
  (forall c pl, snd (crs_makeParameter c pl) = Ok tt <-> exists fp dp, pl = [PMat fp; PMat dp] /\ m_cols fp = 2%nat /\ m_cols dp = 2%nat) /\
  (forall m pl, snd (mink_makeParameter m pl) = Ok tt <-> exists fp dp, pl = [PMat fp; PMat dp] /\ m_cols fp = 2%nat /\ m_cols dp = 2%nat) /\
  (forall o pl, snd (onedim_makeParameter o pl) = Ok tt <-> exists fp dp, pl = [PVec fp; PVec dp]) /\
  (forall d pl, snd (st_makeParameter d pl) = Ok tt <-> exists fp dp tfp tdp, pl = [PMat fp; PMat dp; PVec tfp; PVec tdp] /\
     m_cols fp = 2%nat /\ m_cols dp = 2%nat /\ m_rows fp = m_rows dp /\ m_rows dp = length tfp /\ length tfp = length tdp) /\
  (forall d pl, snd (dmatd_makeParameter d pl) = Ok tt <-> (exists s r, pl = [PUword s; PUword r]) \/ length pl <> 2%nat).
Proof.
  assert (C : forall c pl, snd (crs_makeParameter c pl) = Ok tt <-> exists fp dp, pl = [PMat fp; PMat dp] /\ m_cols fp = 2%nat /\ m_cols dp = 2%nat).
  { intros c pl; split.
    - intros H. destruct pl as [|[fp| |] [|[dp| |] [|]]]; try discriminate. cbn [crs_makeParameter get_mat] in H.
      destruct (Nat.eqb_spec (m_cols fp) 2), (Nat.eqb_spec (m_cols dp) 2); try discriminate. eauto.
    - intros (fp & dp & -> & E1 & E2). cbn [crs_makeParameter get_mat]. rewrite E1, E2. reflexivity. }
  split; [exact C|]. split; [|split; [|split]].
  - intros m pl. rewrite <- (C (k_crs m) pl). unfold mink_makeParameter. destruct (crs_makeParameter (k_crs m) pl); reflexivity.
  - intros o pl; split.
    + intros H. destruct pl as [|[|fp|] [|[|dp|] [|]]]; try discriminate. eauto.
    + intros (fp & dp & ->). reflexivity.
  - intros d pl; split.
    + intros H. destruct pl as [|[fp| |] [|[dp| |] [|[|tfp|] [|[|tdp|] [|]]]]]; try discriminate.
      cbn [st_makeParameter get_mat get_vec] in H.
      destruct (Nat.eqb_spec (m_rows fp) (m_rows dp)), (Nat.eqb_spec (m_rows dp) (length tfp)), (Nat.eqb_spec (length tfp) (length tdp)); try discriminate.
      cbn [andb] in H. assert (Q := proj1 (C (s_spatial d) [PMat fp; PMat dp])).
      destruct (crs_makeParameter (s_spatial d) [PMat fp; PMat dp]) as [s' [[]| |]]; try discriminate.
      destruct (Q eq_refl) as (fp' & dp' & E & E1 & E2). injection E as <- <-. exists fp, dp, tfp, tdp. auto 10.
    + intros (fp & dp & tfp & tdp & -> & E1 & E2 & E3 & E4 & E5). cbn [st_makeParameter get_mat get_vec].
      rewrite E3, E4, E5, !Nat.eqb_refl. cbn [andb]. assert (Q := proj2 (C (s_spatial d) [PMat fp; PMat dp])).
      destruct (crs_makeParameter (s_spatial d) [PMat fp; PMat dp]) as [s' o]. cbn [snd] in Q. rewrite Q by eauto 10. reflexivity.
  - intros d pl; split.
    + intros H. destruct pl as [|[| |s] [|[| |r] [|]]]; try discriminate; eauto; right; cbn; discriminate.
    + intros [(s & r & ->)|N]; [reflexivity|]. destruct pl as [|a [|b [|]]]; try reflexivity. contradiction N; reflexivity.
Qed.
Lemma points_nth : forall m f, (f < m_rows m)%nat -> nth_error (points m) f = Some (m_at m f 0%nat, m_at m f 1%nat).
Proof.
  intros m f L. unfold points. rewrite nth_error_map.
  rewrite (nth_error_nth' _ 0%nat) by (rewrite seq_length; exact L). rewrite seq_nth by exact L. reflexivity.
Qed.
Lemma C17_objects_main : forall p theta fp dp f, m_cols fp = 2%nat -> m_cols dp = 2%nat -> (f < m_rows fp)%nat ->
  let at_ m i := (m_at m i 0%nat, m_at m i 1%nat) in
  let made m := fst (mink_makeParameter m [PMat fp; PMat dp]) in
  let turn q := if Req_EM_T theta 0 then q else
    (fst q * cos theta - snd q * sin theta, fst q * sin theta + snd q * cos theta) in
  (p = 1 -> mink_distance (made (mink_new p theta)) f =
     Ok (map (fun i => XF (chebyshev (turn (at_ fp f)) (turn (at_ dp i)))) (seq 0 (m_rows dp)))) /\
  (p = -1 -> mink_distance (made (mink_new p theta)) f =
     Ok (map (fun i => XF (manhattan (turn (at_ fp f)) (turn (at_ dp i)))) (seq 0 (m_rows dp)))) /\
  (p <> 1 -> p <> -1 -> mink_distance (made (mink_new p theta)) f = Throw) /\
  mink_distance (made mink_default) f = Throw /\
  crs_distance (fst (crs_makeParameter crs_default [PMat fp; PMat dp])) f =
    Ok (map (fun i => XF (sqrt ((m_at dp i 0%nat - m_at fp f 0%nat) ^ 2 + (m_at dp i 1%nat - m_at fp f 1%nat) ^ 2))) (seq 0 (m_rows dp))).
Proof.
  intros p theta fp dp f E1 E2 L at_ made turn.
  assert (Q : forall g k, crs_makeParameter (mkCrs g k None) [PMat fp; PMat dp] = (mkCrs g k (Some (points fp, points dp)), Ok tt)).
  { intros g k. cbn [crs_makeParameter get_mat]. rewrite E1, E2. reflexivity. }
  assert (M : forall q t, made (mink_new q t) = mkMink (planar (points fp) (points dp)) q t).
  { intros q t. unfold made, mink_makeParameter, mink_new, crs_new. cbn [k_crs]. rewrite Q, planar_eq. reflexivity. }
  assert (Z := fun q t => C17_dispatch_main q t (points fp) (points dp) f (at_ fp f) (points_nth fp f L)). cbv zeta in Z.
  destruct (Z p theta) as (Z1 & Z2 & Z3).
  split; [intros H; rewrite M, (Z1 H); unfold points; rewrite map_map; reflexivity|].
  split; [intros H; rewrite M, (Z2 H); unfold points; rewrite map_map; reflexivity|].
  split; [intros H H'; rewrite M; exact (Z3 H H')|]. split.
  - change (made mink_default) with (made (mink_new 2 0)). rewrite M. apply (Z 2 0); lra.
  - unfold crs_default. rewrite Q. cbn [fst crs_distance c_par]. rewrite (points_nth fp f L). unfold points; cbn [calc_fn c_calc EuclideanDistance].
    unfold EuclideanDistance. rewrite map_map. f_equal. apply map_ext. intros i. unfold euclid; cbn [fst snd]. do 2 f_equal. ring.
Qed.
