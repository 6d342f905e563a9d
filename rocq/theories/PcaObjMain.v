(** Proofs for C169: results of a run. *)
From Coq Require Import Reals Bool List Arith ZArith Lia Lra.
From Verif Require Import XReal XRealFacts Sums PcaObjModel PcaObjSpec PcaObjProofs.
Import ListNotations.
Local Open Scope R_scope.

(** ** Numbers of one row *)
Lemma scaled_val s0 v : 0 < s0 -> xval (scaled s0 v) = Some (v / sqrt s0).
Proof.
  intros S. unfold scaled. apply xval_xdiv; [reflexivity| |].
  - apply xval_xsqrt; [reflexivity|lra].
  - pose proof (sqrt_lt_R0 s0 S). lra.
Qed.
Lemma variance_val s0 v : 0 < s0 -> xval (variance s0 v) = Some (v * v / s0).
Proof.
  intros S. unfold variance. rewrite (xval_xmul _ _ (v / sqrt s0) (v / sqrt s0)) by now apply scaled_val.
  f_equal. pose proof (sqrt_lt_R0 s0 S). replace s0 with (sqrt s0 * sqrt s0) at 3 by (apply sqrt_sqrt; lra). field. lra.
Qed.
Lemma sdev_val s0 v : 0 < s0 -> 0 <= v -> xval (xsqrt (variance s0 v)) = Some (v / sqrt s0).
Proof.
  intros S P. assert (Q : 0 <= v * v / s0). { apply Rmult_le_pos; [nra|]. left. now apply Rinv_0_lt_compat. }
  rewrite (xval_xsqrt _ (v * v / s0)); [|now apply variance_val|exact Q]. f_equal.
  rewrite sqrt_div_alt by exact S. rewrite sqrt_square by exact P. reflexivity.
Qed.
Lemma xsum_val s0 d : 0 < s0 -> xval (xsum (map (variance s0) d)) = Some (squares d / s0).
Proof.
  intros S. unfold xsum. assert (G : forall a r, xval a = Some r -> xval (fold_left xadd (map (variance s0) d) a) = Some (r + squares d / s0)).
  { induction d as [|v d IH]; intros a r E; cbn [map fold_left].
    - rewrite E. f_equal. unfold squares. cbn. field. lra.
    - rewrite (IH _ (r + v * v / s0)) by (apply xval_xadd; [exact E|now apply variance_val]). f_equal.
      unfold squares. cbn [map fold_right]. field. lra. }
  rewrite (G (XF 0) 0) by reflexivity. f_equal. ring.
Qed.
Lemma inv_zero z : xval z = Some 0 -> exists s, xdiv (XF 1) z = XI s.
Proof.
  destruct z; cbn [xval]; intros E; try discriminate.
  - injection E as ->. unfold xdiv. cbn [xval xsign]. rewrite (proj2 (Reqb_true 0 0)) by reflexivity.
    rewrite (proj2 (Reqb_false 1 0)) by lra. eexists. reflexivity.
  - unfold xdiv. cbn [xval xsign]. rewrite (proj2 (Reqb_true 0 0)) by reflexivity. rewrite (proj2 (Reqb_false 1 0)) by lra. eexists. reflexivity.
Qed.
Lemma zero_inf z s : xval z = Some 0 -> xmul z (XI s) = XN.
Proof. destruct z; cbn [xval]; intros E; try discriminate; unfold xmul; cbn [xval]; [injection E as ->|]; now rewrite (proj2 (Reqb_true 0 0)). Qed.
Lemma nan_scaled : scaled 0 0 = XN.
Proof.
  unfold scaled, xsqrt. rewrite (proj2 (Rltb_false 0 0)) by lra. rewrite sqrt_0. unfold xdiv. cbn [xval].
  rewrite (proj2 (Reqb_true 0 0)) by reflexivity. reflexivity.
Qed.
Lemma squares_zero d : squares d = 0 -> Forall (fun v => v = 0) d.
Proof.
  unfold squares. assert (P : forall d, 0 <= fold_right Rplus 0 (map (fun v => v * v) d)).
  { induction d0 as [|v d0 IH]; cbn [map fold_right]; nra. }
  induction d as [|v d IH]; cbn [map fold_right]; intros E; constructor; specialize (P d).
  - nra.
  - apply IH. nra.
Qed.
Lemma squares_repeat c : squares (repeat 0 c) = 0.
Proof. unfold squares. induction c as [|c IH]; cbn [repeat map fold_right]; [reflexivity|]. rewrite IH. ring. Qed.
Lemma pv_row_length s0 k d : (k <= length d)%nat -> length (pv_row s0 k d) = k.
Proof. intros L. unfold pv_row. cbv zeta. rewrite map_length, firstn_length. lia. Qed.
Lemma pv_row_at s0 k d j v : (j < k)%nat -> nth_error d j = Some v ->
  nth_error (pv_row s0 k d) j = Some (xmul (xmul (variance s0 v) (xdiv (XF 1) (xsum (map (variance s0) d)))) (XF 100)).
Proof. intros L E. unfold pv_row. cbv zeta. rewrite nth_error_map, nth_error_first by exact L. now rewrite E. Qed.
Lemma pv_val s0 k d j v : 0 < s0 -> (j < k)%nat -> nth_error d j = Some v -> 0 < squares d ->
  exists y, nth_error (pv_row s0 k d) j = Some y /\ xval y = Some (100 * (v * v) / squares d).
Proof.
  intros S L E Q. eexists. split; [apply (pv_row_at s0 k d j v L E)|].
  assert (SQ : squares d / s0 <> 0). { apply Rmult_integral_contrapositive_currified; [lra|]. apply Rinv_neq_0_compat. lra. }
  rewrite (xval_xmul _ _ (v * v / s0 * (1 / (squares d / s0))) 100); [|apply xval_xmul; [now apply variance_val|]|reflexivity].
  - f_equal. field. lra.
  - apply xval_xdiv; [reflexivity|now apply xsum_val|exact SQ].
Qed.
Lemma pv_nan s0 k d j v : 0 < s0 -> (j < k)%nat -> nth_error d j = Some v -> squares d = 0 -> nth_error (pv_row s0 k d) j = Some XN.
Proof.
  intros S L E Q. rewrite (pv_row_at s0 k d j v L E). f_equal.
  assert (v = 0) as ->. { pose proof (squares_zero d Q) as F. rewrite Forall_forall in F. apply F. now apply nth_error_In with j. }
  destruct (inv_zero (xsum (map (variance s0) d))) as [s ->]. { rewrite (xsum_val s0 d S), Q. f_equal. field. lra. }
  rewrite zero_inf; [reflexivity|]. rewrite (variance_val s0 0 S). f_equal. field. lra.
Qed.
Lemma nth_error_all {A} (l : list A) c j : length l = c -> (j < c)%nat -> exists a, nth_error l j = Some a.
Proof. intros L H. destruct (nth_error l j) eqn:E; [eauto|]. apply nth_error_None in E. lia. Qed.
Lemma repeat_at {A} (a : A) c j : (j < c)%nat -> nth_error (repeat a c) j = Some a.
Proof. intros L. rewrite repeat_tab. now apply tab_at. Qed.
Lemma shape_tab {A} n c (f : nat -> list A) : (forall i, (i < n)%nat -> length (f i) = c) -> shape (tab n f) n c.
Proof.
  intros H. split; [apply tab_length|]. apply Forall_forall. intros r I. unfold tab in I. apply in_map_iff in I. destruct I as (i & <- & I).
  apply in_seq in I. apply H. lia.
Qed.
Lemma shapes_cube n c k (f : nat -> nat -> list R) : (forall j i, (j < k)%nat -> (i < n)%nat -> length (f j i) = c) -> Forall (fun m => shape m n c) (cube n k f).
Proof.
  intros H. apply Forall_forall. intros m I. unfold cube, tab in I. apply in_map_iff in I. destruct I as (j & <- & I). apply in_seq in I.
  apply shape_tab. intros i L. apply H; [lia|exact L].
Qed.
Lemma loading_cube n k f j i v : (j < k)%nat -> (i < n)%nat -> loading (cube n k f) j i v = nth_error (f j i) v.
Proof. intros J I. unfold loading, cube, entry. rewrite tab_at by exact J. now rewrite tab_at by exact I. Qed.
Lemma entry_tab {A} n (f : nat -> list A) i j : (i < n)%nat -> entry (tab n f) i j = nth_error (f i) j.
Proof. intros I. unfold entry. now rewrite tab_at. Qed.

Lemma visited_reached stop i : visited stop 0 i <-> reached stop i.
Proof. unfold visited, reached. split; [intros [_ H] j J|intros H; split; [lia|]; intros j J]; apply H; lia. Qed.
Lemma reached_dec stop i : {reached stop i} + {~ reached stop i}.
Proof.
  induction i as [|i [Y|N]].
  - destruct (stop 0%nat) eqn:E; [right; intros H; rewrite H in E by lia; discriminate|left; intros j J; now replace j with 0%nat by lia].
  - destruct (stop (S i)) eqn:E; [right; intros H; rewrite H in E by lia; discriminate|].
    left. intros j J. destruct (Nat.eq_dec j (S i)) as [->|]; [exact E|]. apply Y. lia.
  - right. intros H. apply N. intros j J. apply H. lia.
Qed.
Lemma existsb_seq stop n : existsb stop (seq 0 n) = true <-> exists i, (i < n)%nat /\ stop i = true.
Proof.
  rewrite existsb_exists. split; intros (i & H & E); exists i; (split; [|exact E]); [apply in_seq in H; lia|apply in_seq; lia].
Qed.
Lemma exists_reached stop n : (forall i, (i < n)%nat -> reached stop i) -> existsb stop (seq 0 n) = false.
Proof.
  intros H. destruct (existsb stop (seq 0 n)) eqn:E; [|reflexivity]. apply existsb_seq in E. destruct E as (i & L & S).
  rewrite (H i L i) in S by lia. discriminate.
Qed.

Section Main.
Context {table : Type} {rows columns : table -> nat} {decompose : table -> (nat -> R) -> option (list R * list (list R))}.
Local Notation go := (run table rows columns decompose).
Local Notation Ob := (obj table).

Lemma run_loop o stop late n c k : o_locs _ o = n -> columns (o_x _ o) = c -> o_k _ o = Z.of_nat k ->
  go false stop late o =
  match loop table rows columns decompose stop o (seq 0 n) (tab n (fun _ => repeat 0 c)) None (cube n k (fun _ _ => repeat 0 c)) with
  | Threw l => Throws _ (mkObj _ (o_x _ o) n (o_weight _ o) (o_k _ o) (o_term _ o) (o_pv _ o) l (o_sdev _ o))
  | Ended st da w0 l =>
      let s0 := match w0 with Some w => bigsum n w | None => 0 end in
      if (Nat.eqb k 0 || Nat.ltb c k)%bool
      then Throws _ (mkObj _ (o_x _ o) n (o_weight _ o) (o_k _ o) (o_term _ o || st) (o_pv _ o) l (map (sdev_row s0) da))
      else Returns _ (mkObj _ (o_x _ o) n (o_weight _ o) (o_k _ o) (o_term _ o || st || late) (map (pv_row s0 k) da) l (map (sdev_row s0) da))
  end.
Proof.
  intros N C K. unfold run. cbv zeta. rewrite N, C. destruct (Z.ltb_spec (o_k _ o) 0); [lia|]. rewrite K, Nat2Z.id. unfold cube. rewrite (repeat_tab (repeat 0 c) n).
  rewrite (repeat_tab _ k). reflexivity.
Qed.

Section Good.
Variables (o : Ob) (stop : nat -> bool) (late : bool) (n c k : nat) (d : nat -> list R) (V : nat -> list (list R)).
Hypothesis RN : rows (o_x _ o) = n.
Hypothesis ON : o_locs _ o = n.
Hypothesis CC : columns (o_x _ o) = c.
Hypothesis OK : o_k _ o = Z.of_nat k.
Hypothesis KC : (1 <= k <= c)%nat.
Hypothesis DV : forall i, (i < n)%nat -> reached stop i -> decompose (o_x _ o) (o_weight _ o i) = Some (d i, V i) /\ complete c (d i) (V i).

Lemma results_general i0 : last_reached n stop i0 -> 0 < bigsum n (o_weight _ o i0) ->
  let s0 := bigsum n (o_weight _ o i0) in
  exists o', go false stop late o = Returns _ o' /\ like o o' /\
    (o_term _ o' = true <-> o_term _ o = true \/ late = true \/ exists i, (i < n)%nat /\ stop i = true) /\
    shape (o_pv _ o') n k /\ shape (o_sdev _ o') n c /\ length (o_loadings _ o') = k /\ Forall (fun m => shape m n c) (o_loadings _ o') /\
    (forall i, (i < n)%nat -> reached stop i ->
      (forall j v, (j < k)%nat -> loading (o_loadings _ o') j i v = entry (V i) j v) /\
      (forall v y, nth_error (d i) v = Some y -> has (o_sdev _ o') i v (y / sqrt s0)) /\
      (forall j y, (j < k)%nat -> nth_error (d i) j = Some y -> 0 < squares (d i) -> has (o_pv _ o') i j (100 * (y * y) / squares (d i))) /\
      (forall j, (j < k)%nat -> squares (d i) = 0 -> entry (o_pv _ o') i j = Some XN)) /\
    (forall i, (i < n)%nat -> ~ reached stop i ->
      (forall j v, (j < k)%nat -> (v < c)%nat -> loading (o_loadings _ o') j i v = Some 0) /\
      (forall v, (v < c)%nat -> has (o_sdev _ o') i v 0) /\
      (forall j, (j < k)%nat -> entry (o_pv _ o') i j = Some XN)).
Proof.
  intros (L0 & R0 & LAST) S0 s0.
  destruct (loop_ended (decompose := decompose) stop o n c k d V RN ON CC OK ltac:(lia) n 0%nat (fun _ => repeat 0 c) (fun _ _ => repeat 0 c) None)
    as (fd & fl & w0 & E & P1 & P2 & P3 & _); [lia| |].
  { intros i L N. apply DV; [lia|]. now apply visited_reached. }
  rewrite (P3 i0) in E; [|lia|now apply visited_reached|]. 2:{ intros i' L' N'. apply (LAST i'); [lia|]. now apply visited_reached. }
  assert (FD : forall i, (i < n)%nat -> length (fd i) = c).
  { intros i L. destruct (reached_dec stop i) as [Y|N].
    - destruct (P1 i) as [-> _]; [lia|now apply visited_reached|]. now destruct (DV i L Y) as [_ (LD & _)].
    - destruct (P2 i) as [-> _]; [|apply repeat_length]. intros [_ X]. apply N. now apply visited_reached. }
  eexists. split.
  { rewrite (run_loop o stop late n c k ON CC OK), E. cbv zeta. destruct (Nat.eqb_spec k 0); [lia|]. destruct (Nat.ltb_spec c k); [lia|]. cbn [orb]. reflexivity. }
  cbn [o_x o_locs o_weight o_k o_term o_pv o_loadings o_sdev]. rewrite !map_tab. fold s0.
  split; [unfold like; cbn [o_x o_locs o_weight o_k]; now rewrite ON|].
  split; [rewrite !orb_true_iff, existsb_seq; tauto|].
  split; [apply shape_tab; intros i L; apply pv_row_length; rewrite FD by exact L; lia|].
  split; [apply shape_tab; intros i L; unfold sdev_row; rewrite map_length; now apply FD|].
  split; [unfold cube; apply tab_length|].
  split.
  { apply shapes_cube. intros j i J L. destruct (reached_dec stop i) as [Y|N].
    - destruct (P1 i) as [_ Q]; [lia|now apply visited_reached|]. rewrite (Q j J). destruct (DV i L Y) as [_ (_ & _ & LV & FV)].
      rewrite Forall_forall in FV. apply FV, nth_In. lia.
    - destruct (P2 i) as [_ Q]; [intros [_ X]; apply N; now apply visited_reached|]. rewrite Q. apply repeat_length. }
  split; intros i L N.
  - destruct (P1 i) as [Q1 Q2]; [lia|now apply visited_reached|]. destruct (DV i L N) as [_ (LD & PD & LV & FV)].
    split; [|split; [|split]].
    + intros j v J. rewrite (loading_cube n k fl j i v J L). rewrite (Q2 j J). unfold entry. rewrite (nth_error_nth' (V i) []) by lia. reflexivity.
    + intros v y Y. unfold has. rewrite entry_tab by exact L. unfold sdev_row. rewrite Q1, nth_error_map, Y. cbn [option_map].
      eexists. split; [reflexivity|]. apply sdev_val; [exact S0|]. rewrite Forall_forall in PD. apply PD. now apply nth_error_In with v.
    + intros j y J Y SQ. unfold has. rewrite entry_tab by exact L. rewrite Q1. exact (pv_val s0 k (d i) j y S0 J Y SQ).
    + intros j J SQ. rewrite entry_tab by exact L. rewrite Q1. destruct (nth_error_all (d i) c j LD) as [y Y]; [lia|].
      exact (pv_nan s0 k (d i) j y S0 J Y SQ).
  - destruct (P2 i) as [Q1 Q2]; [intros [_ X]; apply N; now apply visited_reached|].
    split; [|split].
    + intros j v J VC. rewrite (loading_cube n k fl j i v J L), Q2. now apply repeat_at.
    + intros v VC. unfold has. rewrite entry_tab by exact L. unfold sdev_row. rewrite Q1, nth_error_map, repeat_at by exact VC. cbn [option_map].
      eexists. split; [reflexivity|]. rewrite (sdev_val s0 0 S0) by lra. f_equal. unfold Rdiv. ring.
    + intros j J. rewrite entry_tab by exact L. rewrite Q1. apply (pv_nan s0 k (repeat 0 c) j 0 S0 J); [apply repeat_at; lia|apply squares_repeat].
Qed.
End Good.

Lemma none_general o stop late n c k : rows (o_x _ o) = n -> o_locs _ o = n -> columns (o_x _ o) = c -> o_k _ o = Z.of_nat k -> (1 <= k <= c)%nat ->
  (0 < n)%nat -> stop 0%nat = true ->
  exists o', go false stop late o = Returns _ o' /\ like o o' /\ o_term _ o' = true /\
    shape (o_pv _ o') n k /\ shape (o_sdev _ o') n c /\ length (o_loadings _ o') = k /\ Forall (fun m => shape m n c) (o_loadings _ o') /\
    forall i, (i < n)%nat ->
      (forall j v, (j < k)%nat -> (v < c)%nat -> loading (o_loadings _ o') j i v = Some 0) /\
      (forall v, (v < c)%nat -> entry (o_sdev _ o') i v = Some XN) /\
      (forall j, (j < k)%nat -> entry (o_pv _ o') i j = Some XN).
Proof.
  intros RN ON CC OK KC NP S. eexists. split.
  { rewrite (run_loop o stop late n c k ON CC OK). destruct n as [|m]; [lia|]. cbn [seq loop]. rewrite S. cbv zeta.
    destruct (Nat.eqb_spec k 0); [lia|]. destruct (Nat.ltb_spec c k); [lia|]. cbn [orb]. reflexivity. }
  cbn [o_x o_locs o_weight o_k o_term o_pv o_loadings o_sdev]. rewrite !map_tab.
  split; [unfold like; cbn [o_x o_locs o_weight o_k]; now rewrite ON|]. split; [now rewrite orb_true_r|].
  split; [apply shape_tab; intros i L; apply pv_row_length; rewrite repeat_length; lia|].
  split; [apply shape_tab; intros i L; unfold sdev_row; rewrite map_length; apply repeat_length|].
  split; [unfold cube; apply tab_length|]. split; [apply shapes_cube; intros; apply repeat_length|].
  intros i L. split; [|split].
  - intros j v J VC. rewrite (loading_cube n k (fun _ _ => repeat 0 c) j i v J L). now apply repeat_at.
  - intros v VC. rewrite entry_tab by exact L. unfold sdev_row. rewrite nth_error_map, repeat_at by exact VC. cbn [option_map]. unfold variance. now rewrite nan_scaled.
  - intros j J. rewrite entry_tab by exact L. rewrite (pv_row_at 0 k (repeat 0 c) j 0 J) by (apply repeat_at; lia). unfold variance at 1. now rewrite nan_scaled.
Qed.

(** A location whose decomposition fails. *)
Lemma failure_general o stop late n c k d V i0 : rows (o_x _ o) = n -> o_locs _ o = n -> columns (o_x _ o) = c -> o_k _ o = Z.of_nat k -> (k <= c)%nat -> (0 < c)%nat ->
  (i0 < n)%nat -> reached stop i0 -> decompose (o_x _ o) (o_weight _ o i0) = None ->
  (forall i, (i < i0)%nat -> decompose (o_x _ o) (o_weight _ o i) = Some (d i, V i) /\ complete c (d i) (V i)) ->
  exists o', go false stop late o = Throws _ o' /\ like o o' /\ o_term _ o' = o_term _ o /\ o_pv _ o' = o_pv _ o /\ o_sdev _ o' = o_sdev _ o /\
    length (o_loadings _ o') = k /\ Forall (fun m => shape m n c) (o_loadings _ o') /\
    (forall i j v, (i < i0)%nat -> (j < k)%nat -> loading (o_loadings _ o') j i v = entry (V i) j v) /\
    (forall i j v, (i0 <= i < n)%nat -> (j < k)%nat -> (v < c)%nat -> loading (o_loadings _ o') j i v = Some 0).
Proof.
  intros RN ON CC OK KC CP I0 R0 DN DV.
  assert (RI : forall i, (i < i0)%nat -> reached stop i) by (intros i L j J; apply R0; lia).
  destruct (loop_ended (decompose := decompose) stop o n c k d V RN ON CC OK KC i0 0%nat (fun _ => repeat 0 c) (fun _ _ => repeat 0 c) None)
    as (fd & fl & w0 & E & P1 & P2 & _); [lia| |].
  { intros i L N. apply DV. lia. }
  rewrite (exists_reached stop i0 RI) in E.
  eexists. split.
  { rewrite (run_loop o stop late n c k ON CC OK). replace n with (i0 + S (n - S i0))%nat at 1 by lia. rewrite seq_app.
    rewrite (loop_app stop o _ _ _ _ _ _ _ _ E). cbn [plus seq loop]. rewrite (R0 i0) by lia. rewrite RN, ON, Nat.eqb_refl. cbn [negb].
    rewrite DN. rewrite CC. cbn [length]. destruct (Nat.eqb_spec 0 c); [lia|]. cbn [negb]. reflexivity. }
  cbn [o_x o_locs o_weight o_k o_term o_pv o_loadings o_sdev].
  split; [unfold like; cbn [o_x o_locs o_weight o_k]; now rewrite ON|]. do 3 (split; [reflexivity|]).
  split; [unfold cube; apply tab_length|]. split; [|split].
  - apply shapes_cube. intros j i J L. destruct (Nat.lt_ge_cases i i0) as [Y|N].
    + destruct (P1 i) as [_ Q]; [lia|apply visited_reached; now apply RI|]. rewrite (Q j J). destruct (DV i Y) as [_ (_ & _ & LV & FV)].
      rewrite Forall_forall in FV. apply FV, nth_In. lia.
    + destruct (P2 i) as [_ Q]; [intros [X _]; lia|]. rewrite Q. apply repeat_length.
  - intros i j v L J. rewrite (loading_cube n k fl j i v J) by lia. destruct (P1 i) as [_ Q]; [lia|apply visited_reached; now apply RI|]. rewrite (Q j J).
    destruct (DV i L) as [_ (_ & _ & LV & _)]. unfold entry. rewrite (nth_error_nth' (V i) []) by lia. reflexivity.
  - intros i j v L J VC. rewrite (loading_cube n k fl j i v J) by lia. destruct (P2 i) as [_ Q]; [intros [X _]; lia|]. rewrite Q. now apply repeat_at.
Qed.

(** Numbers of components that do not fit. *)
Lemma keep_many o stop late n c k d V : rows (o_x _ o) = n -> o_locs _ o = n -> columns (o_x _ o) = c -> o_k _ o = Z.of_nat k -> (c < k)%nat ->
  (0 < n)%nat -> stop 0%nat = false -> decompose (o_x _ o) (o_weight _ o 0%nat) = Some (d, V) -> complete c d V ->
  exists o', go false stop late o = Throws _ o' /\ like o o' /\ o_term _ o' = o_term _ o /\ o_pv _ o' = o_pv _ o /\ o_sdev _ o' = o_sdev _ o /\
    length (o_loadings _ o') = k /\
    (forall j v, (j < c)%nat -> loading (o_loadings _ o') j 0 v = entry V j v) /\
    (forall i j v, (i < n)%nat -> (j < k)%nat -> (v < c)%nat -> (0 < i)%nat \/ (c <= j)%nat -> loading (o_loadings _ o') j i v = Some 0).
Proof.
  intros RN ON CC OK KC NP S DE (LD & _ & LV & FV).
  eexists. split.
  { rewrite (run_loop o stop late n c k ON CC OK). replace (seq 0 n) with (0%nat :: seq 1 (n - 1)) by (destruct n; [lia|]; cbn [seq]; do 2 f_equal; lia).
    cbn [loop]. rewrite S, RN, ON, Nat.eqb_refl. cbn [negb]. rewrite DE, LD, CC, Nat.eqb_refl. cbn [negb]. rewrite OK, Nat2Z.id.
    unfold cube at 1. rewrite (store_tab c 0 V k LV FV k 0) by lia. destruct (Nat.leb_spec k c); [lia|]. reflexivity. }
  cbn [o_x o_locs o_weight o_k o_term o_pv o_loadings o_sdev].
  split; [unfold like; cbn [o_x o_locs o_weight o_k]; now rewrite ON|]. do 3 (split; [reflexivity|]). split; [apply tab_length|].
  split.
  - intros j v J. unfold loading. rewrite tab_at by lia. destruct (Nat.ltb_spec j c); [|lia]. cbn [Nat.leb andb]. rewrite put_tab by lia.
    rewrite entry_tab by lia. cbn [Nat.eqb]. unfold entry. rewrite (nth_error_nth' V []) by lia. reflexivity.
  - intros i j v I J VC B. unfold loading. rewrite tab_at by lia. cbn [Nat.leb andb]. destruct (Nat.ltb_spec j c).
    + rewrite put_tab by lia. rewrite entry_tab by lia. destruct (Nat.eqb_spec i 0); [lia|]. now apply repeat_at.
    + rewrite entry_tab by lia. now apply repeat_at.
Qed.
Lemma keep_none o stop late n c d V i0 : rows (o_x _ o) = n -> o_locs _ o = n -> columns (o_x _ o) = c -> o_k _ o = 0%Z ->
  (forall i, (i < n)%nat -> reached stop i -> decompose (o_x _ o) (o_weight _ o i) = Some (d i, V i) /\ complete c (d i) (V i)) ->
  last_reached n stop i0 -> 0 < bigsum n (o_weight _ o i0) ->
  exists o', go false stop late o = Throws _ o' /\ like o o' /\ o_pv _ o' = o_pv _ o /\ o_loadings _ o' = [] /\ shape (o_sdev _ o') n c /\
    (forall i v y, (i < n)%nat -> reached stop i -> nth_error (d i) v = Some y -> has (o_sdev _ o') i v (y / sqrt (bigsum n (o_weight _ o i0)))).
Proof.
  intros RN ON CC OK DV (L0 & R0 & LAST) S0.
  destruct (loop_ended (decompose := decompose) stop o n c 0 d V RN ON CC OK ltac:(lia) n 0%nat (fun _ => repeat 0 c) (fun _ _ => repeat 0 c) None)
    as (fd & fl & w0 & E & P1 & P2 & P3 & _); [lia| |].
  { intros i L N. apply DV; [lia|]. now apply visited_reached. }
  rewrite (P3 i0) in E; [|lia|now apply visited_reached|]. 2:{ intros i' L' N'. apply (LAST i'); [lia|]. now apply visited_reached. }
  eexists. split.
  { rewrite (run_loop o stop late n c 0 ON CC OK), E. cbv zeta. cbn [Nat.eqb orb]. reflexivity. }
  cbn [o_x o_locs o_weight o_k o_term o_pv o_loadings o_sdev]. rewrite map_tab.
  split; [unfold like; cbn [o_x o_locs o_weight o_k]; now rewrite ON|]. split; [reflexivity|]. split; [reflexivity|]. split.
  - apply shape_tab. intros i L. unfold sdev_row. rewrite map_length. destruct (reached_dec stop i) as [Y|N].
    + destruct (P1 i) as [-> _]; [lia|now apply visited_reached|]. now destruct (DV i L Y) as [_ (LD & _)].
    + destruct (P2 i) as [-> _]; [|apply repeat_length]. intros [_ X]. apply N. now apply visited_reached.
  - intros i v y L N Y. destruct (P1 i) as [Q1 _]; [lia|now apply visited_reached|]. unfold has. rewrite entry_tab by exact L.
    unfold sdev_row. rewrite Q1, nth_error_map, Y. cbn [option_map]. eexists. split; [reflexivity|]. apply sdev_val; [exact S0|].
    destruct (DV i L N) as [_ (_ & PD & _)]. rewrite Forall_forall in PD. apply PD. now apply nth_error_In with v.
Qed.
Lemma keep_negative o stop late : (o_k _ o < 0)%Z -> go false stop late o = Throws _ o.
Proof. intros H. unfold run. cbv zeta. destruct (Z.ltb_spec (o_k _ o) 0); [reflexivity|lia]. Qed.
Lemma mismatch_general o stop late n c k : o_locs _ o = n -> rows (o_x _ o) <> n -> columns (o_x _ o) = c -> o_k _ o = Z.of_nat k -> (0 < n)%nat -> stop 0%nat = false ->
  exists o', go false stop late o = Throws _ o' /\ like o o' /\ o_term _ o' = o_term _ o /\ o_pv _ o' = o_pv _ o /\ o_sdev _ o' = o_sdev _ o /\
    length (o_loadings _ o') = k /\ forall i j v, (i < n)%nat -> (j < k)%nat -> (v < c)%nat -> loading (o_loadings _ o') j i v = Some 0.
Proof.
  intros ON RN CC OK NP S. eexists. split.
  { rewrite (run_loop o stop late n c k ON CC OK). destruct n as [|m]; [lia|]. cbn [seq loop]. rewrite S, ON.
    destruct (Nat.eqb_spec (rows (o_x _ o)) (Datatypes.S m)); [contradiction|]. cbn [negb]. reflexivity. }
  cbn [o_x o_locs o_weight o_k o_term o_pv o_loadings o_sdev].
  split; [unfold like; cbn [o_x o_locs o_weight o_k]; now rewrite ON|]. do 3 (split; [reflexivity|]). split; [apply tab_length|].
  intros i j v I J VC. rewrite (loading_cube n k _ j i v J I). now apply repeat_at.
Qed.
Lemma early_general o stop late : exists o', go true stop late o = Returns _ o' /\ like o o' /\ o_term _ o' = true /\ o_pv _ o' = o_pv _ o /\ o_loadings _ o' = o_loadings _ o /\ o_sdev _ o' = o_sdev _ o.
Proof. eexists. split; [reflexivity|]. unfold like. cbn. repeat split; reflexivity. Qed.
Lemma status_general o early stop late o' : o_term _ o = true -> go early stop late o = Returns _ o' \/ go early stop late o = Throws _ o' -> o_term _ o' = true.
Proof.
  intros T. unfold run. cbv zeta. destruct early; [intros [E|E]; inversion E; reflexivity|].
  destruct (_ <? _)%Z; [intros [E|E]; inversion E; subst; exact T|].
  destruct (loop _ _ _ _ _ _ _ _ _ _) as [st da w0 l|l]; [|intros [E|E]; inversion E; exact T].
  destruct (_ || _)%bool; intros [E|E]; inversion E; cbn; now rewrite T.
Qed.
Lemma scale_general o stop1 stop2 late1 late2 n c k d V i1 i2 o1 o2 i v y : rows (o_x _ o) = n -> o_locs _ o = n -> columns (o_x _ o) = c -> o_k _ o = Z.of_nat k -> (1 <= k <= c)%nat ->
  (forall i, (i < n)%nat -> decompose (o_x _ o) (o_weight _ o i) = Some (d i, V i) /\ complete c (d i) (V i)) ->
  last_reached n stop1 i1 -> last_reached n stop2 i2 -> 0 < bigsum n (o_weight _ o i1) -> 0 < bigsum n (o_weight _ o i2) ->
  bigsum n (o_weight _ o i1) <> bigsum n (o_weight _ o i2) ->
  go false stop1 late1 o = Returns _ o1 -> go false stop2 late2 o = Returns _ o2 ->
  (i < n)%nat -> reached stop1 i -> reached stop2 i -> nth_error (d i) v = Some y -> 0 < y ->
  exists a b, has (o_sdev _ o1) i v a /\ has (o_sdev _ o2) i v b /\ a <> b.
Proof.
  intros RN ON CC OK KC DV LR1 LR2 S1 S2 NE E1 E2 L R1 R2 Y YP.
  destruct (results_general o stop1 late1 n c k d V RN ON CC OK KC (fun i L _ => DV i L) i1 LR1 S1) as (o1' & F1 & _ & _ & _ & _ & _ & _ & G1 & _).
  destruct (results_general o stop2 late2 n c k d V RN ON CC OK KC (fun i L _ => DV i L) i2 LR2 S2) as (o2' & F2 & _ & _ & _ & _ & _ & _ & G2 & _).
  rewrite E1 in F1. injection F1 as <-. rewrite E2 in F2. injection F2 as <-.
  destruct (G1 i L R1) as (_ & H1 & _). destruct (G2 i L R2) as (_ & H2 & _).
  exists (y / sqrt (bigsum n (o_weight _ o i1))), (y / sqrt (bigsum n (o_weight _ o i2))).
  split; [now apply H1|]. split; [now apply H2|]. intros Q. apply NE.
  pose proof (sqrt_lt_R0 _ S1) as P1. pose proof (sqrt_lt_R0 _ S2) as P2. apply sqrt_inj; [lra|lra|].
  unfold Rdiv in Q. apply Rmult_eq_reg_l in Q; [|lra]. apply (f_equal Rinv) in Q. rewrite !Rinv_inv in Q. exact Q.
Qed.
End Main.

Lemma new_general (table : Type) (rows columns : table -> nat) (decompose : table -> (nat -> R) -> option (list R * list (list R))) x n w c d V :
  rows x = n -> columns x = c -> (2 <= c)%nat -> (0 < n)%nat ->
  (forall i, (i < n)%nat -> decompose x (w i) = Some (d i, V i) /\ complete c (d i) (V i)) -> 0 < bigsum n (w (n - 1)%nat) ->
  exists o', run table rows columns decompose false (fun _ => false) false (create table x n w) = Returns table o' /\
    o_term table o' = false /\ length (o_loadings table o') = 2%nat /\ shape (o_pv table o') n 2 /\
    forall i j v, (i < n)%nat -> (j < 2)%nat -> loading (o_loadings table o') j i v = entry (V i) j v.
Proof.
  intros RN CC C2 N DV S.
  assert (L : last_reached n (fun _ => false) (n - 1)%nat) by (split; [lia|split; [intros j _; reflexivity|intros j J; lia]]).
  destruct (results_general (rows := rows) (columns := columns) (decompose := decompose) (create table x n w) (fun _ => false) false n c 2 d V
    RN eq_refl CC eq_refl (conj (le_S _ _ (le_n 1)) C2) (fun i I _ => DV i I) (n - 1)%nat L S) as (o' & E & _ & T & P & _ & LL & _ & G & _).
  exists o'. split; [exact E|]. split.
  - destruct (o_term table o'); [|reflexivity]. destruct (proj1 T eq_refl) as [H|[H|(i & _ & H)]]; discriminate.
  - split; [exact LL|]. split; [exact P|]. intros i j v I J. apply (G i I); [intros k _; reflexivity|exact J].
Qed.
