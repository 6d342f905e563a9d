(** C169: a principal components object over several calls. *)
From Coq Require Import Reals Bool List Arith ZArith.
From Verif Require Import XReal Sums PcaObjModel PcaObjSpec PcaObjMain PcaObjCases.
Import ListNotations.
Local Open Scope R_scope.

Section Statements.
Variable table : Type.
Variables rows columns : table -> nat.
Variable decompose : table -> (nat -> R) -> option (list R * list (list R)).

(** Results of a run that reaches at least one location, whatever the object held before. *)
Theorem C169_results o stop late n c k d V i0 :
  rows (o_x table o) = n -> o_locs table o = n -> columns (o_x table o) = c -> o_k table o = Z.of_nat k -> (1 <= k <= c)%nat ->
  (forall i, (i < n)%nat -> reached stop i -> decompose (o_x table o) (o_weight table o i) = Some (d i, V i) /\ complete c (d i) (V i)) ->
  last_reached n stop i0 -> 0 < bigsum n (o_weight table o i0) ->
  exists o', run table rows columns decompose false stop late o = Returns table o' /\ like o o' /\
    (o_term table o' = true <-> o_term table o = true \/ late = true \/ exists i, (i < n)%nat /\ stop i = true) /\
    shape (o_pv table o') n k /\ shape (o_sdev table o') n c /\ length (o_loadings table o') = k /\ Forall (fun m => shape m n c) (o_loadings table o') /\
    (forall i, (i < n)%nat -> reached stop i ->
      (forall j v, (j < k)%nat -> loading (o_loadings table o') j i v = entry (V i) j v) /\
      (forall v y, nth_error (d i) v = Some y -> has (o_sdev table o') i v (y / sqrt (bigsum n (o_weight table o i0)))) /\
      (forall j y, (j < k)%nat -> nth_error (d i) j = Some y -> 0 < squares (d i) -> has (o_pv table o') i j (100 * (y * y) / squares (d i))) /\
      (forall j, (j < k)%nat -> squares (d i) = 0 -> entry (o_pv table o') i j = Some XN)) /\
    (forall i, (i < n)%nat -> ~ reached stop i ->
      (forall j v, (j < k)%nat -> (v < c)%nat -> loading (o_loadings table o') j i v = Some 0) /\
      (forall v, (v < c)%nat -> has (o_sdev table o') i v 0) /\
      (forall j, (j < k)%nat -> entry (o_pv table o') i j = Some XN)).
Proof. intros RN ON CC OK KC DV L S. exact (results_general o stop late n c k d V RN ON CC OK KC DV i0 L S). Qed.

(** A new object: two components, and the status of a run that nobody stops is not Terminated. *)
Theorem C169_new x n w c d V :
  rows x = n -> columns x = c -> (2 <= c)%nat -> (0 < n)%nat ->
  (forall i, (i < n)%nat -> decompose x (w i) = Some (d i, V i) /\ complete c (d i) (V i)) -> 0 < bigsum n (w (n - 1)%nat) ->
  exists o', run table rows columns decompose false (fun _ => false) false (create table x n w) = Returns table o' /\
    o_term table o' = false /\ length (o_loadings table o') = 2%nat /\ shape (o_pv table o') n 2 /\
    forall i j v, (i < n)%nat -> (j < 2)%nat -> loading (o_loadings table o') j i v = entry (V i) j v.
Proof. exact (new_general table rows columns decompose x n w c d V). Qed.

(** A request before the loop changes the status alone. *)
Theorem C169_early o stop late : exists o', run table rows columns decompose true stop late o = Returns table o' /\ like o o' /\ o_term table o' = true /\
  o_pv table o' = o_pv table o /\ o_loadings table o' = o_loadings table o /\ o_sdev table o' = o_sdev table o.
Proof. exact (early_general o stop late). Qed.

(** A request at the first location: the run returns, and no number of its results has a meaning. *)
Theorem C169_none_refuted o stop late n c k :
  rows (o_x table o) = n -> o_locs table o = n -> columns (o_x table o) = c -> o_k table o = Z.of_nat k -> (1 <= k <= c)%nat -> (0 < n)%nat -> stop 0%nat = true ->
  exists o', run table rows columns decompose false stop late o = Returns table o' /\ like o o' /\ o_term table o' = true /\
    shape (o_pv table o') n k /\ shape (o_sdev table o') n c /\ length (o_loadings table o') = k /\ Forall (fun m => shape m n c) (o_loadings table o') /\
    forall i, (i < n)%nat ->
      (forall j v, (j < k)%nat -> (v < c)%nat -> loading (o_loadings table o') j i v = Some 0) /\
      (forall v, (v < c)%nat -> entry (o_sdev table o') i v = Some XN) /\
      (forall j, (j < k)%nat -> entry (o_pv table o') i j = Some XN).
Proof. exact (none_general o stop late n c k). Qed.

(** "Results of one run belong together": a failing decomposition leaves loadings of this run beside PV and standard deviations of an earlier one. *)
Theorem C169_failure_refuted o stop late n c k d V i0 :
  rows (o_x table o) = n -> o_locs table o = n -> columns (o_x table o) = c -> o_k table o = Z.of_nat k -> (k <= c)%nat -> (0 < c)%nat ->
  (i0 < n)%nat -> reached stop i0 -> decompose (o_x table o) (o_weight table o i0) = None ->
  (forall i, (i < i0)%nat -> decompose (o_x table o) (o_weight table o i) = Some (d i, V i) /\ complete c (d i) (V i)) ->
  exists o', run table rows columns decompose false stop late o = Throws table o' /\ like o o' /\ o_term table o' = o_term table o /\
    o_pv table o' = o_pv table o /\ o_sdev table o' = o_sdev table o /\
    length (o_loadings table o') = k /\ Forall (fun m => shape m n c) (o_loadings table o') /\
    (forall i j v, (i < i0)%nat -> (j < k)%nat -> loading (o_loadings table o') j i v = entry (V i) j v) /\
    (forall i j v, (i0 <= i < n)%nat -> (j < k)%nat -> (v < c)%nat -> loading (o_loadings table o') j i v = Some 0).
Proof. exact (failure_general o stop late n c k d V i0). Qed.

(** Rows that do not match the coordinates are found at the first location, after the loadings were cleared. *)
Theorem C169_mismatch_refuted o stop late n c k :
  o_locs table o = n -> rows (o_x table o) <> n -> columns (o_x table o) = c -> o_k table o = Z.of_nat k -> (0 < n)%nat -> stop 0%nat = false ->
  exists o', run table rows columns decompose false stop late o = Throws table o' /\ like o o' /\ o_term table o' = o_term table o /\
    o_pv table o' = o_pv table o /\ o_sdev table o' = o_sdev table o /\
    length (o_loadings table o') = k /\ forall i j v, (i < n)%nat -> (j < k)%nat -> (v < c)%nat -> loading (o_loadings table o') j i v = Some 0.
Proof. exact (mismatch_general o stop late n c k). Qed.

(** More components than variables: found at the first location, after it was stored. *)
Theorem C169_many_refuted o stop late n c k d V :
  rows (o_x table o) = n -> o_locs table o = n -> columns (o_x table o) = c -> o_k table o = Z.of_nat k -> (c < k)%nat -> (0 < n)%nat -> stop 0%nat = false ->
  decompose (o_x table o) (o_weight table o 0%nat) = Some (d, V) -> complete c d V ->
  exists o', run table rows columns decompose false stop late o = Throws table o' /\ like o o' /\ o_term table o' = o_term table o /\
    o_pv table o' = o_pv table o /\ o_sdev table o' = o_sdev table o /\ length (o_loadings table o') = k /\
    (forall j v, (j < c)%nat -> loading (o_loadings table o') j 0 v = entry V j v) /\
    (forall i j v, (i < n)%nat -> (j < k)%nat -> (v < c)%nat -> (0 < i)%nat \/ (c <= j)%nat -> loading (o_loadings table o') j i v = Some 0).
Proof. exact (keep_many o stop late n c k d V). Qed.

(** No component kept: every location is decomposed, the standard deviations are replaced, then PV throws. *)
Theorem C169_zero_refuted o stop late n c d V i0 :
  rows (o_x table o) = n -> o_locs table o = n -> columns (o_x table o) = c -> o_k table o = 0%Z ->
  (forall i, (i < n)%nat -> reached stop i -> decompose (o_x table o) (o_weight table o i) = Some (d i, V i) /\ complete c (d i) (V i)) ->
  last_reached n stop i0 -> 0 < bigsum n (o_weight table o i0) ->
  exists o', run table rows columns decompose false stop late o = Throws table o' /\ like o o' /\ o_pv table o' = o_pv table o /\ o_loadings table o' = [] /\
    shape (o_sdev table o') n c /\
    (forall i v y, (i < n)%nat -> reached stop i -> nth_error (d i) v = Some y -> has (o_sdev table o') i v (y / sqrt (bigsum n (o_weight table o i0)))).
Proof. exact (keep_none o stop late n c d V i0). Qed.
Theorem C169_negative o stop late : (o_k table o < 0)%Z -> run table rows columns decompose false stop late o = Throws table o.
Proof. exact (keep_negative o stop late). Qed.

(** "A complete run clears the status": once terminated, an object stays so. *)
Theorem C169_status_refuted o early stop late o' : o_term table o = true ->
  run table rows columns decompose early stop late o = Returns table o' \/ run table rows columns decompose early stop late o = Throws table o' -> o_term table o' = true.
Proof. exact (status_general o early stop late o'). Qed.

(** "Standard deviations of a location depend on that location": two runs that stop at different locations disagree about one both reached. *)
Theorem C169_scale_refuted o stop1 stop2 late1 late2 n c k d V i1 i2 o1 o2 i v y :
  rows (o_x table o) = n -> o_locs table o = n -> columns (o_x table o) = c -> o_k table o = Z.of_nat k -> (1 <= k <= c)%nat ->
  (forall i, (i < n)%nat -> decompose (o_x table o) (o_weight table o i) = Some (d i, V i) /\ complete c (d i) (V i)) ->
  last_reached n stop1 i1 -> last_reached n stop2 i2 -> 0 < bigsum n (o_weight table o i1) -> 0 < bigsum n (o_weight table o i2) ->
  bigsum n (o_weight table o i1) <> bigsum n (o_weight table o i2) ->
  run table rows columns decompose false stop1 late1 o = Returns table o1 -> run table rows columns decompose false stop2 late2 o = Returns table o2 ->
  (i < n)%nat -> reached stop1 i -> reached stop2 i -> nth_error (d i) v = Some y -> 0 < y ->
  exists a b, has (o_sdev table o1) i v a /\ has (o_sdev table o2) i v b /\ a <> b.
Proof. exact (scale_general o stop1 stop2 late1 late2 n c k d V i1 i2 o1 o2 i v y). Qed.
End Statements.
Print Assumptions C169_results.
Print Assumptions C169_new.
Print Assumptions C169_early.
Print Assumptions C169_none_refuted.
Print Assumptions C169_failure_refuted.
Print Assumptions C169_mismatch_refuted.
Print Assumptions C169_many_refuted.
Print Assumptions C169_zero_refuted.
Print Assumptions C169_negative.
Print Assumptions C169_status_refuted.
Print Assumptions C169_scale_refuted.

(** Two locations, singular values 4 and 3, weights that sum to 2 and 4; a request to stop at the second location. *)
Example C169_results_case : exists o', run nat (fun t => t) two ex_dec false (fun i => Nat.eqb i 1) false (ex_o 2) = Returns _ o' /\ o_term _ o' = true /\
  loading (o_loadings _ o') 0 0 0 = Some 1 /\ has (o_sdev _ o') 0 0 (4 / sqrt 2) /\ has (o_pv _ o') 0 0 64 /\
  loading (o_loadings _ o') 0 1 0 = Some 0 /\ has (o_sdev _ o') 1 0 0 /\ entry (o_pv _ o') 1 0 = Some XN.
Proof. exact ex_results. Qed.
Example C169_none_case : exists o', run nat (fun t => t) two ex_dec false (fun _ => true) false (ex_o 2) = Returns _ o' /\ entry (o_sdev _ o') 1 1 = Some XN /\ loading (o_loadings _ o') 1 1 1 = Some 0.
Proof. exact ex_none. Qed.
(** The decomposition of the second location fails; PV and standard deviations stay those of an earlier run. *)
Example C169_failure_case : exists o', run nat (fun t => t) two ex_bad false (fun _ => false) false (ex_o 2) = Throws _ o' /\ o_pv _ o' = [[XF 7]] /\ o_sdev _ o' = [[XF 8]] /\
  loading (o_loadings _ o') 1 0 1 = Some 1 /\ loading (o_loadings _ o') 1 1 1 = Some 0.
Proof. exact ex_failure. Qed.
Example C169_mismatch_case : exists o', run nat (fun t => S t) two ex_dec false (fun _ => false) false (ex_o 2) = Throws _ o' /\ o_pv _ o' = [[XF 7]] /\ loading (o_loadings _ o') 0 0 0 = Some 0.
Proof. eexists. split; [reflexivity|]. split; reflexivity. Qed.
Example C169_many_case : exists o', run nat (fun t => t) two ex_dec false (fun _ => false) false (ex_o 3) = Throws _ o' /\ o_sdev _ o' = [[XF 8]] /\
  loading (o_loadings _ o') 1 0 1 = Some 1 /\ loading (o_loadings _ o') 2 0 1 = Some 0.
Proof. exact ex_many. Qed.
Example C169_zero_case : exists o', run nat (fun t => t) two ex_dec false (fun _ => false) false (ex_o 0) = Throws _ o' /\ o_pv _ o' = [[XF 7]] /\ has (o_sdev _ o') 0 0 (4 / sqrt 4).
Proof. exact ex_nothing. Qed.
Example C169_negative_case : (o_k nat (ex_o (-1)) < 0)%Z /\ run nat (fun t => t) two ex_dec false (fun _ => false) false (ex_o (-1)) = Throws _ (ex_o (-1)).
Proof. split; reflexivity. Qed.
(** A cancelled run, then a complete one. *)
Example C169_status_case : exists o', run nat (fun t => t) two ex_dec true (fun _ => false) false (ex_o 2) = Returns _ o' /\ o_term _ o' = true /\ exists o'', run nat (fun t => t) two ex_dec false (fun _ => false) false o' = Returns _ o'' /\ o_term _ o'' = true.
Proof. eexists. split; [reflexivity|]. split; [reflexivity|]. eexists. split; reflexivity. Qed.
Example C169_scale_case : exists o1 o2 a b, run nat (fun t => t) two ex_dec false (fun i => Nat.eqb i 1) false (ex_o 2) = Returns _ o1 /\
  run nat (fun t => t) two ex_dec false (fun _ => false) false (ex_o 2) = Returns _ o2 /\ has (o_sdev _ o1) 0 0 a /\ has (o_sdev _ o2) 0 0 b /\ a <> b.
Proof. exact ex_scale. Qed.
Example C169_new_case : (forall i, (i < 2)%nat -> ex_dec 2%nat (o_weight nat (ex_o 2) i) = Some (ex_d i, ex_V i) /\ complete 2 (ex_d i) (ex_V i)) /\
  0 < bigsum 2 (o_weight nat (ex_o 2) 1).
Proof. exact (conj ex_all (ex_sum_pos 1)). Qed.
