(** C83, C116-C118: GWPCA. *)
From mathcomp Require Import all_ssreflect all_algebra.
From Verif Require Import Outcome PcaModel PcaSpec PcaProofs PcaCases.
Set Implicit Arguments. Unset Strict Implicit. Unset Printing Implicit Defensive.
Import Order.TTheory GRing.Theory Num.Theory.
Local Open Scope ring_scope.

(** Element i of the result is the triple of the PV values, the standard deviations and the loadings of
    location i ([row0]: the empty triple). *)

(** C83: every PV value that is a number is in [0, 100], and those of a location sum to at most 100. *)
Theorem C83_range : forall (F : realFieldType) n p (sq : F -> F) svd K (x : 'M[F]_(n.+1, p)) (W : 'I_n.+1 -> 'cV[F]_n.+1) r,
  svd_contract svd -> (forall i l, sq (W i l ord0) ^+ 2 = W i l ord0) -> sq (total (W ord_max)) ^+ 2 = total (W ord_max) ->
  (forall i l, 0 <= W i l ord0) -> pca sq svd K x W = Ok r ->
  forall i : 'I_n.+1, let pv := (nth (row0 F p) r i).1.1 in
  (forall j v, nth None pv j = Some v -> 0 <= v <= 100%:R) /\ (\sum_(j < K) odflt 0 (nth None pv j) <= 100%:R).
Proof. exact (fun F n p sq svd K x W r c h1 h2 h3 e i => @pv_range F n p sq svd c K x W h1 r e h2 i h3). Qed.
Print Assumptions C83_range.
(** C83: the PV of component j is the percentage of the weighted variation of the data at the location that its
    scores have; it is not a number exactly if there is no variation. *)
Theorem C83_value : forall (F : realFieldType) n p (sq : F -> F) svd K (x : 'M[F]_(n.+1, p)) (W : 'I_n.+1 -> 'cV[F]_n.+1) r,
  svd_contract svd -> (forall i l, sq (W i l ord0) ^+ 2 = W i l ord0) -> sq (total (W ord_max)) ^+ 2 = total (W ord_max) ->
  pca sq svd K x W = Ok r ->
  forall (i : 'I_n.+1) j, (j < K)%N -> let q := nth (row0 F p) r i in
  nth None q.1.1 j = if variation x (W i) == 0 then None
                     else Some (100%:R * score_variation x (W i) (nth 0 q.2 j) / variation x (W i)).
Proof. exact (fun F n p sq svd K x W r c h1 h2 e => @pv_value F n p sq svd c K x W h1 r e h2). Qed.
Print Assumptions C83_value.
Example C83_case : svd_contract svd1 /\ (forall i l, rt (pW 1 i l ord0) ^+ 2 = pW 1 i l ord0) /\
  rt (total (pW 1 ord_max)) ^+ 2 = total (pW 1 ord_max) /\ (forall i l, 0 <= pW 1 i l ord0) /\
  exists r, pca rt svd1 1 px (pW 1) = Ok r.
Proof.
by have [A B] := p_roots (or_introl erefl); split; [exact: svd1_ok|split=> //; split=> //; split; [move=> i l; apply: pw0; left|apply: p_run; left]].
Qed.
(** C83, standard deviations, what holds: their squares are the weighted variation of the scores divided by the total
    weight of the LAST location. *)
Theorem C83_sdev_partial : forall (F : realFieldType) n p (sq : F -> F) svd K (x : 'M[F]_(n.+1, p)) (W : 'I_n.+1 -> 'cV[F]_n.+1) r,
  svd_contract svd -> (forall i l, sq (W i l ord0) ^+ 2 = W i l ord0) -> sq (total (W ord_max)) ^+ 2 = total (W ord_max) ->
  pca sq svd K x W = Ok r ->
  forall (i : 'I_n.+1) j, (j < K)%N -> let q := nth (row0 F p) r i in
  let var := score_variation x (W i) (nth 0 q.2 j) / total (W ord_max) in
  sq var ^+ 2 = var -> nth 0 q.1.2 j ^+ 2 = var.
Proof. exact (fun F n p sq svd K x W r c h1 h2 e => @sdev_value F n p sq svd c K x W h1 r e h2). Qed.
Print Assumptions C83_sdev_partial.
(** C83, refuted: with the same weights at location 0, its standard deviation changes with the weights of the
    other location. *)
Theorem C83_own_weights_refuted : pW 1 ord0 = pW 4%:R ord0 /\ exists r r',
  pca rt svd1 1 px (pW 1) = Ok r /\ pca rt svd1 1 px (pW 4%:R) = Ok r' /\
  nth 0 (nth (row0 _ 1) r 0).1.2 0 = 12%:R / 25%:R /\ nth 0 (nth (row0 _ 1) r' 0).1.2 0 = 6%:R / 25%:R.
Proof. exact p_own. Qed.
Print Assumptions C83_own_weights_refuted.

(** C116: the loadings of a location are orthonormal, and each component has the largest weighted score variation
    among all unit directions orthogonal to the components before it. *)
Theorem C116_principal : forall (F : realFieldType) n p (sq : F -> F) svd K (x : 'M[F]_(n.+1, p)) (W : 'I_n.+1 -> 'cV[F]_n.+1) r,
  svd_contract svd -> (forall i l, sq (W i l ord0) ^+ 2 = W i l ord0) -> pca sq svd K x W = Ok r ->
  forall (i : 'I_n.+1) j, (j < K)%N -> let ls := (nth (row0 F p) r i).2 in let v := nth 0 ls j in
  dot v v = 1 /\ (forall l, (l < j)%N -> dot v (nth 0 ls l) = 0) /\
  (forall u, dot u u = 1 -> (forall l, (l < j)%N -> dot u (nth 0 ls l) = 0) ->
     score_variation x (W i) u <= score_variation x (W i) v).
Proof. exact (fun F n p sq svd K x W r c h1 e => @components F n p sq svd c K x W h1 r e). Qed.
Print Assumptions C116_principal.

(** C117, what holds: the winning variable has the largest signed loading. *)
Theorem C117_winner_partial : forall (F : realFieldType) p (v : 'cV[F]_p) j, index_max v = Some j ->
  forall l, v l ord0 <= v j ord0.
Proof. exact index_max_ok. Qed.
Print Assumptions C117_winner_partial.
(** C117, refuted: it depends on the sign of the singular vector, which svd leaves open; with one of the signs the winner is a
    constant variable with loading zero. *)
Theorem C117_winner_refuted : svd_contract (svd2 1) /\ svd_contract (svd2 (-1)) /\ exists r r',
  pca rt (svd2 1) 1 p2x (pW 1) = Ok r /\ pca rt (svd2 (-1)) 1 p2x (pW 1) = Ok r' /\
  index_max (nth 0 (nth (row0 _ 2) r 0).2 0) = Some ord0 /\
  index_max (nth 0 (nth (row0 _ 2) r' 0).2 0) = Some ord_max /\
  (nth 0 (nth (row0 _ 2) r' 0).2 0) ord_max ord0 = 0 /\ (nth 0 (nth (row0 _ 2) r' 0).2 0) ord0 ord0 = -1.
Proof. exact p2_signs. Qed.
Print Assumptions C117_winner_refuted.

(** C118: the analysis succeeds if there are at least as many observations as variables and as components,
    the weights are usable and svd succeeds ... *)
Theorem C118_succeeds : forall (F : realFieldType) n p (sq : F -> F) svd K (x : 'M[F]_(n, p)) (W : 'I_n -> 'cV[F]_n),
  svd_contract svd -> (0 < K <= p)%N -> (p <= n)%N ->
  (forall i, total (W i) != 0 /\ svd (centred sq x (W i)) <> None) -> exists r, pca sq svd K x W = Ok r.
Proof. exact (fun F n p sq svd K x W c => @pca_total F n p sq svd c K x W). Qed.
Print Assumptions C118_succeeds.
Example C118_case : forall i, total (pW 1 i) != 0 /\ svd1 (centred rt px (pW 1 i)) <> None.
Proof. by move=> i; apply: p_svd; left. Qed.
(** ... C118, refuted: isValid accepts every positive number of components (C119), but more components than variables, or
    more variables than observations, throw. *)
Theorem C118_valid_refuted : forall (F : realFieldType) n p (sq : F -> F) svd K (x : 'M[F]_(n, p)) (W : 'I_n -> 'cV[F]_n),
  svd_contract svd -> (0 < n)%N -> (K == 0%N) || (p < K)%N || (n < p)%N -> pca sq svd K x W = Throw.
Proof. exact (fun F n p sq svd K x W c => @pca_throws F n p sq svd c K x W). Qed.
Print Assumptions C118_valid_refuted.
