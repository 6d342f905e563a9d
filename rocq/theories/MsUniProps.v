(** C171, equal weights: every kernel weight is 1, as with a boxcar kernel whose bandwidth exceeds all distances.
    Source: GWRMultiscale.cpp:293-385, 387-398, 488-545. *)
From mathcomp Require Import all_ssreflect all_algebra.
From Verif Require Import Outcome GwrModel GwrSpec GwrProofs MsModel MsSpec MsCases MsConvSpec MsConvMain MsUni.
Set Implicit Arguments. Unset Strict Implicit. Unset Printing Implicit Defensive.
Import Order.TTheory GRing.Theory Num.Theory.
Local Open Scope ring_scope.

(** Any number of variables with independent columns: there are constants q < 1 and c, which depend on the design only, such that
    whatever the response, the start and the bandwidths selected, the residual sum of squares exceeds the least possible one by at most
    q^(j-1) times what it does after the first sweep, and the coefficients approach those of least squares at that rate. *)
Theorem C171_equal_weights : forall (F : realFieldType) n p (x : 'M[F]_(n, p)), (forall v : 'cV[F]_p, x *m v = 0 -> v = 0) ->
  exists q c : F, [/\ 0 <= q < 1, 0 <= c & forall (inv1 : 'M[F]_1 -> option 'M[F]_1) hat y (s : fitted_model F n p) bw init
      (wt : 'I_p -> F -> 'I_n -> 'cV[F]_n) select threshold retry (sts : nat -> ms F n p) K (b : 'cV[F]_p),
    inverse_contract inv1 -> (forall i h a, wt i h a = const_mx 1) -> x^T *m (y - x *m b) = 0 ->
    sts 0%N = ms_start x y s bw init ->
    (forall j, (j < K)%N -> sweep inv1 hat x y wt select threshold retry (fun _ _ => false) (fun _ _ => false) (fun _ _ _ => false)
       j.+1 (enum 'I_p) (sts j) = Ok (sts j.+1)) ->
    let excess k := rss_of x (mbetas (sts k)) y - \sum_a (y - x *m b) a ord0 ^+ 2 in
    forall j, (0 < j <= K)%N ->
    [/\ 0 <= excess j, excess j <= q ^+ j.-1 * excess 1%N &
        forall a i, (mbetas (sts j) a i - b i ord0) ^+ 2 <= c * (q ^+ j.-1 * excess 1%N)]].
Proof. exact equal_weights_main. Qed.
Print Assumptions C171_equal_weights.
Example C171_equal_weights_case :
  [/\ forall v : 'cV[rat]_2, ex2_x *m v = 0 -> v = 0, forall i h a, ex2_wt i h a = const_mx 1,
      ex2_x^T *m (ex2_y - ex2_x *m const_mx 1) = 0 &
  forall K, exists sts : nat -> ms _ 2 2, sts 0%N = ex2_s0 /\
    forall j, (j < K)%N -> sweep (@exact_inv _ 1) true ex2_x ex2_y ex2_wt (fun _ _ _ _ b => Ok b) (fun _ => 1) 5
      (fun _ _ => false) (fun _ _ => false) (fun _ _ _ => false) j.+1 (enum 'I_2) (sts j) = Ok (sts j.+1)].
Proof. exact ex2_equal. Qed.

(** With a threshold above zero the loop then ends by itself: beyond some number J the iteration limit does not matter.  For dCVR,
    which divides by the residual sum of squares, the response must not be fitted exactly; [root] need only have the upper bound of a
    square root. *)
Theorem C171_equal_weights_end : forall (F : archiFieldType) n p (inv1 : 'M[F]_1 -> option 'M[F]_1) hat (x : 'M[F]_(n, p)) y
    (wt : 'I_p -> F -> 'I_n -> 'cV[F]_n) select threshold retry ctype (t : F) root (s : fitted_model F n p) bw init,
  inverse_contract inv1 -> (forall i h a, wt i h a = const_mx 1) ->
  (forall i h j, inv1 (xtw (col i x) (wt i h j) *m col i x) <> None) ->
  (forall it i xi yi h, exists b, select it i xi yi h = Ok b) ->
  (forall v : 'cV[F]_p, x *m v = 0 -> v = 0) -> 0 < t ->
  (ctype = dCVR -> (forall u v, 0 <= v -> u <= v ^+ 2 -> root u <= v) /\ (forall b, y <> x *m b)) ->
  let run m := backfitting inv1 hat x y wt select threshold retry (fun _ => false) (fun _ _ => false) (fun _ _ => false)
    (fun _ _ _ => false) ctype t root m (ms_start x y s bw init) in
  exists J, (exists r, run J = Ok r) /\ forall m, (J <= m)%N -> run m = run J.
Proof. exact (fun F n p inv1 hat x y wt select threshold retry ctype t root s bw init c o w e i p0 r => @stops_main F n p inv1 hat x y wt select threshold retry ctype t root c o w e i p0 r s bw init). Qed.
Print Assumptions C171_equal_weights_end.
Example C171_end_case : [/\ forall i h a, ex2_wt i h a = const_mx 1,
  forall i h j, exact_inv (xtw (col i ex2_x) (ex2_wt i h j) *m col i ex2_x) <> None & forall v : 'cV[rat]_2, ex2_x *m v = 0 -> v = 0].
Proof. exact ex2_end. Qed.
