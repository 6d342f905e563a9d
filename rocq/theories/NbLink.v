From Coq Require Import Reals Lra Lia.
From Coq Require List.
From mathcomp Require Import all_ssreflect all_algebra.
From Verif Require Import Outcome XReal KernelModel KernelSpec GwrModel GwrSpec GwrProofs GwrCases NbMain NbKern LevCases.
Set Implicit Arguments. Unset Strict Implicit. Unset Printing Implicit Defensive.
Import GRing.Theory.
Local Open Scope ring_scope.

Lemma seq_iota a n : List.seq a n = iota a n.
Proof. by elim: n a => [|n IH] a //=; rewrite IH. Qed.
Lemma filter_seq (T : Type) (P : T -> bool) l : List.filter P l = filter P l.
Proof. by elim: l => [|a l IH] //=; rewrite IH. Qed.
Lemma card_seq n (P : nat -> bool) : #|[set j : 'I_n | P j]| = length (List.filter P (List.seq 0 n)).
Proof.
rewrite filter_seq seq_iota -val_enum_ord filter_map; change (@length nat) with (@size nat); rewrite size_map.
by rewrite cardE enumT /enum_mem; congr size; apply: eq_filter => j; rewrite /= inE.
Qed.

Section L.
Variables (F : realFieldType) (n p : nat) (inv : 'M[F]_p -> option 'M[F]_p).
Hypothesis contract : inverse_contract inv.
Variables (k : kernel) (xb : xd) (m : nat) (xs : 'I_n -> list xd) (ds rs : 'I_n -> list R).
Hypothesis ck : compact k = true.
Hypothesis hb : xval xb = Some (INR m).
Hypothesis hx : forall i, xvals (xs i) (ds i).
Hypothesis hl : forall i, length (ds i) = n.
Hypothesis hn : forall i, nonneg (ds i).
Hypothesis hu : forall i, usable true (INR m) (ds i).
Hypothesis hm : (m <= n)%N.
Hypothesis hr : forall i, returns_values (bw_weight k true xb (xs i)) (rs i).
Variables (x : 'M[F]_(n, p)) (y : 'cV[F]_n) (W : 'I_n -> 'cV[F]_n).
Hypothesis hw : forall i j : 'I_n, W i j ord0 = 0 <-> List.nth j (rs i) (IZR 0) = IZR 0.

Lemma neighbour_card i : (#|[set j | W i j ord0 != 0%R]| < m)%N.
Proof.
have [L _] := @any_neighbours k xb m (xs i) (ds i) (rs i) ck hb (hx i) (hn i) (hu i) (eq_ind_r (fun z => (m <= z)%coq_nat) (elimT leP hm) (hl i)) (hr i).
move: L; rewrite hl -card_seq => /ltP L; apply: leq_ltn_trans L; apply: eq_leq; congr #|pred_of_set _|.
apply/setP => j; rewrite !inE; case: Req_EM_T => [/hw ->|E]; first by rewrite eqxx.
by apply/negP => /eqP /hw.
Qed.
Lemma own_nonzero (i : 'I_n) : List.nth i (ds i) (IZR 0) = IZR 0 -> W i i ord0 != 0.
Proof.
have [_ H] := @any_neighbours k xb m (xs i) (ds i) (rs i) ck hb (hx i) (hn i) (hu i) (eq_ind_r (fun z => (m <= z)%coq_nat) (elimT leP hm) (hl i)) (hr i).
move=> Z; apply/negP => /eqP /hw; apply: H => //; rewrite hl; apply/ltP; exact: ltn_ord.
Qed.
Lemma fit_bandwidth storeS storeC lo hi s (i : 'I_n) : (lo <= i < hi)%N ->
  fit_core inv storeS storeC lo hi x y W (fun _ => false) = Ok (s, false) -> (p < m)%N.
Proof. move=> ir H; apply: leq_ltn_trans (neighbour_card i); exact: (fit_neighbours contract H). Qed.
Lemma cv_bandwidth lo hi b (i : 'I_n) : (lo <= i < hi)%N -> List.nth i (ds i) (IZR 0) = IZR 0 ->
  cv_core inv lo hi x y W (fun _ => false) = Ok (b, false) -> (p.+1 < m)%N.
Proof.
move=> ir Z H; apply: leq_ltn_trans (neighbour_card i).
have := cv_neighbours contract H ir; set A := [set j | _]; set B := [set j | _] => L.
have -> : B = i |: A.
  apply/setP => j; rewrite !inE; case: (j =P i) => [->|_] //=; exact: own_nonzero.
by rewrite cardsU1 !inE eqxx add1n ltnS.
Qed.
Lemma score_bandwidth terminated (i : 'I_n) : (m <= p.+1)%N -> List.nth i (ds i) (IZR 0) = IZR 0 -> criterion_cv inv x y W (fun _ => false) terminated = None.
Proof.
move=> mp Z; rewrite /criterion_cv; case E: (cv_core _ _ _ _ _ _ _) => [[b st]| |] //.
case: st E => E; first by rewrite orbT.
by have := cv_bandwidth (i := i) _ Z E; rewrite ltn_ord /= => /(_ isT); rewrite ltnNge mp.
Qed.
End L.

(** Two observations, a constant model, boxcar kernel, bandwidth 2: only the own observation has a weight. *)
Definition pair_ds (i : 'I_2) : list R := if i == ord0 then [:: IZR 0; IZR 1] else [:: IZR 1; IZR 0].
Definition pair_rs (i : 'I_2) : list R := if i == ord0 then [:: IZR 1; IZR 0] else [:: IZR 0; IZR 1].
Definition pair_W (i : 'I_2) : 'cV[rat]_2 := \col_j (j == i)%:R.
Ltac rdecs := repeat (match goal with
  | |- context [Rlt_dec ?a ?b] => destruct (Rlt_dec a b); try (exfalso; Lra.lra)
  | |- context [Rle_dec ?a ?b] => destruct (Rle_dec a b); try (exfalso; Lra.lra)
  | |- context [Req_EM_T ?a ?b] => destruct (Req_EM_T a b); try (exfalso; Lra.lra) end; cbn [List.filter length]).
Lemma pair_usable i : usable true (INR 2) (pair_ds i).
Proof.
rewrite /usable /pair_ds; case: (i == ord0); rewrite /count_zero; cbn [List.filter length INR]; rdecs; cbn [INR]; repeat split; try Lra.lra; Lia.lia.
Qed.
Lemma pair_nonneg i : nonneg (pair_ds i).
Proof. rewrite /nonneg /pair_ds; case: (i == ord0); repeat constructor; Lra.lra. Qed.
Lemma pair_values i : returns_values (bw_weight Boxcar true (XF (INR 2)) (List.map XF (pair_ds i))) (pair_rs i).
Proof.
have X : xvals (List.map XF (pair_ds i)) (pair_ds i) by rewrite /xvals /pair_ds; case: (i == ord0).
have [h [_ [_ [Hk R]]]] := KernelMain.C05_main Boxcar (XF (INR 2)) (INR 2) _ _ erefl X (pair_nonneg i) (pair_usable i).
have : kth_smallest 2 (pair_ds i) h by apply: Hk => //; rewrite /pair_ds; case: (i == ord0).
move: R; rewrite /pair_ds /pair_rs /kth_smallest /count_lt /count_le; case: (i == ord0) => R [I L];
  have E : h = IZR 1; try (move: I L; cbn [List.In] => -[<-|[<-|[]]]; cbn [List.filter length]; rdecs; (try by []); Lia.lia).
all: subst h; move: R; cbn [List.map K]; by rdecs.
Qed.
Lemma pair_zero (i j : 'I_2) : pair_W i j ord0 = 0 <-> List.nth j (pair_rs i) (IZR 0) = IZR 0.
Proof.
rewrite mxE /pair_rs; case: i => [[|[|i]] //= hi]; case: j => [[|[|j]] //= hj]; rewrite -?val_eqE /=; split=> // H; try (exfalso; Lra.lra).
all: by move/eqP: H; rewrite oner_eq0.
Qed.
Lemma pair_fit : exists s, fit_core (@exact_inv _ 1) true true 0 2 (const_mx 1) (\col_j j%:R) pair_W (fun _ => false) = Ok (s, false).
Proof.
have H i : \sum_j pair_W i j ord0 != 0.
  by rewrite (bigD1 i) //= big1 => [|j ji]; rewrite !mxE ?eqxx ?addr0 ?oner_eq0 // (negbTE ji).
by have [s [E _ _]] := means_main true true (\col_j j%:R) H; exists s.
Qed.
Lemma cross_validation_main (F : realFieldType) n p (inv : 'M[F]_p -> option 'M[F]_p)
    (x : 'M[F]_(n, p)) y (W : 'I_n -> 'cV[F]_n) : inverse_contract inv ->
  (forall lo hi b, cv_core inv lo hi x y W (fun _ => false) = Ok (b, false) ->
     forall i : 'I_n, (lo <= i < hi)%N -> (p <= #|[set j | (j != i) && (W i j ord0 != 0%R)]|)%N) /\
  (forall terminated (i : 'I_n), (#|[set j | (j != i) && (W i j ord0 != 0%R)]| < p)%N ->
     criterion_cv inv x y W (fun _ => false) terminated = None).
Proof. by move=> c; split=> [lo hi b|t i]; [exact: cv_neighbours|exact: criterion_neighbours]. Qed.
Lemma bandwidth_main (F : realFieldType) n p (inv : 'M[F]_p -> option 'M[F]_p) k xb m
    (xs : 'I_n -> list xd) (ds rs : 'I_n -> list R) (x : 'M[F]_(n, p)) y (W : 'I_n -> 'cV[F]_n) :
  inverse_contract inv -> compact k = true -> xval xb = Some (INR m) -> (m <= n)%N ->
  (forall i, xvals (xs i) (ds i)) -> (forall i, List.length (ds i) = n) -> (forall i, nonneg (ds i)) ->
  (forall i, usable true (INR m) (ds i)) -> (forall i, returns_values (bw_weight k true xb (xs i)) (rs i)) ->
  (forall i j : 'I_n, W i j ord0 = 0 <-> List.nth j (rs i) (IZR 0) = IZR 0) ->
  (forall storeS storeC lo hi s (i : 'I_n), (lo <= i < hi)%N ->
     fit_core inv storeS storeC lo hi x y W (fun _ => false) = Ok (s, false) -> (p < m)%N) /\
  (forall i : 'I_n, List.nth i (ds i) (IZR 0) = IZR 0 ->
     (forall lo hi b, (lo <= i < hi)%N -> cv_core inv lo hi x y W (fun _ => false) = Ok (b, false) -> (p + 1 < m)%N) /\
     (forall terminated, (m <= p + 1)%N -> criterion_cv inv x y W (fun _ => false) terminated = None)).
Proof.
move=> c ck hb hm hx hl hn hu hr hw; split=> [ss sc lo hi s i ir H|i Z]; first exact: (fit_bandwidth c ck hb hx hl hn hu hm hr hw ir H).
rewrite addn1; split=> [lo hi b ir H|t mp]; first exact: (cv_bandwidth c ck hb hx hl hn hu hm hr hw ir Z H).
exact: (score_bandwidth c ck hb hx hl hn hu hm hr _ _ hw _ mp Z).
Qed.
Lemma pair_predict : exists b,
  predict_core (@exact_inv _ 1) (const_mx 1) (\col_j j%:R) pair_W (fun _ => false) = Ok (b, false).
Proof.
rewrite /predict_core; set l := enum _; set b0 := (X in loop _ _ _ X); move: l b0; elim=> [|i t IH] b0 /=; first by exists b0.
rewrite {1}/predict_step /exact_inv ifT; first exact: IH.
rewrite one_normal unitmxE det_scalar1 unitfE (bigD1 i) //= big1 => [|j ji]; rewrite !mxE ?eqxx ?addr0 ?oner_eq0 // (negbTE ji) //.
Qed.
Lemma pair_cv :
  (exists b, cv_core (@exact_inv _ 1) 0 2 (const_mx 1) (\col_j j%:R) (fun _ : 'I_2 => const_mx (1 : rat)) (fun _ => false) = Ok (b, false)) /\
  (forall i, (#|[set j | (j != i) && (pair_W i j ord0 != 0%R)]| < 1)%N).
Proof.
split.
  apply: GwrCases.cv_total => i; rewrite /exact_inv ifT //.
  rewrite one_normal unitmxE det_scalar1 unitfE big_ord_recl big_ord1 !mxE.
  by case: i => [[|[|i]] hi].
move=> i; rewrite ltnS leqn0 cards_eq0; apply/eqP/setP => j; rewrite !inE mxE.
by case: (j == i); rewrite //= eqxx.
Qed.
Lemma pair_config :
  [/\ forall i, usable true (INR 2) (pair_ds i), forall i, nonneg (pair_ds i),
      forall i, returns_values (bw_weight Boxcar true (XF (INR 2)) (List.map XF (pair_ds i))) (pair_rs i),
      forall i j : 'I_2, pair_W i j ord0 = 0 <-> List.nth j (pair_rs i) (IZR 0) = IZR 0 &
      forall i : 'I_2, List.nth i (pair_ds i) (IZR 0) = IZR 0].
Proof.
split; [exact: pair_usable|exact: pair_nonneg|exact: pair_values|exact: pair_zero|].
by case=> [[|[|i]] hi].
Qed.
