From mathcomp Require Import all_ssreflect all_algebra.
From Verif Require Import Outcome GwrModel GwrSpec GwrProofs GwrCases GwdrFitModel.
Set Implicit Arguments. Unset Strict Implicit. Unset Printing Implicit Defensive.
Import Order.TTheory GRing.Theory Num.Theory.
Local Open Scope ring_scope.

Section P.
Variables (F : realFieldType) (n p : nat) (inv : 'M[F]_p -> option 'M[F]_p).
Implicit Types (x : 'M[F]_(n, p)) (y : 'cV[F]_n) (Ws : seq ('I_n -> 'cV[F]_n)).

Lemma dims_weight_acc Ws i j : forall w : 'cV[F]_n, (foldl (fun w W => schur w (W i)) w Ws) j ord0 =
  w j ord0 * \prod_(W <- Ws) W i j ord0.
Proof.
elim: Ws => [|W Ws IH] w /=; first by rewrite big_nil mulr1.
by rewrite IH big_cons mxE mulrA.
Qed.
Lemma dims_weightE Ws i j : dims_weight Ws i j ord0 = \prod_(W <- Ws) W i j ord0.
Proof. by rewrite /dims_weight dims_weight_acc mxE mul1r. Qed.

Lemma xtw_same x w : (schur x (w *m (const_mx 1 : 'rV[F]_p)))^T = xtw x w.
Proof. apply/matrixP => a j. rewrite !mxE big_ord1 !mxE mulr1. by []. Qed.
Lemma xtwy_same x w y : x^T *m schur w y = xtw x w *m y.
Proof. apply/matrixP => a k. rewrite [LHS]mxE [RHS]mxE. apply: eq_bigr => j _. rewrite !mxE ord1. by rewrite mulrA. Qed.

Definition sim (g : gwdr_state F n p) (s : fitted_model F n p) : Prop :=
  [/\ g_betas g = betas s, g_se g = se2 s, \sum_i g_s1 g i ord0 = shat0 s, \sum_i g_s2 g i ord0 = shat1 s &
      g_qdiag g = qdiag s /\ g_S g = rowS s].

Lemma sum_set (v : 'cV[F]_n) i a : v i ord0 = 0 -> \sum_j set_elem v i a j ord0 = \sum_j v j ord0 + a.
Proof.
move=> V. rewrite (bigD1 i) //= [in RHS](bigD1 i) //= V add0r addrC mxE eqxx. congr (_ + _).
by apply: eq_bigr => j /negbTE nj; rewrite mxE nj.
Qed.

Lemma sim_loop storeS x y Ws stop idx : forall g s, uniq idx -> sim g s ->
  (forall i, i \in idx -> g_s1 g i ord0 = 0 /\ g_s2 g i ord0 = 0) ->
  match loop (gwdr_step inv storeS x y Ws) stop idx g, loop (fit_step inv storeS false 0 x y (dims_weight Ws)) stop idx s with
  | Ok (g', b), Ok (s', b') => sim g' s' /\ b = b'
  | Throw, Throw => True
  | UB, UB => True
  | _, _ => False
  end.
Proof.
elim: idx => [|i idx IH] g s U SM Z //=.
case: (stop i); first by [].
have [nI U'] : i \notin idx /\ uniq idx by move: U => /= /andP [].
rewrite /gwdr_step /fit_step xtw_same xtwy_same.
case: (inv _) => [B|] //.
apply: IH => //.
- move: SM => [E1 E2 E3 E4 [E5 E6]]. have [Z1 Z2] := Z i (mem_head _ _). split=> //=.
  + by rewrite E1.
  + rewrite E2. congr (set_col _ i _). apply/matrixP => a k. rewrite [LHS]mxE [RHS]mxE.
    by apply: eq_bigr => j _; rewrite !mxE mulr1.
  + by rewrite sum_set // E3.
  + by rewrite sum_set // E4.
  + split; last by rewrite E6 subn0.
    rewrite E5. congr (_ + _). apply/matrixP => j k. rewrite [LHS]mxE [RHS]mxE.
    set si := row i x *m _. have -> : (\row_j0 (if j0 == i then 1 else 0) - si)^T = - si^T + \col_j0 (if j0 == i then 1 else 0).
      by rewrite linearB /= addrC; congr (_ + _); apply/matrixP => a b; rewrite !mxE.
    by rewrite ord1.
- move=> j J. have nj : (j == i) = false by apply/negbTE; apply: contraNneq nI => <-.
  have [A B0] : g_s1 g j ord0 = 0 /\ g_s2 g j ord0 = 0 by apply: Z; rewrite inE J orbT. by rewrite /= !mxE nj.
Qed.

Lemma gwdr_is_gwr storeS x y Ws stop :
  match gwdr_fit inv storeS x y Ws stop, fit_core inv storeS false 0 n x y (dims_weight Ws) stop with
  | Ok (r, b), Ok (s, b') =>
      [/\ b = b', r_betas r = betas s, r_se r = se2 s, r_shat r = (shat0 s, shat1 s) & r_qdiag r = qdiag s /\ r_S r = rowS s]
  | Throw, Throw => True
  | UB, UB => True
  | _, _ => False
  end.
Proof.
rewrite /gwdr_fit /fit_core range_full.
have H : sim (GState (0 : 'M[F]_(p, n)) 0 0 0 0 (fun _ => 0)) (fit0 F n p).
  by split=> //=; rewrite big1 // => i _; rewrite mxE.
have := sim_loop storeS x y Ws stop (enum_uniq 'I_n) H.
case: (loop _ _ _ _) => [[g b]||]; case: (loop _ _ _ _) => [[s b']||] //= K; try (by apply: K => i _; rewrite !mxE).
have [[E1 E2 E3 E4 [E5 E6]] E] : sim g s /\ b = b' by apply: K => i _; rewrite !mxE.
by rewrite /gwdr_finish /= E1 E2 E3 E4 E5 E6.
Qed.

Lemma gwdr_min storeS x y Ws r : inverse_contract inv ->
  gwdr_fit inv storeS x y Ws (fun _ => false) = Ok (r, false) ->
  (forall W i j, List.In W Ws -> 0 <= W i j ord0) ->
  forall (i : 'I_n) (w : 'cV[F]_n), (forall j, w j ord0 = \prod_(W <- Ws) W i j ord0) ->
  only_minimiser x y w (col i (r_betas r)).
Proof.
move=> IC E P i w Hw. have := gwdr_is_gwr storeS x y Ws (fun _ => false). rewrite E.
case E': (fit_core _ _ _ _ _ _ _ _ _) => [[s b']||] // [Hb -> _ _ _]. subst b'.
have -> : w = dims_weight Ws i by apply/colP => j; rewrite Hw dims_weightE.
apply: (C43_main IC E') => [|j]; first by rewrite ltn_ord. rewrite dims_weightE.
elim: Ws P {E E' Hw} => [|W Ws IH] P; first by rewrite big_nil ler01.
rewrite big_cons mulr_ge0 //; first by apply: P; left.
by apply: IH => W' i' j' I; apply: P; right.
Qed.

Lemma gwdr_order storeS x y Ws Ws' stop : perm_eq (map (fun W => [ffun i => W i]) Ws) (map (fun W => [ffun i => W i]) Ws') ->
  gwdr_fit inv storeS x y Ws stop = gwdr_fit inv storeS x y Ws' stop.
Proof.
move=> PE. have D i : dims_weight Ws i = dims_weight Ws' i.
  apply/colP => j. rewrite !dims_weightE.
  transitivity (\prod_(f <- map (fun W : 'I_n -> 'cV[F]_n => [ffun i => W i]) Ws) f i j ord0).
    by rewrite big_map; apply: eq_bigr => W _; rewrite ffunE.
  rewrite (perm_big _ PE) /= big_map. by apply: eq_bigr => W _; rewrite ffunE.
rewrite /gwdr_fit. suff -> : forall idx g, loop (gwdr_step inv storeS x y Ws) stop idx g = loop (gwdr_step inv storeS x y Ws') stop idx g by [].
elim=> [|i idx IH] g //=. case: (stop i) => //. rewrite /gwdr_step D. case: (inv _) => [B|] //. 
Qed.

(** CV criterion *)
Lemma cv_weight Ws i : set_elem (dims_weight Ws i) i 0 = zero_at i (dims_weight Ws i).
Proof. by apply/colP => j; rewrite !mxE. Qed.
Lemma cv_xtw x (w : 'cV[F]_n) : (\matrix_(j, a) (x j a * w j ord0))^T = xtw x w.
Proof. by apply/matrixP => a j; rewrite !mxE. Qed.

Lemma cv_loop x y Ws stop idx : forall cv (b : 'M[F]_(p, n)), uniq idx ->
  match loop (gwdr_cv_step inv x y Ws) stop idx cv, loop (cv_step inv x y (dims_weight Ws)) stop idx b with
  | Ok (cv', s), Ok (b', s') => s' = s /\ (s = false ->
      cv' = cv + \sum_(i <- idx) (y i ord0 - (row i x *m col i b') ord0 ord0) ^+ 2) /\
      (forall i, i \notin idx -> col i b' = col i b)
  | Throw, Throw => True
  | UB, UB => True
  | _, _ => False
  end.
Proof.
elim: idx => [|i idx IH] cv b U /=; first by rewrite big_nil addr0.
case: (stop i); first by [].
move: U => /= /andP [nI U].
rewrite /gwdr_cv_step /cv_step cv_weight cv_xtw.
case: (inv _) => [B|] //.
set bi := B *m (_ *m y). set cv1 := cv + _.
have := IH cv1 (set_col b i bi) U.
case: (loop _ _ _ _) => [[cv' s]||]; case: (loop _ _ _ _) => [[b' s']||] // [-> [H1 H2]].
split=> //. split=> [/H1 ->|j].
- rewrite big_cons addrA. congr (_ + _). rewrite /cv1. congr (_ + _).
  by rewrite (H2 i nI) set_col_same expr2.
- rewrite inE negb_or => /andP [nj J]. by rewrite (H2 j J) set_col_other.
Qed.

Lemma gwdr_cv_is_cv x y Ws stop terminated :
  gwdr_cv inv x y Ws stop terminated = criterion_cv inv x y (dims_weight Ws) stop terminated.
Proof.
rewrite /gwdr_cv /criterion_cv /cv_core range_full.
have := cv_loop x y Ws stop 0 0 (enum_uniq 'I_n).
case: (loop _ _ _ _) => [[cv' s]||]; case: (loop _ _ _ _) => [[b' s']||] // [-> [H1 _]].
case: terminated => //=. case: s H1 => //= H1. rewrite (H1 erefl) add0r. congr Some.
rewrite /RSS big_enum /=. apply: eq_bigr => i _. by rewrite [in RHS]mxE [in RHS]mxE -Fitted_row.
Qed.
End P.

Section Q.
Variables (F : realFieldType) (n p : nat) (inv : 'M[F]_p -> option 'M[F]_p).
Lemma gwdr_loo (x : 'M[F]_(n, p)) y (Ws : seq ('I_n -> 'cV[F]_n)) v : inverse_contract inv ->
  (forall W i j, List.In W Ws -> 0 <= W i j ord0) ->
  gwdr_cv inv x y Ws (fun _ => false) false = Some v ->
  exists b : 'M[F]_(p, n), v = \sum_i (y i ord0 - (x *m col i b) i ord0) ^+ 2 /\
    forall (i : 'I_n) (w : 'cV[F]_n), w i ord0 = 0 -> (forall j, j != i -> w j ord0 = \prod_(W <- Ws) W i j ord0) ->
      only_minimiser x y w (col i b).
Proof.
move=> IC P. rewrite gwdr_cv_is_cv /criterion_cv.
case E: (cv_core _ _ _ _ _ _ _) => [[b stopped]||] //=. case Hs: stopped => //= [] [<-].
exists b; split.
  rewrite /RSS; apply: eq_bigr => i _. rewrite [in LHS]mxE [in LHS]mxE Fitted_row.
  by rewrite -row_mul [row _ _ _ _]mxE.
move=> i w Hi Hw.
have -> : w = zero_at i (dims_weight Ws i).
  apply/colP => j. rewrite mxE. case: (altP (j =P i)) => [->|nj]; [exact: Hi|by rewrite Hw // dims_weightE].
rewrite Hs in E.
have /(_ i) L := cv_core_local E. apply: (local_minimal IC) (L _); last by rewrite ltn_ord.
move=> j; rewrite mxE; case: ifP => // _. rewrite dims_weightE.
elim: Ws P {E Hw L} => [|W Ws IH] P; first by rewrite big_nil ler01.
rewrite big_cons mulr_ge0 //; first by apply: P; left.
by apply: IH => W' i' j' I; apply: P; right.
Qed.
End Q.

(** The two observations of GwrCases.v with two identical dimensions. *)
Lemma ex_gwdr : exists r, gwdr_fit (@exact_inv _ 1) true ex_x ex_y [:: ex_W; ex_W] (fun _ => false) = Ok (r, false).
Proof.
have D i j : dims_weight [:: ex_W; ex_W] i j ord0 = (if i == j then 1 else 2%:R^-1) * (if i == j then 1 else 2%:R^-1).
  by rewrite dims_weightE !big_cons big_nil !mxE mulr1.
have [s E] : exists s, fit_core (@exact_inv _ 1) true false 0 2 ex_x ex_y (dims_weight [:: ex_W; ex_W]) (fun _ => false) = Ok (s, false).
  apply: fit_total => i _. apply: ex_inv. rewrite !D !mxE. by case: i => [[|[|]]].
have := gwdr_is_gwr (@exact_inv _ 1) true ex_x ex_y [:: ex_W; ex_W] (fun _ => false). rewrite E.
case: (gwdr_fit _ _ _ _ _ _) => [[r b]||] // [-> _ _ _ _]. by exists r.
Qed.
Lemma ex_gwdr_cv : exists v, gwdr_cv (@exact_inv _ 1) ex_x ex_y [:: ex_W; ex_W] (fun _ => false) false = Some v.
Proof.
have D i j : dims_weight [:: ex_W; ex_W] i j ord0 = (if i == j then 1 else 2%:R^-1) * (if i == j then 1 else 2%:R^-1).
  by rewrite dims_weightE !big_cons big_nil !mxE mulr1.
rewrite gwdr_cv_is_cv /criterion_cv.
have [b ->] : exists b, cv_core (@exact_inv _ 1) 0 2 ex_x ex_y (dims_weight [:: ex_W; ex_W]) (fun _ => false) = Ok (b, false).
  by apply: cv_total => i; apply: ex_inv; rewrite [zero_at _ _ _ _]mxE [X in _ + _ * X]mxE !D !mxE; case: i => [[|[|]]].
by eexists.
Qed.
