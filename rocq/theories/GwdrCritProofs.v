From mathcomp Require Import all_ssreflect all_algebra.
From Verif Require Import Outcome GwrModel GwrSpec GwrProofs GwrCases GwdrFitModel GwdrFitProofs GwdrCritModel.
Set Implicit Arguments. Unset Strict Implicit. Unset Printing Implicit Defensive.
Import Order.TTheory GRing.Theory Num.Theory.
Local Open Scope ring_scope.

Section P.
Variables (F : realFieldType) (n p : nat) (inv : 'M[F]_p -> option 'M[F]_p) (aicc : F -> F -> option F).
Implicit Types (x : 'M[F]_(n, p)) (y : 'cV[F]_n) (Ws : seq ('I_n -> 'cV[F]_n)).

Lemma aic_is_local x y Ws i st : aic_step inv x y Ws i st = local_step inv x y Ws i st.
Proof. by case: st => [[b tr] []] //=; rewrite xtwy_same cv_xtw. Qed.

(** Stopped or failed loops do not change the flag back. *)
Lemma local_failed x y Ws stop idx : forall b tr, exists b' tr' s,
  loop (local_step inv x y Ws) stop idx (b, tr, false) = Ok (b', tr', false, s).
Proof.
elim: idx => [|i idx IH] b tr /=; first by exists b, tr, false.
by case: (stop i); [exists b, tr, true | apply: IH].
Qed.

Lemma local_sim storeS x y Ws stop idx : forall b tr (s : fitted_model F n p),
  b = betas s -> tr = shat0 s ->
  match loop (fit_step inv storeS false 0 x y (dims_weight Ws)) stop idx s with
  | Ok (s', e) => loop (local_step inv x y Ws) stop idx (b, tr, true) = Ok (betas s', shat0 s', true, e)
  | Throw => exists b' tr' e, loop (local_step inv x y Ws) stop idx (b, tr, true) = Ok (b', tr', false, e)
  | UB => False
  end.
Proof.
elim: idx => [|i idx IH] b tr s Eb Et /=; first by rewrite Eb Et.
case: (stop i); first by rewrite Eb Et.
rewrite /fit_step cv_xtw. case: (inv _) => [B|] /=; last exact: local_failed.
by apply: IH; rewrite ?Eb ?Et.
Qed.

Lemma ivar_local storeS bws x y Ws stop terminated :
  (forall b, b \in bws -> b != 0) ->
  (gwdr_ivar inv aicc false bws x y Ws stop terminated).1 =
  match gwdr_fit inv storeS x y Ws stop with
  | Ok (r, false) => if terminated then None else aicc (RSS x y (r_betas r)) (r_shat r).1
  | _ => None
  end.
Proof.
move=> nz. rewrite /gwdr_ivar /is_global. have -> : has (fun b => b == 0) bws = false.
  by apply/negP => /hasP [b /nz /negbTE ->].
have := gwdr_is_gwr inv storeS x y Ws stop. rewrite /fit_core range_full.
have := @local_sim storeS x y Ws stop (enum 'I_n) 0 0 (fit0 F n p) erefl erefl.
case: (loop (fit_step _ _ _ _ _ _ _) _ _ _) => [[s e]||].
- move=> ->. case: (gwdr_fit _ _ _ _ _ _) => [[r b]||] // [-> -> _ -> _] /=.
  by case: e; rewrite ?orbT ?orbF; case: terminated.
- move=> [b' [tr' [e ->]]]. case: (gwdr_fit _ _ _ _ _ _) => [[r b]||] // _ /=. by rewrite andbF.
- by [].
Qed.

Lemma ivar_status optimise bws x y Ws stop terminated :
  (gwdr_ivar inv aicc optimise bws x y Ws stop terminated).2 =
  (terminated || ~~ is_global optimise bws && [exists i, stop i]).
Proof.
rewrite /gwdr_ivar. case: (is_global _ _) => /=; first by rewrite orbF.
have L : forall idx st, exists st', loop (local_step inv x y Ws) stop idx st = Ok (st', has stop idx).
  elim=> [|i idx IH] st /=; first by exists st.
  case: (stop i) => /=; first by exists st.
  by case: st => [[b tr] []] /=; first case: (inv _) => [B|]; apply: IH.
have [st' ->] := L (enum 'I_n) (0, 0, true) => /=.
congr (_ || _). apply/hasP/existsP => [[i _ Hi]|[i Hi]]; exists i => //. by rewrite mem_enum.
Qed.

(** Global mode *)
Lemma foldl_sum (T : Type) (f : T -> F) l a : foldl (fun s i => s + f i) a l = a + \sum_(i <- l) f i.
Proof. elim: l a => [|i l IH] a /=; first by rewrite big_nil addr0. by rewrite IH big_cons addrA. Qed.

Lemma global_trace x y B : inverse_contract inv -> inv (x^T *m x) = Some B ->
  (global_core inv x y).1.2 = p%:R.
Proof.
move=> IC E. rewrite /global_core E /= foldl_sum add0r big_enum /=.
transitivity (\tr (x *m (B *m x^T))).
  by apply: eq_bigr => i _; rewrite !mxE; apply: eq_bigr => k _; rewrite mxE.
by rewrite mxtrace_mulC -mulmxA (IC _ _ E) mxtrace1.
Qed.

Lemma global_beta x y B : inverse_contract inv -> inv (x^T *m x) = Some B ->
  only_minimiser x y (const_mx 1) (B *m (x^T *m y)) /\
  RSS x y (global_core inv x y).1.1 = \sum_i (y i ord0 - (x *m (B *m (x^T *m y))) i ord0) ^+ 2.
Proof.
move=> IC E.
have T : xtw x (const_mx 1) = x^T by apply/matrixP => a j; rewrite !mxE mulr1.
split.
- apply: (@local_minimal _ _ _ inv IC x y (const_mx 1)); first by move=> j; rewrite mxE ler01.
  by rewrite /local T E.
- rewrite /global_core E /RSS. apply: eq_bigr => i _. congr (_ ^+ 2). rewrite [LHS]mxE. congr (_ + _).
  rewrite [LHS]mxE [in RHS]mxE. congr (- _). rewrite mxE. apply: eq_bigr => a _. by rewrite !mxE add0r.
Qed.

Lemma ivar_global (optimise : bool) (bws : seq F) x y Ws stop terminated : inverse_contract inv ->
  (optimise \/ exists2 b, b \in bws & b = 0) ->
  gwdr_ivar inv aicc optimise bws x y Ws stop terminated =
  (match inv (x^T *m x) with
   | Some B => if terminated then None
               else aicc (\sum_i (y i ord0 - (x *m (B *m (x^T *m y))) i ord0) ^+ 2) p%:R
   | None => None
   end, terminated) /\
  forall B, inv (x^T *m x) = Some B -> only_minimiser x y (const_mx 1) (B *m (x^T *m y)).
Proof.
move=> IC G. split; last by move=> B E; have [] := global_beta y IC E.
rewrite /gwdr_ivar. have -> : is_global optimise bws.
  rewrite /is_global. case: optimise G => // [[//|[b B0 E]]]. by apply/hasP; exists b => //; rewrite E.
congr (_, _). case E: (inv _) => [B|].
- have [_ R] := global_beta y IC E. have T := global_trace y IC E.
  case G2: (global_core inv x y) R T => [[b tr] s] /= -> ->.
  have -> : s = true by move: G2; rewrite /global_core E => -[].
  by rewrite andbT; case: terminated.
- by rewrite /global_core E /= andbF.
Qed.

End P.

(** AIC of bandwidths *)
Section Q.
Variables (F : realFieldType) (n p : nat) (inv ginv : 'M[F]_p -> option 'M[F]_p) (aicc : F -> F -> option F).
Implicit Types (x : 'M[F]_(n, p)) (y : 'cV[F]_n) (Ws : seq ('I_n -> 'cV[F]_n)).

Lemma inv_unique A B C : inverse_contract inv -> inverse_contract ginv -> inv A = Some B -> ginv A = Some C -> C = B.
Proof.
move=> I1 I2 /I1 E /I2 E'. have E2 := mulmx1C E. by rewrite -[C]mulmx1 -E2 mulmxA E' mul1mx.
Qed.

Lemma aic_sim storeS x y Ws stop idx : inverse_contract inv -> inverse_contract ginv ->
  (forall A, inv A -> ginv A) -> forall b tr (s s' : fitted_model F n p) e,
  b = betas s -> tr = shat0 s ->
  loop (fit_step inv storeS false 0 x y (dims_weight Ws)) stop idx s = Ok (s', e) ->
  loop (aic_step ginv x y Ws) stop idx (b, tr, true) = Ok (betas s', shat0 s', true, e).
Proof.
move=> I1 I2 S. elim: idx => [|i idx IH] b tr s s' e Eb Et; first by rewrite /= Eb Et => -[-> ->].
rewrite [loop _ _ _ _]/= [in X in _ -> X]/=. case: (stop i); first by rewrite Eb Et => -[-> ->].
rewrite {1}/fit_step. case E: (inv _) => [B|] //= H.
have := S (xtw x (dims_weight Ws i) *m x). rewrite E cv_xtw => /(_ isT).
case E': (ginv _) => [C|] // _. rewrite (inv_unique I1 I2 E E') xtwy_same.
by apply: (IH _ _ _ _ _ _ _ H); rewrite ?Eb ?Et.
Qed.

Lemma aic_of_fit storeS x y Ws r : inverse_contract inv -> inverse_contract ginv ->
  (forall A, inv A -> ginv A) ->
  gwdr_fit inv storeS x y Ws (fun _ => false) = Ok (r, false) ->
  gwdr_aic ginv aicc x y Ws (fun _ => false) false = (aicc (RSS x y (r_betas r)) (r_shat r).1, false).
Proof.
move=> I1 I2 S E. have := gwdr_is_gwr inv storeS x y Ws (fun _ => false). rewrite E /fit_core range_full.
case E': (loop _ _ _ _) => [[s b]||] // [Eb -> _ -> _]. subst b.
by rewrite /gwdr_aic (aic_sim I1 I2 S _ _ E').
Qed.

Lemma aic_never x y Ws (stop : 'I_n -> bool) (terminated : bool) : terminated \/ (exists i : 'I_n, stop i) ->
  gwdr_aic ginv aicc x y Ws stop terminated = (None, true).
Proof.
have L : forall idx st, exists st', loop (aic_step ginv x y Ws) stop idx st = Ok (st', has stop idx).
  elim=> [|i idx IH] st /=; first by exists st.
  case: (stop i) => /=; first by exists st.
  by case: st => [[b tr] []] /=; first case: (ginv _) => [B|]; apply: IH.
rewrite /gwdr_aic. have [[[b tr] f] ->] := L (enum 'I_n) (0, 0, true).
case=> [->|[i Si]] /=; first by case: f.
have -> : has stop (enum 'I_n) by apply/hasP; exists i => //; rewrite mem_enum.
by rewrite orbT; case: f.
Qed.

(** What a value means, without the final fit. *)
Lemma aic_loop_same x y Ws stop idx : forall st,
  loop (aic_step ginv x y Ws) stop idx st = loop (local_step ginv x y Ws) stop idx st.
Proof.
elim: idx => [|i idx IH] st //=. case: (stop i) => //. rewrite aic_is_local.
by case: (local_step _ _ _ _ _ _).
Qed.

Lemma aic_value x y Ws v : (gwdr_aic ginv aicc x y Ws (fun _ => false) false).1 = Some v ->
  exists2 s, fit_core ginv true false 0 n x y (dims_weight Ws) (fun _ => false) = Ok (s, false) &
    aicc (RSS x y (betas s)) (shat0 s) = Some v.
Proof.
rewrite /gwdr_aic aic_loop_same /fit_core range_full.
have := @local_sim _ _ _ ginv true x y Ws (fun _ => false) (enum 'I_n) 0 0 (fit0 F n p) erefl erefl.
case: (loop (fit_step _ _ _ _ _ _ _) _ _ _) => [[s e]||] //.
- by move=> -> /=; case: e => // H; exists s.
- by move=> [b' [tr' [e ->]]].
Qed.

Lemma prod_ge0 Ws i j : (forall W i j, List.In W Ws -> 0 <= W i j ord0) -> 0 <= \prod_(W <- Ws) W i j ord0 :> F.
Proof.
elim: Ws => [|W Ws IH] P; first by rewrite big_nil ler01.
rewrite big_cons mulr_ge0 //; first by apply: P; left.
by apply: IH => W' i' j' I; apply: P; right.
Qed.

Lemma aic_value_spec x y Ws (stop : 'I_n -> bool) (terminated : bool) v :
  inverse_contract ginv -> (forall W i j, List.In W Ws -> 0 <= W i j ord0) ->
  (gwdr_aic ginv aicc x y Ws stop terminated).1 = Some v ->
  terminated = false /\ (forall i, stop i = false) /\
  exists (b : 'M[F]_(p, n)) (S : 'M[F]_n),
    aicc (\sum_i (y i ord0 - (x *m col i b) i ord0) ^+ 2) (\tr S) = Some v /\
    forall (i : 'I_n) (w : 'cV[F]_n), (forall j, w j ord0 = \prod_(W <- Ws) W i j ord0) ->
      only_minimiser x y w (col i b) /\
      forall y' b', only_minimiser x y' w b' -> (S *m y') i ord0 = (x *m b') i ord0.
Proof.
move=> IC P H.
have T : terminated = false.
  by case: terminated H => //; rewrite aic_never //; left.
have St i : stop i = false.
  by apply/negP => Si; move: H; rewrite aic_never //; right; exists i.
split=> //. split=> //.
have H' : (gwdr_aic ginv aicc x y Ws (fun _ => false) false).1 = Some v.
  move: H; rewrite T /gwdr_aic.
  suff -> : loop (aic_step ginv x y Ws) stop (enum 'I_n) (0, 0, true) =
            loop (aic_step ginv x y Ws) (fun _ => false) (enum 'I_n) (0, 0, true) by [].
  elim: (enum 'I_n) (0, 0, true) => [|i idx IH] st //=. rewrite St. by case: (aic_step _ _ _ _ _ _).
have [s E A] := aic_value H'. exists (betas s), (stored s).
have [_ Tr _ _] := C44_main E.
split.
  rewrite -Tr -A. congr aicc. rewrite /RSS. apply: eq_bigr => i _. congr (_ ^+ 2).
  rewrite [in RHS]mxE [in RHS]mxE. congr (_ - _). by rewrite Fitted_row !mxE; apply: eq_bigr => a _; rewrite !mxE.
move=> i w Hw. have Dw : w = dims_weight Ws i by apply/colP => j; rewrite Hw dims_weightE.
have w0 j : 0 <= dims_weight Ws i j ord0 by rewrite dims_weightE; apply: prod_ge0.
rewrite Dw. split; first by apply: (C43_main IC E) => //; rewrite ltn_ord.
move=> y' b' M. have D := fit_core_desc E.
have ok : okat ginv x (dims_weight Ws) i by apply: (allP (d_ok D)); rewrite in_range ltn_ord.
have M0 := minimal IC y' ok w0.
have -> : b' = Bof ginv x (dims_weight Ws) i *m (xtw x (dims_weight Ws i) *m y').
  apply: (M0 b').2. apply/eqP. rewrite eq_le (M0 b').1 andbT. exact: (M _).1.
have R (q : nat) (A0 : 'M[F]_(n, q)) (c : 'cV[F]_q) : (A0 *m c) i ord0 = (row i A0 *m c) ord0 ord0.
  by rewrite !mxE; apply: eq_bigr => a _; rewrite !mxE.
by rewrite R (stored_full E) row_Smat -fitted_sof -R.
Qed.

Lemma aic_of_fit_spec storeS x y Ws r : inverse_contract inv -> inverse_contract ginv ->
  (forall A, inv A <> None -> ginv A <> None) ->
  gwdr_fit inv storeS x y Ws (fun _ => false) = Ok (r, false) ->
  gwdr_aic ginv aicc x y Ws (fun _ => false) false = (aicc (RSS x y (r_betas r)) (r_shat r).1, false).
Proof.
move=> I1 I2 S. apply: aic_of_fit => // A. have := S A. case: (inv A) => [B|] //. case: (ginv A) => [C|] //. by move=> /(_ _) K; case: K.
Qed.

Lemma ivar_status_spec optimise bws x y Ws (stop : 'I_n -> bool) terminated :
  (gwdr_ivar inv aicc optimise bws x y Ws stop terminated).2 =
  (terminated || ~~ (optimise || has (fun b => b == 0) bws) && [exists i, stop i]).
Proof. rewrite ivar_status /is_global. by case: optimise. Qed.
End Q.

(** Two observations, two identical dimensions. *)
Lemma ex_aic : exists v,
  (gwdr_aic (@exact_inv _ 1) (fun r t => Some (r + t)) ex_x ex_y [:: ex_W; ex_W] (fun _ => false) false).1 = Some v.
Proof.
have [r E] := ex_gwdr. have IC := @exact_inv_contract rat_realFieldType 1.
rewrite (aic_of_fit_spec (fun r t => Some (r + t)) IC IC (fun _ H => H) E). by eexists.
Qed.
Lemma ex_local : exists v,
  (gwdr_ivar (@exact_inv _ 1) (fun r t => Some (r + t)) false [:: 2%:R; 1] ex_x ex_y [:: ex_W; ex_W]
     (fun _ => false) false).1 = Some v.
Proof.
have [r E] := ex_gwdr. rewrite (ivar_local _ _ true) ?E; first by eexists.
by move=> b; rewrite !inE => /orP [] /eqP ->.
Qed.
Lemma ex_global : exists v,
  (gwdr_ivar (@exact_inv _ 1) (fun r t => Some (r + t)) false [:: 0; 1] ex_x ex_y [:: ex_W; ex_W]
     (fun _ => true) false).1 = Some v.
Proof.
have IC := @exact_inv_contract rat_realFieldType 1.
have [|-> _] := @ivar_global _ _ _ (@exact_inv _ 1) (fun r t => Some (r + t)) false [:: 0; 1] ex_x ex_y [:: ex_W; ex_W] (fun _ => true) false IC.
  by right; exists 0.
have : exact_inv (ex_x^T *m ex_x) <> None.
  apply: unit11. rewrite mxE !big_ord_recl big_ord0 !mxE. apply/eqP. by vm_compute.
case: (exact_inv _) => [B|] // _. by eexists.
Qed.
