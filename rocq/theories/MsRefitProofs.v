From mathcomp Require Import all_ssreflect all_algebra.
From Verif Require Import Outcome GwrModel GwrSpec GwrProofs GwrCases MsModel MsSpec MsProofs MsCases MsTrace MsRefitModel.
Set Implicit Arguments. Unset Strict Implicit. Unset Printing Implicit Defensive.
Import Order.TTheory GRing.Theory Num.Theory.
Local Open Scope ring_scope.

Section R.
Variables (F : realFieldType) (n p : nat).
Variables (inv1 : 'M[F]_1 -> option 'M[F]_1) (inv : 'M[F]_p -> option 'M[F]_p).
Variables (hat ic : bool) (flags : 'I_p -> bool) (W0 : 'I_n -> 'cV[F]_n).
Variable select0 : 'I_p -> 'cV[F]_n -> 'cV[F]_n -> F -> outcome F.
Variable wt : 'I_p -> F -> 'I_n -> 'cV[F]_n.
Variable select : nat -> 'I_p -> 'cV[F]_n -> 'cV[F]_n -> F -> outcome F.
Variables (threshold : 'I_p -> F) (retry : nat).
Variables (stop_iter : nat -> bool) (stop_var stop_sel : nat -> 'I_p -> bool) (stop_in : nat -> 'I_p -> 'I_n -> bool).
Variables (ctype : crit_type) (cthreshold : F) (root : F -> F) (maxiter : nat).
Notation Fit_object := (fit_object inv1 inv hat ic flags W0 select0 wt select threshold retry stop_iter stop_var stop_sel stop_in
  ctype cthreshold root maxiter).

Definition books (i0 : 'I_p -> init_type) (b0 : 'I_p -> F) (st : ms F n p) : Prop := minit st = i0 /\ mbw st = b0.
Lemma books_iterate i0 b0 (x : 'M[F]_(n, p)) y : (forall i, is_specified (i0 i)) -> forall k it rss0 crit st st' r, books i0 b0 st ->
  iterate inv1 hat x y wt select threshold retry stop_iter stop_var stop_sel stop_in ctype cthreshold root k it rss0 crit st = Ok (st', r) ->
  books i0 b0 st'.
Proof.
move=> A; elim=> [|k IH] it rss0 crit st st' r B /=; first by case=> <-.
case: (if crit is Some c then _ else _); last by case=> <-.
case: (stop_iter it); first by case=> <-.
case E: (sweep _ _ _ _ _ _ _ _ _ _ _ _ _ _) => [st1| |] // H; apply: (IH _ _ _ _ _ _ _ H).
apply: (@keep_sweep _ _ _ inv1 hat x y wt select threshold retry stop_var stop_sel stop_in (books i0 b0) _ _ it (enum 'I_p) st st1 B E).
- by move=> it' i yi s1 s2 [Hi Hb]; rewrite /select_var Hi A => -[<-].
- move=> it' i s0 s1 s2 _ [Hi Hb] _; rewrite /fit_var; case: (fit_var_core _ _ _ _ _) => // -[b S] [<-]; by split.
Qed.
Lemma init_none x y (init : 'I_p -> init_type) vars bw : (forall i, is_specified (init i)) ->
  init_bandwidths (n := n) select0 x y init vars bw = Ok bw.
Proof.
move=> A; elim: vars => [|i t IH] //=; rewrite /init_bandwidth.
by case: (init i) (A i) => //= _; exact: IH.
Qed.
Lemma C135_main (ob : ms_object F n p) st r ob' : (forall i, ob_init ob i = ISpecified) ->
  Fit_object ob = Ok (st, r, ob') -> Fit_object ob' = Ok (st, r, ob').
Proof.
move=> A0; have A i : is_specified (ob_init ob i) by rewrite A0.
rewrite /fit_object; case E: (ms_fit _ _ _ _ _ _ _ _ _ _ _ _ _ _ _ _ _ _ _ _ _ _ _) => [[st1 r1]| |] // [<- <- <-] /=.
have [Hi Hb] : books (ob_init ob) (ob_bw ob) st1.
  move: E; rewrite /ms_fit; case: (fit_core _ _ _ _ _ _ _ _ _) => [[s b]| |] //.
  by rewrite init_none // => /(books_iterate A); apply.
rewrite Hi Hb; have Ec := centre_idem ic flags (ob_x ob).
have -> : ms_fit inv1 inv hat ic flags (centre ic flags (ob_x ob)) (ob_y ob) W0 (ob_init ob) (ob_bw ob) select0 wt select threshold retry
   stop_iter stop_var stop_sel stop_in ctype cthreshold root maxiter = Ok (st1, r1).
  by rewrite -E /ms_fit Ec.
by rewrite Ec Hi Hb.
Qed.
(** Whatever the second fit is given. *)
Lemma C135_stuck (ob : ms_object F n p) st r ob' i : Fit_object ob = Ok (st, r, ob') ->
  minit st i = ISpecified ->
  forall y2 W2 select02 wt2 select2 threshold2 retry2 si sv ss sn ct c2 rt mi st2 r2 ob2,
  fit_object inv1 inv hat ic flags W2 select02 wt2 select2 threshold2 retry2 si sv ss sn ct c2 rt mi
    (set_response y2 ob') = Ok (st2, r2, ob2) ->
  mbw st2 i = mbw st i.
Proof.
rewrite /fit_object; case E: (ms_fit _ _ _ _ _ _ _ _ _ _ _ _ _ _ _ _ _ _ _ _ _ _ _) => [[st1 r1]| |] // [<- _ <-] Hi.
move=> y2 W2 s02 wt2 s2 t2 re2 si sv ss sn ct c2 rt mi st2 r2 ob2 /=.
case E2: (ms_fit _ _ _ _ _ _ _ _ _ _ _ _ _ _ _ _ _ _ _ _ _ _ _) => [[st3 r3]| |] // [<- _ _].
exact: (C55_main E2 Hi).1.
Qed.
End R.

Lemma init_total (F : realFieldType) (n p : nat) select0 (x : 'M[F]_(n, p)) y (init : 'I_p -> init_type) :
  (forall i xi yi b, exists b', select0 i xi yi b = Ok b') ->
  forall vars bw, exists bw', init_bandwidths select0 x y init vars bw = Ok bw'.
Proof.
move=> T; elim=> [|i t IH] bw /=; first by eexists.
rewrite /init_bandwidth; case: (is_null _); last exact: IH.
by have [b' ->] := T i (col i x) y (bw i); exact: IH.
Qed.
(** A bandwidth asked to be selected, converged after one sweep. *)
Definition ex2_object (y : 'cV[rat]_2) : ms_object [realFieldType of rat] 2 2 :=
  Object (ex2_x : 'M_(2, 2)) y (fun _ => INull) (fun _ => 3%:R).
Definition ex2_fit (ob : ms_object [realFieldType of rat] 2 2) :=
  fit_object (@exact_inv _ 1) (@exact_inv _ 2) true true (fun _ => false) (fun _ => ones)
    (fun _ _ _ b => Ok (b + 1)) ex2_wt ex2_sel (fun _ => 1) 1 (fun _ => false) (fun _ _ => false) (fun _ _ => false) (fun _ _ _ => false)
    CVR 2%:R^-1 id 1 ob.
Lemma ex2_converges y : exists st r ob', ex2_fit (ex2_object y) = Ok (st, r, ob') /\
  forall i, ob_init (ex2_object y) i = INull /\ minit st i = ISpecified.
Proof.
rewrite /ex2_fit /fit_object.
set M := ms_fit _ _ _ _ _ _ _ _ _ _ _ _ _ _ _ _ _ _ _ _ _ _ _.
have [[st r] E] : exists r, M = Ok r.
  rewrite /M /ms_fit /=.
  have -> : centre true (fun _ => false) ex2_x = ex2_x.
    by apply/matrixP => j i; rewrite centre_off // andbF.
  have [s ->] : exists s, fit_core (@exact_inv _ 2) true true 0 2 ex2_x y (fun _ => ones) (fun _ => false) = Ok (s, false).
    by apply: fit_total => i _; exact: ex2_inv.
  have [bw ->] : exists bw, init_bandwidths (fun _ _ _ b => Ok (b + 1)) ex2_x y (fun _ => INull) (enum 'I_2) (fun _ => 3%:R) = Ok bw.
    by apply: init_total => *; eexists.
  by apply: iterate_total => [|it i xi yi b]; [exact: ex2_inv1|eexists].
rewrite E; do 3!eexists; split; first by reflexivity.
move=> i; split=> //; move: E; rewrite /M => E.
have [s [bw [sts [K [[_ H0 _ HK LK] [_ [Hs _ He]]]]]]] := C54_trace E.
have EK : K = 1%N.
  case: K HK LK Hs He => [|[|K]] // _ _ _ /(_ isT) [//|[j []]] //.
rewrite EK in HK Hs.
have HS : forall j, (j < 1)%N -> sweep (@exact_inv _ 1) true (centre true (fun _ => false) (ob_x (ex2_object y))) (ob_y (ex2_object y)) ex2_wt ex2_sel (fun _ => 1) 1
    (fun _ _ => false) (fun _ _ => false) (fun _ _ _ => false) j.+1 (enum 'I_2) (sts j) = Ok (sts j.+1).
  by move=> j /Hs [].
rewrite -HK; apply/(C55_trace H0 HS) => //.
exists 0%N; split=> // l; rewrite andTb maxnn add0n ltnS leqn0 => /eqP ->.
have [_ A _] := C57_trace H0 HS i (isT : (0 < 1)%N).
have : minit (sts 0%N) i <> ISpecified by rewrite H0.
move=> /A; rewrite /ex2_sel => -[<-].
by rewrite addrAC subrr add0r normr1.
Qed.

(** Centring a regressor changes the stored design matrix. *)
Definition ex2_fit_centred (ob : ms_object [realFieldType of rat] 2 2) :=
  fit_object (@exact_inv _ 1) (@exact_inv _ 2) false true (fun _ => true) (fun _ => ones)
    (fun _ _ _ b => Ok (b + 1)) ex2_wt ex2_sel (fun _ => 1) 1 (fun _ => false) (fun _ _ => false) (fun _ _ => false) (fun _ _ _ => false)
    CVR 2%:R^-1 id 0 ob.
Lemma ex2_centred_unit : centre true (fun _ => true) ex2_x \in unitmx.
Proof.
rewrite unitmxE (expand_det_col _ ord0) !big_ord_recl big_ord0 /cofactor !det_mx11 !mxE /= /col_mean !big_ord_recl !big_ord0 !mxE /=.
by apply/eqP; vm_compute.
Qed.
Lemma C135_centred : exists st r ob', ex2_fit_centred (ex2_object 0) = Ok (st, r, ob') /\ ob_x ob' <> ob_x (ex2_object 0).
Proof.
rewrite /ex2_fit_centred /fit_object.
set M := ms_fit _ _ _ _ _ _ _ _ _ _ _ _ _ _ _ _ _ _ _ _ _ _ _.
have [[st r] E] : exists r, M = Ok r.
  rewrite /M /ms_fit /=.
  have [s ->] : exists s, fit_core (@exact_inv _ 2) false false 0 2 (centre true (fun _ => true) ex2_x) 0 (fun _ => ones) (fun _ => false) = Ok (s, false).
    apply: fit_total => i _; rewrite /exact_inv.
    have -> : xtw (centre true (fun _ => true) ex2_x) ones = (centre true (fun _ => true) ex2_x)^T.
      by apply/matrixP => a j; rewrite !mxE mulr1.
    by rewrite unitmx_mul unitmx_tr ex2_centred_unit.
  have [bw ->] : exists bw, init_bandwidths (fun _ _ _ b => Ok (b + 1)) (centre true (fun _ => true) ex2_x) 0 (fun _ => INull) (enum 'I_2) (fun _ => 3%:R) = Ok bw.
    by apply: init_total => *; eexists.
  by eexists.
rewrite E; do 3!eexists; split; first by reflexivity.
move=> /= /matrixP /(_ ord0 (lift ord0 ord0)); rewrite !mxE /= /col_mean !big_ord_recl big_ord0 !mxE /=.
by move/eqP; vm_compute.
Qed.

Lemma ex2_specified : exists st r ob',
  ex2_fit (Object (ex2_x : 'M_(2, 2)) 0 (fun _ => ISpecified) (fun _ => 3%:R)) = Ok (st, r, ob').
Proof.
rewrite /ex2_fit /fit_object.
set M := ms_fit _ _ _ _ _ _ _ _ _ _ _ _ _ _ _ _ _ _ _ _ _ _ _.
have [[st r] E] : exists r, M = Ok r.
  rewrite /M /ms_fit /=.
  have -> : centre true (fun _ => false) ex2_x = ex2_x.
    by apply/matrixP => j i; rewrite centre_off // andbF.
  have [s ->] : exists s, fit_core (@exact_inv _ 2) true true 0 2 ex2_x 0 (fun _ => ones) (fun _ => false) = Ok (s, false).
    by apply: fit_total => i _; exact: ex2_inv.
  rewrite init_none //.
  by apply: iterate_total => [|it i xi yi b]; [exact: ex2_inv1|eexists].
by rewrite E; do 3!eexists; reflexivity.
Qed.

Lemma ex2_converges' y : exists st r ob', ex2_fit (ex2_object y) = Ok (st, r, ob') /\
  forall i, ob_init (ex2_object y) i = INull /\ ob_init ob' i = ISpecified.
Proof.
have [st [r [ob' [E H]]]] := ex2_converges y; exists st, r, ob'; split=> //.
move: E; rewrite /ex2_fit /fit_object; case: (ms_fit _ _ _ _ _ _ _ _ _ _ _ _ _ _ _ _ _ _ _ _ _ _ _) => [[st1 r1]| |] // [E1 _ <-] /=.
by rewrite E1.
Qed.
