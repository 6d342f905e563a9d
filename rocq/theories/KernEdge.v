(** Undefined and infinite distances, bandwidths below one neighbour. *)
From Coq Require Import Reals Bool List ZArith Lia Lra.
From Verif Require Import Outcome XReal XRealFacts KernelModel KernelSpec.
Import ListNotations.
Local Open Scope R_scope.

Lemma zero_one : xval (xmul (XF 0) (XF 1)) = Some 0.
Proof. unfold xmul, xfin, Reqb. cbn [xval]. destruct Req_EM_T as [_|N]; [destruct xorb; reflexivity|exfalso; apply N; lra]. Qed.
Lemma xltb_nan_r x : xltb x XN = false.
Proof. destruct x as [| |[]|]; reflexivity. Qed.
Lemma kernel_nan k h : match k with Boxcar => xval (kernel_fn k XN h) = Some 0 | _ => kernel_fn k XN h = XN end.
Proof. destruct k; try reflexivity. unfold kernel_fn, k_boxcar. cbn [xltb xofbool]. apply zero_one. Qed.
Lemma cu_kernel_nan k h : cu_kernel_fn k XN h = match k with Boxcar => XF 1 | _ => XN end.
Proof.
  destruct k; try reflexivity; cbn [cu_kernel_fn]; unfold cu_bisquare, cu_tricube, cu_boxcar; rewrite xltb_nan_r; reflexivity.
Qed.
Lemma weight_map k ad b dist ws : bw_weight k ad b dist = Ok ws -> exists h, ws = map (fun d => kernel_fn k d h) dist.
Proof.
  unfold bw_weight. destruct ad.
  - destruct (adaptive_fixbw b dist) as [h| |]; cbn [obind]; try discriminate. intros [= <-]. exists h. reflexivity.
  - intros [= <-]. exists b. reflexivity.
Qed.
Lemma undefined_main k ad b dist ws j : nth_error dist j = Some XN -> bw_weight k ad b dist = Ok ws ->
  exists w, nth_error ws j = Some w /\ match k with Boxcar => xval w = Some 0 | _ => w = XN end.
Proof.
  intros J E. destruct (weight_map _ _ _ _ _ E) as [h ->]. exists (kernel_fn k XN h).
  rewrite nth_error_map, J. split; [reflexivity|apply kernel_nan].
Qed.
Lemma dblmax_dec b : (match b with XF r => Reqb r DBL_MAX | _ => false end) = true -> b = XF DBL_MAX.
Proof. destruct b; try discriminate. unfold Reqb. destruct Req_EM_T as [->|]; [reflexivity|discriminate]. Qed.
Lemma undefined_cuda_main k ad b dist ws j : b <> XF DBL_MAX -> nth_error dist j = Some XN -> cu_weight k ad b dist = Ok ws ->
  nth_error ws j = Some (match k with Boxcar => XF 1 | _ => XN end).
Proof.
  intros N J. unfold cu_weight. destruct (match b with XF r => Reqb r DBL_MAX | _ => false end) eqn:D; [elim N; apply dblmax_dec; exact D|].
  destruct ad.
  - destruct trunc_int as [i| |]; cbn [obind]; try discriminate. destruct raw_at as [h| |]; cbn [obind]; try discriminate.
    intros [= <-]. rewrite nth_error_map, J. cbn [option_map]. rewrite cu_kernel_nan. reflexivity.
  - intros [= <-]. rewrite nth_error_map, J. cbn [option_map]. rewrite cu_kernel_nan. reflexivity.
Qed.
Lemma xdiv_pos xb b n : xval xb = Some b -> (0 < n)%nat -> xval (xdiv xb (XF (INR n))) = Some (b / INR n).
Proof.
  intros E Hn. apply lt_INR in Hn. cbn [INR] in Hn.
  assert (V : forall s r, xval (xfin s r) = Some r) by (intros s r; unfold xfin, Reqb; destruct Req_EM_T as [->|]; [destruct s; reflexivity|reflexivity]).
  destruct xb; try discriminate; injection E as <-; cbn [xdiv xval]; unfold Reqb; destruct (Req_EM_T (INR n) 0); try lra; apply V.
Qed.
Lemma xltb_val x y a b : xval x = Some a -> xval y = Some b -> xltb x y = Rltb a b.
Proof. destruct x, y; try discriminate; cbn [xval]; intros [= <-] [= <-]; reflexivity. Qed.
Lemma refused_main k xb b dist : xval xb = Some b -> b < INR (length dist) -> In XN dist -> bw_weight k true xb dist = Throw.
Proof.
  intros E L I. assert (P : (0 < length dist)%nat) by (destruct dist; [destruct I|cbn [length]; lia]).
  unfold bw_weight, adaptive_fixbw. rewrite (xltb_val _ (XF 1) _ 1 (xdiv_pos _ _ _ E P) eq_refl).
  apply lt_INR in P. cbn [INR] in P. unfold Rltb. destruct Rlt_dec as [_|N].
  - unfold arma_sort. assert (existsb xisnan dist = true) as ->; [apply existsb_exists; exists XN; split; [exact I|reflexivity]|]. reflexivity.
  - exfalso. apply N. apply Rmult_lt_reg_r with (INR (length dist)); [lra|]. unfold Rdiv. rewrite Rmult_assoc, Rinv_l; lra.
Qed.
Lemma Int_part_below r : r < 1 -> (Int_part r < 1)%Z.
Proof. intros H. apply lt_IZR. destruct (base_Int_part r). lra. Qed.
Lemma below_one_main k xb b dist : xval xb = Some b -> b < 1 -> bw_weight k true xb dist = Throw /\ cu_weight k true xb dist = UB.
Proof.
  intros E L. split.
  - unfold bw_weight. cut (adaptive_fixbw xb dist = Throw); [intros ->; reflexivity|]. unfold adaptive_fixbw.
    assert (A : forall l, arma_at l (Int_part b - 1) = Throw).
    { intros l. unfold arma_at. generalize (Int_part_below b L). destruct (Z.ltb_spec (Int_part b - 1) 0); [reflexivity|lia]. }
    destruct xltb eqn:X.
    + destruct (arma_sort dist) as [l| |] eqn:S; [|reflexivity|unfold arma_sort in S; destruct existsb; discriminate]. cbn [obind].
      unfold floor_int. rewrite E. cbn [obind]. rewrite A. reflexivity.
    + destruct dist as [|d dist]; [reflexivity|]. exfalso.
      assert (P : (0 < length (d :: dist))%nat) by (cbn [length]; lia).
      rewrite (xltb_val _ (XF 1) _ 1 (xdiv_pos _ _ _ E P) eq_refl) in X. revert X. unfold Rltb. destruct Rlt_dec as [|N]; [discriminate|]. intros _. apply N.
      apply le_INR in P. cbn [INR] in P. apply Rmult_lt_reg_r with (INR (length (d :: dist))); [lra|]. unfold Rdiv. rewrite Rmult_assoc, Rinv_l; lra.
  - unfold cu_weight. assert (D : (match xb with XF r => Reqb r DBL_MAX | _ => false end) = false).
    { destruct (match xb with XF r => Reqb r DBL_MAX | _ => false end) eqn:D; [|reflexivity]. exfalso. apply dblmax_dec in D. subst xb. injection E as <-.
      revert L. unfold DBL_MAX. apply Rle_not_lt. apply (IZR_le 1). vm_compute. discriminate. }
    rewrite D. set (m := if xltb xb (XF (INR (length dist))) then xb else XF (INR (length dist))).
    assert (M : exists r, xval m = Some r /\ r < 1).
    { unfold m. rewrite (xltb_val xb (XF (INR (length dist))) b (INR (length dist)) E eq_refl). unfold Rltb. destruct Rlt_dec.
      - exists b. split; [exact E|exact L].
      - exists (INR (length dist)). split; [reflexivity|]. lra. }
    destruct M as (r & V & R1). unfold trunc_int. rewrite V. cbn [obind].
    set (i := if Rltb r 0 then (- Int_part (- r))%Z else Int_part r). assert (I1 : (i < 1)%Z).
    { unfold i, Rltb. destruct Rlt_dec as [N|N]; [|apply Int_part_below; exact R1].
      assert (0 <= Int_part (- r))%Z; [|lia]. apply Z.lt_succ_r. apply lt_IZR. unfold Z.succ. rewrite plus_IZR. destruct (base_Int_part (- r)). lra. }
    unfold raw_at. destruct (Z.ltb_spec (i - 1) 0); [reflexivity|lia].
Qed.
Lemma infinite_kernel k xb b : xval xb = Some b -> 0 < b ->
  match k with Bisquare | Tricube => kernel_fn k (XI false) xb = XN | _ => xval (kernel_fn k (XI false) xb) = Some 0 end.
Proof.
  intros E P. destruct xb as [r| | |]; try discriminate; injection E as <-; [|lra].
  assert (S : forall c, 0 < c -> xmul (XF c) (XF r) = XF (c * r)).
  { intros c C. unfold xmul, xfin, Reqb. cbn [xval]. destruct Req_EM_T; [nra|reflexivity]. }
  assert (S2 : forall c, 0 < c -> Rltb c 0 = false) by (intros c C; unfold Rltb; destruct Rlt_dec; [lra|reflexivity]).
  assert (Z : Reqb 0 0 = true) by (unfold Reqb; destruct Req_EM_T; [reflexivity|lra]).
  destruct k; cbn [kernel_fn].
  - unfold k_gaussian. rewrite S by exact P. unfold xmul at 2. cbn [xval]. unfold xfin, Reqb. destruct Req_EM_T as [Q|_]; [nra|].
    cbn [xmul xorb xdiv xsign]. unfold Rltb. destruct Rlt_dec as [_|N]; [reflexivity|]. exfalso. apply N. nra.
  - unfold k_exponential. cbn [xopp negb xdiv xsign xorb]. rewrite S2 by exact P. reflexivity.
  - unfold k_bisquare. rewrite S by exact P. cbn [xmul xorb xdiv xsign]. rewrite S2 by nra. cbn [xorb xsub xopp negb xadd xltb xofbool].
    cbn [xmul xval xorb]. rewrite Z. reflexivity.
  - unfold k_tricube. rewrite S by exact P. rewrite S by nra. cbn [xmul xorb xdiv xsign]. rewrite S2 by (apply Rmult_lt_0_compat; nra). cbn [xorb xsub xopp negb xadd xltb xofbool].
    cbn [xmul xval xorb]. rewrite Z. reflexivity.
  - unfold k_boxcar. cbn [xltb xofbool]. apply zero_one.
Qed.
Lemma infinite_cuda k xb b : xval xb = Some b -> 0 < b -> xval (cu_kernel_fn k (XI false) xb) = Some 0.
Proof.
  intros E P. generalize (infinite_kernel k xb b E P). assert (L : xltb xb (XI false) = true) by (destruct xb; try discriminate; reflexivity).
  destruct k; intros H; try exact H; cbn [cu_kernel_fn]; unfold cu_bisquare, cu_tricube, cu_boxcar; rewrite L; reflexivity.
Qed.
Lemma infinite_main k xb b dist j : xval xb = Some b -> 0 < b -> b <> DBL_MAX -> nth_error dist j = Some (XI false) ->
  (exists ws w, bw_weight k false xb dist = Ok ws /\ nth_error ws j = Some w /\
     match k with Bisquare | Tricube => w = XN | _ => xval w = Some 0 end) /\
  (exists ws w, cu_weight k false xb dist = Ok ws /\ nth_error ws j = Some w /\ xval w = Some 0).
Proof.
  intros E P N J. split.
  - eexists. exists (kernel_fn k (XI false) xb). split; [reflexivity|]. rewrite nth_error_map, J. split; [reflexivity|apply (infinite_kernel k xb b E P)].
  - exists (map (fun d => cu_kernel_fn k d xb) dist). exists (cu_kernel_fn k (XI false) xb). split.
    + unfold cu_weight. destruct (match xb with XF r => Reqb r DBL_MAX | _ => false end) eqn:D; [|reflexivity]. apply dblmax_dec in D. subst xb. injection E as <-. elim N; reflexivity.
    + rewrite nth_error_map, J. split; [reflexivity|apply (infinite_cuda k xb b E P)].
Qed.
Lemma one_max : 1 <> DBL_MAX.
Proof. unfold DBL_MAX. apply (not_eq_sym). intros H. apply (eq_IZR _ 1) in H. discriminate H. Qed.
Lemma cuda_one dist : cu_weight Boxcar false (XF 1) dist = Ok (map (fun d => cu_boxcar d (XF 1)) dist).
Proof.
  unfold cu_weight. destruct (Reqb 1 DBL_MAX) eqn:D; [|reflexivity]. exfalso. revert D. unfold Reqb. destruct Req_EM_T as [Q|]; [|discriminate].
  elim one_max. exact Q.
Qed.
Lemma undefined_refuted_main : exists dist cpu gpu, bw_weight Boxcar false (XF 1) dist = Ok cpu /\ cu_weight Boxcar false (XF 1) dist = Ok gpu /\
  nth_error dist 1 = Some XN /\ (exists w, nth_error cpu 1 = Some w /\ xval w = Some 0) /\ nth_error gpu 1 = Some (XF 1).
Proof.
  exists [XF 0; XN]. eexists. exists (map (fun d => cu_boxcar d (XF 1)) [XF 0; XN]). split; [reflexivity|]. split; [apply cuda_one|]. split; [reflexivity|].
  split; [eexists; split; [reflexivity|exact (kernel_nan Boxcar (XF 1))]|]. cbn [map nth_error]. reflexivity.
Qed.
Lemma infinite_refuted_main : exists dist cpu, bw_weight Bisquare false (XF 1) dist = Ok cpu /\ nth_error dist 1 = Some (XI false) /\ nth_error cpu 1 = Some XN.
Proof.
  exists [XF 0; XI false]. eexists. split; [reflexivity|]. split; [reflexivity|]. cbn [map nth_error]. f_equal.
  exact (infinite_kernel Bisquare (XF 1) 1 eq_refl Rlt_0_1).
Qed.
