(** The loops over groups. *)
From Coq Require Import Reals Bool List Arith Lra Lia.
From Verif Require Import Outcome XReal Sums CudaModel CudaProofs MsCritModel MsCritSpec MsCudaModel MsCudaSpec.
Import ListNotations.
Local Open Scope R_scope.

Lemma put_seq A (g : nat -> A) L : forall (f : nat -> A) from k,
  put f from (map g (seq from L)) k = if Nat.leb from k && Nat.ltb k (from + L) then g k else f k.
Proof.
  induction L as [|L IH]; intros f from k; cbn [seq map put].
  - destruct (Nat.leb_spec from k), (Nat.ltb_spec k (from + 0)); cbn; auto; lia.
  - rewrite IH. destruct (Nat.leb_spec (S from) k), (Nat.ltb_spec k (S from + L)), (Nat.leb_spec from k), (Nat.ltb_spec k (from + S L)); cbn; try lia; auto.
    + destruct (Nat.eqb_spec k from); [lia|reflexivity].
    + destruct (Nat.eqb_spec k from); [subst; reflexivity|lia].
    + destruct (Nat.eqb_spec k from); [lia|reflexivity].
Qed.
Lemma put_ext A (l : list A) : forall f g from, (forall k, f k = g k) -> forall k, put f from l k = put g from l k.
Proof. induction l as [|a l IH]; intros f g from E k; cbn; [apply E|]. apply IH. intros j. destruct (Nat.eqb j from); auto. Qed.

Lemma skipn_seq m : forall a L, skipn m (seq a L) = seq (a + m) (L - m).
Proof.
  induction m as [|m IH]; intros a L; cbn [skipn]; [f_equal; lia|]. destruct L as [|L]; cbn [seq Nat.sub]; [reflexivity|]. rewrite IH. f_equal; lia.
Qed.
Section P.
Variable dinv : R -> option R.
Hypothesis DI : device_inverse dinv.
Variable n : nat.
Variables (x y : nat -> R).
Variable f : nat -> nat -> R.
Notation den := (times_x n x).
Notation num := (times_y n y).
Notation inverses := (inverses dinv n x).

Lemma inverses_ok l : (forall r, In r l -> den r <> 0) -> inverses l = Some (map (fun r => / den r) l).
Proof.
  induction l as [|r l IH]; intros H; [reflexivity|]. cbn [MsCudaModel.inverses map]. rewrite (proj2 DI) by (apply H; left; reflexivity).
  rewrite IH; [reflexivity|]. intros s I. apply H. right; exact I.
Qed.
Lemma inverses_bad l r : In r l -> den r = 0 -> inverses l = None.
Proof.
  induction l as [|s l IH]; intros I Z; [destruct I|]. cbn [MsCudaModel.inverses]. destruct I as [->|I].
  - rewrite Z, (proj1 DI). reflexivity.
  - rewrite (IH I Z). destruct (dinv (den s)); reflexivity.
Qed.
Lemma combine_map A B (g : A -> B) l : combine (map g l) l = map (fun a => (g a, a)) l.
Proof. induction l; cbn; congruence. Qed.
Lemma coefficients_eq idx rest : coefficients n y (map (fun r => / den r) (map f idx ++ rest)) (map f idx ++ rest) (length idx) =
  map (fun e => / den (f e) * num (f e)) idx.
Proof.
  unfold coefficients. rewrite combine_map, map_map, map_app. rewrite firstn_app, firstn_all2 by (rewrite !map_length; lia).
  rewrite !map_length, Nat.sub_diag. cbn. rewrite app_nil_r, map_map. reflexivity.
Qed.
Lemma combine_seq A (l rest : list A) : forall from, combine (seq from (length l)) (l ++ rest) = combine (seq from (length l)) l.
Proof. induction l as [|a l IH]; intros from; cbn; [reflexivity|]. rewrite IH. reflexivity. Qed.
Lemma seq_shift_map A (h : nat -> nat -> A) b L : forall from, map (fun p => h (b + fst p)%nat (snd p)) (combine (seq from L) (seq (b + from) L)) = map (fun e => h e e) (seq (b + from) L).
Proof.
  induction L as [|L IH]; intros from; cbn; [reflexivity|]. f_equal. specialize (IH (S from)).
  replace (b + S from)%nat with (S (b + from)) in IH by lia. exact IH.
Qed.
Lemma combine_mapr A B C (g : B -> C) (l : list A) : forall m, combine l (map g m) = map (fun p => (fst p, g (snd p))) (combine l m).
Proof. induction l as [|a l IH]; intros [|b m]; cbn; auto. rewrite IH. reflexivity. Qed.
Lemma hat_rows_eq b L rest : hat_rows x b (map (fun r => / den r) (map f (seq b L) ++ rest)) (map f (seq b L) ++ rest) L =
  map (fun e k => x e * (/ den (f e) * f e k)) (seq b L).
Proof.
  unfold hat_rows. rewrite combine_map, map_app.
  pose proof (combine_seq _ (map (fun a => (/ den a, a)) (map f (seq b L))) (map (fun a => (/ den a, a)) rest) 0) as Q.
  rewrite !map_length, seq_length in Q. rewrite Q. rewrite map_map, combine_mapr, map_map. cbn [fst snd].
  pose proof (seq_shift_map _ (fun e1 e k => x e1 * (/ den (f e) * f e k)) b L 0) as W. rewrite Nat.add_0_r in W. exact W.
Qed.

(** ** The range *)
Variables lo hi G : nat.
Hypothesis Gpos : (0 < G)%nat.
Hypothesis Lh : (lo <= hi)%nat.
Definition upto (i : nat) : nat := Nat.min (lo + i * G) hi.
Definition count : nat := ((hi - lo) / G + (if Nat.eqb ((hi - lo) mod G) 0 then 0 else 1))%nat.
Lemma count_eq : groups (hi - lo) G = Ok count.
Proof. apply groups_eq, Gpos. Qed.
Lemma count_spec i : (i < count)%nat <-> (lo + i * G < hi)%nat.
Proof.
  unfold count. destruct (div_eq lo hi G Gpos) as [E L]. destruct (Nat.eqb_spec ((hi - lo) mod G) 0); split; intros H; nia.
Qed.
Lemma upto_count : upto count = hi.
Proof.
  unfold upto. assert (~ (count < count)%nat) by lia. rewrite count_spec in H. lia.
Qed.
Lemma glength_eq i : (i < count)%nat -> gbegin lo G i = upto i /\ (upto i + glength lo hi G i = upto (S i))%nat /\ (0 < glength lo hi G i <= G)%nat.
Proof.
  rewrite count_spec. intros L. unfold glength, gbegin, upto. rewrite Nat.min_l by lia.
  destruct (Nat.ltb_spec hi (lo + i * G + G)); cbn; split; auto; split; lia.
Qed.
Lemma group_eq i : (i < count)%nat -> group lo hi G i = seq (upto i) (upto (S i) - upto i).
Proof. intros L. destruct (glength_eq i L) as (A & B & C). unfold group. rewrite A. f_equal. lia. Qed.
Lemma upto_mono i : (upto i <= upto (S i))%nat. Proof. unfold upto. cbn. lia. Qed.

(** The strides before group i: all in use and regular, or (before the first) zeros. *)
Definition strides_at (i : nat) (l : list (nat -> R)) : Prop :=
  length l = G /\ (i <> 0%nat -> forall r, In r l -> den r <> 0).
Definition zero_row : nat -> R := fun _ => 0.
Lemma den_zero : den zero_row = 0.
Proof. unfold times_x, zero_row. rewrite (bigsum_ext _ _ (fun _ => 0)); [apply bigsum_0|intros; ring]. Qed.
Lemma next_strides i l : (i < count)%nat -> strides_at i l -> (i = 0%nat -> (G <= hi - lo)%nat) ->
  (forall e, (upto i <= e < upto (S i))%nat -> den (f e) <> 0) ->
  let l' := overwrite (map f (group lo hi G i)) l in
  strides_at (S i) l' /\ (exists rest, l' = map f (group lo hi G i) ++ rest) /\ forall r, In r l' -> den r <> 0.
Proof.
  intros L (LL & R) F H. cbv zeta. rewrite (group_eq i L). unfold overwrite. rewrite map_length, seq_length.
  destruct (glength_eq i L) as (_ & B & C).
  assert (LEN : length (map f (seq (upto i) (upto (S i) - upto i)) ++ skipn (upto (S i) - upto i) l) = G).
  { rewrite app_length, map_length, seq_length, skipn_length. lia. }
  assert (ALL : forall r, In r (map f (seq (upto i) (upto (S i) - upto i)) ++ skipn (upto (S i) - upto i) l) -> den r <> 0).
  { intros r I. apply in_app_or in I. destruct I as [I|I].
    - apply in_map_iff in I. destruct I as (e & <- & I). apply in_seq in I. apply H. lia.
    - destruct (Nat.eq_dec i 0) as [Z|NZ].
      + exfalso. subst i. specialize (F eq_refl). assert (upto 1 - upto 0 = G)%nat by (unfold upto; lia).
        rewrite H0, skipn_all2 in I by lia. exact I.
      + apply R; [exact NZ|]. rewrite <- (firstn_skipn (upto (S i) - upto i) l). apply in_or_app. right; exact I. }
  split; [split; [exact LEN|intros _; exact ALL]|]. split; [eexists; reflexivity|exact ALL].
Qed.
Lemma bad_strides i l : (i < count)%nat -> (exists e, (upto i <= e < upto (S i))%nat /\ den (f e) = 0) ->
  inverses (overwrite (map f (group lo hi G i)) l) = None.
Proof.
  intros L (e & I & Z). apply (inverses_bad _ (f e)); [|exact Z]. unfold overwrite. apply in_or_app. left. apply in_map.
  rewrite (group_eq i L). apply in_seq. lia.
Qed.
Lemma small_strides : (0 < hi - lo < G)%nat -> inverses (overwrite (map f (group lo hi G 0)) (repeat zero_row G)) = None.
Proof.
  intros L. apply (inverses_bad _ zero_row); [|apply den_zero]. unfold overwrite. apply in_or_app. right.
  assert (C : (0 < count)%nat) by (apply count_spec; lia). rewrite (group_eq 0 C), map_length, seq_length.
  assert (E : (upto 1 - upto 0 < G)%nat) by (unfold upto; lia). revert E. generalize (upto 1 - upto 0)%nat as m. generalize G as g. clear.
  intros g m. revert g. induction m as [|m IH]; intros g E; destruct g as [|g]; try lia; cbn; [left; reflexivity|apply IH; lia].
Qed.

(** One group succeeds or fails: what all three loops have in common. *)
Lemma group_data i l : (i < count)%nat -> strides_at i l -> (i = 0%nat -> (G <= hi - lo)%nat) ->
  (forall e, (upto i <= e < upto (S i))%nat -> den (f e) <> 0) ->
  exists invs, let l' := overwrite (map f (group lo hi G i)) l in
  inverses l' = Some invs /\ strides_at (S i) l' /\
  coefficients n y invs l' (glength lo hi G i) = map (fun e => / den (f e) * num (f e)) (seq (upto i) (upto (S i) - upto i)) /\
  hat_rows x (gbegin lo G i) invs l' (glength lo hi G i) = map (fun e k => x e * (/ den (f e) * f e k)) (seq (upto i) (upto (S i) - upto i)).
Proof.
  intros L S0 F H. destruct (next_strides i l L S0 F H) as (S1 & (rest & E) & ALL). cbv zeta in *.
  exists (map (fun r => / den r) (overwrite (map f (group lo hi G i)) l)). split; [apply inverses_ok, ALL|]. split; [exact S1|].
  rewrite E. destruct (glength_eq i L) as (A & B & _). rewrite (group_eq i L). replace (glength lo hi G i) with (upto (S i) - upto i)%nat by lia. split.
  - pose proof (coefficients_eq (seq (upto i) (upto (S i) - upto i)) rest) as Q. rewrite seq_length in Q. exact Q.
  - rewrite A. apply hat_rows_eq.
Qed.
End P.

(** ** Runs *)
Section Loop.
Variable dinv : R -> option R.
Hypothesis DI : device_inverse dinv.
Variable n : nat.
Variables (x y : nat -> R) (w : nat -> nat -> R).
Variables lo hi G : nat.
Hypothesis Gpos : (0 < G)%nat.
Hypothesis Lh : (lo <= hi)%nat.
Hypothesis Hn : (hi <= n)%nat.
Hypothesis GL : (G <= hi - lo)%nat.
Variable stop : nat -> bool.
Notation den := (times_x n x).
Notation num := (times_y n y).
Notation up := (upto lo hi G).
Notation count := (count lo hi G).

Lemma device0_strides : strides_at n x G 0 (d_xtw (device0 G)).
Proof. split; [apply repeat_length|]. intros H; congruence. Qed.
Lemma dloop_app body a : forall b st, dloop body stop (a ++ b) st =
  match dloop body stop a st with Ok (st', false) => dloop body stop b st' | r => r end.
Proof.
  induction a as [|i t IH]; intros b st; cbn; [destruct (dloop body stop b st); reflexivity|].
  destruct (stop i); [reflexivity|]. destruct (body i st); auto.
Qed.
(** Invariants carried through m groups. *)
Lemma dloop_inv body (I : nat -> device -> Prop) m : I 0%nat (device0 G) ->
  (forall i st, (i < m)%nat -> I i st -> exists st', body i st = Ok st' /\ I (S i) st') -> (forall i, (i < m)%nat -> stop i = false) ->
  exists st, dloop body stop (seq 0 m) (device0 G) = Ok (st, false) /\ I m st.
Proof.
  intros I0 ST. induction m as [|m IH]; intros NS; [exists (device0 G); auto|].
  destruct IH as (st & E & Im); [intros i st L; apply ST; lia|intros i L; apply NS; lia|].
  destruct (ST m st ltac:(lia) Im) as (st' & E' & I'). exists st'. split; [|exact I'].
  rewrite seq_S, dloop_app, E. cbn. rewrite NS by lia. rewrite E'. reflexivity.
Qed.
Lemma quiet_of_dloop body is : forall st r, dloop body stop is st = Ok r -> dloop_quiet body stop is st = Ok r.
Proof.
  induction is as [|i t IH]; intros st r; cbn; [auto|]. destruct (stop i); [auto|]. destruct (body i st); auto; discriminate.
Qed.
Lemma quiet_app body a : forall b st st1, dloop body stop a st = Ok (st1, false) -> dloop_quiet body stop (a ++ b) st = dloop_quiet body stop b st1.
Proof.
  induction a as [|i t IH]; intros b st st1; cbn; [intros E; inversion E; reflexivity|].
  destruct (stop i); [discriminate|]. destruct (body i st); [apply IH|discriminate|discriminate].
Qed.
Lemma seq_split m : (m < count)%nat -> seq 0 count = seq 0 m ++ m :: seq (S m) (count - S m).
Proof. intros L. replace count with (m + (1 + (count - S m)))%nat at 1 by lia. rewrite seq_app. reflexivity. Qed.
(** What the loops return after m good groups. *)
Inductive ending (m : nat) (bad : Prop) : Prop :=
| Whole : m = count -> ending m bad
| Stopped : (m < count)%nat -> stop m = true -> ending m bad
| Failed : (m < count)%nat -> stop m = false -> bad -> ending m bad.
Lemma ends_loud body m st : dloop body stop (seq 0 m) (device0 G) = Ok (st, false) ->
  (m = count -> dloop body stop (seq 0 count) (device0 G) = Ok (st, false)) /\
  ((m < count)%nat -> stop m = true -> dloop body stop (seq 0 count) (device0 G) = Ok (st, true)) /\
  ((m < count)%nat -> stop m = false -> body m st = Throw -> dloop body stop (seq 0 count) (device0 G) = Throw).
Proof.
  intros E. repeat split.
  - intros ->; exact E.
  - intros L S0. rewrite (seq_split m L), dloop_app, E. cbn. rewrite S0. reflexivity.
  - intros L S0 B. rewrite (seq_split m L), dloop_app, E. cbn. rewrite S0, B. reflexivity.
Qed.
Lemma ends_quiet body m st : dloop body stop (seq 0 m) (device0 G) = Ok (st, false) ->
  (m = count -> dloop_quiet body stop (seq 0 count) (device0 G) = Ok (st, false)) /\
  ((m < count)%nat -> stop m = true -> dloop_quiet body stop (seq 0 count) (device0 G) = Ok (st, true)) /\
  ((m < count)%nat -> stop m = false -> body m st = Throw -> dloop_quiet body stop (seq 0 count) (device0 G) = Ok (st, false)).
Proof.
  intros E. repeat split.
  - intros ->; apply quiet_of_dloop, E.
  - intros L S0. rewrite (seq_split m L), (quiet_app _ _ _ _ _ E). cbn. rewrite S0. reflexivity.
  - intros L S0 B. rewrite (seq_split m L), (quiet_app _ _ _ _ _ E). cbn. rewrite S0, B. reflexivity.
Qed.
Lemma bound i : (i < count)%nat -> Nat.ltb n (gbegin lo G i + glength lo hi G i) = false.
Proof.
  intros L. destruct (glength_eq lo hi G Gpos Lh i L) as (A & B & _). apply Nat.ltb_ge. rewrite A, B.
  unfold upto. lia.
Qed.
Lemma only_put (v : nat -> R) i f0 k : (i < count)%nat -> (forall j, f0 j = only lo (up i) v j) ->
  put f0 (gbegin lo G i) (map v (seq (up i) (up (S i) - up i))) k = only lo (up (S i)) v k.
Proof.
  intros L E. destruct (glength_eq lo hi G Gpos Lh i L) as (A & B & _). rewrite A, put_seq, E. unfold only.
  assert (lo <= up i)%nat by (unfold upto; lia).
  destruct (Nat.leb_spec (up i) k), (Nat.ltb_spec k (up i + (up (S i) - up i))), (Nat.leb_spec lo k), (Nat.ltb_spec k (up i)), (Nat.ltb_spec k (up (S i))); cbn; auto; lia.
Qed.

Lemma only_start v k : 0 = only lo (up 0) v k.
Proof. unfold only. assert (up 0 <= lo)%nat by (unfold upto; lia). destruct (Nat.leb_spec lo k), (Nat.ltb_spec k (up 0)); cbn; auto; lia. Qed.

(** *** fitVarCoreCuda *)
Section Fit.
Variable hat : bool.
Hypothesis H0 : hat = true -> lo = 0%nat.
Let f e := diagmul x (w e).
Definition bval e := / den (diagmul x (w e)) * num (diagmul x (w e)).
Definition sval e k := x e * (/ den (diagmul x (w e)) * diagmul x (w e) k).
Definition fit_inv i st := strides_at n x G i (d_xtw st) /\ (forall k, d_beta st k = only lo (up i) bval k) /\
  (forall k j, d_S st k j = if hat then only lo (up i) (fun e => sval e j) k else 0).
Lemma fit_step i st : (i < count)%nat -> (forall e, (up i <= e < up (S i))%nat -> den (diagmul x (w e)) <> 0) -> fit_inv i st ->
  exists st', fit_var_group dinv n x y w hat lo hi G i st = Ok st' /\ fit_inv (S i) st'.
Proof.
  intros L R (S1 & BV & SV). destruct (group_data dinv DI n x y f lo hi G Gpos Lh i _ L S1 (fun _ => GL) R) as (invs & E & S2 & CF & HR).
  unfold fit_var_group. change (fun e => diagmul x (w e)) with f. rewrite E. rewrite (bound i L).
  destruct hat eqn:Hh.
  - destruct (glength_eq lo hi G Gpos Lh i L) as (A & B & _).
    replace (Nat.ltb (hi - lo) (gbegin lo G i + glength lo hi G i)) with false.
    2:{ symmetry. apply Nat.ltb_ge. rewrite A, B, H0 by reflexivity. unfold upto. lia. }
    eexists. split; [reflexivity|]. split; [exact S2|]. cbn [d_beta d_S]. split.
    + intros k. rewrite CF. apply only_put; assumption.
    + intros k j. rewrite Hh, HR, A, put_seq. transitivity (if Nat.leb (up i) k && Nat.ltb k (up i + (up (S i) - up i)) then sval k j else d_S st k j).
      { destruct (_ && _); reflexivity. }
      rewrite SV. unfold only.
      assert (lo <= up i)%nat by (unfold upto; lia).
      destruct (Nat.leb_spec (up i) k), (Nat.ltb_spec k (up i + (up (S i) - up i))), (Nat.leb_spec lo k), (Nat.ltb_spec k (up i)), (Nat.ltb_spec k (up (S i))); cbn; auto; lia.
  - eexists. split; [reflexivity|]. split; [exact S2|]. cbn [d_beta d_S]. split; [|rewrite Hh; exact SV].
    intros k. rewrite CF. apply only_put; assumption.
Qed.
Lemma fit_run m : (m <= count)%nat -> (forall i, (i < m)%nat -> stop i = false) -> (forall e, (lo <= e < up m)%nat -> den (diagmul x (w e)) <> 0) ->
  exists st, dloop (fit_var_group dinv n x y w hat lo hi G) stop (seq 0 m) (device0 G) = Ok (st, false) /\ fit_inv m st.
Proof.
  intros Lm NS R. apply dloop_inv; [|intros i st L Ii; apply fit_step; [lia| |exact Ii]|exact NS].
  - split; [apply device0_strides|]. split.
    + intros k. apply only_start.
    + intros k j. destruct hat; [apply (only_start (fun e => sval e j))|reflexivity].
  - intros e Le. apply R. unfold upto in *. nia.
Qed.
Lemma fit_bad m st : (m < count)%nat -> (exists e, (up m <= e < up (S m))%nat /\ den (diagmul x (w e)) = 0) ->
  fit_var_group dinv n x y w hat lo hi G m st = Throw.
Proof.
  intros L B. unfold fit_var_group. change (fun e => diagmul x (w e)) with f. rewrite (bad_strides dinv DI n x f lo hi G Gpos Lh m _ L B). reflexivity.
Qed.
End Fit.

(** *** fitVarCoreCVCuda *)
Definition cval e := / den (diagmul x (zeroed e (w e))) * num (diagmul x (zeroed e (w e))).
Definition cv_inv i st := strides_at n x G i (d_xtw st) /\ (forall k, d_beta st k = only lo (up i) cval k).
Lemma cv_run m : (m <= count)%nat -> (forall i, (i < m)%nat -> stop i = false) -> (forall e, (lo <= e < up m)%nat -> den (diagmul x (zeroed e (w e))) <> 0) ->
  exists st, dloop (cv_group dinv n x y w lo hi G) stop (seq 0 m) (device0 G) = Ok (st, false) /\ cv_inv m st.
Proof.
  intros Lm NS R. apply dloop_inv; [| |exact NS].
  - split; [apply device0_strides|]. intros k. apply only_start.
  - intros i st L (S1 & BV). assert (Lc : (i < count)%nat) by lia.
    destruct (group_data dinv DI n x y (fun e => diagmul x (zeroed e (w e))) lo hi G Gpos Lh i _ Lc S1 (fun _ => GL)) as (invs & E & S2 & CF & _).
    { intros e Le. apply R. unfold upto in *. nia. }
    unfold cv_group. rewrite E, (bound i Lc). eexists. split; [reflexivity|]. split; [exact S2|]. cbn [d_beta]. intros k. rewrite CF. apply only_put; assumption.
Qed.
Lemma cv_bad m st : (m < count)%nat -> (exists e, (up m <= e < up (S m))%nat /\ den (diagmul x (zeroed e (w e))) = 0) ->
  cv_group dinv n x y w lo hi G m st = Throw.
Proof.
  intros L B. unfold cv_group. rewrite (bad_strides dinv DI n x (fun e => diagmul x (zeroed e (w e))) lo hi G Gpos Lh m _ L B). reflexivity.
Qed.

(** *** fitVarCoreSHatCuda *)
Definition qval e := bigsum n (fun k => sval e k * sval e k).
Definition stale (i : nat) : list R := match i with O => repeat 0 G | S j => map qval (seq (up j) G) end.
Definition shat_inv i st := strides_at n x G i (d_xtw st) /\ (forall k, d_beta st k = only lo (up i) bval k) /\
  d_tr st = lsum (map (fun e => sval e e) (seq lo (up i - lo))) /\
  ((lo + i * G <= hi)%nat -> d_sst st = stale i /\ d_ss st = lsum (map qval (seq lo (up i - lo)))) /\
  ((hi < lo + i * G)%nat -> exists j, i = S j /\ d_ss st = lsum (map qval (seq lo (hi - lo))) + lsum (map qval (seq (hi - G) (lo + j * G - (hi - G))))).
Lemma shat_step i st : (i < count)%nat -> (forall e, (up i <= e < up (S i))%nat -> den (diagmul x (w e)) <> 0) -> shat_inv i st ->
  exists st', shat_var_group dinv n x y w lo hi G i st = Ok st' /\ shat_inv (S i) st'.
Proof.
  intros L R (S1 & BV & TR & FULL & _).
  destruct (group_data dinv DI n x y (fun e => diagmul x (w e)) lo hi G Gpos Lh i _ L S1 (fun _ => GL) R) as (invs & E & S2 & CF & HR).
  destruct (glength_eq lo hi G Gpos Lh i L) as (A & B & Cc). assert (Li := proj1 (count_spec lo hi G Gpos Lh i) L).
  destruct (FULL ltac:(lia)) as (ST & SS).
  unfold shat_var_group. rewrite E, (bound i L). eexists. split; [reflexivity|].
  split; [exact S2|]. cbn [d_beta d_tr d_sst d_ss]. rewrite HR, map_map.
  assert (SQ : seq lo (up (S i) - lo) = seq lo (up i - lo) ++ seq (up i) (up (S i) - up i)).
  { replace (up (S i) - lo)%nat with ((up i - lo) + (up (S i) - up i))%nat by (unfold upto; nia).
    rewrite seq_app. f_equal. f_equal. unfold upto. lia. }
  split; [intros k; rewrite CF; apply only_put; assumption|]. split; [|split].
  - rewrite TR, SQ, map_app, lsum_app. f_equal. rewrite combine_mapr, map_map. cbn [fst snd].
    replace (glength lo hi G i) with (up (S i) - up i)%nat by lia. rewrite A.
    pose proof (seq_shift_map _ (fun e1 e => sval e e1) (up i) (up (S i) - up i) 0) as Q. rewrite Nat.add_0_r in Q.
    rewrite <- Q. reflexivity.
  - intros LF. assert (EG : (up (S i) - up i = G)%nat) by (unfold upto in *; nia).
    assert (OV : overwrite (map (fun e => bigsum n (fun k => x e * (/ den (diagmul x (w e)) * diagmul x (w e) k) * (x e * (/ den (diagmul x (w e)) * diagmul x (w e) k)))) (seq (up i) (up (S i) - up i))) (d_sst st) = map qval (seq (up i) G)).
    { rewrite EG. apply overwrite_full. rewrite map_length, seq_length, ST. unfold stale. destruct i; [rewrite repeat_length|rewrite map_length, seq_length]; reflexivity. }
    rewrite OV. split; [reflexivity|]. rewrite SS, SQ, map_app, lsum_app, EG. reflexivity.
  - intros LF. exists i. split; [reflexivity|]. assert (UH : up (S i) = hi) by (unfold upto; lia).
    assert (NZ : i <> 0%nat) by (intros ->; lia). destruct i as [|j]; [lia|].
    rewrite SS, ST. unfold overwrite. rewrite lsum_app, map_length, seq_length.
    replace (seq lo (hi - lo)) with (seq lo (up (S (S j)) - lo)) by (rewrite UH; reflexivity). rewrite SQ, map_app, lsum_app.
    rewrite <- Rplus_assoc. f_equal.
    unfold stale. rewrite skipn_map, skipn_seq. f_equal. f_equal. f_equal; unfold upto in *; nia.
Qed.
Lemma shat_run m : (m <= count)%nat -> (forall i, (i < m)%nat -> stop i = false) -> (forall e, (lo <= e < up m)%nat -> den (diagmul x (w e)) <> 0) ->
  exists st, dloop (shat_var_group dinv n x y w lo hi G) stop (seq 0 m) (device0 G) = Ok (st, false) /\ shat_inv m st.
Proof.
  intros Lm NS RG. apply dloop_inv; [|intros i st L Ii; apply shat_step; [lia| |exact Ii]|exact NS].
  - split; [apply device0_strides|]. split; [intros k; apply only_start|].
    assert (U0 : (up 0 - lo = 0)%nat) by (unfold upto; lia). rewrite U0. split; [reflexivity|]. split; [split; reflexivity|intros; lia].
  - intros e Le. apply RG. unfold upto in *. nia.
Qed.
Lemma shat_bad m st : (m < count)%nat -> (exists e, (up m <= e < up (S m))%nat /\ den (diagmul x (w e)) = 0) ->
  shat_var_group dinv n x y w lo hi G m st = Throw.
Proof.
  intros L B. unfold shat_var_group. rewrite (bad_strides dinv DI n x (fun e => diagmul x (w e)) lo hi G Gpos Lh m _ L B). reflexivity.
Qed.
End Loop.
