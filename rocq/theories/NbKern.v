(** Kernels with bounded support and a bandwidth that counts neighbours. *)
From Coq Require Import Reals Bool List Lia Lra.
From Verif Require Import Outcome XReal XRealFacts KernelModel KernelSpec KernelProofs KernelMain GwdrProofs.
Import ListNotations.
Local Open Scope R_scope.

Lemma K_support k d h : compact k = true -> K k d h <> 0 -> d < h.
Proof. destruct k; simpl; try discriminate; intros _; destruct (Rlt_dec d h); auto; congruence. Qed.
Lemma K_positive k d h : 0 <= d -> d < h -> K k d h <> 0.
Proof.
  intros Hd Hh. assert (U : 0 <= d / h < 1).
  { split; [apply Rmult_le_pos; [lra|left; apply Rinv_0_lt_compat; lra]|].
    apply Rmult_lt_reg_r with h; [lra|]. unfold Rdiv. rewrite Rmult_assoc, Rinv_l; lra. }
  destruct k; simpl; try (apply Rgt_not_eq; apply exp_pos); destruct (Rlt_dec d h) as [_|N]; try (exfalso; lra); try lra.
  - set (u := d / h) in *. apply Rgt_not_eq. assert (0 < 1 - u * (u * 1)) by nra.
    apply Rmult_lt_0_compat; [|rewrite Rmult_1_r]; assumption.
  - set (u := d / h) in *. apply Rgt_not_eq. assert (u * u <= u) by nra. assert (0 < 1 - u * (u * (u * 1))) by nra.
    repeat apply Rmult_lt_0_compat; lra.
Qed.
Lemma nonzero_count k h ds : compact k = true -> nonneg ds ->
  length (filter (fun r => if Req_EM_T r 0 then false else true) (map (fun d => K k d h) ds)) = count_lt h ds.
Proof.
  intros C N. unfold count_lt. induction N as [|d ds Hd N IH]; [reflexivity|]. cbn [map filter].
  destruct (Req_EM_T (K k d h) 0) as [E|E]; destruct (Rlt_dec d h) as [L|L]; cbn [length]; rewrite ?IH; auto.
  - exfalso. exact (K_positive k d h Hd L E).
  - exfalso. exact (L (K_support k d h C E)).
Qed.
Lemma count_lt_le_length t l : (count_lt t l <= length l)%nat.
Proof. unfold count_lt. induction l as [|a l IH]; simpl; [lia|]. destruct (Rlt_dec a t); simpl; lia. Qed.
Lemma neighbours_main k xb m xs ds : compact k = true -> xval xb = Some (INR m) -> xvals xs ds -> nonneg ds ->
  usable true (INR m) ds -> (m <= length ds)%nat ->
  exists rs, returns_values (bw_weight k true xb xs) rs /\ length rs = length ds /\
    (length (filter (fun r => if Req_EM_T r 0 then false else true) rs) < m)%nat.
Proof.
  intros C Hb Hx N U Hm. destruct (C05_main k xb (INR m) xs ds Hb Hx N U) as (h & _ & _ & Hk & R).
  exists (map (fun d => K k d h) ds). split; [exact R|]. split; [apply map_length|].
  rewrite nonzero_count by assumption. destruct (Hk m eq_refl Hm) as [_ L]. lia.
Qed.
Lemma fixed_count_main k xb b xs ds : compact k = true -> xval xb = Some b -> xvals xs ds -> nonneg ds -> 0 < b ->
  exists rs, returns_values (bw_weight k false xb xs) rs /\
    length (filter (fun r => if Req_EM_T r 0 then false else true) rs) = count_lt b ds.
Proof.
  intros C Hb Hx N U. exists (map (fun d => K k d b) ds). split; [apply fixed_main; assumption|].
  apply nonzero_count; assumption.
Qed.

(** Distances without ties: exactly one neighbour less than the bandwidth says. *)
Definition count_eq (t : R) (l : list R) : nat := length (filter (fun x => if Req_EM_T x t then true else false) l).
Lemma count_split t l : count_le t l = (count_lt t l + count_eq t l)%nat.
Proof.
  unfold count_le, count_lt, count_eq. induction l as [|a l IH]; [reflexivity|]. cbn [filter].
  destruct (Rle_dec a t), (Rlt_dec a t), (Req_EM_T a t); cbn [length]; try lia; exfalso; lra.
Qed.
Lemma count_eq_nodup t l : NoDup l -> (count_eq t l <= 1)%nat.
Proof.
  unfold count_eq. induction 1 as [|a l Ha N IH]; [simpl; lia|]. cbn [filter].
  destruct (Req_EM_T a t) as [E|E]; [|exact IH]. subst a. cbn [length].
  assert (Z : filter (fun x => if Req_EM_T x t then true else false) l = []); [|rewrite Z; simpl; lia].
  clear - Ha. induction l as [|b l IH]; [reflexivity|]. cbn [filter].
  destruct (Req_EM_T b t) as [E|E]; [exfalso; apply Ha; left; exact E|]. apply IH. intros I. apply Ha. right. exact I.
Qed.
Lemma exact_main k xb m xs ds : compact k = true -> xval xb = Some (INR m) -> xvals xs ds -> nonneg ds ->
  usable true (INR m) ds -> (m <= length ds)%nat -> NoDup ds ->
  exists rs, returns_values (bw_weight k true xb xs) rs /\
    S (length (filter (fun r => if Req_EM_T r 0 then false else true) rs)) = m.
Proof.
  intros C Hb Hx N U Hm D. destruct (C05_main k xb (INR m) xs ds Hb Hx N U) as (h & _ & _ & Hk & R).
  exists (map (fun d => K k d h) ds). split; [exact R|].
  rewrite nonzero_count by assumption. destruct (Hk m eq_refl Hm) as [_ L]. rewrite count_split in L.
  assert (X := count_eq_nodup h ds D). lia.
Qed.

Lemma filter_index (P : R -> bool) l : length (filter P l) = length (filter (fun j => P (nth j l 0)) (seq 0 (length l))).
Proof.
  assert (E : forall f s, length (filter P (map f s)) = length (filter (fun j : nat => P (f j)) s)).
  { intros f. induction s as [|a s IH]; [reflexivity|]. cbn [map filter]. destruct (P (f a)); cbn [length]; rewrite IH; reflexivity. }
  rewrite <- (E (fun j => nth j l 0)), map_nth_seq. reflexivity.
Qed.
Lemma any_neighbours k xb m xs ds rs : compact k = true -> xval xb = Some (INR m) -> xvals xs ds -> nonneg ds ->
  usable true (INR m) ds -> (m <= length ds)%nat -> returns_values (bw_weight k true xb xs) rs ->
  (length (filter (fun j => if Req_EM_T (nth j rs 0%R) 0%R then false else true) (seq 0 (length ds))) < m)%nat /\
  (forall i, (i < length ds)%nat -> nth i ds 0 = 0 -> nth i rs 0 <> 0).
Proof.
  intros C Hb Hx N U Hm (ws & Ew & Xw). destruct (C05_main k xb (INR m) xs ds Hb Hx N U) as (h & _ & _ & Hk & (ws' & Ew' & Xw')).
  rewrite Ew in Ew'. inversion Ew'; subst ws'. assert (rs = map (fun d => K k d h) ds) by (exact (xvals_inj _ _ _ Xw Xw')). subst rs.
  destruct (Hk m eq_refl Hm) as [I L]. split.
  - assert (F := filter_index (fun r => if Req_EM_T r 0 then false else true) (map (fun d => K k d h) ds)).
    rewrite map_length in F. rewrite <- F. rewrite nonzero_count by assumption. lia.
  - intros i Hi Zi. rewrite (nth_indep _ 0 (K k 0 h)) by (rewrite map_length; exact Hi).
    rewrite (map_nth (fun d => K k d h) ds 0 i), Zi. apply K_positive; [lra|].
    destruct U as (_ & U & _). apply INR_lt in U.
    assert (Nh : 0 <= h) by (unfold nonneg in N; rewrite Forall_forall in N; apply N; exact I).
    destruct (Req_dec h 0) as [Z|Z]; [|lra]. exfalso. subst h. 
    assert (count_le 0 ds = count_zero ds); [|lia].
    clear - N. unfold count_le, count_zero. induction N as [|d ds Hd N IH]; [reflexivity|]. cbn [filter].
    destruct (Rle_dec d 0), (Req_EM_T d 0); cbn [length]; auto; exfalso; lra.
Qed.
Lemma adaptive_main : forall k xb m xs ds, compact k = true -> xval xb = Some (INR m) -> xvals xs ds -> nonneg ds ->
  usable true (INR m) ds -> (m <= length ds)%nat ->
  exists rs, returns_values (bw_weight k true xb xs) rs /\ length rs = length ds /\
    (length (filter (fun r => if Req_EM_T r 0 then false else true) rs) < m)%nat /\
    (NoDup ds -> S (length (filter (fun r => if Req_EM_T r 0 then false else true) rs)) = m).
Proof.
  intros k xb m xs ds C Hb Hx N U Hm. destruct (neighbours_main k xb m xs ds C Hb Hx N U Hm) as (rs & R & L & B).
  exists rs. split; [exact R|]. split; [exact L|]. split; [exact B|]. intros D.
  destruct (exact_main k xb m xs ds C Hb Hx N U Hm D) as (rs' & R' & B').
  destruct R as (ws & E & X), R' as (ws' & E' & X'). rewrite E in E'. inversion E'; subst ws'.
  rewrite (xvals_inj _ _ _ X X'). exact B'.
Qed.
Lemma line_case : usable true (INR 3) [0; 1; 2; 3] /\ nonneg [0; 1; 2; 3] /\ NoDup [0; 1; 2; 3].
Proof.
  split; [|split].
  - unfold usable, count_zero. simpl. repeat (destruct (Req_EM_T _ _); try (exfalso; lra); cbn [length]). simpl. repeat split; try lra; lia.
  - repeat constructor; lra.
  - repeat constructor; simpl; intros H; repeat (destruct H as [H|H]; try lra); exact H.
Qed.
