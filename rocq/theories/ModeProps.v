(** C42: parallel mode selection. *)
From Coq Require Import Bool List NArith.
From Verif Require Import Outcome ModeModel ModeSpec ModeProofs.
Import ListNotations.

(** C42, acceptance: for every algorithm and build, a mode is accepted exactly when its
    kind of computation is in the ability mask; the MPI bit plays no role.
    Missing from the full statement: modes are tested for overlap with the mask, not
    inclusion, see [C42_overlap_refuted]. *)
Theorem C42_accepted_partial : forall a c t,
  accepts a c t = match wanted t with
                  | KOmp => match a with LocalCol => true | _ => omp c end
                  | KCuda => match a with Basic | Robust | Multiscale => cuda c | _ => false end
                  | _ => match t with MPI => false | _ => true end
                  end.
Proof. exact accepts_meaning. Qed.
Print Assumptions C42_accepted_partial.
Theorem C42_overlap_refuted : forall a c, accepts a c MPI_Serial = true /\
  N.land (ability a c) (code MPI_Serial) <> code MPI_Serial.
Proof. intros a [o u m]; destruct a, o, u; split; (reflexivity || discriminate). Qed.
Print Assumptions C42_overlap_refuted.

(** C42, rejection: a mode that is not accepted changes nothing, in every state
    reachable by any sequence of setter calls. *)
Theorem C42_rejected_unchanged : forall a c calls t s, after a c calls = Ok s -> accepts a c t = false ->
  set_type a c t s = Ok s.
Proof. exact rejected_same. Qed.
Print Assumptions C42_rejected_unchanged.
Theorem C42_mode_recorded : forall a c calls t s, after a c (calls ++ [SetType t]) = Ok s ->
  exists s0, after a c calls = Ok s0 /\ ty s = if accepts a c t then t else ty s0.
Proof. exact type_after. Qed.
Print Assumptions C42_mode_recorded.
(** Each setter records its argument and leaves the other choices alone. *)
Theorem C42_choice_recorded : forall a c calls s0, after a c calls = Ok s0 ->
  (forall t s, after a c (calls ++ [SetType t]) = Ok s ->
     crit s = crit s0 /\ fam s = fam s0 /\ mode s = mode s0) /\
  (In a [Basic; Gtwr; Gwdr; Generalized] -> forall k s, after a c (calls ++ [SetCrit k]) = Ok s ->
     crit s = k /\ ty s = ty s0 /\ fam s = fam s0) /\
  (a = Generalized -> forall f s, after a c (calls ++ [SetFamily f]) = Ok s ->
     fam s = Some f /\ ty s = ty s0 /\ crit s = crit s0) /\
  (a = Gwss -> forall m s, after a c (calls ++ [SetMode m]) = Ok s -> mode s = m /\ ty s = ty s0).
Proof. exact variant_after. Qed.
Print Assumptions C42_choice_recorded.
Example C42_rejected_case : let c := mkCfg true false false in
  (exists s, after Gwdr c [SetType OpenMP; SetCrit AIC] = Ok s /\ ty s = OpenMP) /\
  accepts Gwdr c CUDA = false.
Proof. split; [eexists; split; reflexivity|reflexivity]. Qed.

(** C42, calculators: for every algorithm, build and sequence of setter calls that
    requests only modes the algorithm offers and the build contains, all calculators
    designate the implementations of the current mode with the selected variant (so none
    is null); the bandwidth criterion of basic and generalised GWR once a criterion or
    mode has been set.
    Missing from the full statement: the criterion of GTWR, the inherited cores of
    robust GWR, modes accepted without being offered, the initial criterion, and
    GWRGeneralized before setFamily (all refuted below). *)
Theorem C42_consistent_partial : forall a c calls s, sensible a c calls -> after a c calls = Ok s ->
  consistent a false s /\ (criterion_set a c calls -> consistent a true s).
Proof. exact consistent_after. Qed.
Print Assumptions C42_consistent_partial.
Theorem C42_defined_partial : forall a c calls, a <> Generalized -> exists s, after a c calls = Ok s.
Proof. exact defined_after. Qed.
Print Assumptions C42_defined_partial.
Example C42_case : let c := mkCfg true true true in
  let l := [SetCrit CV; SetType MPI_MP; SetType CUDA; SetType OpenMP] in
  sensible Basic c l /\ criterion_set Basic c l /\ exists s, after Basic c l = Ok s /\
  p_crit (ptr s) = Some (KBase, Crit CV) /\ p_cv (ptr s) = Some (KOmp, Plain).
Proof.
  split; [|split].
  - intros t I. simpl in I. repeat (destruct I as [I|I]; [try discriminate; injection I as <-; split; reflexivity|]).
    destruct I.
  - exists (SetCrit CV); simpl; auto.
  - eexists; split; [reflexivity|split; reflexivity].
Qed.

(** C42 refuted for GTWR: in OpenMP mode the bandwidth criterion is always serial. *)
Theorem C42_gtwr_refuted : forall c calls s, after Gtwr c calls = Ok s ->
  exists v, p_crit (ptr s) = Some (KSerial, v) /\ (criterion_set Gtwr c calls -> v = Crit (crit s)).
Proof. exact gtwr_serial_variant. Qed.
Print Assumptions C42_gtwr_refuted.
(** ... for robust GWR: the cores used by bandwidth selection never leave serial. *)
Theorem C42_robust_refuted : forall c calls s, after Robust c calls = Ok s ->
  p_base (ptr s) = Some (KSerial, Plain).
Proof. exact robust_base. Qed.
Print Assumptions C42_robust_refuted.
Example C42_robust_case : exists s, after Robust (mkCfg true false false) [SetType OpenMP] = Ok s /\
  ty s = OpenMP /\ p_fit (ptr s) = Some (KOmp, Plain).
Proof. eexists; split; [reflexivity|split; reflexivity]. Qed.
(** ... for generalised GWR: accepted modes leave null pointers. *)
Theorem C42_null_refuted : forall c f, exists s, accepts Generalized c MPI_Serial = true /\
  after Generalized c [SetFamily f; SetType MPI_Serial] = Ok s /\ ty s = MPI_Serial /\
  p_fit (ptr s) = None /\ p_wt (ptr s) = None /\ p_crit (ptr s) = None.
Proof. intros [o u m] f. eexists. split; [destruct o; reflexivity|]. destruct o; cbn; auto 10. Qed.
Print Assumptions C42_null_refuted.
(** ... and selecting a mode before the family reads an uninitialised member. *)
Theorem C42_family_refuted : forall c, after Generalized c [SetType SerialOnly] = UB.
Proof. intros [o u m]; destruct o; reflexivity. Qed.
Print Assumptions C42_family_refuted.
(** ... for modes accepted but not offered: MPI_MP runs serial loops. *)
Theorem C42_not_offered_refuted : forall u m, let c := mkCfg true u m in
  forall a, In a [Gtwr; Gwdr; LocalCol; Multiscale; Gwss; Gwda; Robust] ->
  exists s k v, after a c [SetType MPI_MP] = Ok s /\ ty s = MPI_MP /\
  p_fit (ptr s) = Some (k, v) /\ k <> wanted (ty s).
Proof.
  intros u m c a I. unfold c. simpl in I.
  repeat (destruct I as [<-|I]; [destruct u, m; do 3 eexists; (split; [reflexivity|split; [reflexivity|split; [reflexivity|discriminate]]])|]).
  destruct I.
Qed.
Print Assumptions C42_not_offered_refuted.
(** ... for modes accepted but not compiled: the ridge advertises OpenMP always, and MPI
    modes are accepted by builds without MPI. *)
Theorem C42_not_built_refuted : exists s1 s2, let c := mkCfg false false false in
  after LocalCol c [SetType OpenMP] = Ok s1 /\ ty s1 = OpenMP /\ p_fit (ptr s1) = Some (KSerial, Plain) /\
  after Basic c [SetType MPI_Serial] = Ok s2 /\ ty s2 = MPI_Serial /\ p_outer (ptr s2) = Some (KBase, Plain).
Proof. do 2 eexists. cbn. auto 10. Qed.
Print Assumptions C42_not_built_refuted.
(** ... for fresh objects: the recorded criterion is AIC, the calculator computes CV. *)
Theorem C42_initial_refuted : forall a, In a [Basic; Gtwr; Generalized] ->
  crit (init a) = AIC /\ exists k, p_crit (ptr (init a)) = Some (k, Crit CV).
Proof. intros a I. simpl in I. repeat (destruct I as [<-|I]; [split; [reflexivity|eexists; reflexivity]|]). destruct I. Qed.
Print Assumptions C42_initial_refuted.
