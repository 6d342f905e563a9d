(** C84, C119: isValid. *)
From Coq Require Import Reals Bool List Arith ZArith Lra.
From Verif Require Import Outcome XReal KernelModel ValidModel ValidSpec ValidProofs.
Import ListNotations.

(** C84: GWRBasic (and GTWR, robust GWR) accept exactly non-empty coordinates, at least one column, equal row
    numbers and a positive bandwidth. *)
Theorem C84_basic : forall coords x yrows w, valid_basic coords x yrows w = Ok true <->
  (0 < rows coords /\ 0 < cols coords) /\ 0 < cols x /\ rows x = yrows /\ rows x = rows coords /\
  exists b, w = Some b /\ positive (w_bw b).
Proof. exact basic_iff. Qed.
Print Assumptions C84_basic.
Example C84_case : valid_basic (mkSize 3 2) (mkSize 3 1) 3 (Some (mkW (XF 1) true Gaussian)) = Ok true.
Proof. apply basic_iff. simpl. repeat split; auto. exists (mkW (XF 1) true Gaussian). split; [reflexivity|]. right. exists 1%R. split; [reflexivity|lra]. Qed.
(** C84: without a weight and with everything else in order, isValid uses a null pointer. *)
Theorem C84_null_refuted : forall coords x yrows w, valid_basic coords x yrows w = UB <->
  ((0 < rows coords /\ 0 < cols coords) /\ 0 < cols x /\ rows x = yrows /\ rows x = rows coords) /\ w = None.
Proof. exact basic_ub. Qed.
Print Assumptions C84_null_refuted.

(** C119, what the other analyses accept.  Scalable GWR: *)
Theorem C119_scalable : forall coords x yrows w, valid_scalable coords x yrows w = Ok true <->
  (0 < rows coords /\ 0 < cols coords) /\ 0 < cols x /\ rows x = yrows /\ rows x = rows coords /\
  exists b, w = Some b /\ (w_kernel b = Gaussian \/ w_kernel b = Exponential) /\ positive (w_bw b).
Proof. exact scalable_iff. Qed.
Print Assumptions C119_scalable.
(** Generalised and local ridge regression: no condition on the bandwidth. *)
Theorem C119_base_partial : forall coords x yrows, valid_base coords x yrows = true <->
  (0 < rows coords /\ 0 < cols coords) /\ 0 < cols x /\ rows x = yrows /\ rows x = rows coords.
Proof. exact base_iff. Qed.
Print Assumptions C119_base_partial.
(** Summary statistics and discriminant analysis: no condition on the rows of X. *)
Theorem C119_gwss_refuted : forall coords x, valid_gwss coords x = true <->
  (0 < rows coords /\ 0 < cols coords) /\ 0 < cols x.
Proof. exact gwss_iff. Qed.
Print Assumptions C119_gwss_refuted.
Example C119_gwss_case : valid_gwss (mkSize 3 2) (mkSize 7 1) = true. Proof. reflexivity. Qed.
(** Principal components: no condition on X at all. *)
Theorem C119_gwpca_refuted : forall coords k, valid_gwpca coords k = true <->
  (0 < rows coords /\ 0 < cols coords) /\ (0 < k)%Z.
Proof. exact gwpca_iff. Qed.
Print Assumptions C119_gwpca_refuted.
(** Density regression: no condition on X or y. *)
Theorem C119_gwdr_refuted : forall coords k, valid_gwdr coords k = true <->
  (0 < rows coords /\ 0 < cols coords) /\ k = cols coords.
Proof. exact gwdr_iff. Qed.
Print Assumptions C119_gwdr_refuted.
(** Multiscale GWR: no condition on the coordinates or row numbers. *)
Theorem C119_multiscale_refuted : forall x ws init a c t, valid_multiscale x ws init a c t = Ok true <->
  0 < cols x /\ length ws = cols x /\ length init = cols x /\ a = cols x /\ c = cols x /\ t = cols x /\
  Forall weight_fine (combine ws init).
Proof. exact multiscale_iff. Qed.
Print Assumptions C119_multiscale_refuted.
Example C119_multiscale_case : valid_multiscale (mkSize 3 1) [Some (mkW XN true Gaussian)] [Specified] 1 1 1 = Ok true.
Proof. reflexivity. Qed.
