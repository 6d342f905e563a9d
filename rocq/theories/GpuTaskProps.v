(** C145-C147: the task object of the CUDA library. *)
From Coq Require Import Reals Bool List Arith ZArith Lia Lra.
From Verif Require Import Outcome GpuTaskModel GpuTaskProofs CudaModel CudaProofs.
Import ListNotations.
Local Open Scope R_scope.

(** ** C145: setting coordinates.
    Full statement: after [setCoords i u v] location i is (u, v) and the others are as before.
    The first coordinate is used as the column instead: a location of a new task is set right only if it is the origin. *)
Theorem C145_set_coords_refuted : forall n i u v l,
  setCoords (repeat (0, 0) n) i u v = Ok l -> nth_error l i = Some (u, v) -> u = 0 /\ v = 0.
Proof. exact coords_never. Qed.
Print Assumptions C145_set_coords_refuted.
Example C145_case : exists l, setCoords (repeat (0, 0) 2) 1 0 0 = Ok l /\ nth_error l 1 = Some (0, 0).
Proof.
  destruct (coords_first (repeat (0, 0) 2) 1 0 0) as (l & E & A & _); [cbn; lia|lra|]. exists l. split; [exact E|exact A].
Qed.
(** What happens instead, for every value of the first coordinate that an index can be made of. *)
Theorem C145_first_refuted : forall l i u v, (i < length l)%nat -> -1 < u < 1 -> exists l', setCoords l i u v = Ok l' /\
  nth_error l' i = Some (v, snd (nth i l (0, 0))) /\ forall j, j <> i -> nth_error l' j = nth_error l j.
Proof. exact coords_first. Qed.
Print Assumptions C145_first_refuted.
Theorem C145_second_refuted : forall l i u v, (i < length l)%nat -> 1 <= u < 2 -> exists l', setCoords l i u v = Ok l' /\
  nth_error l' i = Some (fst (nth i l (0, 0)), v) /\ forall j, j <> i -> nth_error l' j = nth_error l j.
Proof. exact coords_second. Qed.
Print Assumptions C145_second_refuted.
Theorem C145_throws_refuted : forall l i u v, 2 <= u < IZR (2 ^ 64) -> setCoords l i u v = Throw.
Proof. exact coords_throw. Qed.
Print Assumptions C145_throws_refuted.
Theorem C145_undefined_refuted : forall l i u v, u <= -1 -> setCoords l i u v = UB.
Proof. exact coords_ub. Qed.
Print Assumptions C145_undefined_refuted.
Example C145_cases : -1 < 0.5 < 1 /\ 1 <= 1.5 < 2 /\ 2 <= 250000 < IZR (2 ^ 64) /\ -77 <= -1.
Proof. assert (250000 < IZR (2 ^ 64)) by (apply IZR_lt; reflexivity). repeat split; lra. Qed.

(** ** C146: distance and weight objects.
    Full statement: creating, copying, assigning and destroying tasks keeps the two objects of each task its own, copies every
    member, and frees what is no longer used. *)
(** Creating and destroying leaves the heap as it was, for every distance type. *)
Theorem C146_destroy_partial : forall (Res Diag : Type) n type (r0 : Res) (d0 : Diag) h h1 s, create n type r0 d0 h = (h1, s) ->
  exists h2, destroy h1 s = Ok h2 /\ forall a, nth a h2 false = nth a h false.
Proof. intros Res Diag n type r0 d0 h h1 s. exact (destroy_created n type r0 d0 h h1 s). Qed.
Print Assumptions C146_destroy_partial.
(** A copy has live objects of its own and the same members ... *)
Theorem C146_copy_partial : forall (Res Diag : Type) (d0 : Diag) h (s : task Res Diag) h' c, copy d0 h s = Ok (h', c) ->
  t_coords c = t_coords s /\ t_res c = t_res s /\ t_bandwidth c = t_bandwidth s /\
  (exists a b k, t_dist s = Some (a, k) /\ t_dist c = Some (b, k) /\ nth b h' false = true /\ (length h <= b)%nat /\ t_weight c <> b) /\
  nth (t_weight c) h' false = true /\ (length h <= t_weight c)%nat /\
  forall a, nth a h false = true -> nth a h' false = true.
Proof. intros Res Diag d0 h s h' c H. destruct (copy_main d0 h s h' c H) as (A & B & C & _ & D). exact (conj A (conj B (conj C D))). Qed.
Print Assumptions C146_copy_partial.
(** ... except the diagnostics, which are always the initial ones ... *)
Theorem C146_copy_diagnostics_refuted : forall (Res Diag : Type) (d0 : Diag) h (s : task Res Diag) h' c, copy d0 h s = Ok (h', c) ->
  t_diag s <> d0 -> t_diag c <> t_diag s.
Proof. intros Res Diag d0 h s h' c H N. destruct (copy_main d0 h s h' c H) as (_ & _ & _ & -> & _). auto. Qed.
Print Assumptions C146_copy_diagnostics_refuted.
Example C146_copy_case : exists c, copy 0 [true; true] (mkTask [(1, 2)] (Some (0%nat, CRS)) 1 tt 5 3) = Ok c /\ 5 <> 0.
Proof. eexists. split; [reflexivity|lra]. Qed.
(** ... and after an assignment those of the task assigned to. *)
Theorem C146_assign_partial : forall (Res Diag : Type) h (l s : task Res Diag) h' r, assign h l s = Ok (h', r) ->
  t_coords r = t_coords s /\ t_res r = t_res s /\ t_bandwidth r = t_bandwidth s /\
  (forall a, nth a h false = true -> nth a h' false = true).
Proof. intros Res Diag h l s h' r H. destruct (assign_main h l s h' r H) as (A & B & C & _ & D & _). exact (conj A (conj B (conj C D))). Qed.
Print Assumptions C146_assign_partial.
Theorem C146_assign_diagnostics_refuted : forall (Res Diag : Type) h (l s : task Res Diag) h' r, assign h l s = Ok (h', r) ->
  t_diag l <> t_diag s -> t_diag r <> t_diag s.
Proof. intros Res Diag h l s h' r H N. destruct (assign_main h l s h' r H) as (_ & _ & _ & -> & _). auto. Qed.
Print Assumptions C146_assign_diagnostics_refuted.
(** Every assignment to a task leaks its two objects, every change of the distance type one: they stay allocated and the task
    no longer refers to them. *)
Theorem C146_assign_leak_refuted : forall (Res Diag : Type) h (l s : task Res Diag) h' r a b k,
  assign h l s = Ok (h', r) -> t_dist l = Some (a, k) -> t_weight l = b -> nth a h false = true -> nth b h false = true ->
  nth a h' false = true /\ nth b h' false = true /\
  (forall x k', t_dist r = Some (x, k') -> x <> a /\ x <> b) /\ t_weight r <> a /\ t_weight r <> b.
Proof. intros Res Diag h l s h' r a b k. exact (assign_leak h l s h' r a b k). Qed.
Print Assumptions C146_assign_leak_refuted.
Theorem C146_set_distance_leak_refuted : forall (Res Diag : Type) h (s : task Res Diag) type k a k0,
  made type = Some k -> t_dist s = Some (a, k0) -> nth a h false = true ->
  forall h' s', setDistanceType h s type = (h', s') -> nth a h' false = true /\ exists b, t_dist s' = Some (b, k) /\ b <> a.
Proof. intros Res Diag h s type k a k0. exact (set_distance_leak h s type k a k0). Qed.
Print Assumptions C146_set_distance_leak_refuted.
(** A distance type that is not supported is ignored: the task keeps the distance it had. *)
Theorem C146_set_unsupported_partial : forall (Res Diag : Type) h (s : task Res Diag) type, (2 <= type)%nat -> setDistanceType h s type = (h, s).
Proof. exact set_unsupported. Qed.
Print Assumptions C146_set_unsupported_partial.
(** Destroying a task twice is undefined behaviour: nothing marks the objects as deleted. *)
Theorem C146_destroy_twice_refuted : forall (Res Diag : Type) h (s : task Res Diag) h', destroy h s = Ok h' -> destroy h' s = UB.
Proof. exact destroy_twice. Qed.
Print Assumptions C146_destroy_twice_refuted.
Example C146_destroy_case : destroy [true; true] (mkTask [] (Some (0%nat, CRS)) 1 tt 0 0) = Ok [false; false].
Proof. reflexivity. Qed.
Example C146_leak_case : exists r, assign [true; true; true; true] (mkTask [] (Some (0%nat, CRS)) 1 tt 0 0)
  (mkTask [(1, 2)] (Some (2%nat, Minkwoski)) 3 tt 1 0) = Ok r.
Proof. eexists. reflexivity. Qed.
(** A task of a distance type other than the two supported cannot be used, or copied, or assigned from. *)
Theorem C146_unsupported_refuted : forall (Res Diag : Type) n type (r0 : Res) (d0 : Diag) h h1 s, (2 <= type)%nat ->
  create n type r0 d0 h = (h1, s) ->
  (forall opt run, fit s opt run = UB) /\ (forall d, copy d h1 s = UB) /\ (forall l, assign h1 l s = UB) /\ setMinkwoski s = UB /\ setGeographic s = UB.
Proof.
  intros Res Diag n type r0 d0 h h1 s T C. destruct type as [|[|t]]; try lia. inversion C; subst. repeat split.
Qed.
Print Assumptions C146_unsupported_refuted.
(** Minkwoski parameters can be set only on a task of that type. *)
Theorem C146_minkwoski_partial : forall (Res Diag : Type) n type (r0 : Res) (d0 : Diag) h h1 s, create n type r0 d0 h = (h1, s) ->
  (setMinkwoski s = Ok tt <-> type = 1%nat) /\ (setMinkwoski s = UB <-> type <> 1%nat).
Proof.
  intros Res Diag n type r0 d0 h h1 s C. destruct type as [|[|t]]; inversion C; subst; cbn; split; split; intro X; try discriminate; try lia; auto.
Qed.
Print Assumptions C146_minkwoski_partial.
Example C146_create_case : exists h s, create 3 1 tt tt [true] = (h, s) /\ setMinkwoski s = Ok tt.
Proof. eexists. eexists. split; reflexivity. Qed.

(** ** C147: results of a fit.
    Full statement: fit returns true iff the regression succeeded, with its results stored, and false otherwise, with the task
    as it was. *)
Theorem C147_true_partial : forall (Res Diag : Type) (s : task Res Diag) opt run s', fit s opt run = Ok (true, s') <->
  t_dist s <> None /\ exists r d bw, run = Fitted r d bw /\
  s' = mkTask (t_coords s) (t_dist s) (t_weight s) r d (if opt then bw else t_bandwidth s).
Proof. intros Res Diag s opt run s'. exact (fit_true s opt run s'). Qed.
Print Assumptions C147_true_partial.
Theorem C147_false_partial : forall (Res Diag : Type) (s : task Res Diag) opt run s', fit s opt run = Ok (false, s') <->
  t_dist s <> None /\ run = StdException /\ s' = s.
Proof. intros Res Diag s opt run s'. exact (fit_false s opt run s'). Qed.
Print Assumptions C147_false_partial.
(** What is thrown by the device matrices is not an exception of the library, and leaves the function. *)
Theorem C147_escape_refuted : forall (Res Diag : Type) (s : task Res Diag) opt, t_dist s <> None -> fit s opt OtherException = Throw.
Proof. intros Res Diag s opt N. unfold fit. destruct (t_dist s); [reflexivity|congruence]. Qed.
Print Assumptions C147_escape_refuted.
(** With fewer points than the group length, which the task cannot change from 64 (GWRBasic.h), a fit never succeeds, whatever
    the data. *)
Theorem C147_small_sample_refuted : forall (Res Diag : Type) (s : task Res Diag) opt ok tr ss junk n (r : _ -> Res) (d : _ -> Diag) bw,
  t_dist s <> None -> (0 < n < 64)%nat ->
  fit s opt (match fit_cuda ok tr ss junk 0 n 64 with Ok st => Fitted (r st) (d st) (bw st) | Throw => StdException | UB => Undefined end)
  = Ok (false, s).
Proof.
  intros Res Diag s opt ok tr ss junk n r d bw N L. rewrite fit_large by lia. unfold fit. destruct (t_dist s); [reflexivity|congruence].
Qed.
Print Assumptions C147_small_sample_refuted.
Example C147_case : exists s : task R R, t_dist s <> None /\ fit s true (Fitted 1 2 3) = Ok (true, mkTask [(1, 2)] (Some (0%nat, CRS)) 1 1 2 3).
Proof. exists (mkTask [(1, 2)] (Some (0%nat, CRS)) 1 0 0 0). split; [discriminate|reflexivity]. Qed.
