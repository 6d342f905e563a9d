(** Model of the CUDA loops of multiscale GWR.
    Source: GWRMultiscale.cpp:755-835 (fitVarCoreCuda), 837-885 (fitVarCoreCVCuda), 887-943 (fitVarCoreSHatCuda); 400-447 (the
    criteria that call the last two); include/gwmodelpp/utils/cumat.hpp (see CudaModel.v).
    x and y are mXi and mYi; w e is the weight vector of location e (computed on the device; C11 compares it with the CPU).  With a single
    variable the strides of u_xtwx, u_xtwy and u_xtwxI are numbers; [dinv] is cublasDmatinvBatched on one of them ([None]: its
    info is not 0).  Sums are exact.  [stop i]: the telegram stops the loop before group i.
    Not modelled: failing CUDA calls. *)
From Coq Require Import Reals Bool List Arith.
From Verif Require Import Outcome XReal Sums CudaModel MsCritModel.
Import ListNotations.
Local Open Scope R_scope.

Section MsCuda.
Variable dinv : R -> option R.
Variable n : nat.
Variables (x y : nat -> R) (w : nat -> nat -> R).

(** [d_xtw]: the strides of u_xtw; [d_beta]: u_betas; [d_S]: the rows of S; [d_sst]: the host buffer sst. *)
Record device := mkDevice { d_xtw : list (nat -> R); d_beta : nat -> R; d_S : nat -> nat -> R; d_sst : list R; d_tr : R; d_ss : R }.
(** Constructors of cumat, custride and arma::vec and mat: zeros (757-771, 890-897) *)
Definition device0 (G : nat) : device := mkDevice (repeat (fun _ => 0) G) (fun _ => 0) (fun _ _ => 0) (repeat 0 G) 0 0.

(** "u_xt.diagmul(u_weights)" *)
Definition diagmul (v : nat -> R) : nat -> R := fun j => x j * v j.
(** u_xtw * u_xt.t() and u_xtw * u_y, one stride *)
Definition times_x (r : nat -> R) : R := bigsum n (fun j => r j * x j).
Definition times_y (r : nat -> R) : R := bigsum n (fun j => r j * y j).
(** The inverses of all strides; None: one has failed. *)
Fixpoint inverses (l : list (nat -> R)) : option (list R) :=
  match l with
  | [] => Some []
  | r :: t => match dinv (times_x r), inverses t with Some a, Some m => Some (a :: m) | _, _ => None end
  end.
(** Assigning to the strides begin, ..., of a vector. *)
Fixpoint put {A : Type} (f : nat -> A) (from : nat) (l : list A) : nat -> A :=
  match l with
  | [] => f
  | a :: t => put (fun k => if Nat.eqb k from then a else f k) (S from) t
  end.
(** u_xtwxI * u_xtwy with as many strides as the destination has *)
Definition coefficients (invs : list R) (strides : list (nat -> R)) (length : nat) : list R :=
  firstn length (map (fun p => fst p * times_y (snd p)) (combine invs strides)).
(** Row j of a group: x(begin + j) * (xtwx_inv * xtw) *)
Definition hat_rows (begin : nat) (invs : list R) (strides : list (nat -> R)) (length : nat) : list (nat -> R) :=
  map (fun p k => x (begin + fst p) * (fst (snd p) * snd (snd p) k)) (combine (seq 0 length) (combine invs strides)).

(** A group of fitVarCoreCuda (774-802, 806-831): S has hi - lo rows and is written at the rows begin, ..., begin + length - 1. *)
Definition fit_var_group (hat : bool) (lo hi G i : nat) (st : device) : outcome device :=
  let begin := gbegin lo G i in let length := glength lo hi G i in
  let xtw := overwrite (map (fun e => diagmul (w e)) (group lo hi G i)) (d_xtw st) in
  match inverses xtw with
  | None => Throw
  | Some invs =>
      if Nat.ltb n (begin + length) then UB
      else
        let beta := put (d_beta st) begin (coefficients invs xtw length) in
        if hat then
          if Nat.ltb (hi - lo) (begin + length) then Throw
          else Ok (mkDevice xtw beta (put (d_S st) begin (hat_rows begin invs xtw length)) (d_sst st) (d_tr st) (d_ss st))
        else Ok (mkDevice xtw beta (d_S st) (d_sst st) (d_tr st) (d_ss st))
  end.
(** A group of fitVarCoreCVCuda (852-879); Throw: success = false. *)
Definition cv_group (lo hi G i : nat) (st : device) : outcome device :=
  let begin := gbegin lo G i in let length := glength lo hi G i in
  let xtw := overwrite (map (fun e => diagmul (zeroed e (w e))) (group lo hi G i)) (d_xtw st) in
  match inverses xtw with
  | None => Throw
  | Some invs =>
      if Nat.ltb n (begin + length) then UB
      else Ok (mkDevice xtw (put (d_beta st) begin (coefficients invs xtw length)) (d_S st) (d_sst st) (d_tr st) (d_ss st))
  end.
(** A group of fitVarCoreSHatCuda (905-938): sst is overwritten by the strides of the group and summed as a whole. *)
Definition shat_var_group (lo hi G i : nat) (st : device) : outcome device :=
  let begin := gbegin lo G i in let length := glength lo hi G i in
  let xtw := overwrite (map (fun e => diagmul (w e)) (group lo hi G i)) (d_xtw st) in
  match inverses xtw with
  | None => Throw
  | Some invs =>
      if Nat.ltb n (begin + length) then UB
      else
        let rows := hat_rows begin invs xtw length in
        let sst := overwrite (map (fun r => bigsum n (fun k => r k * r k)) rows) (d_sst st) in
        Ok (mkDevice xtw (put (d_beta st) begin (coefficients invs xtw length)) (d_S st) sst
              (d_tr st + lsum (map (fun p => snd p (begin + fst p)%nat) (combine (seq 0 length) rows))) (d_ss st + lsum sst))
  end.

(** The loops over the groups; the flag says whether the telegram stopped them. *)
Fixpoint dloop (body : nat -> device -> outcome device) (stop : nat -> bool) (is : list nat) (st : device) : outcome (device * bool) :=
  match is with
  | [] => Ok (st, false)
  | i :: t => if stop i then Ok (st, true)
              else match body i st with Ok st' => dloop body stop t st' | Throw => Throw | UB => UB end
  end.
(** "for (...; i < groups && success; ...)": what was computed is kept. *)
Fixpoint dloop_quiet (body : nat -> device -> outcome device) (stop : nat -> bool) (is : list nat) (st : device) : outcome (device * bool) :=
  match is with
  | [] => Ok (st, false)
  | i :: t => if stop i then Ok (st, true)
              else match body i st with Ok st' => dloop_quiet body stop t st' | Throw => Ok (st, false) | UB => UB end
  end.

Definition fit_var_cuda (hat : bool) (lo hi G : nat) (stop : nat -> bool) : outcome ((nat -> R) * (nat -> nat -> R) * bool) :=
  let* g := groups (hi - lo) G in
  let* r := dloop (fit_var_group hat lo hi G) stop (seq 0 g) (device0 G) in
  Ok (d_beta (fst r), d_S (fst r), snd r).
Definition cv_cuda (lo hi G : nat) (stop : nat -> bool) : outcome ((nat -> R) * bool) :=
  let* g := groups (hi - lo) G in
  let* r := dloop_quiet (cv_group lo hi G) stop (seq 0 g) (device0 G) in
  Ok (d_beta (fst r), snd r).
Definition shat_var_cuda (lo hi G : nat) (stop : nat -> bool) : outcome ((nat -> R) * R * R * bool) :=
  let* g := groups (hi - lo) G in
  let* r := dloop_quiet (shat_var_group lo hi G) stop (seq 0 g) (device0 G) in
  Ok (d_beta (fst r), d_tr (fst r), d_ss (fst r), snd r).

(** bandwidthSizeCriterionVarCVBase and ...AICBase (400-447) with these loops on all locations. *)
Definition cv_criterion (terminated : bool) (G : nat) (stop : nat -> bool) : outcome xd :=
  let* r := cv_cuda 0 n G stop in
  Ok (if negb (terminated || snd r) then XF (cv_of n x y (fst r)) else XF DBL_MAX).
Definition aic_criterion (terminated : bool) (G : nat) (stop : nat -> bool) : outcome xd :=
  let* r := shat_var_cuda 0 n G stop in
  let value := aic_of n x y (fst (fst (fst r))) (snd (fst (fst r))) in
  Ok (if negb (terminated || snd r) && is_finite value then value else XF DBL_MAX).
End MsCuda.

(** ** The arrays p_info and d_info (764-766, 845-847, 898-900): allocated by every call; released at the end of the two
    criteria loops (880-881, 939-940), by fitVarCoreCuda never. *)
Inductive kernel_call := FitVar | FitVarCV | FitVarSHat.
Definition info_arrays (calls : list kernel_call) : nat * nat :=
  fold_left (fun held c => let (host, dev) := (S (fst held), S (snd held)) in
                           match c with FitVar => (host, dev) | _ => (pred host, pred dev) end) calls (0, 0)%nat.
