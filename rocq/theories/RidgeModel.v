(** Local ridge regression: /repo/src/gwmodelpp/GWRLocalCollinearity.cpp, the choice of lambda. *)
From Coq Require Import Reals Bool List.
From Verif Require Import Outcome XReal.
Import ListNotations.
Local Open Scope R_scope.

(** 357-363 (also 237-243, 303-309, 405-411, 450-456, 507-513): [S] are the singular values of the
    scaled weighted design matrix (largest first, one per variable if there are at least as many
    observations as variables), [m] the number of variables.  S(0), S(m-1) throw when out of range
    (for m = 0 the index wraps and is out of range).
    Returns local condition number and lambda. *)
Definition local_lambda (m : nat) (adjust : bool) (lambda thresh : R) (S : list xd) : outcome (xd * xd) :=
  match m with
  | O => Throw
  | S m' =>
      match nth_error S 0, nth_error S m' with
      | Some s0, Some sm =>
          let cn := xdiv s0 sm in
          Ok (cn, if adjust && xltb (XF thresh) cn
                  then xdiv (xsub s0 (xmul (XF thresh) sm)) (XF (thresh - 1))
                  else XF lambda)
      | _, _ => Throw
      end
  end.
