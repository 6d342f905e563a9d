(** Vocabulary of the serial part of C166: what one process of multiscale regression
    computes. *)
From Coq Require Import Reals Bool List Arith.
From Verif Require Import XReal Sums KernelModel GoldModel MsCritModel MsMpiModel.
Import ListNotations.
Local Open Scope R_scope.
Section Serial.
Variables n nvar : nat.
Variables (x : nat -> nat -> R) (y : nat -> R).
Variable appr : nat -> approach.
Variables lower upper threshold : nat -> R.
Variable retry : nat.
Variable ctype : crit_type.
Variable cthreshold : R.
Variable loo : nat -> (nat -> R) -> weight -> nat -> option R.
Variable loc : nat -> (nat -> R) -> weight -> nat -> option (R * R).

(** Response of variable [v] when the coefficients before it are already those of [b']. *)
Definition partial_residual (b b' : nat -> nat -> R) (v i : nat) : R :=
  y i - bigsum nvar (fun u => if Nat.eqb u v then 0 else x u i * (if Nat.ltb u v then b' u i else b u i)).
Definition residual_ss (b : nat -> nat -> R) : R :=
  bigsum n (fun i => (y i - bigsum nvar (fun u => x u i * b u i)) ^ 2).

(** The criterion of bandwidth [h] for variable [v] and response [yi]. *)
Definition criterion_of (v : nat) (yi : nat -> R) (h : weight) : xd :=
  match appr v with
  | CV => if forallb (fun i => match loo v yi h i with Some _ => true | None => false end) (seq 0 n)
          then XF (bigsum n (fun i => (yi i - x v i * match loo v yi h i with Some c => c | None => 0 end) ^ 2))
          else XF DBL_MAX
  | AIC => if forallb (fun i => match loc v yi h i with Some _ => true | None => false end) (seq 0 n)
           then let a := aic_of n (x v) yi (fun i => match loc v yi h i with Some c => fst c | None => 0 end)
                           (bigsum n (fun i => match loc v yi h i with Some c => snd c | None => 0 end)) in
                match a with XF _ | XNZ => a | _ => XF DBL_MAX end
           else XF DBL_MAX
  end.
(** The golden-section search from [h] gives [h'] for that criterion. *)
Definition searched (v : nat) (yi : nat -> R) (h h' : weight) : Prop :=
  rresult (optimize (fun _ g => GoldModel.Answer true (criterion_of v yi g)) h (lower v) (upper v) []) = Fresh h'.

(** One variable in one iteration: bandwidth, type of bandwidth, number of selections without
    change, coefficients. *)
Definition one_variable (v : nat) (b b' : nat -> nat -> R) (h h' : weight) (t t' : init_type) (c c' : nat) : Prop :=
  let yi := partial_residual b b' v in
  (t = ISpecified -> h' = h /\ t' = t /\ c' = c) /\
  (t <> ISpecified -> searched v yi h h' /\
     (threshold v < Rabs (wvalue h' - wvalue h) -> c' = 0%nat /\ t' = t) /\
     (Rabs (wvalue h' - wvalue h) <= threshold v -> c' = S c /\
        ((retry <= S c)%nat -> t' = ISpecified) /\ ((S c < retry)%nat -> t' = t))) /\
  forall i, (i < n)%nat -> exists s, loc v yi h' i = Some (b' v i, s).

(** The criterion of convergence is above its threshold. *)
Definition not_converged (r0 r1 : R) : Prop :=
  match ctype with
  | CVR => cthreshold < Rabs (r1 - r0)
  | dCVR => xltb (XF cthreshold) (xsqrt (xdiv (XF (Rabs (r1 - r0))) (XF r1))) = true
  end.
End Serial.
