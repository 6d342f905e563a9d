(** Vocabulary of the theorems on isValid. *)
From Coq Require Import Reals List.
From Verif Require Import XReal ValidModel.

(** A positive number or plus infinity. *)
Definition positive (b : xd) : Prop := b = XI false \/ exists r, xval b = Some r /\ (0 < r)%R.
(** The weight of a variable whose bandwidth is not selected automatically is set; its bandwidth, unless it is
    NaN, is greater than one if adaptive, and at least zero if fixed. *)
Definition weight_fine (wi : option bweight * initial) : Prop :=
  match snd wi with
  | Null => True
  | _ => exists b, fst wi = Some b /\ if w_adaptive b then xleb (w_bw b) (XF 1) = false else xltb (w_bw b) (XF 0) = false
  end.
