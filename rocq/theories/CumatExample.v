(** A concrete run of the device regression: one variable, three points, groups of two. *)
From Coq Require Import Reals Bool List Arith Lia Lra.
From Verif Require Import Outcome Sums CudaModel CumatModel CumatSpec CumatProofs CumatCases CumatGroup CumatLoop.
Import ListNotations.
Local Open Scope R_scope.

(** Inverse of 1 x 1 matrices. *)
Definition inv1 (n : nat) (v : mem) : option mem :=
  match n, v with
  | 1%nat, [x] => if Req_EM_T x 0 then None else Some [/ x]
  | _, _ => None
  end.
Lemma inv1_inverts : inverts inv1.
Proof.
  intros n v w M H L HV. unfold inv1 in H. destruct n as [|[|n]]; try discriminate. destruct v as [|x [|? ?]]; try discriminate.
  destruct (Req_EM_T x 0) as [|N]; [discriminate|]. inversion H; subst w. split; [reflexivity|].
  intros I HI i j Hi Hj. assert (i = 0%nat) by lia. assert (j = 0%nat) by lia. subst.
  specialize (HV 0%nat 0%nat ltac:(lia) ltac:(lia)). specialize (HI 0%nat 0%nat ltac:(lia) ltac:(lia)). cbn in HV, HI.
  unfold product. cbn. inversion HV. inversion HI. rewrite <- H1. field. exact N.
Qed.

Definition ex_w (e : nat) : mem := nth e [[1; 0; 0]; [1; 2; 0]; [0; 2; 1]] [].
Definition ex_x : mem := [1; 2; 3].
Definition ex_y : mem := [2; 1; 5].

Lemma ex_X : holds ex_x 0 1 3 (fun a k => nth k ex_x 0).
Proof. intros a k Ha Hk. assert (a = 0%nat) by lia. subst. destruct k as [|[|[|k]]]; try lia; reflexivity. Qed.
Lemma ex_Y : forall k, (k < 3)%nat -> nth_error ex_y k = Some (nth k ex_y 0).
Proof. intros k Hk. destruct k as [|[|[|k]]]; try lia; reflexivity. Qed.
Lemma ex_W : forall e k, (0 <= e < 3)%nat -> (k < 3)%nat -> nth_error (ex_w e) k = Some (nth k (ex_w e) 0).
Proof. intros e k He Hk. destruct e as [|[|[|e]]]; try lia; destruct k as [|[|[|k]]]; try lia; reflexivity. Qed.
Lemma ex_WG : forall i w k, nth_error [ex_w 0; ex_w 1] i = Some w -> (k < 3)%nat -> nth_error w k = Some (nth k (ex_w i) 0).
Proof. intros i w k Hi Hk. destruct i as [|[|i]]; cbn in Hi; [| |destruct i; discriminate]; inversion Hi; [apply (ex_W 0 k)|apply (ex_W 1 k)]; lia. Qed.

Lemma inv1_some x : x <> 0 -> inv1 1 [x] = Some [/ x].
Proof. intros N. cbn. destruct (Req_EM_T x 0); [contradiction|reflexivity]. Qed.

Lemma ex_group : exists s', cuda_group inv1 1 3 2 3 ex_x ex_y [ex_w 0; ex_w 1] 0 (cuda_start 1 3 2 3 [false; false]) = Ok s'.
Proof.
  unfold cuda_group. cbn -[inv1 Rplus Rmult].
  rewrite inv1_some by lra. cbn -[inv1 Rplus Rmult]. rewrite inv1_some by lra. cbn -[inv1 Rplus Rmult]. eexists. reflexivity.
Qed.
Lemma ex_fit : exists s', cuda_fit inv1 ex_w 0 3 1 3 2 3 ex_x ex_y (cuda_start 1 3 2 3 [false; false]) = Ok s'.
Proof.
  unfold cuda_fit. cbn -[inv1 Rplus Rmult cuda_group].
  unfold cuda_group at 1. cbn -[inv1 Rplus Rmult cuda_group].
  rewrite inv1_some by lra. cbn -[inv1 Rplus Rmult cuda_group]. rewrite inv1_some by lra. cbn -[inv1 Rplus Rmult cuda_group].
  unfold cuda_group. cbn -[inv1 Rplus Rmult].
  rewrite inv1_some by lra. cbn -[inv1 Rplus Rmult]. rewrite inv1_some by lra. cbn -[inv1 Rplus Rmult]. eexists. reflexivity.
Qed.
