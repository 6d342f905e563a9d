(** Proofs for C74 and C99: what a failed evaluation of lambda and a failed setup of the minimiser do. *)
From Coq Require Import Reals List ZArith Bool Lia Lra.
From Verif Require Import Outcome XReal GtwrModel GtwrProofs GwdrModel.
Import ListNotations.
Local Open Scope R_scope.

Definition remembers (f : rsquare) (s : lvars) : Prop := (4 <= length (l_log s))%nat /\
  forall k l v, nth_error (rev (l_log s)) k = Some l -> f k l = Some (false, v) ->
    l_all s = false /\ length (l_log s) = Nat.max 4 (S k).

Lemma nth_rev_cons : forall (a : R) l k b, nth_error (rev (a :: l)) k = Some b ->
  nth_error (rev l) k = Some b \/ (k = length l /\ b = a).
Proof.
  intros a l k b H. simpl in H. destruct (Nat.lt_ge_cases k (length (rev l))) as [L|L].
  - rewrite nth_error_app1 in H by exact L. left; exact H.
  - rewrite nth_error_app2 in H by exact L. rewrite rev_length in *.
    destruct (k - length l)%nat eqn:E; [|destruct n; discriminate]. injection H as ->. right. split; [lia|reflexivity].
Qed.

Lemma remembers_step : forall f s s', remembers f s -> l_guard s = true -> l_step f s = Some s' -> remembers f s'.
Proof.
  intros f s s' [L R] G E. unfold l_guard in G. apply andb_prop in G as [G _]. apply andb_prop in G as [G _].
  assert (P : forall q ok w, f (length (l_log s)) q = Some (ok, w) ->
    forall t, l_log t = q :: l_log s -> (ok = false -> l_all t = false) -> remembers f t).
  { intros q ok w V t LT OK. unfold remembers. rewrite LT. split; [simpl; lia|]. intros k l v N F.
    apply nth_rev_cons in N as [N|[-> ->]].
    - destruct (R k l v N F) as [A _]. congruence.
    - rewrite V in F. injection F as -> ->. split; [apply OK; reflexivity|]. cbn [length]. lia. }
  unfold l_step in E. destruct (xltb (l_fq s) (l_fp s)).
  - destruct (f (length (l_log s)) (l_a s + (1 - l_ratio) * (l_q s - l_a s))) as [[ok w]|] eqn:V; [|discriminate].
    injection E as <-. apply (P _ _ _ V); [reflexivity|]. intros ->. unfold l_all. cbn [l_oka l_okb l_okp l_okq].
    rewrite andb_false_r. reflexivity.
  - destruct (f (length (l_log s)) (l_p s + l_ratio * (l_b s - l_p s))) as [[ok w]|] eqn:V; [|discriminate].
    injection E as <-. apply (P _ _ _ V); [reflexivity|]. intros ->. unfold l_all. cbn [l_oka l_okb l_okp l_okq].
    rewrite andb_false_r. reflexivity.
Qed.

Lemma remembers_loop : forall fuel f s t, remembers f s -> l_loop fuel f s = LDone t -> remembers f t.
Proof.
  induction fuel as [|n IH]; intros f s t R E; cbn [l_loop] in E; destruct (l_guard s) eqn:G; try discriminate;
    try (injection E as <-; exact R).
  destruct (l_step f s) as [s'|] eqn:S; [|discriminate]. apply (IH f s' t); [|exact E]. exact (remembers_step f s s' R G S).
Qed.

Lemma failed_main : forall f lambda log k l v, LambdaAutoSelection f = LChosen lambda log ->
  nth_error (rev log) k = Some l -> f k l = Some (false, v) -> lambda = 0 /\ length log = Nat.max 4 (S k).
Proof.
  intros f lambda log k l v E N F. unfold LambdaAutoSelection in E. cbv zeta in E.
  destruct (f 0%nat 0) as [[oa fa]|] eqn:E0; [|discriminate].
  destruct (f 1%nat 1) as [[ob fb]|] eqn:E1; [|discriminate].
  destruct (f 2%nat _) as [[op fp]|] eqn:E2; [|discriminate].
  destruct (f 3%nat _) as [[oq fq]|] eqn:E3; [|discriminate].
  destruct (l_loop 101 f _) as [t| |] eqn:EL; try discriminate.
  apply remembers_loop in EL.
  - unfold l_finish in E. injection E as <- <-. destruct EL as [_ R]. destruct (R k l v N F) as [A B].
    rewrite A. split; [reflexivity|exact B].
  - split; [cbn [l_log length]; lia|]. cbn [l_log length rev app]. unfold l_all. cbn [l_oka l_okb l_okp l_okq].
    intros k' l' v' N' F'. destruct k' as [|[|[|[|k']]]]; cbn [nth_error] in N'; try (destruct k'; discriminate);
      injection N' as <-; rewrite ?E0, ?E1, ?E2, ?E3 in F'; injection F' as -> ->; split; try reflexivity;
      rewrite ?andb_false_r; reflexivity.
Qed.

(** The third evaluation fails. *)
Lemma failed_case : exists log, LambdaAutoSelection (fun k l => Some (negb (Nat.eqb k 2), XF l)) = LChosen 0 log /\ length log = 4%nat.
Proof. eexists. split; [cbv [LambdaAutoSelection]; cbn -[l_ratio]; unfold l_finish, l_all; cbn -[l_ratio]; reflexivity|reflexivity]. Qed.

Lemma setup_main : forall g n maxIter ms, g_status g 0 <> 0%Z -> exists o,
  optimize g n maxIter ms = Some o /\ o_code o = g_status g 0 /\
  (g_points g 0 = [] -> o_bws o = map snd ms) /\
  (forall pts x, g_points g 0 = pts ++ [x] -> o_bws o = map (fun t => Rabs t * INR n) x) /\
  fit_bandwidths g n maxIter ms false = Throw.
Proof.
  intros g n maxIter ms H. unfold fit_bandwidths, optimize. apply Z.eqb_neq in H. rewrite H. cbv beta iota.
  eexists. split; [reflexivity|]. cbn [o_code o_bws]. split; [reflexivity|].
  unfold calls. cbn [seq map concat]. rewrite app_nil_r.
  split; [intros ->; reflexivity|]. split; [|rewrite H; reflexivity].
  intros pts x ->. rewrite map_app. cbn [map]. rewrite last_last. reflexivity.
Qed.
Lemma setup_case : exists g, g_status g 0 <> 0%Z /\ exists o, optimize g 10 5 [(true, 3)] = Some o /\ o_bws o = [5].
Proof.
  exists (mkGsl (fun _ => [[/ 2]]) (fun _ => 4%Z) (fun _ => []) (fun _ => 0%Z) (fun _ => false)).
  split; [discriminate|]. eexists. split; [reflexivity|]. cbn [o_bws]. unfold calls. cbn -[INR].
  rewrite Rabs_right by lra. replace (/ 2 * INR 10) with 5 by (simpl; lra). reflexivity.
Qed.
