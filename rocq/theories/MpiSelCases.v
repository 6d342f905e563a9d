(** A concrete distributed selection (C165): four observations, three processes (the third
    one has no observation), two candidates compared once. *)
From Coq Require Import Reals Bool List Arith Lia Lra.
From Verif Require Import Outcome XReal XRealFacts KernelModel Sums MpiModel GoldProofs2 MpiSelModel MpiSelSpec MpiSelProofs MpiSelMain.
Import ListNotations.
Local Open Scope R_scope.

(** Candidates 1 and 2 are asked for, and the better one is the answer; 0 when interrupted. *)
Definition two_plan (h : list (bool * xd)) : ask nat nat :=
  match h with
  | [] => Ask 1%nat
  | [(true, _)] => Ask 2%nat
  | (true, a) :: (true, b) :: _ => Return (if xltb a b then 1 else 2)%nat
  | _ => Return 0%nat
  end.
Definition two_len (t : nat) : nat := match t with O => 2%nat | _ => 4%nat end.
(** Every location has coefficient [q] and adds 1 to both numbers of shat. *)
Definition two_contrib (q t i e : nat) : R :=
  match t with O => 1 | _ => if Nat.eqb e i then INR q else 0 end.
Definition two_value (ms : list (list R)) : xd := XF (lsum (nth 1 ms []) + lsum (nth 0 ms [])).
(** The second candidate has no finite value. *)
Definition two_nan (ms : list (list R)) : xd := if Reqb (lsum (nth 1 ms [])) 8 then XN else two_value ms.
Definition two_fits (bad : bool) (q i : nat) : bool := negb (bad && Nat.eqb q 2 && Nat.eqb i 3).

Notation two_search bad := (serial_search nat nat two_plan 4 2 two_len (two_fits bad) two_contrib).

Lemma two_sums (q : nat) : map (part_of nat two_len two_contrib q (seq 0 4)) (seq 0 2) =
  [[4; 4]; [INR q; INR q; INR q; INR q]].
Proof.
  unfold part_of, sumloop. cbn -[INR]. rewrite ?Rplus_0_l, ?Rplus_0_r.
  replace (1 + 1 + 1 + 1) with 4 by lra. reflexivity.
Qed.

Lemma two_one v : v <> XF DBL_MAX -> v = XF 12 -> xltb v (XF DBL_MAX) = true.
Proof. intros _ ->. cbn. unfold Rltb. pose proof dbl_max_big. destruct (Rlt_dec 12 DBL_MAX); [reflexivity|lra]. Qed.

Lemma two_crit ck q : serial_criterion nat 4 2 two_len (two_fits false) two_contrib ck two_value q = XF (4 * INR q + 8).
Proof.
  unfold serial_criterion. replace (forallb (two_fits false q) (seq 0 4)) with true by reflexivity.
  rewrite two_sums. cbv zeta. unfold two_value. cbn -[INR]. rewrite andb_false_r. f_equal. lra.
Qed.

Lemma two_serial : two_search false true two_value 5 [] = Some ([XF 12; XF 16], 1%nat).
Proof.
  cbn [serial_search two_plan app]. rewrite !two_crit. cbn -[INR xltb].
  assert (E1 : 4 * INR 1 + 8 = 12) by (cbn; lra). assert (E2 : 4 * INR 2 + 8 = 16) by (cbn; lra).
  rewrite E1, E2. replace (xltb (XF 12) (XF 16)) with true; [reflexivity|].
  cbn. unfold Rltb. destruct (Rlt_dec 12 16); [reflexivity|lra].
Qed.
Lemma two_not_max : ~ In (XF DBL_MAX) [XF 12; XF 16].
Proof. pose proof dbl_max_big. intros [E|[E|[]]]; injection E; lra. Qed.

(** Location 3 fails for the second candidate: one process prefers the first. *)
Lemma two_bad_serial : two_search true true two_value 5 [] = Some ([XF 12; XF DBL_MAX], 1%nat).
Proof.
  cbn [serial_search two_plan app].
  assert (E1 : serial_criterion nat 4 2 two_len (two_fits true) two_contrib true two_value 1%nat = XF 12).
  { unfold serial_criterion. replace (forallb (two_fits true 1%nat) (seq 0 4)) with true by reflexivity.
    rewrite two_sums. cbv zeta. unfold two_value. cbn -[INR]. f_equal. cbn. lra. }
  assert (E2 : serial_criterion nat 4 2 two_len (two_fits true) two_contrib true two_value 2%nat = XF DBL_MAX) by reflexivity.
  rewrite E1. cbn [app two_plan]. rewrite E2. cbn [app two_plan map snd].
  rewrite two_one; [reflexivity| |reflexivity]. intros E. injection E. pose proof dbl_max_big. lra.
Qed.

Lemma two_nan_crit ck q : q = 1%nat \/ q = 2%nat ->
  serial_criterion nat 4 2 two_len (two_fits false) two_contrib ck two_nan q =
  if Nat.eqb q 1 then XF 12 else if ck then XF DBL_MAX else XN.
Proof.
  intros Q. unfold serial_criterion. replace (forallb (two_fits false q) (seq 0 4)) with true by reflexivity.
  rewrite two_sums. cbv zeta. unfold two_nan, two_value. cbn [nth].
  destruct Q as [-> | ->]; unfold lsum; cbn -[Reqb]; unfold Reqb.
  - destruct (Req_EM_T _ _) as [E|N]; [exfalso; lra|]. cbn. rewrite andb_false_r. f_equal. lra.
  - destruct (Req_EM_T _ _) as [E|N]; [|exfalso; apply N; lra]. now destruct ck.
Qed.

Lemma finite_main :
  two_search false true two_nan 5 [] = Some ([XF 12; XF DBL_MAX], 1%nat) /\
  two_search false false two_nan 5 [] = Some ([XF 12; XN], 2%nat) /\
  forall eager,
  let todo := gwr_todo nat nat two_plan 4 two_len (two_fits false) two_contrib (fun _ => None) (fun _ => 0%nat) 2 in
  (exists k c, moves nat 3 2 eager todo two_nan k (start nat) c /\ at_rest nat 3 2 todo two_nan eager c) /\
  forall k c, moves nat 3 2 eager todo two_nan k (start nat) c -> at_rest nat 3 2 todo two_nan eager c ->
  all_return nat 3 [XF 12; XN] 2%nat c.
Proof.
  assert (E1 : forall ck, serial_criterion nat 4 2 two_len (two_fits false) two_contrib ck two_nan 1%nat = XF 12)
    by (intros ck; rewrite two_nan_crit by auto; reflexivity).
  assert (E2 : forall ck, serial_criterion nat 4 2 two_len (two_fits false) two_contrib ck two_nan 2%nat = if ck then XF DBL_MAX else XN)
    by (intros ck; rewrite two_nan_crit by auto; reflexivity).
  assert (SF : two_search false false two_nan 5 [] = Some ([XF 12; XN], 2%nat)).
  { cbn [serial_search two_plan app]. rewrite E1, E2. reflexivity. }
  assert (NM : ~ In (XF DBL_MAX) [XF 12; XN]).
  { pose proof dbl_max_big. intros [E|[E|[]]]; [injection E; lra|discriminate]. }
  split; [|split; [exact SF|]].
  - cbn [serial_search two_plan app]. rewrite E1, E2. cbn [app two_plan map snd].
    rewrite two_one; [reflexivity| |reflexivity]. intros E. injection E. pose proof dbl_max_big. lra.
  - intros eager. split.
    + exact (exists_main nat nat two_plan 4 3 2 two_len (two_fits false) two_contrib two_nan 2 ltac:(lia) eq_refl eager false 5 _ _ SF NM).
    + intros k c M RT.
      exact (proj1 (proj2 (agree_main nat nat two_plan 4 3 2 two_len (two_fits false) two_contrib two_nan 2 ltac:(lia) eq_refl eager false 5 _ _ k c SF NM M)) RT).
Qed.

(** The second process is told to stop during the first criterion: the lists of criteria
    that arise, and the plans of the processes. *)
Definition two_quit (p : nat) : option nat := if Nat.eqb p 1 then Some 0%nat else None.
Lemma two_cancelled :
  rounds nat 3 2 (gwr_todo nat nat two_plan 4 two_len (two_fits false) two_contrib two_quit (fun _ => 1%nat) 2) two_value [XF 9] /\
  (forall h, map fst h = repeat true 0 ++ [false] -> exists a, two_plan h = Return a) /\
  two_plan [(true, XF 9)] = Ask 2%nat.
Proof.
  split; [|split; [|reflexivity]].
  - set (todo := gwr_todo _ _ _ _ _ _ _ _ _ _).
    set (fs := fun p => part_of nat two_len two_contrib 1%nat (locations 4 two_quit (fun _ => 1%nat) 2 p 0)).
    assert (E : XF 9 = round_value 3 2 two_value fs).
    { unfold round_value, two_value, fs, part_of, vadd, sumloop, lsum. cbn. f_equal. lra. }
    rewrite E. apply (r_next nat 3 2 todo two_value [] fs); [constructor|].
    intros p Hp. unfold todo, fs. destruct p as [|[|[|p]]]; [reflexivity|reflexivity|reflexivity|lia].
  - intros [|[b v] [|x h]] H; try discriminate. cbn in H. injection H as ->. eexists. reflexivity.
Qed.
