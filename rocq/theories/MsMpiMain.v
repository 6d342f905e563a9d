(** Proofs about distributed multiscale regression (C166): the processes proceed together and
    compute what one process would compute with the surviving coefficients. *)
From Coq Require Import Reals Bool List Arith Lia Lra FunctionalExtensionality.
From Verif Require Import Outcome XReal Sums KernelModel MpiModel MpiProofs OmpModel MsCritModel MsCritProofs MsCritCases GoldModel MpiSelModel MpiSelGoldModel.
From Verif Require Import MsMpiModel MsMpiSpec MsMpiNet.
Import ListNotations.
Local Open Scope R_scope.

(** ** Rounds *)
Lemma rounds_ext {A} w N (ps ps' qs : nat -> proc A) : (forall p, (p < w)%nat -> ps p = ps' p) -> rounds w N ps' qs -> rounds w N ps qs.
Proof.
  intros E R. destruct R.
  - constructor. intros p Hp. rewrite E by exact Hp. auto.
  - eapply r_more with (cs := cs) (ks := ks); eauto. intros p Hp. rewrite E by exact Hp. auto.
Qed.
Lemma rounds_trans {A} w N M : forall (ps qs rs : nat -> proc A), rounds w N ps qs -> rounds w M qs rs -> rounds w (N + M) ps rs.
Proof.
  induction N as [|N IH]; intros ps qs rs R1 R2; inversion R1; subst; cbn [Nat.add].
  - eapply rounds_ext; eassumption.
  - eapply r_more; eauto.
Qed.
Lemma rounds_bind {A B} w N (f : nat -> A -> proc B) : forall ps qs, rounds w N ps qs ->
  rounds w N (fun p => bind (ps p) (f p)) (fun p => bind (qs p) (f p)).
Proof.
  induction N as [|N IH]; intros ps qs R; inversion R; subst.
  - constructor. intros p Hp. cbv beta. match goal with X : forall p, _ -> ps p = qs p |- _ => now rewrite (X p Hp) end.
  - eapply r_more with (cs := cs) (ks := fun p r => bind (ks p r) (f p)); try assumption.
    + intros p Hp. match goal with X : forall p, _ -> ps p = _ |- _ => now rewrite (X p Hp) end.
    + match goal with X : rounds w N _ qs |- _ => exact (IH _ _ X) end.
Qed.

Section Sim.
Variables n w size : nat.
Hypothesis Hsize : range_size n w = Ok size.
Variable loc : nat -> (nat -> R) -> weight -> nat -> option (R * R).

Lemma w_pos : (0 < w)%nat.
Proof. destruct w; [discriminate|lia]. Qed.

(** How the processes end when the serial program throws [e]. *)
Definition stuck {A} (e : exn) (qs : nat -> proc A) : Prop :=
  match e with
  | InFit v yi b =>
      (exists i, (i < n)%nat /\ loc v yi b i = None) /\
      forall p, (p < w)%nat ->
        (qs p = Err e /\ exists i, owns n size p i /\ loc v yi b i = None) \/
        ((exists vv k, qs p = Call (AllreduceMax vv) k) /\ forall i, owns n size p i -> loc v yi b i <> None)
  | InSelection => forall p, (p < w)%nat -> qs p = Err e
  | Impossible => False
  end.

Definition sim {A} (ps : nat -> proc A) (s : proc A) : Prop :=
  match s with
  | Ret a => exists N qs, rounds w N ps qs /\ forall p, (p < w)%nat -> qs p = Ret a
  | Err e => exists N qs, rounds w N ps qs /\ stuck e qs
  | Call _ _ => False
  end.

Lemma sim_ext {A} (ps ps' : nat -> proc A) s : (forall p, (p < w)%nat -> ps p = ps' p) -> sim ps' s -> sim ps s.
Proof. intros E. destruct s; cbn; [| |auto]; intros (N & qs & R & H); exists N, qs; split; auto; eapply rounds_ext; eauto. Qed.
Lemma sim_ret {A} (a : A) : sim (fun _ => Ret a) (Ret a).
Proof. exists 0%nat, (fun _ => Ret a). split; [constructor; auto|auto]. Qed.
Lemma sim_select_err {A} : sim (fun _ => Err InSelection) (@Err A InSelection).
Proof. exists 0%nat, (fun _ => Err InSelection). split; [constructor; auto|cbn; auto]. Qed.
Lemma sim_rounds {A} N (ps qs : nat -> proc A) s : rounds w N ps qs -> sim qs s -> sim ps s.
Proof. intros R. destruct s; cbn; [| |auto]; intros (M & rs & R2 & H); exists (N + M)%nat, rs; split; auto; eapply rounds_trans; eauto. Qed.

Lemma sim_bind {A B} (ps : nat -> proc A) s (f : nat -> A -> proc B) (g : A -> proc B) :
  sim ps s -> (forall a, s = Ret a -> sim (fun p => f p a) (g a)) -> sim (fun p => bind (ps p) (f p)) (bind s g).
Proof.
  intros S F. destruct s as [a|e|c k]; cbn [sim bind] in *; [| |exact S].
  - destruct S as (N & qs & R & H). specialize (F a eq_refl).
    eapply sim_rounds; [exact (rounds_bind w N f _ _ R)|].
    eapply sim_ext; [|exact F]. intros p Hp. cbv beta. now rewrite (H p Hp).
  - destruct S as (N & qs & R & H). exists N, (fun p => bind (qs p) (f p)). split; [exact (rounds_bind w N f _ _ R)|].
    destruct e as [|v yi b|]; cbn [stuck] in *; [| |exact H].
    + intros p Hp. now rewrite (H p Hp).
    + destruct H as [I H]. split; [exact I|]. intros p Hp. destruct (H p Hp) as [[E O]|[(vv & k & E) O]]; rewrite E; cbn [bind].
      * left; auto.
      * right; split; eauto.
Qed.

(** Operations whose result is not used *)
Definition plain (c : call) : Prop :=
  match c with HatRows | TraceReduce | TraceBcast => True | HatScatter r | HatReduce r => (r < w)%nat | _ => False end.
Lemma plain_needs c p q : plain c -> (p < w)%nat -> In q (needs w p c) -> (q < w)%nat.
Proof.
  pose proof w_pos. destruct c; cbn [plain needs]; intros P Hp I; try contradiction; try (apply in_seq in I; lia).
  - destruct I as [<-|[]]; exact P.
  - destruct (Nat.eqb p root); [apply in_seq in I; lia|destruct I].
  - destruct (Nat.eqb p 0); [apply in_seq in I; lia|destruct I].
  - destruct I as [<-|[]]; lia.
Qed.
Lemma plain_fits c : plain c -> fits_with c c = true.
Proof. destruct c; cbn; try contradiction; auto; intros _; apply Nat.eqb_refl. Qed.
Lemma sim_calls {A} l (ps : nat -> proc A) s : (forall c, In c l -> plain c) -> sim ps s -> sim (fun p => then_calls l (ps p)) s.
Proof.
  induction l as [|c t IH]; intros P S; cbn [then_calls]; [exact S|].
  assert (Pc : plain c) by (apply P; now left).
  eapply sim_rounds with (N := 1%nat); [|apply IH; [intros c' I; apply P; now right|exact S]].
  eapply r_more with (cs := fun _ => c) (ks := fun p _ => then_calls t (ps p)).
  - reflexivity.
  - intros. apply plain_fits, Pc.
  - intros p q Hp I. exact (plain_needs c p q Pc Hp I).
  - constructor. reflexivity.
Qed.
Lemma hat_plain c : In c (hat_calls w) -> plain c.
Proof.
  intros [<-|I]; [exact Logic.I|]. apply in_flat_map in I. destruct I as (r & Ir & I). apply in_seq in Ir.
  destruct I as [<-|[<-|[]]]; cbn; lia.
Qed.
Lemma trace_plain c : In c trace_calls -> plain c.
Proof. intros [<-|[<-|[]]]; exact Logic.I. Qed.

(** ** The algorithm *)
Section Structure.
Variable nvar : nat.
Variables (x : nat -> nat -> R) (y : nat -> R).
Variable hat : bool.
Variables lower upper threshold : nat -> R.
Variables retry maxiter : nat.
Variable ctype : crit_type.
Variable cthreshold : R.
Variable critp : nat -> nat -> nat -> (nat -> R) -> nat -> weight -> bool -> proc (xd * bool).
Variable crits : nat -> nat -> (nat -> R) -> nat -> weight -> bool -> proc (xd * bool).
Variable fitp : nat -> nat -> nat -> (nat -> R) -> weight -> bool -> proc ((nat -> R) * bool).
Variable fits : nat -> nat -> (nat -> R) -> weight -> bool -> proc ((nat -> R) * bool).
Variable tr : list call.
Hypothesis CR : forall it v yi k b term, sim (fun p => critp p it v yi k b term) (crits it v yi k b term).
Hypothesis FV : forall it v yi b term, sim (fun p => fitp p it v yi b term) (fits it v yi b term).
Hypothesis TR : forall c, In c tr -> plain c.

(** Nothing impossible happens in the search *)
Lemma replay_sound k : forall w0 st h, (100 < iter st + k)%nat ->
  replay k w0 st h <> Return Diverged /\ forall q, replay k w0 st h = Ask q -> (iter st + length h < 100)%nat.
Proof.
  clear. induction k as [|k IH]; intros w0 st h L; cbn [replay]; destruct (guard st) eqn:G.
  - unfold guard in G. rewrite !andb_true_iff in G. destruct G as [_ G]. apply Nat.ltb_lt in G. lia.
  - split; [destruct (_ && _); discriminate|intros q E; discriminate].
  - assert (GI : (iter st < 100)%nat). { unfold guard in G. rewrite !andb_true_iff in G. destruct G as [_ G]. now apply Nat.ltb_lt in G. }
    destruct h as [|[ok v] t]; [split; [discriminate|intros q _; cbn; lia]|].
    destruct (GoldModel.step _ w0 st) as [st'|] eqn:S; [|split; [discriminate|intros q E; discriminate]].
    assert (iter st' = Datatypes.S (iter st)).
    { unfold GoldModel.step in S. destruct (xltb (f1 st) (f2 st)); inversion S; subst; reflexivity. }
    destruct (IH w0 st' t) as [D Q]; [lia|]. split; [exact D|]. intros q E. specialize (Q q E). cbn [length]. lia.
  - split; [destruct (_ && _); discriminate|intros q E; discriminate].
Qed.
Lemma plan_sound w0 lo up m h : golden_plan w0 lo up m h <> Return Diverged /\
  forall q, golden_plan w0 lo up m h = Ask q -> (length h < 102)%nat.
Proof.
  clear. unfold golden_plan. destruct h as [|[ok1 v1] [|[ok2 v2] t]].
  - split; [discriminate|intros; cbn; lia].
  - split; [discriminate|intros; cbn; lia].
  - destruct (negb _); [split; [discriminate|intros q E; discriminate]|].
    destruct (is_max_dbl v1 && is_max_dbl v2); [split; [discriminate|intros q E; discriminate]|].
    destruct (replay_sound 101 w0 (init_vars w0 lo up m v1 v2) t) as [D Q]; [cbn; lia|].
    split; [exact D|]. intros q E. specialize (Q q E). cbn [init_vars iter Nat.add] in Q. cbn [length]. lia.
Qed.

Lemma sim_search it v yi w0 : forall fuel h term, (102 < length h + fuel)%nat ->
  sim (fun p => search lower upper (critp p) fuel it v yi w0 h term) (search lower upper crits fuel it v yi w0 h term).
Proof.
  induction fuel as [|fuel IH]; intros h term L; cbn [search];
    destruct (plan_sound w0 (lower v) (upper v) [] h) as [D Q];
    destruct (golden_plan w0 (lower v) (upper v) [] h) as [q|[|b| |]]; try apply sim_ret; try apply sim_select_err; try (exfalso; apply D; reflexivity).
  - specialize (Q q eq_refl). lia.
  - apply (sim_bind (fun p => critp p it v yi (length h) q term) (crits it v yi (length h) q term)
      (fun p r => search lower upper (critp p) fuel it v yi w0 (h ++ [(negb (snd r), fst r)]) (snd r)));
      [apply CR|]. intros a _. apply IH. rewrite app_length. cbn [length]. lia.
Qed.
Lemma sim_select it v yi w0 term : sim (fun p => select lower upper (critp p) it v yi w0 term) (select lower upper crits it v yi w0 term).
Proof. unfold select. apply sim_search. cbn [length]. lia. Qed.
Lemma sim_select_var it v yi s term : sim (fun p => select_var lower upper threshold retry (critp p) it v yi s term)
  (select_var lower upper threshold retry crits it v yi s term).
Proof.
  unfold select_var. destruct (bs_init s v); try apply sim_ret;
    refine (sim_bind (fun p => select lower upper (critp p) it v yi (bs_w s v) term) _ (fun _ => _) _ (sim_select it v yi (bs_w s v) term) _);
    intros a _; apply sim_ret.
Qed.
Variable st : place -> bool.
Lemma sim_sweep it : forall vs s term, sim (fun p => sweep nvar x y lower upper threshold retry st (critp p) (fitp p) it vs s term)
  (sweep nvar x y lower upper threshold retry st crits fits it vs s term).
Proof.
  induction vs as [|v t IH]; intros s term; cbn [sweep]; [apply sim_ret|].
  destruct (st (AtVariable it v)); [apply sim_ret|]. cbv zeta.
  match goal with |- sim (fun p => bind (@?a p) (@?f p)) (bind ?s ?g) => apply (sim_bind a s f g) end; [apply sim_select_var|].
  intros r _. cbv zeta beta. destruct (st (AfterSelection it v)); [apply sim_ret|].
  match goal with |- sim (fun p => bind (@?a p) (@?f p)) (bind ?s ?g) => apply (sim_bind a s f g) end; [apply FV|].
  intros q _. cbv zeta beta. apply IH.
Qed.
Lemma sim_iterate : forall k it rss0 crit s term,
  sim (fun p => iterate n nvar x y lower upper threshold retry ctype cthreshold st (critp p) (fitp p) k it rss0 crit s term)
      (iterate n nvar x y lower upper threshold retry ctype cthreshold st crits fits k it rss0 crit s term).
Proof.
  induction k as [|k IH]; intros it rss0 crit s term; cbn [iterate]; [apply sim_ret|].
  destruct (xltb _ crit); [|apply sim_ret].
  destruct (st (AtIteration it)); [apply sim_ret|].
  match goal with |- sim (fun p => bind (@?a p) (@?f p)) (bind ?s ?g) => apply (sim_bind a s f g) end; [apply sim_sweep|].
  intros r _. cbv zeta beta. apply IH.
Qed.
Lemma sim_finish s term :
  sim (fun p => finish n nvar x y hat lower upper threshold retry maxiter ctype cthreshold st (critp p) (fitp p) tr s term)
      (finish n nvar x y hat lower upper threshold retry maxiter ctype cthreshold st crits fits [] s term).
Proof.
  unfold finish, backfitting.
  match goal with |- sim (fun p => bind (@?a p) (@?f p)) (bind ?s ?g) => apply (sim_bind a s f g) end.
  - destruct (st AtBackfitting); [apply sim_ret|].
    match goal with |- sim (fun p => bind (@?a p) (@?f p)) (bind ?s ?g) => apply (sim_bind a s f g) end; [apply sim_iterate|].
    intros r _. apply sim_ret.
  - intros r _. destruct (st AfterBackfitting); [apply sim_ret|]. destruct hat; cbn [then_calls]; [|apply sim_ret].
    apply (sim_calls tr (fun _ => Ret (Fitted (bs_betas (fst r)) (bs_w (fst r))))); [exact TR|apply sim_ret].
Qed.
Lemma sim_initial : forall vs s term,
  sim (fun p => initial n nvar x y hat lower upper threshold retry maxiter ctype cthreshold st (critp p) (fitp p) tr vs s term)
      (initial n nvar x y hat lower upper threshold retry maxiter ctype cthreshold st crits fits [] vs s term).
Proof.
  induction vs as [|v t IH]; intros s term; cbn [initial]; [apply sim_finish|]. destruct (st (AtInit v)); [apply sim_finish|].
  destruct (bs_init s v).
  - match goal with |- sim (fun p => bind (@?a p) (@?f p)) (bind ?s ?g) => apply (sim_bind a s f g) end.
    + match goal with |- sim (fun p => bind (@?a p) (@?f p)) (bind ?s ?g) => apply (sim_bind a s f g) end; [apply sim_select|].
      intros r _. apply sim_ret.
    + intros r _. destruct (st (AfterInit v)); [apply sim_ret|apply IH].
  - cbn [bind]. destruct (st (AfterInit v)); [apply sim_ret|apply IH].
  - cbn [bind]. destruct (st (AfterInit v)); [apply sim_ret|apply IH].
Qed.
Lemma sim_fit b0 w0 i0 :
  sim (fun p => fit n nvar x y hat lower upper threshold retry maxiter ctype cthreshold st (critp p) (fitp p) tr b0 w0 i0)
      (fit n nvar x y hat lower upper threshold retry maxiter ctype cthreshold st crits fits [] b0 w0 i0).
Proof. unfold fit. destruct (st AtInitialFit); [apply sim_ret|]. destruct (st AtReady); [apply sim_ret|]. apply sim_initial. Qed.
End Structure.

(** ** The function pointers *)
Section Ptr.
Variable x : nat -> nat -> R.
Variable hat : bool.
Variable appr : nat -> approach.
Variable loo : nat -> (nat -> R) -> weight -> nat -> option R.
Notation rg q := (work_range n size q).
Notation no := (fun _ : place => false).
Notation loo' := (surviving w loo).
Notation loc' := (surviving2 w loc).

Lemma in_own p i : In i (visited (rg p)) <-> owns n size p i.
Proof. rewrite in_visited. unfold work_range, owns; cbn [fst snd]. lia. Qed.
Lemma own_ex i : (i < n)%nat -> exists p, (p < w)%nat /\ owns n size p i.
Proof.
  intros H. destruct (C35_main n w size Hsize) as [_ E]. destruct (E i H) as (p & (Hp & I) & _). exists p. split; [exact Hp|]. now apply in_own.
Qed.

(** Coefficients put together *)
Lemma put_together (f : nat -> nat -> R) (b : nat -> R) :
  (forall q i, f q i = if in_dec Nat.eq_dec i (visited (rg q)) then b i else 0) ->
  max_over (map f (seq 0 w)) = fun i => if in_dec Nat.eq_dec i (visited (0, n)%nat) then survives w (b i) else 0.
Proof.
  intros F. apply functional_extensionality. intros i.
  assert (E : map f (seq 0 w) = map (pad n size b) (seq 0 w)).
  { apply map_ext. intros q. apply functional_extensionality. intros j. rewrite F. unfold pad.
    destruct (in_dec Nat.eq_dec j (visited (rg q))) as [I|I]; rewrite in_visited in I;
      destruct (fst (rg q) <=? j)%nat eqn:E1; destruct (j <? snd (rg q))%nat eqn:E2; cbn [andb]; try reflexivity;
      rewrite ?Nat.leb_le, ?Nat.leb_gt, ?Nat.ltb_lt, ?Nat.ltb_ge in *; lia. }
  rewrite E. destruct (in_dec Nat.eq_dec i (visited (0, n)%nat)) as [I|I]; rewrite in_visited in I; cbn [fst snd] in I.
  - unfold survives. destruct (Nat.leb w 1) eqn:W.
    + apply Nat.leb_le in W. pose proof w_pos. apply (max_over_pad1 n w size Hsize); lia.
    + apply Nat.leb_gt in W. apply (max_over_pad n w size Hsize); lia.
  - assert (Z : forall l, (forall g, In g l -> g i = 0) -> max_over l i = 0).
    { intros [|h t] Hl; [reflexivity|]. cbn [max_over]. rewrite (Hl h) by now left.
      assert (Ht : forall g, In g t -> g i = 0) by (intros g Ig; apply Hl; now right). clear Hl.
      induction t as [|a t IH]; [reflexivity|]. cbn [fold_left]. rewrite (Ht a) by now left. rewrite Rmax_left by lra. apply IH. intros g Ig. apply Ht. now right. }
    apply Z. intros g Ig. apply in_map_iff in Ig. destruct Ig as (q & <- & _). unfold pad, work_range. cbn [fst snd].
    replace (i <? Nat.min (q * size + size) n)%nat with false by (symmetry; apply Nat.ltb_ge; lia). now rewrite andb_false_r.
Qed.
(** Traces put together *)
Lemma sums_together (g : nat -> R) : lsum (map (fun q => lsum (map g (visited (rg q)))) (seq 0 w)) = lsum (map g (visited (0, n)%nat)).
Proof.
  unfold visited at 2. cbn [fst snd]. rewrite Nat.sub_0_r, <- (C35_concat n w size Hsize).
  generalize (seq 0 w). intros l; induction l as [|s t IH]; [reflexivity|].
  cbn [map flat_map]. rewrite map_app, lsum_app, <- IH. reflexivity.
Qed.

(** Local regressions of either criterion *)
Definition local (lo : nat -> (nat -> R) -> weight -> nat -> option R) (lc : nat -> (nat -> R) -> weight -> nat -> option (R * R))
    v yi b i : option (R * (nat -> R)) :=
  match appr v with
  | CV => option_map (fun c => (c, fun _ => 0)) (lo v yi b i)
  | AIC => option_map (fun c => (fst c, fun _ => snd c)) (lc v yi b i)
  end.
Lemma part_local lo lc st v yi b r : part_loop appr lo lc st v yi b r = core (local lo lc v yi b) st (visited r) (fun _ => 0) (fun _ => 0).
Proof. unfold part_loop, cv_loop, aic_loop, local. destruct (appr v); reflexivity. Qed.
Lemma local_surviving v yi b i : local loo' loc' v yi b i = option_map (fun c => (survives w (fst c), snd c)) (local loo loc v yi b i).
Proof.
  unfold local, surviving, surviving2. destruct (appr v); [destruct (loo v yi b i)|destruct (loc v yi b i) as [[]|]]; reflexivity.
Qed.
Lemma visited_NoDup r : NoDup (visited r).
Proof. apply seq_NoDup. Qed.

Lemma someone v yi b : (exists i, In i (visited (0, n)%nat) /\ local loo loc v yi b i = None) ->
  exists q, (q < w)%nat /\ exists i, In i (visited (rg q)) /\ local loo loc v yi b i = None.
Proof.
  intros (i & I & L). apply in_visited in I. cbn [fst snd] in I. destruct (own_ex i) as (q & Hq & O); [lia|].
  exists q. split; [exact Hq|]. exists i. split; [now apply in_own|exact L].
Qed.
Lemma fails_dec v yi b r : {exists i, In i (visited r) /\ local loo loc v yi b i = None} +
  {forall i, In i (visited r) -> local loo loc v yi b i <> None}.
Proof.
  destruct (Forall_Exists_dec (fun i => local loo loc v yi b i <> None)) with (l := visited r) as [F|E].
  - intros i. destruct (local loo loc v yi b i); [left; discriminate|right; auto].
  - right. rewrite Forall_forall in F. exact F.
  - left. apply Exists_exists in E. destruct E as (i & I & E). exists i. split; [exact I|]. destruct (local loo loc v yi b i); [exfalso; apply E; discriminate|reflexivity].
Qed.

Definition coef v yi b i : R := match local loo loc v yi b i with Some (c, _) => c | None => 0 end.
Definition stat v yi b i : R := match local loo loc v yi b i with Some (_, s) => s 0%nat | None => 0 end.

Lemma whole v yi b : (forall i, In i (visited (0, n)%nat) -> local loo loc v yi b i <> None) ->
  exists s, part_loop appr loo' loc' (fun _ => false) v yi b (0, n)%nat =
    Some (fun i => if in_dec Nat.eq_dec i (visited (0, n)%nat) then survives w (coef v yi b i) else 0, s, false) /\
    s 0%nat = lsum (map (stat v yi b) (visited (0, n)%nat)).
Proof.
  intros H. rewrite part_local.
  destruct (core_some (local loo' loc' v yi b) (visited (0, n)%nat) (fun _ => 0) (fun _ => 0) (visited_NoDup _)) as (b' & s & E & B & S).
  { intros i I. rewrite local_surviving. specialize (H i I). destruct (local loo loc v yi b i); [discriminate|congruence]. }
  exists s. split.
  - rewrite E. do 3 f_equal. apply functional_extensionality. intros i. rewrite B. destruct (in_dec _ i _) as [I|I]; [|reflexivity].
    rewrite local_surviving. specialize (H i I). unfold coef. destruct (local loo loc v yi b i) as [[]|]; [reflexivity|congruence].
  - rewrite S, Rplus_0_l. f_equal. apply map_ext. intros i. rewrite local_surviving. unfold stat. destruct (local loo loc v yi b i) as [[]|]; reflexivity.
Qed.
Lemma partial v yi b q : (forall i, In i (visited (rg q)) -> local loo loc v yi b i <> None) ->
  exists bq s, part_loop appr loo loc (fun _ => false) v yi b (rg q) = Some (bq, s, false) /\
    (forall i, bq i = if in_dec Nat.eq_dec i (visited (rg q)) then coef v yi b i else 0) /\
    s 0%nat = lsum (map (stat v yi b) (visited (rg q))).
Proof.
  intros H. rewrite part_local.
  destruct (core_some (local loo loc v yi b) (visited (rg q)) (fun _ => 0) (fun _ => 0) (visited_NoDup _) H) as (b' & s & E & B & S).
  exists b', s. repeat split.
  - exact E.
  - exact B.
  - rewrite S, Rplus_0_l. reflexivity.
Qed.

Lemma seq_w_0 : exists t, seq 0 w = 0%nat :: t.
Proof. pose proof w_pos. destruct w; [lia|]. eexists; reflexivity. Qed.

Lemma sim_criterion it v yi k b term :
  sim (fun p => criterion_mpi n x appr loo loc size p no it v yi k b term) (criterion_base n x appr loo' loc' no it v yi k b term).
Proof.
  unfold criterion_base, criterion_mpi.
  set (part := fun q => part_loop appr loo loc (fun _ => false) v yi b (rg q)).
  set (ok := fun q => match part q with Some _ => true | None => false end).
  destruct (fails_dec v yi b (0, n)%nat) as [F|G].
  - (* some location fails *)
    destruct (someone v yi b F) as (q0 & Hq0 & i0 & I0 & L0).
    assert (N0 : part q0 = None).
    { unfold part. rewrite part_local. apply core_none; [reflexivity|]. eauto. }
    replace (part_loop appr loo' loc' (fun _ => false) v yi b (0, n)%nat) with (@None ((nat -> R) * (nat -> R) * bool)).
    2: { symmetry. rewrite part_local. apply core_none; [reflexivity|]. destruct F as (i & I & L). exists i. split; [exact I|]. rewrite local_surviving, L. reflexivity. }
    exists 1%nat, (fun _ => Ret (XF DBL_MAX, term)). split; [|reflexivity].
    eapply r_more with (cs := fun q => AllgatherStatus (ok q)).
    + intros p Hp. reflexivity.
    + reflexivity.
    + intros p q Hp I. cbn [needs] in I. apply in_seq in I. lia.
    + constructor. intros p Hp. cbn [combine_calls status_of].
      assert (NA : forallb (fun o => o) (map (fun q => ok q) (seq 0 w)) = false).
      { apply not_true_is_false. intros T. rewrite forallb_forall in T.
        assert (X : ok q0 = true) by (apply T, in_map_iff; exists q0; split; [reflexivity|apply in_seq; lia]).
        unfold ok in X. rewrite N0 in X. discriminate. }
      fold (part p). destruct (part p) as [[[bq s] st]|] eqn:EP; rewrite NA; cbn [negb]; repeat f_equal.
      * assert (st = false); [|subst st; apply orb_false_r].
        unfold part in EP. destruct (fails_dec v yi b (rg p)) as [X|X].
        -- rewrite part_local, core_none in EP by (auto; destruct X as (j & ? & ?); eauto). discriminate.
        -- destruct (partial v yi b p X) as (? & ? & E & _). rewrite E in EP. now inversion EP.
      * apply orb_false_r.
  - destruct (whole v yi b G) as (s & E & S). rewrite E. clear E.
    assert (PA : forall q, exists bq sq, part q = Some (bq, sq, false) /\
      (forall i, bq i = if in_dec Nat.eq_dec i (visited (rg q)) then coef v yi b i else 0) /\
      sq 0%nat = lsum (map (stat v yi b) (visited (rg q)))).
    { intros q. apply partial. intros i I. apply G. rewrite in_visited in I. apply in_visited. unfold work_range in I. cbn [fst snd] in *. lia. }
    set (bt := fun q => match part q with Some (bq, _, _) => bq | None => fun _ => 0 end).
    set (sq := fun q => match part q with Some (_, s, _) => s | None => fun _ => 0 end).
    assert (MX : max_over (map bt (seq 0 w)) = fun i => if in_dec Nat.eq_dec i (visited (0, n)%nat) then survives w (coef v yi b i) else 0).
    { apply put_together. intros q i. unfold bt. destruct (PA q) as (bq & s' & -> & B & _). apply B. }
    assert (SM : lsum (map (fun q => sq q 0%nat) (seq 0 w)) = s 0%nat).
    { rewrite S, <- sums_together. f_equal. apply map_ext. intros q. unfold sq. destruct (PA q) as (bq & s' & -> & _ & T). exact T. }
    assert (AL : forallb (fun o => o) (map ok (seq 0 w)) = true).
    { apply forallb_forall. intros o I. apply in_map_iff in I. destruct I as (q & <- & _). unfold ok. destruct (PA q) as (? & ? & -> & _). reflexivity. }
    rewrite orb_false_r. cbv zeta. rewrite <- MX. set (val := value n x appr v yi (max_over (map bt (seq 0 w))) (s 0%nat)).
    set (res := (if negb term && is_finite val then val else XF DBL_MAX, term)).
    (* the last operation *)
    assert (LAST : forall num : nat -> xd, num 0%nat = val ->
      rounds w 1 (fun p => Call (BcastNumber (num p)) (fun a2 => match a2 with
        | GotNumber c => Ret (if negb term && is_finite c then c else XF DBL_MAX, term)
        | _ => Err Impossible end)) (fun _ => Ret res)).
    { intros num E0. eapply r_more with (cs := fun p => BcastNumber (num p)).
      - reflexivity.
      - reflexivity.
      - intros p q Hp [<-|[]]. lia.
      - constructor. intros p Hp. cbn [combine_calls number_of]. rewrite E0. reflexivity. }
    set (mine := fun (a1 : reply) tr => match a1 with GotVector all => value n x appr v yi all tr | _ => XN end).
    set (share := fun val => Call (BcastNumber val) (fun a2 => match a2 with
            | GotNumber c => Ret (if negb term && is_finite c then c else XF DBL_MAX, term)
            | _ => Err Impossible end)).
    set (rest := fun p (a1 : reply) => match appr v with
          | CV => share (mine a1 0)
          | AIC => Call (ReduceSum (sq p)) (fun a3 => share (mine a1 (match a3 with GotVector t => t 0%nat | _ => 0 end)))
          end).
    assert (RED : exists N, rounds w N (fun p => Call (ReduceMax (bt p)) (rest p)) (fun _ => Ret res)).
    { assert (NR : forall p q f, (p < w)%nat -> In q (needs w p (ReduceMax f)) -> (q < w)%nat).
      { intros p q f Hp I. cbn [needs] in I. destruct (Nat.eqb p 0); [apply in_seq in I; lia|destruct I]. }
      unfold rest. destruct (appr v) eqn:EA.
      - exists 2%nat. eapply r_more with (cs := fun p => ReduceMax (bt p)); [reflexivity|reflexivity| |].
        + intros p q Hp I. exact (NR p q (bt p) Hp I).
        + apply (LAST (fun p => mine (combine_calls w p (ReduceMax (bt p)) (fun q => ReduceMax (bt q))) 0)).
          cbn [combine_calls vector_of Nat.eqb mine]. unfold val, value. rewrite EA. reflexivity.
      - exists 3%nat. eapply r_more with (cs := fun p => ReduceMax (bt p)); [reflexivity|reflexivity| |].
        + intros p q Hp I. exact (NR p q (bt p) Hp I).
        + eapply r_more with (cs := fun p => ReduceSum (sq p)); [reflexivity|reflexivity| |].
          * intros p q Hp I. exact (NR p q (bt p) Hp I).
          * apply (LAST (fun p => mine (combine_calls w p (ReduceMax (bt p)) (fun q => ReduceMax (bt q)))
               (match combine_calls w p (ReduceSum (sq p)) (fun q => ReduceSum (sq q)) with GotVector t => t 0%nat | _ => 0 end))).
            cbn [combine_calls vector_of Nat.eqb mine]. rewrite SM. reflexivity. }
    destruct RED as (N & RED). exists (Datatypes.S N), (fun _ => Ret res). split; [|reflexivity].
    eapply r_more with (cs := fun q => AllgatherStatus (ok q)); [reflexivity|reflexivity| |].
    + intros p q Hp I. cbn [needs] in I. apply in_seq in I. lia.
    + cbn [combine_calls status_of].
      eapply rounds_ext; [|exact RED]. intros p Hp. cbv beta. fold (part p).
      unfold rest, bt, sq. destruct (PA p) as (bq & s2 & -> & _ & _). change (map (fun q => ok q) (seq 0 w)) with (map ok (seq 0 w)). rewrite AL. cbn [negb]. rewrite orb_false_r. reflexivity.
Qed.

(** The fit of a variable *)
Lemma fit_loop_spec (lc : nat -> option R) : forall idx beta failed, NoDup idx ->
  exists b', fit_loop lc (fun _ => false) idx beta failed = (b', failed || existsb (fun i => match lc i with None => true | _ => false end) idx, false) /\
    forall i, b' i = if in_dec Nat.eq_dec i idx then match lc i with Some c => c | None => beta i end else beta i.
Proof.
  induction idx as [|j t IH]; intros beta failed ND; cbn [fit_loop existsb].
  - exists beta. rewrite orb_false_r. split; reflexivity.
  - inversion ND; subst. destruct (lc j) as [c|] eqn:E.
    + destruct (IH (update beta j c) failed H2) as (b' & E' & B). exists b'. split; [exact E'|]. intros i. rewrite B. unfold update.
      destruct (Nat.eqb i j) eqn:EJ.
      * apply Nat.eqb_eq in EJ. subst i. destruct (in_dec Nat.eq_dec j t); [contradiction|]. destruct (in_dec Nat.eq_dec j (j :: t)) as [|X]; [now rewrite E|exfalso; apply X; now left].
      * apply Nat.eqb_neq in EJ. destruct (in_dec Nat.eq_dec i t); destruct (in_dec Nat.eq_dec i (j :: t)) as [X|X]; try reflexivity.
        -- exfalso; apply X; now right.
        -- exfalso; destruct X; [congruence|contradiction].
    + destruct (IH beta true H2) as (b' & E' & B). exists b'. split; [rewrite E'; cbn [orb]; now rewrite orb_true_r|]. intros i. rewrite B.
      destruct (in_dec Nat.eq_dec i t); destruct (in_dec Nat.eq_dec i (j :: t)) as [X|X]; try reflexivity.
      * exfalso; apply X; now right.
      * destruct X as [<-|X]; [now rewrite E|contradiction].
Qed.
Definition fcoef v yi b i : R := match loc v yi b i with Some c => fst c | None => 0 end.
Lemma existsb_none (lc : nat -> option R) l : existsb (fun i : nat => match lc i with None => true | _ => false end) l = true <-> exists i, In i l /\ lc i = None.
Proof. rewrite existsb_exists. split; intros (i & I & E); exists i; split; auto; destruct (lc i); congruence. Qed.

Lemma fit_range_own v yi b p :
  (exists bq, fit_range loc (fun _ => false) v yi b (rg p) = (bq, false, false) /\ (forall i, owns n size p i -> loc v yi b i <> None) /\
     forall i, bq i = if in_dec Nat.eq_dec i (visited (rg p)) then fcoef v yi b i else 0) \/
  (exists bq, fit_range loc (fun _ => false) v yi b (rg p) = (bq, true, false) /\ exists i, owns n size p i /\ loc v yi b i = None).
Proof.
  unfold fit_range. destruct (fit_loop_spec (fun i => option_map fst (loc v yi b i)) (visited (rg p)) (fun _ => 0) false (visited_NoDup _)) as (bq & E & B).
  rewrite E. cbn [orb]. destruct (existsb _ (visited (rg p))) eqn:X.
  - right. exists bq. split; [reflexivity|]. apply existsb_none in X. destruct X as (i & I & L). exists i. split; [now apply in_own|]. destruct (loc v yi b i); [discriminate|reflexivity].
  - left. exists bq. split; [reflexivity|split].
    + intros i O L. apply not_true_iff_false in X. apply X, existsb_none. exists i. split; [now apply in_own|]. now rewrite L.
    + intros i. rewrite B. unfold fcoef. destruct (loc v yi b i); reflexivity.
Qed.
Lemma fit_range_whole v yi b :
  ((forall i, (i < n)%nat -> loc v yi b i <> None) /\ fit_range loc' (fun _ => false) v yi b (0, n)%nat =
     (fun i => if in_dec Nat.eq_dec i (visited (0, n)%nat) then survives w (fcoef v yi b i) else 0, false, false)) \/
  (exists bq, fit_range loc' (fun _ => false) v yi b (0, n)%nat = (bq, true, false) /\ exists i, (i < n)%nat /\ loc v yi b i = None).
Proof.
  unfold fit_range. destruct (fit_loop_spec (fun i => option_map fst (loc' v yi b i)) (visited (0, n)%nat) (fun _ => 0) false (visited_NoDup _)) as (bq & E & B).
  rewrite E. cbn [orb]. destruct (existsb _ (visited (0, n)%nat)) eqn:X.
  - right. exists bq. split; [reflexivity|]. apply existsb_none in X. destruct X as (i & I & L). apply in_visited in I. cbn [fst snd] in I. exists i. split; [lia|].
    unfold surviving2 in L. destruct (loc v yi b i); [discriminate|reflexivity].
  - left. assert (A : forall i, (i < n)%nat -> loc v yi b i <> None).
    { intros i O L. apply not_true_iff_false in X. apply X, existsb_none. exists i. split; [apply in_visited; cbn; lia|]. unfold surviving2. now rewrite L. }
    split; [exact A|]. do 2 f_equal. apply functional_extensionality. intros i. rewrite B. destruct (in_dec _ i _) as [I|I]; [|reflexivity].
    apply in_visited in I. cbn [fst snd] in I. specialize (A i ltac:(lia)). unfold surviving2, fcoef. destruct (loc v yi b i); [reflexivity|congruence].
Qed.

Lemma sim_fit_var it v yi b term :
  sim (fun p => fit_var_mpi n hat loc w size p no it v yi b term) (fit_var_base n loc' no it v yi b term).
Proof.
  unfold fit_var_base, fit_var_mpi. destruct (fit_range_whole v yi b) as [[A E]|(bq & E & I)]; rewrite E.
  - assert (PA : forall q, exists bq, fit_range loc (fun _ => false) v yi b (rg q) = (bq, false, false) /\
      forall i, bq i = if in_dec Nat.eq_dec i (visited (rg q)) then fcoef v yi b i else 0).
    { intros q. destruct (fit_range_own v yi b q) as [(bq & E1 & _ & B)|(bq & _ & i & [O L] & F)]; [eauto|]. exfalso. exact (A i L F). }
    set (bt := fun q => fst (fst (fit_range loc (fun _ => false) v yi b (rg q)))).
    assert (MX : max_over (map bt (seq 0 w)) = fun i => if in_dec Nat.eq_dec i (visited (0, n)%nat) then survives w (fcoef v yi b i) else 0).
    { apply put_together. intros q i. unfold bt. destruct (PA q) as (bq & -> & B). apply B. }
    rewrite <- MX. eapply sim_rounds with (N := 1%nat) (qs := fun p => then_calls (if hat then hat_calls w else []) (Ret (max_over (map bt (seq 0 w)), term || false))).
    + eapply r_more with (cs := fun q => AllreduceMax (bt q)) (ks := fun p a => match a with
         | GotVector all => then_calls (if hat then hat_calls w else []) (Ret (all, term || false))
         | _ => Err Impossible end).
      * intros p Hp. unfold bt. destruct (PA p) as (bq & -> & _). reflexivity.
      * reflexivity.
      * intros p q Hp Iq. cbn [needs] in Iq. apply in_seq in Iq. lia.
      * constructor. reflexivity.
    + apply (sim_calls (if hat then hat_calls w else []) (fun _ => Ret (max_over (map bt (seq 0 w)), term || false))); [|apply sim_ret].
      intros c Ic. destruct hat; [now apply hat_plain|destruct Ic].
  - exists 0%nat. eexists. split; [constructor; reflexivity|]. cbn [stuck]. split; [exact I|].
    intros p Hp. destruct (fit_range_own v yi b p) as [(b1 & -> & O & _)|(b1 & -> & O)]; [right|left]; eauto.
Qed.
End Ptr.

Lemma sim_program nvar x y hat appr lower upper threshold retry maxiter ctype cthreshold loo b0 w0 i0 st : between st ->
  sim (program_mpi n nvar x y hat appr lower upper threshold retry maxiter ctype cthreshold loo loc b0 w0 i0 w size (fun _ => st))
      (program_base n nvar x y hat appr lower upper threshold retry maxiter ctype cthreshold (surviving w loo) (surviving2 w loc) b0 w0 i0 st).
Proof.
  intros [B1 B2]. unfold program_mpi, program_base.
  apply (sim_fit nvar x y hat lower upper threshold retry maxiter ctype cthreshold
    (fun p => criterion_mpi n x appr loo loc size p st) _ (fun p => fit_var_mpi n hat loc w size p st)).
  - intros. pose proof (sim_criterion x appr loo it v yi k b term) as S. unfold criterion_mpi, criterion_base in *.
    replace (fun i : nat => st (InCriterion it v k i)) with (fun _ : nat => false); [exact S|].
    apply functional_extensionality. intros i. now rewrite B1.
  - intros. pose proof (sim_fit_var hat it v yi b term) as S. unfold fit_var_mpi, fit_var_base in *.
    replace (fun i : nat => st (InFitting it v i)) with (fun _ : nat => false); [exact S|].
    apply functional_extensionality. intros i. now rewrite B2.
  - exact trace_plain.
Qed.

Lemma over_ret {A} (qs : nat -> proc A) : (forall p c k, (p < w)%nat -> qs p <> Call c k) -> over w qs.
Proof. intros H. split; intros; exfalso; eapply H; eauto. Qed.
Lemma over_stuck {A} e (qs : nat -> proc A) : stuck e qs -> over w qs.
Proof.
  destruct e as [|v yi b|]; cbn [stuck]; [|intros [(i & Hi & L) H]|contradiction].
  - intros H. apply over_ret. intros p c k Hp. rewrite (H p Hp). discriminate.
  - split.
    + intros p c k Hp E. destruct (H p Hp) as [[E2 _]|[(vv & k2 & E2) _]]; rewrite E2 in E; [discriminate|]. injection E as <- <-.
      destruct (own_ex i Hi) as (q & Hq & O). exists q. split; [exact Hq|]. split; [cbn [needs]; apply in_seq; lia|].
      intros c' k'. destruct (H q Hq) as [[E3 _]|[_ X]]; [rewrite E3; discriminate|]. exfalso. exact (X i O L).
    + intros p q c k c' k' Hp Hq E E'.
      destruct (H p Hp) as [[E2 _]|[(vv & k2 & E2) _]]; rewrite E2 in E; [discriminate|].
      destruct (H q Hq) as [[E3 _]|[(vv3 & k3 & E3) _]]; rewrite E3 in E'; [discriminate|].
      injection E as <- <-. injection E' as <- <-. reflexivity.
Qed.
End Sim.
