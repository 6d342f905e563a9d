(** Proofs about discriminant analysis: group labels. *)
From Coq Require Import Reals Bool List Arith Lia Lra String Permutation.
From Verif Require Import Outcome XReal XRealFacts Sums DiagModel GwdaModel GwdaSpec.
Import ListNotations.
Local Open Scope nat_scope.

(** ** levels *)

Definition lev_step (lev : list string) (s : string) : list string :=
  if existsb (String.eqb s) lev then lev else lev ++ [s].

Lemma levels_fold : forall y, levels y = fold_left lev_step y [].
Proof. reflexivity. Qed.

Lemma existsb_In : forall s l, existsb (String.eqb s) l = true <-> In s l.
Proof.
  intros s l; rewrite existsb_exists; split.
  - intros [t [I E]]; apply String.eqb_eq in E; congruence.
  - intros I; exists s; split; [exact I|apply String.eqb_refl].
Qed.

(** Invariant of the loop after reading the prefix [pre]. *)
Definition lev_inv (pre lev : list string) : Prop :=
  NoDup lev /\ (forall s, In s lev <-> In s pre) /\
  (forall i j a b ka kb, i < j -> nth_error lev i = Some a -> nth_error lev j = Some b ->
     first_at pre a ka -> first_at pre b kb -> ka < kb).

Lemma first_at_exists : forall y s, In s y -> exists k, first_at y s k.
Proof.
  induction y as [|t y IH]; intros s I; [contradiction|].
  destruct (string_dec t s) as [->|N].
  - exists 0; split; [reflexivity|intros; lia].
  - destruct I as [|I]; [contradiction|]. destruct (IH s I) as [k [K F]].
    exists (S k); split; [exact K|]. intros [|k'] L; simpl; [congruence|apply F; lia].
Qed.

Lemma first_at_lt : forall y s k, first_at y s k -> k < List.length y.
Proof. intros y s k [H _]; apply nth_error_Some; congruence. Qed.

Lemma first_at_app : forall pre t s k, In s pre -> first_at (pre ++ [t]) s k -> first_at pre s k.
Proof.
  intros pre t s k I [H F]. destruct (first_at_exists _ _ I) as [k0 [H0 F0]].
  assert (L0 : k0 < List.length pre) by (apply nth_error_Some; congruence).
  assert (Q : k0 = k).
  { destruct (lt_eq_lt_dec k0 k) as [[L|]|L]; [|assumption|].
    - exfalso; apply (F k0 L). rewrite nth_error_app1; assumption.
    - exfalso; apply (F0 k L). rewrite nth_error_app1 in H by lia; assumption. }
  subst; split; assumption.
Qed.

Lemma lev_inv_step : forall pre lev t, lev_inv pre lev -> lev_inv (pre ++ [t]) (lev_step lev t).
Proof.
  intros pre lev t [D [I O]]; unfold lev_step.
  destruct (existsb (String.eqb t) lev) eqn:E.
  - apply existsb_In in E. split; [exact D|split].
    + intros s; rewrite in_app_iff, I; simpl; split; [tauto|].
      intros [?|[<-|[]]]; [assumption|apply I; exact E].
    + intros i j a b ka kb L A B KA KB.
      apply (O i j a b ka kb L A B); eapply first_at_app; eauto; apply I; eapply nth_error_In; eauto.
  - assert (NE : ~ In t lev) by (rewrite <- existsb_In, E; discriminate).
    split; [|split].
    + apply NoDup_Add with (a := t) (l := lev); [|split; assumption].
      replace lev with (lev ++ []) at 1 by apply app_nil_r. apply Add_app.
    + intros s; rewrite !in_app_iff, I; reflexivity.
    + intros i j a b ka kb L A B KA KB.
      assert (Li : i < List.length lev).
      { assert (j < List.length (lev ++ [t])) by (apply nth_error_Some; congruence).
        rewrite app_length in H; simpl in H; lia. }
      rewrite nth_error_app1 in A by exact Li.
      assert (KA' : first_at pre a ka).
      { eapply first_at_app; eauto; apply I; eapply nth_error_In; eauto. }
      destruct (lt_dec j (List.length lev)) as [Lj|Lj].
      * rewrite nth_error_app1 in B by exact Lj.
        apply (O i j a b ka kb L A B KA'). eapply first_at_app; eauto; apply I; eapply nth_error_In; eauto.
      * rewrite nth_error_app2 in B by lia.
        assert (b = t) as -> .
        { destruct (j - List.length lev) as [|[|?]]; simpl in B; congruence. }
        pose proof (first_at_lt _ _ _ KA').
        destruct (lt_dec kb (List.length pre)) as [Lk|Lk]; [|lia].
        exfalso; apply NE, I. destruct KB as [KB _]. rewrite nth_error_app1 in KB by exact Lk.
        eapply nth_error_In; eauto.
Qed.

Lemma levels_inv : forall y, lev_inv y (levels y).
Proof.
  intros y; rewrite levels_fold.
  induction y as [|t y IH] using rev_ind.
  - split; [constructor|split]; simpl; [tauto|]. intros [|i] j a b ka kb L A; discriminate.
  - rewrite fold_left_app; simpl. apply lev_inv_step, IH.
Qed.

Lemma levels_spec : forall y,
  NoDup (levels y) /\ (forall s, In s (levels y) <-> In s y) /\
  (forall i j a b ka kb, i < j -> nth_error (levels y) i = Some a -> nth_error (levels y) j = Some b ->
     first_at y a ka -> first_at y b kb -> ka < kb).
Proof. exact levels_inv. Qed.

(** ** splitX *)

Lemma rows_cons : forall {A} (r : A) x idx, rows (r :: x) (map S idx) = rows x idx.
Proof. intros A r x idx; induction idx as [|i t IH]; [reflexivity|]. simpl; rewrite IH; reflexivity. Qed.

Lemma filter_map_comm : forall {A B} (f : A -> B) (q : B -> bool) l,
  filter q (map f l) = map f (filter (fun a => q (f a)) l).
Proof. intros A B f q l; induction l as [|a l IH]; [reflexivity|]; simpl; rewrite IH; destruct (q (f a)); reflexivity. Qed.

Lemma findSame_cons : forall t y s,
  findSameString (t :: y) s = (if String.eqb t s then [0] else []) ++ map S (findSameString y s).
Proof.
  intros t y s; unfold findSameString; simpl List.length; simpl seq; simpl filter.
  rewrite <- seq_shift, filter_map_comm. destruct (String.eqb t s); reflexivity.
Qed.

Lemma rows_label : forall {A} (x : list A) y s, List.length x = List.length y ->
  rows x (findSameString y s) = Ok (with_label x y s).
Proof.
  intros A x; induction x as [|r x IH]; intros [|t y] s L; try discriminate; [reflexivity|].
  injection L as L. rewrite findSame_cons. unfold with_label; simpl.
  destruct (String.eqb t s); simpl; rewrite rows_cons, (IH y s L); reflexivity.
Qed.

Lemma mapO_ok : forall {A B} (f : A -> outcome B) g l, (forall a, In a l -> f a = Ok (g a)) ->
  mapO f l = Ok (map g l).
Proof.
  intros A B f g l; induction l as [|a l IH]; intros H; [reflexivity|].
  simpl; rewrite (H a (or_introl eq_refl)), IH by (intros; apply H; right; assumption). reflexivity.
Qed.

Lemma splitX_ok : forall {A} (x : list A) y, List.length x = List.length y ->
  splitX x y = Ok (map (with_label x y) (levels y)).
Proof. intros A x y L; unfold splitX; apply mapO_ok; intros; apply rows_label, L. Qed.

Lemma with_label_cons : forall {A} r (x : list A) t y s,
  with_label (r :: x) (t :: y) s = (if String.eqb t s then [r] else []) ++ with_label x y s.
Proof. intros; unfold with_label; simpl; destruct (String.eqb t s); reflexivity. Qed.

Lemma concat_labels : forall {A} (x : list A) y lev, List.length x = List.length y ->
  NoDup lev -> (forall s, In s y -> In s lev) ->
  Permutation (List.concat (map (with_label x y) lev)) x.
Proof.
  intros A x; induction x as [|r x IH]; intros [|t y] lev L D I; try discriminate.
  - unfold with_label; simpl. clear; induction lev; simpl; auto.
  - injection L as L.
    assert (IH' : Permutation (List.concat (map (with_label x y) lev)) x)
      by (apply IH; auto; intros; apply I; right; assumption).
    rewrite <- IH' at 2. assert (T : In t lev) by (apply I; left; reflexivity).
    clear - D T. induction lev as [|s lev IHl]; [contradiction|].
    simpl; rewrite with_label_cons. inversion D as [|? ? N D']; subst.
    destruct T as [->|T].
    + rewrite String.eqb_refl; simpl. apply perm_skip, Permutation_app_head.
      assert (E : map (with_label (r :: x) (t :: y)) lev = map (with_label x y) lev).
      { apply map_ext_in; intros s' Is. rewrite with_label_cons.
        replace (String.eqb t s') with false; [reflexivity|].
        symmetry; apply String.eqb_neq; intros ->; contradiction. }
      rewrite E; reflexivity.
    + replace (String.eqb t s) with false.
      * simpl. rewrite (IHl D' T). apply Permutation_sym, Permutation_middle.
      * symmetry; apply String.eqb_neq; intros ->; contradiction.
Qed.

Lemma splitX_spec : forall {A} (x : list A) y, List.length x = List.length y ->
  splitX x y = Ok (map (with_label x y) (levels y)) /\
  Permutation (List.concat (map (with_label x y) (levels y))) x.
Proof.
  intros A x y L; split; [apply splitX_ok, L|].
  destruct (levels_inv y) as [D [I _]]. apply concat_labels; auto; intros; apply I; assumption.
Qed.

(** ** ytable *)

Lemma count_bump : forall s t c, count_of s (bump t c) = (if String.eqb t s then 1 else 0) + count_of s c.
Proof.
  intros s t c; induction c as [|[u k] c IH]; simpl.
  - destruct (String.eqb t s); reflexivity.
  - destruct (String.eqb u t) eqn:E; simpl.
    + apply String.eqb_eq in E as ->. destruct (String.eqb t s); reflexivity.
    + destruct (String.eqb u s) eqn:U; [|apply IH].
      apply String.eqb_eq in U as ->. rewrite String.eqb_sym, E; reflexivity.
Qed.

Lemma ytable_acc : forall s y c,
  count_of s (fold_left (fun counts t => bump t counts) y c) = count_occ string_dec y s + count_of s c.
Proof.
  intros s y; induction y as [|t y IH]; intros c; [reflexivity|].
  cbn [fold_left count_occ]. rewrite IH, count_bump. destruct (string_dec t s) as [->|N].
  - rewrite String.eqb_refl; lia.
  - apply String.eqb_neq in N; rewrite N; reflexivity.
Qed.

Lemma ytable_spec : forall s y, count_of s (ytable y) = count_occ string_dec y s.
Proof. intros; unfold ytable; rewrite ytable_acc; simpl; lia. Qed.

Lemma with_label_length : forall {A} (x : list A) y s, List.length x = List.length y ->
  List.length (with_label x y s) = count_occ string_dec y s.
Proof.
  intros A x; induction x as [|r x IH]; intros [|t y] s L; try discriminate; [reflexivity|].
  injection L as L. rewrite with_label_cons, app_length, (IH y s L). simpl count_occ.
  destruct (string_dec t s) as [->|N].
  - rewrite String.eqb_refl; reflexivity.
  - apply String.eqb_neq in N; rewrite N; reflexivity.
Qed.

Lemma ytable_total : forall y,
  fold_right plus 0 (map (fun s => count_of s (ytable y)) (levels y)) = List.length y.
Proof.
  intros y. destruct (splitX_spec y y eq_refl) as [_ P].
  apply Permutation_length in P. rewrite <- P.
  generalize (levels y); intros lev; induction lev as [|s lev IH]; [reflexivity|].
  simpl; rewrite app_length, IH, ytable_spec, (with_label_length y y s eq_refl); reflexivity.
Qed.
