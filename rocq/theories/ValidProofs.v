From Coq Require Import Reals Bool List Arith ZArith Lra Lia.
From Verif Require Import Outcome XReal XRealFacts KernelModel ValidModel ValidSpec.
Import ListNotations.

Lemma positive_iff b : xltb (XF 0) b = true <-> positive b.
Proof.
  unfold positive. split.
  - intros H. destruct b as [r| |t|]; try (simpl in H; discriminate).
    + right. exists r. split; [reflexivity|]. rewrite (xltb_val (XF 0) (XF r) 0 r) in H by reflexivity. apply Rltb_true. exact H.
    + right. exists 0%R. rewrite (xltb_val (XF 0) XNZ 0 0) in H by reflexivity. split; [reflexivity|]. apply Rltb_true. exact H.
    + destruct t; [discriminate|left; reflexivity].
  - intros [-> |(r & E & P)]; [reflexivity|]. rewrite (xltb_val (XF 0) b 0 r) by (reflexivity || exact E). apply Rltb_true. exact P.
Qed.
Lemma spatial_iff c : valid_spatial c = true <-> 0 < rows c /\ 0 < cols c.
Proof. unfold valid_spatial. rewrite negb_true_iff, Nat.eqb_neq. destruct c as [[|r] [|k]]; simpl; lia. Qed.
Lemma base_iff c x y : valid_base c x y = true <->
  (0 < rows c /\ 0 < cols c) /\ 0 < cols x /\ rows x = y /\ rows x = rows c.
Proof.
  unfold valid_base. rewrite <- spatial_iff. destruct (valid_spatial c).
  - destruct (Nat.ltb_spec 0 (cols x)); simpl; [|split; [discriminate|lia]].
    destruct (Nat.eqb_spec (rows x) y); simpl; [|split; [discriminate|tauto]].
    destruct (Nat.eqb_spec (rows x) (rows c)); simpl; [|split; [discriminate|tauto]]. tauto.
  - split; [discriminate|intros (H & _); discriminate].
Qed.
Lemma basic_iff c x y w : valid_basic c x y w = Ok true <->
  (0 < rows c /\ 0 < cols c) /\ 0 < cols x /\ rows x = y /\ rows x = rows c /\
  exists b, w = Some b /\ positive (w_bw b).
Proof.
  unfold valid_basic. pose proof (base_iff c x y) as B. destruct (valid_base c x y).
  - destruct B as [B _]. specialize (B eq_refl). destruct w as [b|].
    + destruct (xltb (XF 0) (w_bw b)) eqn:E; cbn [negb].
      * split; [intros _; repeat (split; [tauto|]); exists b; rewrite <- positive_iff; auto|reflexivity].
      * split; [discriminate|]. intros (_ & _ & _ & _ & b' & E' & H). injection E' as <-. apply positive_iff in H. rewrite H in E. discriminate.
    + split; [discriminate|]. intros (_ & _ & _ & _ & b' & E' & _). discriminate.
  - split; [discriminate|]. intros (A & A' & A2 & A3 & _). destruct B as [_ B]. discriminate B. tauto.
Qed.
Lemma basic_ub c x y w : valid_basic c x y w = UB <->
  ((0 < rows c /\ 0 < cols c) /\ 0 < cols x /\ rows x = y /\ rows x = rows c) /\ w = None.
Proof.
  unfold valid_basic. rewrite <- base_iff. destruct (valid_base c x y); destruct w; split; try discriminate; intros H; try tauto; destruct H; discriminate.
Qed.
Lemma scalable_iff c x y w : valid_scalable c x y w = Ok true <->
  (0 < rows c /\ 0 < cols c) /\ 0 < cols x /\ rows x = y /\ rows x = rows c /\
  exists b, w = Some b /\ (w_kernel b = Gaussian \/ w_kernel b = Exponential) /\ positive (w_bw b).
Proof.
  unfold valid_scalable. pose proof (base_iff c x y) as B. destruct (valid_base c x y).
  - destruct B as [B _]. specialize (B eq_refl). destruct w as [b|].
    + split.
      * intros H. repeat (split; [tauto|]). exists b. split; [reflexivity|]. rewrite <- positive_iff.
        destruct (w_kernel b); cbn [negb] in H; try discriminate; (split; [tauto|]); destruct (xltb (XF 0) (w_bw b)); auto; discriminate.
      * intros (_ & _ & _ & _ & b' & E' & K & H). injection E' as <-. apply positive_iff in H. rewrite H. destruct K as [-> | ->]; reflexivity.
    + split; [discriminate|]. intros (_ & _ & _ & _ & b' & E' & _). discriminate.
  - split; [discriminate|]. intros (A & A' & A2 & A3 & _). destruct B as [_ B]. discriminate B. tauto.
Qed.
Lemma gwss_iff c x : valid_gwss c x = true <-> (0 < rows c /\ 0 < cols c) /\ 0 < cols x.
Proof.
  unfold valid_gwss. rewrite <- spatial_iff. destruct (valid_spatial c); destruct (Nat.ltb_spec 0 (cols x)); simpl; split; try discriminate; intuition (try discriminate; try lia).
Qed.
Lemma gwpca_iff c k : valid_gwpca c k = true <-> (0 < rows c /\ 0 < cols c) /\ (0 < k)%Z.
Proof.
  unfold valid_gwpca. rewrite <- spatial_iff. destruct (valid_spatial c); destruct (Z.ltb_spec 0 k); simpl; split; try discriminate; intuition (try discriminate; try lia).
Qed.
Lemma gwdr_iff c k : valid_gwdr c k = true <-> (0 < rows c /\ 0 < cols c) /\ k = cols c.
Proof.
  unfold valid_gwdr. rewrite <- spatial_iff. destruct (valid_spatial c); destruct (Nat.eqb_spec k (cols c)); simpl; split; try discriminate; intuition (try discriminate; try lia).
Qed.

Lemma weights_iff l : valid_weights l = Ok true <-> Forall weight_fine l.
Proof.
  induction l as [|[w i] t IH]; [split; [constructor|reflexivity]|].
  assert (X : forall a b, Forall weight_fine (a :: b) <-> weight_fine a /\ Forall weight_fine b).
  { intros a b. split; [intros H; inversion H; auto|intros [A B]; constructor; auto]. }
  rewrite X. cbn [valid_weights]. destruct i; [destruct w; rewrite IH; unfold weight_fine; simpl; tauto| |];
  (destruct w as [b|]; [|split; [discriminate|intros [(b & E & _) _]; discriminate]]);
  (destruct (if w_adaptive b then xleb (w_bw b) (XF 1) else xltb (w_bw b) (XF 0)) eqn:E;
   [split; [discriminate|intros [(b' & E' & H) _]; simpl in E'; injection E' as <-; destruct (w_adaptive b); rewrite H in E; discriminate]
   |rewrite IH; split; [intros H; split; [exists b; split; [reflexivity|destruct (w_adaptive b); exact E]|exact H]|tauto]]).
Qed.
Lemma multiscale_iff x ws init a c t : valid_multiscale x ws init a c t = Ok true <->
  0 < cols x /\ length ws = cols x /\ length init = cols x /\ a = cols x /\ c = cols x /\ t = cols x /\
  Forall weight_fine (combine ws init).
Proof.
  unfold valid_multiscale. rewrite <- weights_iff.
  destruct (Nat.ltb_spec 0 (cols x)); simpl; [|split; [discriminate|lia]].
  destruct (Nat.eqb_spec (length ws) (cols x)); simpl; [|split; [discriminate|tauto]].
  destruct (Nat.eqb_spec (length init) (cols x)); simpl; [|split; [discriminate|tauto]].
  destruct (Nat.eqb_spec a (cols x)); simpl; [|split; [discriminate|tauto]].
  destruct (Nat.eqb_spec c (cols x)); simpl; [|split; [discriminate|tauto]].
  destruct (Nat.eqb_spec t (cols x)); simpl; [|split; [discriminate|tauto]]. tauto.
Qed.
