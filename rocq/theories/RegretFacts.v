(** * RegretFacts: subgradient steps of a linear layer *)
From Coq Require Import Reals Lra.
From Verif Require Import Base ModelIndex ModelTensor ModelOps ModelJvp ModelGraph ModelNN Spec SpecDual SpecGraph SpecNN
  Lists IndexFacts TensorFacts OpsFacts Sums JvpFacts Dual ClaimsMat Adjoint GradRing RealInst SpecReal SpecTrain SpecDescent SpecFrozen SpecKeep SpecRegret OpDeriv GradReal
  FuelFacts GraphFacts ProgFacts BackFacts ClaimsProg SimFacts NNFacts ClaimsNN ClaimsGrad TrainFacts ClaimsTrain DescentFacts FrozenFacts KeepFacts.
Local Open Scope R_scope.

(** ** Sums *)
Lemma sum_swap n m (f : nat -> nat -> R) : sumn n (fun a => sumn m (fun b => f a b)) = sumn m (fun b => sumn n (fun a => f a b)).
Proof.
  induction n as [|n IH].
  - rewrite sum_0. symmetry. apply sum_zero. intros. apply sum_0.
  - rewrite sum_S, IH. transitivity (sumn m (fun b => 1 * sumn n (fun a => f a b) + f n b)); [rewrite sum_lin; change (sumn m (f n)) with (sumn m (fun b => f n b)); ring|].
    apply sum_ext. intros b _. rewrite sum_S. cbv beta. ring.
Qed.
Lemma sum_scale n a f : sumn n (fun k => a * f k) = a * sumn n f.
Proof. rewrite (sum_ext n _ (fun k => a * f k + 0)) by (intros; cbv beta; ring). rewrite sum_lin, (sum_zero n (fun _ => 0)) by auto. ring. Qed.
Lemma sum_plus n f g : sumn n (fun k => f k + g k) = sumn n f + sumn n g.
Proof. rewrite (sum_ext n _ (fun k => 1 * f k + g k)) by (intros; cbv beta; ring). rewrite sum_lin. ring. Qed.
Lemma sum_le n f g : (forall k, (k < n)%nat -> f k <= g k) -> sumn n f <= sumn n g.
Proof. induction n as [|n IH]; intros H; [rewrite !sum_0; lra|]. rewrite !sum_S. pose proof (H n ltac:(lia)). pose proof (IH (fun k Hk => H k ltac:(lia))). lra. Qed.
Lemma sum_const n a : sumn n (fun _ => a) = INR n * a.
Proof. induction n as [|n IH]; [rewrite sum_0; cbn; ring|]. rewrite sum_S, IH, S_INR. ring. Qed.
Lemma sum_abs n f : Rabs (sumn n f) <= sumn n (fun k => Rabs (f k)).
Proof.
  induction n as [|n IH]; [rewrite !sum_0, Rabs_R0; lra|]. rewrite !sum_S. pose proof (Rabs_triang (sumn n f) (f n)). lra.
Qed.

(** ** The sign of a residual *)
Definition sgn (x : R) : R := if Rge_dec x 0 then 1 else -1.
Lemma sgn_branch x0 x : abs_branch x0 x = sgn x0 * x.
Proof. unfold abs_branch, sgn. destruct (Rge_dec x0 0); ring. Qed.
Lemma sgn_abs x : sgn x * x = Rabs x.
Proof. unfold sgn. destruct (Rge_dec x 0); [rewrite Rabs_right|rewrite Rabs_left]; lra. Qed.
Lemma sgn_le x y : sgn x * y <= Rabs y.
Proof. unfold sgn. destruct (Rge_dec x 0); destruct (Rcase_abs y); [rewrite Rabs_left|rewrite Rabs_right|rewrite Rabs_left|rewrite Rabs_right]; lra. Qed.
Lemma sgn_one x : Rabs (sgn x) = 1.
Proof. unfold sgn. destruct (Rge_dec x 0); [rewrite Rabs_right|rewrite Rabs_left]; lra. Qed.

Lemma nth_add_at l q t k : (q < length l)%nat -> nth k (add_at l q t) 0 = nth k l 0 + (if (k =? q)%nat then t else 0).
Proof.
  intros Hq. rewrite <- move_list_at by auto. rewrite move_nth. unfold inside.
  destruct (k <? length l)%nat eqn:E; destruct (k =? q)%nat eqn:Eq; try ring. apply Nat.eqb_eq in Eq. apply Nat.ltb_ge in E. lia.
Qed.

Section Layer.
Context (n i o : nat) (X Y : nat -> nat -> R) (W b : list R).
Hypotheses (LW : length W = (i * o)%nat) (Lb : length b = o).

Definition out (W b : list R) (r c : nat) : R := sumn i (fun t => X r t * nth (t * o + c) W 0) + nth c b 0.
Definition s (r c : nat) : R := sgn (out W b r c - Y r c).
Definition gW (t c : nat) : R := sumn n (fun r => s r c * X r t).
Definition gb (c : nat) : R := sumn n (fun r => s r c).

Lemma layer_loss W' b' : net_loss n i (one_layer o W' b') X Y = sumn n (fun r => sumn o (fun c => Rabs (out W' b' r c - Y r c))).
Proof. reflexivity. Qed.

Lemma layer_kept W' b' : kept_loss n i (one_layer o W b) (one_layer o W' b') [fun _ x => x] X Y = sumn n (fun r => sumn o (fun c => s r c * (out W' b' r c - Y r c))).
Proof. unfold kept_loss. cbn [net_out outputs one_layer map]. apply sum_ext. intros r _. apply sum_ext. intros c _. rewrite sgn_branch. reflexivity. Qed.

Lemma out_weight t c tau r c' : (t < i)%nat -> (c < o)%nat -> (c' < o)%nat ->
  out (add_at W (t * o + c) tau) b r c' = out W b r c' + tau * (if (c' =? c)%nat then X r t else 0).
Proof.
  intros Ht Hc Hc'. unfold out. assert (Hq : (t * o + c < length W)%nat) by (rewrite LW; nia).
  rewrite (sum_ext i _ (fun t' => X r t' * nth (t' * o + c') W 0 + tau * (if (t' =? t)%nat then (if (c' =? c)%nat then X r t' else 0) else 0))).
  - rewrite sum_plus, sum_scale, (sum_delta i t (fun t' => if (c' =? c)%nat then X r t' else 0)) by auto. ring.
  - intros t' Ht'. rewrite nth_add_at by auto. destruct (t' =? t)%nat eqn:Et; [apply Nat.eqb_eq in Et; subst t'|apply Nat.eqb_neq in Et].
    + destruct (c' =? c)%nat eqn:Ec; [apply Nat.eqb_eq in Ec; subst c'; rewrite Nat.eqb_refl|apply Nat.eqb_neq in Ec; rewrite (proj2 (Nat.eqb_neq _ _)) by nia]; ring.
    + rewrite (proj2 (Nat.eqb_neq (t' * o + c') (t * o + c))); [ring|]. intros E. apply Et. nia.
Qed.

Lemma out_bias c tau r c' : (c < o)%nat -> out W (add_at b c tau) r c' = out W b r c' + tau * (if (c' =? c)%nat then 1 else 0).
Proof. intros Hc. unfold out. rewrite nth_add_at by lia. destruct (c' =? c)%nat; ring. Qed.

Lemma affine_D f A k d : (forall t, f t = A + t * k) -> derivable_pt_lim f 0 d -> d = k.
Proof.
  intros Hf Hd. apply (uniqueness_limite f 0); [exact Hd|]. apply (D_ext (fun t => A + t * k)); [auto|].
  apply (eq_ind (0 + (0 * 0 + 1 * k)) (fun d => derivable_pt_lim _ 0 d)); [|ring]. apply D_plus; [apply D_const|].
  apply (D_mult (fun t => t) (fun _ => k)); [apply derivable_pt_lim_id|apply D_const].
Qed.

Lemma sum_shift (f g h : nat -> nat -> R) tau : (forall r c, (r < n)%nat -> (c < o)%nat -> f r c = g r c + tau * h r c) ->
  sumn n (fun r => sumn o (fun c => f r c)) = sumn n (fun r => sumn o (fun c => g r c)) + tau * sumn n (fun r => sumn o (fun c => h r c)).
Proof.
  intros H. rewrite <- sum_scale, <- sum_plus. apply sum_ext. intros r Hr. rewrite <- sum_scale, <- sum_plus. apply sum_ext. intros c Hc. auto.
Qed.

Lemma weight_D t c d : (t < i)%nat -> (c < o)%nat ->
  derivable_pt_lim (fun tau => kept_loss n i (one_layer o W b) (one_layer o (add_at W (t * o + c) tau) b) [fun _ x => x] X Y) 0 d -> d = gW t c.
Proof.
  intros Ht Hc. apply affine_D with (A := sumn n (fun r => sumn o (fun c => s r c * (out W b r c - Y r c)))). intros tau. rewrite layer_kept.
  rewrite (sum_shift _ (fun r c => s r c * (out W b r c - Y r c)) (fun r c' => if (c' =? c)%nat then s r c' * X r t else 0) tau).
  - f_equal. f_equal. unfold gW. apply sum_ext. intros r _. apply (sum_delta o c (fun c' => s r c' * X r t)). auto.
  - intros r c' _ Hc'. rewrite out_weight by auto. destruct (c' =? c)%nat; ring.
Qed.
Lemma bias_D c d : (c < o)%nat ->
  derivable_pt_lim (fun tau => kept_loss n i (one_layer o W b) (one_layer o W (add_at b c tau)) [fun _ x => x] X Y) 0 d -> d = gb c.
Proof.
  intros Hc. apply affine_D with (A := sumn n (fun r => sumn o (fun c => s r c * (out W b r c - Y r c)))). intros tau. rewrite layer_kept.
  rewrite (sum_shift _ (fun r c => s r c * (out W b r c - Y r c)) (fun r c' => if (c' =? c)%nat then s r c' else 0) tau).
  - f_equal. f_equal. unfold gb. apply sum_ext. intros r _. apply (sum_delta o c (fun c' => s r c')). auto.
  - intros r c' _ Hc'. rewrite out_bias by auto. destruct (c' =? c)%nat; ring.
Qed.

(** The derivatives of the kept loss are a subgradient of the loss. *)
Lemma subgradient W' b' :
  net_loss n i (one_layer o W b) X Y
    + (sumn i (fun t => sumn o (fun c => gW t c * (nth (t * o + c) W' 0 - nth (t * o + c) W 0))) + sumn o (fun c => gb c * (nth c b' 0 - nth c b 0)))
  <= net_loss n i (one_layer o W' b') X Y.
Proof.
  rewrite !layer_loss.
  assert (E : sumn i (fun t => sumn o (fun c => gW t c * (nth (t * o + c) W' 0 - nth (t * o + c) W 0))) + sumn o (fun c => gb c * (nth c b' 0 - nth c b 0))
    = sumn n (fun r => sumn o (fun c => s r c * (out W' b' r c - out W b r c)))).
  { rewrite (sum_swap i o), <- sum_plus, (sum_swap n o). apply sum_ext. intros c _. unfold gb, gW.
    rewrite (Rmult_comm (sumn n _)), <- sum_scale.
    rewrite (sum_ext i _ (fun t => sumn n (fun r => s r c * (X r t * (nth (t * o + c) W' 0 - nth (t * o + c) W 0))))).
    2:{ intros t _. rewrite Rmult_comm, <- sum_scale. apply sum_ext. intros r _. ring. }
    rewrite sum_swap, <- sum_plus. apply sum_ext. intros r _. rewrite sum_scale. unfold out.
    rewrite (sum_ext i (fun t => X r t * (nth (t * o + c) W' 0 - nth (t * o + c) W 0)) (fun t => (-1) * (X r t * nth (t * o + c) W 0) + X r t * nth (t * o + c) W' 0)) by (intros; cbv beta; ring).
    rewrite sum_lin. ring. }
  rewrite E, <- sum_plus. apply sum_le. intros r _. rewrite <- sum_plus. apply sum_le. intros c _.
  rewrite <- (sgn_abs (out W b r c - Y r c)). fold (s r c).
  replace (s r c * (out W b r c - Y r c) + s r c * (out W' b' r c - out W b r c)) with (s r c * (out W' b' r c - Y r c)) by ring. apply sgn_le.
Qed.

(** Its length *)
Lemma slope_bound : sumn i (fun t => sumn o (fun c => (gW t c)²)) + sumn o (fun c => (gb c)²) <= slope2 n i o X.
Proof.
  unfold slope2. apply Rplus_le_compat.
  - apply sum_le. intros t _. rewrite <- sum_const. apply sum_le. intros c _. rewrite (Rsqr_abs (gW t c)). apply Rsqr_incr_1; [|apply Rabs_pos|apply sum_nonneg; intros; apply Rabs_pos].
    unfold gW. eapply Rle_trans; [apply sum_abs|]. apply sum_le. intros r _. rewrite Rabs_mult. unfold s. rewrite sgn_one. lra.
  - rewrite <- sum_const. apply sum_le. intros c _. rewrite (Rsqr_abs (gb c)). apply Rsqr_incr_1; [|apply Rabs_pos|apply pos_INR].
    unfold gb. eapply Rle_trans; [apply sum_abs|]. rewrite (sum_ext n _ (fun _ => 1)); [rewrite sum_const; lra|]. intros r _. apply sgn_one.
Qed.

(** One step, seen from any other parameters *)
Lemma step_dist step W1 b1 W' b' : (forall t c, (t < i)%nat -> (c < o)%nat -> nth (t * o + c) W1 0 = nth (t * o + c) W 0 - step * gW t c) ->
  (forall c, (c < o)%nat -> nth c b1 0 = nth c b 0 - step * gb c) -> 0 <= step ->
  dist2 i o W1 b1 W' b' + 2 * step * (net_loss n i (one_layer o W b) X Y - net_loss n i (one_layer o W' b') X Y) <= dist2 i o W b W' b' + step² * slope2 n i o X.
Proof.
  intros HW Hb Hs. pose proof (subgradient W' b') as SG. pose proof slope_bound as SB.
  assert (E : dist2 i o W1 b1 W' b' = dist2 i o W b W' b'
    + (2 * step) * (sumn i (fun t => sumn o (fun c => gW t c * (nth (t * o + c) W' 0 - nth (t * o + c) W 0))) + sumn o (fun c => gb c * (nth c b' 0 - nth c b 0)))
    + step² * (sumn i (fun t => sumn o (fun c => (gW t c)²)) + sumn o (fun c => (gb c)²))).
  { unfold dist2.
    rewrite (sum_ext i (fun t => sumn o (fun c => (nth (t * o + c) W1 0 - nth (t * o + c) W' 0)²))
      (fun t => (1 * sumn o (fun c => (nth (t * o + c) W 0 - nth (t * o + c) W' 0)²)) + (2 * step * sumn o (fun c => gW t c * (nth (t * o + c) W' 0 - nth (t * o + c) W 0)) + step² * sumn o (fun c => (gW t c)²)))).
    2:{ intros t Ht. rewrite <- !sum_scale, <- !sum_plus. apply sum_ext. intros c Hc. rewrite HW by auto. unfold Rsqr. ring. }
    rewrite (sum_ext o (fun c => (nth c b1 0 - nth c b' 0)²)
      (fun c => 1 * ((nth c b 0 - nth c b' 0)²) + (2 * step * (gb c * (nth c b' 0 - nth c b 0)) + step² * (gb c)²))).
    2:{ intros c Hc. rewrite Hb by auto. unfold Rsqr. ring. }
    rewrite !sum_plus, !sum_scale. ring. }
  rewrite E. assert (0 <= step²) by apply Rle_0_sqr. nra.
Qed.

(** A kept step is such a step. *)
Lemma kept_step_layer step ls' : kept_step step n i X Y (one_layer o W b) ls' ->
  exists W1 b1, ls' = one_layer o W1 b1 /\ length W1 = (i * o)%nat /\ length b1 = o /\
    (forall t c, (t < i)%nat -> (c < o)%nat -> nth (t * o + c) W1 0 = nth (t * o + c) W 0 - step * gW t c) /\
    (forall c, (c < o)%nat -> nth c b1 0 = nth c b 0 - step * gb c).
Proof.
  intros (A1 & A2 & Ks & HK & H). inversion HK as [|? K ? Ks' K1 K2]; subst. inversion K2; subst. apply keeps_id in K1 as ->.
  destruct ls' as [|[[[o' W1] b1] F'] [|]]; try discriminate A1. cbn in A1. injection A1 as Eo EF. cbn in A2. injection A2 as L1 L2.
  exists W1, b1. split; [unfold one_layer; subst; reflexivity|]. split; [congruence|]. split; [congruence|]. split.
  - intros t c Ht Hc. destruct (H 0%nat W W1 eq_refl eq_refl (t * o + c)%nat) as (d & Hd & E); [rewrite LW; nia|].
    rewrite E. f_equal. f_equal. apply weight_D; auto.
  - intros c Hc. destruct (H 1%nat b b1 eq_refl eq_refl c ltac:(lia)) as (d & Hd & E). rewrite E. f_equal. f_equal. apply bias_D; auto.
Qed.
End Layer.

(** ** Whole runs *)
Lemma rounds_det step m h samples l1 : rounds step m h samples l1 -> forall l2, rounds step m h samples l2 -> l1 = l2.
Proof.
  induction 1 as [|m h x y samples l losses h1 m1 C T _ IH]; intros l2 H2; inversion H2 as [|? ? ? ? ? l' losses' h1' m1' C' T' R']; subst; [reflexivity|].
  rewrite T in T'. apply Ret_inj in T'. injection T' as <- <-. f_equal; [eapply computes_loss_det; eauto|auto].
Qed.

Lemma layer_lengths h data m i o W b : ready h data m i (one_layer o W b) -> length W = (i * o)%nat /\ length b = o.
Proof.
  intros RD. pose proof (rd_net _ _ _ _ _ RD) as NP. unfold one_layer in NP. inversion NP as [|? l m' o' F ls HA WW SW WB SB Hi Ho NP']; subst.
  unfold wf in *. rewrite SW in WW. cbn in WW. split; [lia|]. destruct SB as [SB|SB]; rewrite SB in WB; cbn in WB; lia.
Qed.

Lemma total_ext {A} (f g : A -> R) l : (forall a, In a l -> f a = g a) -> total f l = total g l.
Proof. induction l as [|a l IH]; intros H; [reflexivity|]. cbn. rewrite (H a) by (cbn; auto). unfold total in IH. rewrite IH; auto. intros. apply H. cbn. auto. Qed.

Lemma dist2_nonneg i o W b W' b' : 0 <= dist2 i o W b W' b'.
Proof. unfold dist2. apply Rplus_le_le_0_compat; apply sum_nonneg; intros; [apply sum_nonneg; intros|]; apply Rle_0_sqr. Qed.

Lemma regret step data i o W' b' : 0 < step -> forall samples h m W b, ready h data m i (one_layer o W b) ->
  Forall (sample_ok data (vof (nodes h)) i (one_layer o W b)) samples ->
  exists losses, rounds step m h samples losses /\
    2 * step * total (fun l => l) losses <= 2 * step * total (sample_loss (vof (nodes h)) i o W' b') samples
      + dist2 i o W b W' b' + step² * total (sample_slope2 (vof (nodes h)) i o) samples.
Proof.
  intros Hstep samples.
  assert (G : forall v, forall h m W b, ready h data m i (one_layer o W b) -> (forall q, In q data -> vof (nodes h) q = v q) -> Forall (sample_ok data v i (one_layer o W b)) samples ->
    exists losses, rounds step m h samples losses /\
      2 * step * total (fun l => l) losses <= 2 * step * total (sample_loss v i o W' b') samples + dist2 i o W b W' b' + step² * total (sample_slope2 v i o) samples).
  { intros v. induction samples as [|[x y] samples IH]; intros h m W b RD HV HS.
    - exists []. split; [constructor|]. cbn [total fold_right]. pose proof (dist2_nonneg i o W b W' b'). lra.
    - inversion HS as [|? ? (Hx & Hy & n & Hn & Sx & Sy & SM) HS']; subst. cbn [fst snd] in *. pose proof Sx as Sx0. rewrite <- (HV x Hx) in Sx. rewrite <- (HV y Hy) in Sy.
      destruct (layer_lengths _ _ _ _ _ _ _ RD) as [LW Lb].
      destruct (round_any step h data m i _ x y n RD Hx Hy Sx Sy Hn SM) as (h1 & m1 & ls1 & E & RD1 & X1 & KS).
      pose proof (loss_computed h data m i _ x y n RD Hx Hy Sx Sy Hn) as LC.
      apply kept_step_layer in KS as (W1 & b1 & -> & LW1 & Lb1 & HW & Hb); auto.
      destruct (IH h1 m1 W1 b1 RD1) as (losses & RO & B).
      { intros q Hq. rewrite (vof_ext h h1); auto. apply plain_lt. apply (rd_plain _ _ _ _ _ RD). apply in_or_app. auto. }
      { eapply Forall_impl; [|exact HS']. intros s (A & B & C). split; [exact A|]. split; [exact B|exact C]. }
      eexists. split; [eapply rounds_cons; eauto|]. cbn [total fold_right]. fold (total (fun l : R => l) losses).
      fold (total (sample_loss v i o W' b') samples). fold (total (sample_slope2 v i o) samples).
      pose proof (step_dist n i o _ _ W b step W1 b1 W' b' HW Hb ltac:(lra)) as SD.
      change (net_out i (outputs (one_layer o W b))) with o in *. unfold sample_loss at 1. unfold sample_slope2 at 1. cbn [fst snd]. rewrite Sx0. cbn [hd].
      rewrite (HV x Hx), (HV y Hy) in SD. rewrite (HV x Hx), (HV y Hy). lra. }
  intros h m W b RD HS. apply G; auto.
Qed.
