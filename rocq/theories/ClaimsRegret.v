(** * ClaimsRegret: how good training a linear layer is (C84) *)
From Coq Require Import Reals Lra.
From Verif Require Import Base ModelIndex ModelTensor ModelOps ModelJvp ModelGraph ModelNN Spec SpecDual SpecGraph SpecNN
  Lists RealInst SpecReal SpecTrain SpecDescent SpecKeep SpecRegret TrainFacts ClaimsTrain DescentFacts KeepFacts ClaimsKeep RegretFacts.
Local Open Scope R_scope.

(** C84: training one layer without an activation, on any samples: compared with any other parameters,
    the sum of the losses of all rounds is larger by at most D/(2 step) + step/2 times the sum of the gradient
    bounds, D the squared distance of the initial parameters from the others. *)
Lemma c84_regret :
  forall (step : R) (samples : list (nat * nat)) (data : list nat) (i o : nat) (W b W' b' : list R) (h : heap R) (m : mlp R),
    0 < step -> ready h data m i (one_layer o W b) -> Forall (sample_ok data (vof (nodes h)) i (one_layer o W b)) samples ->
    exists losses, rounds step m h samples losses /\
      total (fun l => l) losses <= total (sample_loss (vof (nodes h)) i o W' b') samples + dist2 i o W b W' b' / (2 * step)
        + step / 2 * total (sample_slope2 (vof (nodes h)) i o) samples.
Proof.
  intros step samples data i o W b W' b' h m Hs RD HS. destruct (regret step data i o W' b' Hs samples h m W b RD HS) as (losses & RO & B).
  exists losses. split; [exact RO|]. apply (Rmult_le_reg_l (2 * step)); [lra|]. eapply Rle_trans; [exact B|]. apply Req_le. unfold Rsqr. field. lra.
Qed.

(** a sample with input [1; 2] and target 10, which the weights [2; 3] and bias 2 fit *)
Lemma ten_loss h : vof (nodes h) 0 = mkRaw [1; 2] [1; 2]%nat -> vof (nodes h) 1 = mkRaw [10] [1; 1]%nat ->
  sample_loss (vof (nodes h)) 2 1 [2; 3] [2] (0, 1)%nat = 0 /\ sample_slope2 (vof (nodes h)) 2 1 (0, 1)%nat = 6.
Proof.
  intros V0 V1. unfold sample_loss, sample_slope2. cbn [fst snd]. rewrite V0, V1. split.
  - cbn -[Rplus Rmult Rminus]. replace (0 + 1 * 2 + 2 * 3 + 2 - 10) with 0 by ring. rewrite Rabs_R0. ring.
  - unfold slope2. cbn -[Rplus Rmult Rminus]. rewrite !(Rabs_right 1), !(Rabs_right 2) by lra. unfold Rsqr. ring.
Qed.
Lemma ten_dist : dist2 2 1 [1; 1] [1] [2; 3] [2] = 6.
Proof. unfold dist2. cbn -[Rplus Rmult Rminus]. unfold Rsqr. ring. Qed.
Lemma ten_ok h x y : vof (nodes h) 0 = mkRaw [1; 2] [1; 2]%nat -> vof (nodes h) 1 = mkRaw [y] [1; 1]%nat -> x = (0, 1)%nat ->
  sample_ok [0; 1]%nat (vof (nodes h)) 2 (one_layer 1 [1; 1] [1]) x.
Proof.
  intros V0 V1 ->. split; [cbn; auto|]. split; [cbn; auto|]. exists 1%nat. cbn [fst snd]. rewrite V0, V1. split; [lia|]. split; [reflexivity|]. split; [reflexivity|cbn; lia].
Qed.

Example c84_regret_ex : exists (h : heap R) (m : mlp R) (data : list nat), ready h data m 2 (one_layer 1 [1; 1] [1]) /\
  Forall (sample_ok data (vof (nodes h)) 2 (one_layer 1 [1; 1] [1])) [(0, 1); (0, 1)]%nat /\
  total (sample_loss (vof (nodes h)) 2 1 [2; 3] [2]) [(0, 1); (0, 1)]%nat = 0 /\
  dist2 2 1 [1; 1] [1] [2; 3] [2] = 6 /\ total (sample_slope2 (vof (nodes h)) 2 1) [(0, 1); (0, 1)]%nat = 12.
Proof.
  destruct (four_ready 10) as (h & m & RD & V0 & V1). exists h, m, [0; 1]%nat. split; [exact RD|]. destruct (ten_loss h V0 V1) as [E1 E2].
  split; [repeat constructor; apply (ten_ok h _ 10); auto|]. unfold total. cbn [fold_right]. rewrite E1, E2. split; [ring|]. split; [apply ten_dist|ring].
Qed.

(** C84: the losses of a run are determined by it. *)
Lemma c84_losses_determined :
  forall (step : R) (m : mlp R) (h : heap R) (samples : list (nat * nat)) (l1 l2 : list R),
    rounds step m h samples l1 -> rounds step m h samples l2 -> l1 = l2.
Proof. intros step m h samples l1 l2 H1 H2. exact (rounds_det step m h samples l1 H1 l2 H2). Qed.
Example c84_losses_determined_ex : exists (h : heap R) (m : mlp R) (losses : list R), rounds 1 m h [(0, 1); (0, 1)]%nat losses.
Proof.
  destruct c84_regret_ex as (h & m & data & RD & HS & _). destruct (c84_regret 1 _ data 2 1 _ _ [2; 3] [2] h m Rlt_0_1 RD HS) as (l & RO & _). eauto.
Qed.

Lemma some_below (l : list R) B : (0 < length l)%nat -> total (fun x => x) l <= INR (length l) * B -> exists x, In x l /\ x <= B.
Proof.
  induction l as [|a l IH]; intros HL H; [cbn in HL; lia|]. destruct (Rle_dec a B) as [Ha|Ha]; [exists a; cbn; auto|].
  destruct l as [|a' l]; [cbn in H; lra|]. destruct IH as (x & Hx & Bx); [cbn; lia| |exists x; split; [right; exact Hx|exact Bx]].
  unfold total in *. cbn [fold_right length] in *. rewrite S_INR in H. lra.
Qed.
Lemma rounds_length step m h samples losses : rounds step m h samples losses -> length losses = length samples.
Proof. induction 1; cbn; congruence. Qed.
Lemma total_repeat {A} (f : A -> R) a N : total f (repeat a N) = INR N * f a.
Proof. induction N as [|N IH]; [cbn; ring|]. cbn [repeat total fold_right]. unfold total in IH. rewrite IH, S_INR. ring. Qed.

(** C84: [N] rounds on one sample: one of them has a loss at most D/(2 step N) + step/2 times the gradient
    bound above that of any other parameters. *)
Lemma c84_best_round :
  forall (step : R) (N : nat) (x y : nat) (data : list nat) (i o : nat) (W b W' b' : list R) (h : heap R) (m : mlp R),
    0 < step -> (0 < N)%nat -> ready h data m i (one_layer o W b) -> sample_ok data (vof (nodes h)) i (one_layer o W b) (x, y) ->
    exists losses, rounds step m h (repeat (x, y) N) losses /\
      exists l, In l losses /\
        l <= sample_loss (vof (nodes h)) i o W' b' (x, y) + dist2 i o W b W' b' / (2 * step * INR N)
             + step / 2 * sample_slope2 (vof (nodes h)) i o (x, y).
Proof.
  intros step N x y data i o W b W' b' h m Hs HN RD HS.
  destruct (c84_regret step (repeat (x, y) N) data i o W b W' b' h m Hs RD) as (losses & RO & B).
  { apply Forall_forall. intros s Hin. apply repeat_spec in Hin. subst s. exact HS. }
  exists losses. split; [exact RO|]. pose proof (rounds_length _ _ _ _ _ RO) as L. rewrite repeat_length in L.
  apply some_below; [lia|]. eapply Rle_trans; [exact B|]. rewrite !total_repeat, L. apply Req_le. assert (0 < INR N) by (apply lt_0_INR; lia). field. lra.
Qed.
Example c84_best_round_ex : exists (h : heap R) (m : mlp R) (data : list nat), ready h data m 2 (one_layer 1 [1; 1] [1]) /\
  sample_ok data (vof (nodes h)) 2 (one_layer 1 [1; 1] [1]) (0, 1)%nat /\
  sample_loss (vof (nodes h)) 2 1 [2; 3] [2] (0, 1)%nat = 0 /\ dist2 2 1 [1; 1] [1] [2; 3] [2] = 6 /\ sample_slope2 (vof (nodes h)) 2 1 (0, 1)%nat = 6.
Proof.
  destruct (four_ready 10) as (h & m & RD & V0 & V1). exists h, m, [0; 1]%nat. split; [exact RD|]. destruct (ten_loss h V0 V1) as [E1 E2].
  split; [apply (ten_ok h _ 10); auto|]. split; [exact E1|]. split; [apply ten_dist|exact E2].
Qed.

Lemma above_nat x : exists N, INR N > x.
Proof.
  exists (Z.to_nat (up x)). rewrite INR_IZR_INZ. destruct (archimed x) as [A _]. apply Rge_gt_trans with (IZR (up x)); [|exact A].
  apply Rle_ge, IZR_le. lia.
Qed.

(** C84: with small enough steps and enough rounds, training comes as close to the loss of any other parameters as
    one likes: some round has a loss at most [eps] above it. *)
Lemma c84_reaches_the_optimum :
  forall (eps : R) (x y : nat) (data : list nat) (i o : nat) (W b W' b' : list R) (h : heap R) (m : mlp R),
    0 < eps -> ready h data m i (one_layer o W b) -> sample_ok data (vof (nodes h)) i (one_layer o W b) (x, y) ->
    exists step0, 0 < step0 /\ forall step, 0 < step <= step0 -> exists N0, forall N, (N0 <= N)%nat ->
      exists losses, rounds step m h (repeat (x, y) N) losses /\
        exists l, In l losses /\ l <= sample_loss (vof (nodes h)) i o W' b' (x, y) + eps.
Proof.
  intros eps x y data i o W b W' b' h m He RD HS. set (G := sample_slope2 (vof (nodes h)) i o (x, y)). set (D2 := dist2 i o W b W' b').
  assert (HG : 0 <= G).
  { unfold G, sample_slope2, slope2. apply Rplus_le_le_0_compat; [apply sum_nonneg; intros|]; (apply Rmult_le_pos; [apply pos_INR|apply Rle_0_sqr]). }
  assert (HD : 0 <= D2) by apply dist2_nonneg.
  assert (P0 : 0 < eps / (G + 1)) by (apply Rdiv_lt_0_compat; lra). exists (eps / (G + 1)). split; [exact P0|]. intros step [Hs Hle].
  destruct (above_nat (D2 / (step * eps))) as [N0 HN0]. exists (S N0). intros N HN.
  assert (HNp : 0 < INR N) by (apply lt_0_INR; lia). assert (HNN : INR N0 <= INR N) by (apply le_INR; lia).
  destruct (c84_best_round step N x y data i o W b W' b' h m Hs ltac:(lia) RD HS) as (losses & RO & l & Hl & B). exists losses. split; [exact RO|]. exists l. split; [exact Hl|].
  eapply Rle_trans; [exact B|]. fold G D2.
  assert (B1 : step / 2 * G <= eps / 2).
  { assert (step * (G + 1) <= eps). { apply (Rmult_le_compat_r (G + 1)) in Hle; [|lra]. unfold Rdiv in Hle. rewrite Rmult_assoc, Rinv_l in Hle by lra. lra. } nra. }
  assert (B2 : D2 / (2 * step * INR N) <= eps / 2).
  { assert (Q : D2 <= INR N * (step * eps)).
    { assert (SE : 0 < step * eps) by (apply Rmult_lt_0_compat; lra). apply (Rmult_le_reg_r (/ (step * eps))); [apply Rinv_0_lt_compat; lra|]. rewrite Rmult_assoc, Rinv_r by lra. unfold Rdiv in HN0. lra. }
    apply (Rmult_le_reg_r (2 * step * INR N)); [apply Rmult_lt_0_compat; lra|]. unfold Rdiv at 1. rewrite Rmult_assoc, Rinv_l; [nra|]. apply Rgt_not_eq. apply Rmult_lt_0_compat; lra. }
  lra.
Qed.
Example c84_reaches_the_optimum_ex : exists (h : heap R) (m : mlp R) (data : list nat), ready h data m 2 (one_layer 1 [1; 1] [1]) /\
  sample_ok data (vof (nodes h)) 2 (one_layer 1 [1; 1] [1]) (0, 1)%nat /\
  sample_loss (vof (nodes h)) 2 1 [1; 1] [1] (0, 1)%nat = 6 /\ sample_loss (vof (nodes h)) 2 1 [2; 3] [2] (0, 1)%nat = 0.
Proof.
  destruct (four_ready 10) as (h & m & RD & V0 & V1). exists h, m, [0; 1]%nat. split; [exact RD|]. destruct (ten_loss h V0 V1) as [E1 E2].
  split; [apply (ten_ok h _ 10); auto|]. split; [|exact E1]. unfold sample_loss. cbn [fst snd]. rewrite V0, V1. cbn -[Rplus Rmult Rminus]. rewrite Rabs_left; lra.
Qed.
