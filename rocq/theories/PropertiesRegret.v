(** * PropertiesRegret: the theorems of ClaimsRegret.v, restated (generated by tools/genprops.py) *)
From Coq Require Import Reals Lra.
From Verif Require Import Base ModelIndex ModelTensor ModelOps ModelJvp ModelGraph ModelNN Spec SpecDual SpecGraph SpecNN
  Lists RealInst SpecReal SpecTrain SpecDescent SpecKeep SpecRegret TrainFacts ClaimsTrain DescentFacts KeepFacts ClaimsKeep RegretFacts.
From Verif Require Import ClaimsRegret.
Local Open Scope R_scope.

(** C84: training one layer without an activation, on any samples: compared with any other parameters,
    the sum of the losses of all rounds is larger by at most D/(2 step) + step/2 times the sum of the gradient
    bounds, D the squared distance of the initial parameters from the others. *)
Theorem C84_regret :
  forall (step : R) (samples : list (nat * nat)) (data : list nat) (i o : nat) (W b W' b' : list R) (h : heap R) (m : mlp R),
    0 < step -> ready h data m i (one_layer o W b) -> Forall (sample_ok data (vof (nodes h)) i (one_layer o W b)) samples ->
    exists losses, rounds step m h samples losses /\
      total (fun l => l) losses <= total (sample_loss (vof (nodes h)) i o W' b') samples + dist2 i o W b W' b' / (2 * step)
        + step / 2 * total (sample_slope2 (vof (nodes h)) i o) samples.
Proof. exact c84_regret. Qed.
Print Assumptions C84_regret.
Example C84_regret_ex : exists (h : heap R) (m : mlp R) (data : list nat), ready h data m 2 (one_layer 1 [1; 1] [1]) /\
  Forall (sample_ok data (vof (nodes h)) 2 (one_layer 1 [1; 1] [1])) [(0, 1); (0, 1)]%nat /\
  total (sample_loss (vof (nodes h)) 2 1 [2; 3] [2]) [(0, 1); (0, 1)]%nat = 0 /\
  dist2 2 1 [1; 1] [1] [2; 3] [2] = 6 /\ total (sample_slope2 (vof (nodes h)) 2 1) [(0, 1); (0, 1)]%nat = 12.
Proof. exact c84_regret_ex. Qed.

(** C84: the losses of a run are determined by it. *)
Theorem C84_losses_determined :
  forall (step : R) (m : mlp R) (h : heap R) (samples : list (nat * nat)) (l1 l2 : list R),
    rounds step m h samples l1 -> rounds step m h samples l2 -> l1 = l2.
Proof. exact c84_losses_determined. Qed.
Print Assumptions C84_losses_determined.
Example C84_losses_determined_ex : exists (h : heap R) (m : mlp R) (losses : list R), rounds 1 m h [(0, 1); (0, 1)]%nat losses.
Proof. exact c84_losses_determined_ex. Qed.

(** C84: [N] rounds on one sample: one of them has a loss at most D/(2 step N) + step/2 times the gradient
    bound above that of any other parameters. *)
Theorem C84_best_round :
  forall (step : R) (N : nat) (x y : nat) (data : list nat) (i o : nat) (W b W' b' : list R) (h : heap R) (m : mlp R),
    0 < step -> (0 < N)%nat -> ready h data m i (one_layer o W b) -> sample_ok data (vof (nodes h)) i (one_layer o W b) (x, y) ->
    exists losses, rounds step m h (repeat (x, y) N) losses /\
      exists l, In l losses /\
        l <= sample_loss (vof (nodes h)) i o W' b' (x, y) + dist2 i o W b W' b' / (2 * step * INR N)
             + step / 2 * sample_slope2 (vof (nodes h)) i o (x, y).
Proof. exact c84_best_round. Qed.
Print Assumptions C84_best_round.
Example C84_best_round_ex : exists (h : heap R) (m : mlp R) (data : list nat), ready h data m 2 (one_layer 1 [1; 1] [1]) /\
  sample_ok data (vof (nodes h)) 2 (one_layer 1 [1; 1] [1]) (0, 1)%nat /\
  sample_loss (vof (nodes h)) 2 1 [2; 3] [2] (0, 1)%nat = 0 /\ dist2 2 1 [1; 1] [1] [2; 3] [2] = 6 /\ sample_slope2 (vof (nodes h)) 2 1 (0, 1)%nat = 6.
Proof. exact c84_best_round_ex. Qed.

(** C84: with small enough steps and enough rounds, training comes as close to the loss of any other parameters as
    one likes: some round has a loss at most [eps] above it. *)
Theorem C84_reaches_the_optimum :
  forall (eps : R) (x y : nat) (data : list nat) (i o : nat) (W b W' b' : list R) (h : heap R) (m : mlp R),
    0 < eps -> ready h data m i (one_layer o W b) -> sample_ok data (vof (nodes h)) i (one_layer o W b) (x, y) ->
    exists step0, 0 < step0 /\ forall step, 0 < step <= step0 -> exists N0, forall N, (N0 <= N)%nat ->
      exists losses, rounds step m h (repeat (x, y) N) losses /\
        exists l, In l losses /\ l <= sample_loss (vof (nodes h)) i o W' b' (x, y) + eps.
Proof. exact c84_reaches_the_optimum. Qed.
Print Assumptions C84_reaches_the_optimum.
Example C84_reaches_the_optimum_ex : exists (h : heap R) (m : mlp R) (data : list nat), ready h data m 2 (one_layer 1 [1; 1] [1]) /\
  sample_ok data (vof (nodes h)) 2 (one_layer 1 [1; 1] [1]) (0, 1)%nat /\
  sample_loss (vof (nodes h)) 2 1 [1; 1] [1] (0, 1)%nat = 6 /\ sample_loss (vof (nodes h)) 2 1 [2; 3] [2] (0, 1)%nat = 0.
Proof. exact c84_reaches_the_optimum_ex. Qed.

