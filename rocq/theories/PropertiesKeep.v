(** * PropertiesKeep: the theorems of ClaimsKeep.v, restated (generated by tools/genprops.py) *)
From Coq Require Import Reals Lra.
From Verif Require Import Base ModelIndex ModelTensor ModelOps ModelJvp ModelGraph ModelNN Spec SpecDual SpecGraph SpecNN
  Lists IndexFacts TensorFacts OpsFacts Sums JvpFacts Dual ClaimsMat Adjoint GradRing RealInst SpecReal SpecTrain SpecDescent SpecFrozen SpecKeep OpDeriv GradReal
  FuelFacts GraphFacts ProgFacts BackFacts ClaimsProg SimFacts NNFacts ClaimsNN ClaimsGrad TrainFacts ClaimsTrain DescentFacts FrozenFacts KeepFacts.
From Verif Require Import ClaimsKeep.
Local Open Scope R_scope.

(** C83: one round of the training loop from any parameters, also where the loss has no derivative: the
    parameters move along the derivative of the loss in which relu and abs keep the branch they take there. *)
Theorem C83_training_step_anywhere :
  forall (step : R) (h : heap R) (data : list nat) (m : mlp R) (i : nat) (ls : net) (x y n : nat),
    ready h data m i ls -> In x data -> In y data ->
    shape (vof (nodes h) x) = [n; i] -> shape (vof (nodes h) y) = [n; net_out i (outputs ls)] -> (0 < n)%nat ->
    small_net n i ls ->
    exists h' m' ls', train_step m (raw_scalar step) h x y = Ret (h', m') /\ ready h' data m' i ls' /\ extends h h' /\
      kept_step step n i (entries i (array (vof (nodes h) x))) (entries (net_out i (outputs ls)) (array (vof (nodes h) y))) ls ls'.
Proof. exact c83_training_step_anywhere. Qed.
Print Assumptions C83_training_step_anywhere.
Example C83_training_step_anywhere_ex : exists (h : heap R) (data : list nat) (m : mlp R) (ls : net), ready h data m 2 ls /\ In 0%nat data /\ In 1%nat data /\
  shape (vof (nodes h) 0) = [1; 2]%nat /\ shape (vof (nodes h) 1) = [1; net_out 2 (outputs ls)]%nat /\ small_net 1 2 ls /\
  (* the loss has a kink here *)
  net_loss 1 2 ls (entries 2 (array (vof (nodes h) 0))) (entries 1 (array (vof (nodes h) 1))) = 0 /\
  ~ smooth 1 2 ls (entries 2 (array (vof (nodes h) 0))) (entries (net_out 2 (outputs ls)) (array (vof (nodes h) 1))) /\
  outputs ls = [1%nat] /\ net_parameters ls = [[1; 1]; [1]].
Proof. exact c83_training_step_anywhere_ex. Qed.

(** C83: any number of rounds from any parameters: the loop never fails, and every round is such a step. *)
Theorem C83_training_anywhere :
  forall (step : R) (samples : list (nat * nat)) (data : list nat) (i : nat) (h : heap R) (m : mlp R) (ls : net),
    ready h data m i ls -> Forall (sample_ok data (vof (nodes h)) i ls) samples ->
    exists h' m' ls', train m (raw_scalar step) h samples = Ret (h', m') /\ ready h' data m' i ls' /\ extends h h' /\
      kept_descent step i (vof (nodes h)) samples ls ls'.
Proof. exact c83_training_anywhere. Qed.
Print Assumptions C83_training_anywhere.
Example C83_training_anywhere_ex : exists (h : heap R) (m : mlp R) (data : list nat), ready h data m 2 four /\
  Forall (sample_ok data (vof (nodes h)) 2 four) [(0, 1); (0, 1); (0, 1)]%nat.
Proof. exact c83_training_anywhere_ex. Qed.

(** C83: where the branches are taken the kept loss is the loss. *)
Theorem C83_kept_loss_is_the_loss :
  forall (n i : nat) (ls : net) (Ks : list (R -> R -> R)) (X Y : nat -> nat -> R),
    Forall2 keeps (map snd ls) Ks -> kept_loss n i ls ls Ks X Y = net_loss n i ls X Y.
Proof. exact c83_kept_loss_is_the_loss. Qed.
Print Assumptions C83_kept_loss_is_the_loss.
Example C83_kept_loss_is_the_loss_ex : Forall2 keeps (map snd [(1%nat, [1; -1], [0], relu_fn)]) [relu_branch] /\
  kept_loss 1 2 [(1%nat, [1; -1], [0], relu_fn)] [(1%nat, [1; -1], [0], relu_fn)] [relu_branch] (entries 2 [1; 1]) (entries 1 [3]) = 3.
Proof. exact c83_kept_loss_is_the_loss_ex. Qed.

(** C83: a network that fits its sample does not stay: at loss 0 the step is taken all the same, along the
    right-hand branch of the absolute value, and the loss becomes positive. *)
Theorem C83_fitted_network_stays_refuted :
  ~ forall (step : R) (h : heap R) (data : list nat) (m : mlp R) (i : nat) (ls : net) (x y n : nat),
    0 < step -> ready h data m i ls -> In x data -> In y data ->
    shape (vof (nodes h) x) = [n; i] -> shape (vof (nodes h) y) = [n; net_out i (outputs ls)] -> (0 < n)%nat ->
    small_net n i ls -> computes_loss m h x y 0 ->
    exists h' m', train_step m (raw_scalar step) h x y = Ret (h', m') /\ computes_loss m' h' x y 0.
Proof. exact c83_fitted_network_stays_refuted. Qed.
Print Assumptions C83_fitted_network_stays_refuted.
