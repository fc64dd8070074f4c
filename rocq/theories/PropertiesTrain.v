(** * PropertiesTrain: the theorems of ClaimsTrain.v, restated (generated by tools/genprops.py) *)
From Coq Require Import Reals Lra.
From Verif Require Import Base ModelIndex ModelTensor ModelOps ModelJvp ModelGraph ModelNN Spec SpecDual SpecGraph SpecNN
  Lists IndexFacts TensorFacts OpsFacts Sums JvpFacts Dual ClaimsMat Adjoint GradRing RealInst SpecReal SpecTrain OpDeriv GradReal
  FuelFacts GraphFacts ProgFacts BackFacts ClaimsProg SimFacts NNFacts ClaimsNN ClaimsGrad TrainFacts.
From Verif Require Import ClaimsTrain.
Local Open Scope R_scope.

(** C53: where training can start: after any program, with parameters and data that are leaves. *)
Theorem C53_ready_start :
  forall (s : state R) (data : list nat) (m : mlp R) (i : nat) (ls : net), reach tidy s ->
    nonempty (nodes (hp s)) -> matrices_only (nodes (hp s)) -> net_params (vof (nodes (hp s))) i m ls ->
    NoDup (mlp_params m) -> (forall p, In p (mlp_params m) -> ~ In p data) ->
    (forall q, In q (data ++ mlp_params m) -> (q < length (nodes (hp s)))%nat /\ fn_of (nodes (hp s)) q = None) ->
    (forall p, In p (mlp_params m) -> grads (hp s) p = None) ->
    ready (hp s) data m i ls.
Proof. exact c53_ready_start. Qed.
Print Assumptions C53_ready_start.
Example C53_ready_start_ex : exists (s : state R), reach tidy s /\ nonempty (nodes (hp s)) /\ matrices_only (nodes (hp s)) /\
  net_params (vof (nodes (hp s))) 2 [linear_new 2 3 (Some op_relu)] [(1%nat, [1; 1], [1], relu_fn)] /\
  (forall q, In q ([0; 1] ++ [2; 3])%nat -> (q < length (nodes (hp s)))%nat /\ fn_of (nodes (hp s)) q = None) /\
  ready (hp s) [0; 1]%nat [linear_new 2 3 (Some op_relu)] 2 [(1%nat, [1; 1], [1], relu_fn)].
Proof. exact c53_ready_start_ex. Qed.

(** C53: one round of the training loop - [forward], [(res - y).abs().sum()], [backward], [sgd_step] - is
    one step of gradient descent on the loss as a function of the parameters, and leaves a heap in which the
    next round can start.  Layers of any number, activations none, relu, tanh, abs, neg; weight matrices and
    layer inputs of at most 32 entries. *)
Theorem C53_training_step :
  forall (step : R) (h : heap R) (data : list nat) (m : mlp R) (i : nat) (ls : net) (x y n : nat),
    ready h data m i ls -> In x data -> In y data ->
    shape (vof (nodes h) x) = [n; i] -> shape (vof (nodes h) y) = [n; net_out i (outputs ls)] -> (0 < n)%nat ->
    small_net n i ls ->
    smooth n i ls (entries i (array (vof (nodes h) x))) (entries (net_out i (outputs ls)) (array (vof (nodes h) y))) ->
    exists h' m' ls', train_step m (raw_scalar step) h x y = Ret (h', m') /\ ready h' data m' i ls' /\ extends h h' /\
      gd_step step n i (entries i (array (vof (nodes h) x))) (entries (net_out i (outputs ls)) (array (vof (nodes h) y))) ls ls'.
Proof. exact c53_training_step. Qed.
Print Assumptions C53_training_step.
Example C53_training_step_ex : exists (h : heap R) (data : list nat) (m : mlp R) (ls : net), ready h data m 2 ls /\ In 0%nat data /\ In 1%nat data /\
  shape (vof (nodes h) 0) = [1; 2]%nat /\ shape (vof (nodes h) 1) = [1; net_out 2 (outputs ls)]%nat /\ small_net 1 2 ls /\
  smooth 1 2 ls (entries 2 (array (vof (nodes h) 0))) (entries (net_out 2 (outputs ls)) (array (vof (nodes h) 1))) /\
  outputs ls = [1%nat] /\ net_parameters ls = [[1; 1]; [1]].
Proof. exact c53_training_step_ex. Qed.

(** C53: any number of rounds, on any samples: the loop computes what gradient descent computes. *)
Theorem C53_training :
  forall (step : R) (samples : list (nat * nat)) (data : list nat) (i : nat) (h : heap R) (m : mlp R) (ls ls' : net),
    ready h data m i ls -> (forall x y, In (x, y) samples -> In x data /\ In y data) ->
    descent step i (vof (nodes h)) samples ls ls' ->
    exists h' m', train m (raw_scalar step) h samples = Ret (h', m') /\ ready h' data m' i ls'.
Proof. exact c53_training. Qed.
Print Assumptions C53_training.
Example C53_training_ex : exists (h : heap R) (data : list nat) (m : mlp R) (ls ls' : net), ready h data m 2 ls /\
  (forall x y, In (x, y) [(0, 1); (0, 1)]%nat -> In x data /\ In y data) /\
  descent (1/8) 2 (vof (nodes h)) [(0, 1); (0, 1)]%nat ls ls' /\ net_parameters ls = [[1; 1]; [1]] /\
  net_parameters ls' = [[1 - 1/8 - 1/8; 1 - 2/8 - 2/8]; [1 - 1/8 - 1/8]].
Proof. exact c53_training_ex. Qed.

Theorem C53_large_refuted :
  ~ forall (step : R) (h : heap R) (data : list nat) (m : mlp R) (i : nat) (ls : net) (x y n : nat),
    ready h data m i ls -> In x data -> In y data ->
    shape (vof (nodes h) x) = [n; i] -> shape (vof (nodes h) y) = [n; net_out i (outputs ls)] -> (0 < n)%nat ->
    smooth n i ls (entries i (array (vof (nodes h) x))) (entries (net_out i (outputs ls)) (array (vof (nodes h) y))) ->
    exists h' m' ls', train_step m (raw_scalar step) h x y = Ret (h', m') /\ ready h' data m' i ls' /\ extends h h' /\
      gd_step step n i (entries i (array (vof (nodes h) x))) (entries (net_out i (outputs ls)) (array (vof (nodes h) y))) ls ls'.
Proof. exact c53_large_refuted. Qed.
Print Assumptions C53_large_refuted.
