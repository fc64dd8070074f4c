(** * PropertiesDescent: the theorems of ClaimsDescent.v, restated (generated by tools/genprops.py) *)
From Coq Require Import Reals Lra.
From Verif Require Import Base ModelIndex ModelTensor ModelOps ModelJvp ModelGraph ModelNN Spec SpecDual SpecGraph SpecNN
  Lists Sums RealInst SpecReal SpecTrain SpecDescent OpDeriv GradReal GraphFacts ProgFacts NNFacts TrainFacts ClaimsTrain DescentFacts.
From Verif Require Import ClaimsDescent.
Local Open Scope R_scope.

(** C58: the loss the loop computes is the sum of the absolute differences of the network's outputs and the
    targets; no condition on sizes or kinks. *)
Theorem C58_loss_value :
  forall (h : heap R) (data : list nat) (m : mlp R) (i : nat) (ls : net) (x y n : nat),
    ready h data m i ls -> In x data -> In y data ->
    shape (vof (nodes h) x) = [n; i] -> shape (vof (nodes h) y) = [n; net_out i (outputs ls)] -> (0 < n)%nat ->
    computes_loss m h x y (net_loss n i ls (entries i (array (vof (nodes h) x))) (entries (net_out i (outputs ls)) (array (vof (nodes h) y)))).
Proof. exact c58_loss_value. Qed.
Print Assumptions C58_loss_value.
Example C58_loss_value_ex : exists (h : heap R) (m : mlp R), ready h [0; 1]%nat m 2 tiny /\ computes_loss m h 0 1 4.
Proof. exact c58_loss_value_ex. Qed.

(** C58: to first order, a step of size [step] changes the loss by [- step] times the sum of the squares of
    the partial derivatives. *)
Theorem C58_first_order :
  forall (h : heap R) (data : list nat) (m : mlp R) (i : nat) (ls : net) (x y n : nat) (g : nat -> nat -> R),
    ready h data m i ls -> In x data -> In y data ->
    shape (vof (nodes h) x) = [n; i] -> shape (vof (nodes h) y) = [n; net_out i (outputs ls)] -> (0 < n)%nat ->
    small_net n i ls ->
    smooth n i ls (entries i (array (vof (nodes h) x))) (entries (net_out i (outputs ls)) (array (vof (nodes h) y))) ->
    is_gradient n i (entries i (array (vof (nodes h) x))) (entries (net_out i (outputs ls)) (array (vof (nodes h) y))) ls g ->
    forall eps, 0 < eps -> exists delta, 0 < delta /\ forall step, step <> 0 -> Rabs step < delta ->
      exists h' m' before after, train_step m (raw_scalar step) h x y = Ret (h', m') /\
        computes_loss m h x y before /\ computes_loss m' h' x y after /\
        Rabs ((after - before) / step + norm2 ls g) < eps.
Proof. exact c58_first_order. Qed.
Print Assumptions C58_first_order.
Example C58_first_order_ex : exists (h : heap R) (m : mlp R), ready h [0; 1]%nat m 2 tiny /\
  shape (vof (nodes h) 0) = [1; 2]%nat /\ shape (vof (nodes h) 1) = [1; net_out 2 (outputs tiny)]%nat /\ small_net 1 2 tiny /\
  smooth 1 2 tiny (entries 2 (array (vof (nodes h) 0))) (entries (net_out 2 (outputs tiny)) (array (vof (nodes h) 1))) /\
  is_gradient 1 2 (entries 2 (array (vof (nodes h) 0))) (entries (net_out 2 (outputs tiny)) (array (vof (nodes h) 1))) tiny tiny_g /\
  norm2 tiny tiny_g = 6.
Proof. exact c58_first_order_ex. Qed.

(** C58: where the gradient is not zero, every small enough step decreases the loss, by at least half of what
    the first order predicts. *)
Theorem C58_step_decreases_loss :
  forall (h : heap R) (data : list nat) (m : mlp R) (i : nat) (ls : net) (x y n : nat) (g : nat -> nat -> R),
    ready h data m i ls -> In x data -> In y data ->
    shape (vof (nodes h) x) = [n; i] -> shape (vof (nodes h) y) = [n; net_out i (outputs ls)] -> (0 < n)%nat ->
    small_net n i ls ->
    smooth n i ls (entries i (array (vof (nodes h) x))) (entries (net_out i (outputs ls)) (array (vof (nodes h) y))) ->
    is_gradient n i (entries i (array (vof (nodes h) x))) (entries (net_out i (outputs ls)) (array (vof (nodes h) y))) ls g ->
    0 < norm2 ls g ->
    exists delta, 0 < delta /\ forall step, 0 < step < delta ->
      exists h' m' before after, train_step m (raw_scalar step) h x y = Ret (h', m') /\
        computes_loss m h x y before /\ computes_loss m' h' x y after /\ after < before - step * (norm2 ls g / 2).
Proof. exact c58_step_decreases_loss. Qed.
Print Assumptions C58_step_decreases_loss.
Example C58_step_decreases_loss_ex : exists (h : heap R) (m : mlp R) delta, 0 < delta /\ forall step, 0 < step < delta ->
  exists h' m' after, train_step m (raw_scalar step) h 0 1 = Ret (h', m') /\ computes_loss m' h' 0 1 after /\ after < 4 - step * 3.
Proof. exact c58_step_decreases_loss_ex. Qed.

(** C58: every smooth loss has a gradient, so the hypothesis above can always be met. *)
Theorem C58_gradient_exists :
  forall (n i : nat) (X Y : nat -> nat -> R) (ls : net), smooth n i ls X Y -> exists g, is_gradient n i X Y ls g.
Proof. exact c58_gradient_exists. Qed.
Print Assumptions C58_gradient_exists.
Example C58_gradient_exists_ex : smooth 1 2 tiny (entries 2 [1; 2]) (entries 1 [0]) /\ is_gradient 1 2 (entries 2 [1; 2]) (entries 1 [0]) tiny tiny_g.
Proof. exact c58_gradient_exists_ex. Qed.

(** C58: a step that is not small can increase the loss. *)
Theorem C58_any_step_refuted :
  ~ forall (h : heap R) (data : list nat) (m : mlp R) (i : nat) (ls : net) (x y n : nat) (g : nat -> nat -> R) (step : R),
    ready h data m i ls -> In x data -> In y data ->
    shape (vof (nodes h) x) = [n; i] -> shape (vof (nodes h) y) = [n; net_out i (outputs ls)] -> (0 < n)%nat ->
    small_net n i ls ->
    smooth n i ls (entries i (array (vof (nodes h) x))) (entries (net_out i (outputs ls)) (array (vof (nodes h) y))) ->
    is_gradient n i (entries i (array (vof (nodes h) x))) (entries (net_out i (outputs ls)) (array (vof (nodes h) y))) ls g ->
    0 < norm2 ls g -> 0 < step ->
    exists h' m' before after, train_step m (raw_scalar step) h x y = Ret (h', m') /\
        computes_loss m h x y before /\ computes_loss m' h' x y after /\ after < before.
Proof. exact c58_any_step_refuted. Qed.
Print Assumptions C58_any_step_refuted.
