(** * SpecDescent: the gradient of the loss, and the loss as the code computes it *)
From Coq Require Import Reals.
From Verif Require Import Base ModelIndex ModelTensor ModelOps ModelJvp ModelGraph ModelNN Spec SpecDual SpecGraph SpecNN RealInst SpecReal SpecTrain.
Local Open Scope R_scope.

(** [g j q] is the partial derivative of the loss in entry [q] of parameter [j]. *)
Definition is_gradient (n i : nat) (X Y : nat -> nat -> R) (ls : net) (g : nat -> nat -> R) : Prop :=
  forall j P q, nth_error (net_parameters ls) j = Some P -> (q < length P)%nat ->
    derivable_pt_lim (fun t => net_loss n i (bump_param ls j q t) X Y) 0 (g j q).

(** Sum of the squares of the partial derivatives *)
Definition norm2 (ls : net) (g : nat -> nat -> R) : R :=
  sumn (length (net_parameters ls)) (fun j => sumn (length (nth j (net_parameters ls) [])) (fun q => g j q * g j q)).

(** The loss the training loop computes in every round, main.rs:79-87, feed_foward.rs:119-127:
    [res = mlp.forward(x); loss = (&res - &y).abs().sum()] - the first four lines of [train_step] *)
Definition loss_run (m : mlp R) (h : heap R) (x y : nat) : outcome (heap R * nat) :=
  let* (h1, res) := mlp_forward m h x in
  let* (h2, diff) := op_sub h1 res y in
  let* (h3, ab) := op_abs h2 diff in
  op_sum h3 ab.

(** ... is [v]. *)
Definition computes_loss (m : mlp R) (h : heap R) (x y : nat) (v : R) : Prop :=
  exists h' loss, loss_run m h x y = Ret (h', loss) /\ vof (nodes h') loss = raw_scalar v.
