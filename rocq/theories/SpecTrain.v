(** * SpecTrain: training a network, as gradient descent on a function of real numbers *)
From Coq Require Import Reals.
From Verif Require Import Base ModelIndex ModelTensor ModelOps ModelJvp ModelGraph ModelNN Spec SpecDual SpecGraph SpecNN RealInst SpecReal.
Local Open Scope R_scope.

(** A network as in SpecNN: outputs, weights, biases, activation per layer *)
Definition net : Type := list (nat * list R * list R * (R -> R)).

(** [l] with [t] added to entry [q] *)
Definition add_at (l : list R) (q : nat) (t : R) : list R := list_set l q (nth q l 0 + t).

(** The parameters, in the order of [Mlp::params] *)
Fixpoint net_parameters (ls : net) : list (list R) :=
  match ls with [] => [] | (_, W, b, _) :: ls' => W :: b :: net_parameters ls' end.

(** [t] added to entry [q] of parameter [j] *)
Fixpoint bump_param (ls : net) (j q : nat) (t : R) : net :=
  match ls, j with
  | [], _ => []
  | (o, W, b, F) :: ls', O => (o, add_at W q t, b, F) :: ls'
  | (o, W, b, F) :: ls', S O => (o, W, add_at b q t, F) :: ls'
  | (o, W, b, F) :: ls', S (S j') => (o, W, b, F) :: bump_param ls' j' q t
  end.

(** Sum of the absolute differences of two matrices with [n] rows and [c] columns *)
Definition abs_loss (n c : nat) (f y : nat -> nat -> R) : R :=
  sumn n (fun r => sumn c (fun j => Rabs (f r j - y r j))).

(** Outputs of the layers *)
Definition outputs (ls : net) : list nat := map (fun '(o, _, _, _) => o) ls.

(** The loss of the network on input [X] ([n] rows, [i] columns) and target [Y] *)
Definition net_loss (n i : nat) (ls : net) (X Y : nat -> nat -> R) : R :=
  abs_loss n (net_out i (outputs ls)) (net_val i ls X) Y.

(** No kink is hit: every activation is differentiable where it is used ... *)
Fixpoint smooth_net (n i : nat) (ls : net) (X : nat -> nat -> R) : Prop :=
  match ls with
  | [] => True
  | (o, W, b, F) :: ls' =>
    (forall r c, (r < n)%nat -> (c < o)%nat -> exists d, derivable_pt_lim F (layer_val i o W b (fun x => x) X r c) d) /\
    smooth_net n o ls' (layer_val i o W b F X)
  end.
(** ... and no output equals its target. *)
Definition smooth (n i : nat) (ls : net) (X Y : nat -> nat -> R) : Prop :=
  smooth_net n i ls X /\ forall r c, (r < n)%nat -> (c < net_out i (outputs ls))%nat -> net_val i ls X r c <> Y r c.

(** The matrices multiplied have at most 32 entries. *)
Fixpoint small_net (n i : nat) (ls : net) : Prop :=
  match ls with
  | [] => True
  | (o, _, _, _) :: ls' => (n * i <= 32)%nat /\ (i * o <= 32)%nat /\ small_net n o ls'
  end.

(** One step of gradient descent: every entry of every parameter becomes entry - step * partial
    derivative of the loss. *)
Definition gd_step (step : R) (n i : nat) (X Y : nat -> nat -> R) (ls ls' : net) : Prop :=
  map (fun '(o, _, _, F) => (o, F)) ls' = map (fun '(o, _, _, F) => (o, F)) ls /\
  map (@length R) (net_parameters ls') = map (@length R) (net_parameters ls) /\
  forall j P P', nth_error (net_parameters ls) j = Some P -> nth_error (net_parameters ls') j = Some P' ->
    forall q, (q < length P)%nat ->
      exists d, derivable_pt_lim (fun t => net_loss n i (bump_param ls j q t) X Y) 0 d /\ nth q P' 0 = nth q P 0 - step * d.

(** A heap in which the training loop may start: [data] holds inputs and targets. *)
Record ready (h : heap R) (data : list nat) (m : mlp R) (i : nat) (ls : net) : Prop := {
  rd_inv : heap_inv h;
  rd_nonempty : nonempty (nodes h);
  rd_matrices : matrices_only (nodes h);
  (* gradients have the shape of their tensor, except those [sum] sets *)
  rd_grads : forall n g, grads h n = Some g -> (n < length (nodes h))%nat ->
    wf g /\ positive (shape g) /\
    ((forall ins, fn_of (nodes h) n <> Some (KSum, ins)) -> shape g = shape (vof (nodes h) n));
  (* the network, with values [ls] *)
  rd_net : net_params (vof (nodes h)) i m ls;
  rd_distinct : NoDup (mlp_params m);
  (* parameters and data are leaves, or were computed without [sum] and [dot] and away from kinks,
     and none from another parameter of the network *)
  rd_plain : forall q, In q (data ++ mlp_params m) -> plain (nodes h) q;
  rd_smooth : forall q, In q (data ++ mlp_params m) -> no_kinks (nodes h) q;
  rd_indep : forall p q, In p (mlp_params m) -> In q (data ++ mlp_params m) -> q <> p -> ~ uses (nodes h) q p;
  rd_data : forall p, In p (mlp_params m) -> ~ In p data;
  (* the parameters have no gradients yet *)
  rd_nograd : forall p, In p (mlp_params m) -> grads h p = None
}.

(** [ls'] results from [ls] by gradient descent on the samples [(x, y)], whose values are given by [v]. *)
Inductive descent (step : R) (i : nat) (v : nat -> raw R) : list (nat * nat) -> net -> net -> Prop :=
| descent_nil ls : descent step i v [] ls ls
| descent_cons x y n samples ls ls1 ls' :
    shape (v x) = [n; i] -> shape (v y) = [n; net_out i (outputs ls)] -> (0 < n)%nat ->
    small_net n i ls ->
    smooth n i ls (entries i (array (v x))) (entries (net_out i (outputs ls)) (array (v y))) ->
    gd_step step n i (entries i (array (v x))) (entries (net_out i (outputs ls)) (array (v y))) ls ls1 ->
    descent step i v samples ls1 ls' ->
    descent step i v ((x, y) :: samples) ls ls'.
