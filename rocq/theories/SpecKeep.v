(** * SpecKeep: the loss of a network with the branches of its activations kept *)
From Coq Require Import Reals.
From Verif Require Import Base ModelIndex ModelTensor ModelOps ModelJvp ModelGraph ModelNN Spec SpecDual SpecGraph SpecNN RealInst SpecReal SpecTrain SpecDescent SpecFrozen.
Local Open Scope R_scope.

(** [K x0] is the branch of the activation [F] that is taken at [x0]. *)
Inductive keeps : (R -> R) -> (R -> R -> R) -> Prop :=
| keeps_none : keeps (fun x => x) (fun _ x => x)
| keeps_relu : keeps (fun x => if n_lt x n_zero then n_zero else x) relu_branch
| keeps_tanh : keeps n_tanh (fun _ x => n_tanh x)
| keeps_abs : keeps n_abs abs_branch
| keeps_neg : keeps n_neg (fun _ x => n_neg x).

(** The output of network [ls] on [X], with the branches that [ls0] takes on [X0] *)
Fixpoint kept_val (i : nat) (ls0 ls : net) (Ks : list (R -> R -> R)) (X0 X : nat -> nat -> R) : nat -> nat -> R :=
  match ls0, ls, Ks with
  | (o, W0, b0, F) :: ls0', (_, W, b, _) :: ls', K :: Ks' =>
    kept_val o ls0' ls' Ks' (layer_val i o W0 b0 F X0)
      (fun r c => K (layer_val i o W0 b0 (fun x => x) X0 r c) (layer_val i o W b (fun x => x) X r c))
  | _, _, _ => X
  end.

(** Its loss: the absolute values keep their branches too. *)
Definition kept_loss (n i : nat) (ls0 ls : net) (Ks : list (R -> R -> R)) (X Y : nat -> nat -> R) : R :=
  sumn n (fun r => sumn (net_out i (outputs ls0)) (fun c =>
    abs_branch (net_val i ls0 X r c - Y r c) (kept_val i ls0 ls Ks X X r c - Y r c))).

(** One step along the derivative of that loss, which always exists *)
Definition kept_step (step : R) (n i : nat) (X Y : nat -> nat -> R) (ls ls' : net) : Prop :=
  map (fun '(o, _, _, F) => (o, F)) ls' = map (fun '(o, _, _, F) => (o, F)) ls /\
  map (@length R) (net_parameters ls') = map (@length R) (net_parameters ls) /\
  exists Ks, Forall2 keeps (map snd ls) Ks /\
  forall j P P', nth_error (net_parameters ls) j = Some P -> nth_error (net_parameters ls') j = Some P' ->
    forall q, (q < length P)%nat ->
      exists d, derivable_pt_lim (fun t => kept_loss n i ls (bump_param ls j q t) Ks X Y) 0 d /\ nth q P' 0 = nth q P 0 - step * d.

(** Training on the samples [(x, y)], whose values are given by [v], in such steps *)
Inductive kept_descent (step : R) (i : nat) (v : nat -> raw R) : list (nat * nat) -> net -> net -> Prop :=
| kept_nil ls : kept_descent step i v [] ls ls
| kept_cons x y n samples ls ls1 ls' :
    shape (v x) = [n; i] ->
    kept_step step n i (entries i (array (v x))) (entries (net_out i (outputs ls)) (array (v y))) ls ls1 ->
    kept_descent step i v samples ls1 ls' ->
    kept_descent step i v ((x, y) :: samples) ls ls'.

(** Samples of [n] rows, [i] inputs and [c] outputs *)
Definition sample_ok (data : list nat) (v : nat -> raw R) (i : nat) (ls : net) (s : nat * nat) : Prop :=
  In (fst s) data /\ In (snd s) data /\
  exists n, (0 < n)%nat /\ shape (v (fst s)) = [n; i] /\ shape (v (snd s)) = [n; net_out i (outputs ls)] /\ small_net n i ls.
