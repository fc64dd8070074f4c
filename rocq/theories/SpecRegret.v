(** * SpecRegret: the losses of a training run, and distances between parameters *)
From Coq Require Import Reals.
From Verif Require Import Base ModelIndex ModelTensor ModelOps ModelJvp ModelGraph ModelNN Spec SpecDual SpecGraph SpecNN RealInst SpecReal SpecTrain SpecDescent.
Local Open Scope R_scope.

(** [losses] are the losses that the training loop computes in its rounds on [samples], in order. *)
Inductive rounds (step : R) : mlp R -> heap R -> list (nat * nat) -> list R -> Prop :=
| rounds_nil m h : rounds step m h [] []
| rounds_cons m h x y samples l losses h1 m1 :
    computes_loss m h x y l -> train_step m (raw_scalar step) h x y = Ret (h1, m1) ->
    rounds step m1 h1 samples losses -> rounds step m h ((x, y) :: samples) (l :: losses).

(** One layer of [o] outputs without an activation *)
Definition one_layer (o : nat) (W b : list R) : net := [(o, W, b, fun x => x)].

(** Square of the distance of two such layers with [i] inputs *)
Definition dist2 (i o : nat) (W b W' b' : list R) : R :=
  sumn i (fun t => sumn o (fun c => (nth (t * o + c) W 0 - nth (t * o + c) W' 0)²)) + sumn o (fun c => (nth c b 0 - nth c b' 0)²).

(** Bound of the squared length of the gradient on input [X] of [n] rows *)
Definition slope2 (n i o : nat) (X : nat -> nat -> R) : R :=
  sumn i (fun t => INR o * (sumn n (fun r => Rabs (X r t)))²) + INR o * (INR n)².

(** The loss of layer [W], [b] on sample [(x, y)], whose values are [v] *)
Definition sample_loss (v : nat -> raw R) (i o : nat) (W b : list R) (s : nat * nat) : R :=
  net_loss (hd 0%nat (shape (v (fst s)))) i (one_layer o W b) (entries i (array (v (fst s)))) (entries o (array (v (snd s)))).
(** The bound of the gradient on it *)
Definition sample_slope2 (v : nat -> raw R) (i o : nat) (s : nat * nat) : R :=
  slope2 (hd 0%nat (shape (v (fst s)))) i o (entries i (array (v (fst s)))).
(** Sum over a list *)
Definition total {A} (f : A -> R) (l : list A) : R := fold_right (fun a acc => f a + acc) 0 l.
