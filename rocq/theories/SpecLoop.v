(** * SpecLoop: what a training loop needs, for any arithmetic *)
From Verif Require Import Base ModelIndex ModelTensor ModelOps ModelJvp ModelGraph ModelNN Spec SpecDual SpecGraph SpecNN.

Section SpecLoop.
Context {T : Type} {NT : Num T}.

(** Heaps built by the library from non-empty tensors, whose gradients have the shape of their tensor
    (except those [sum] sets) *)
Definition sound_heap (h : heap T) : Prop :=
  heap_inv h /\ nonempty (nodes h) /\ matrices_only (nodes h) /\
  forall n g, grads h n = Some g -> n < length (nodes h) ->
    wf g /\ positive (shape g) /\ ((forall ins, fn_of (nodes h) n <> Some (KSum, ins)) -> shape g = shape (vof (nodes h) n)).

(** The network [m] with [i] inputs and layers of [os] outputs is in the heap: shapes and activations
    are right.  Nothing is said about the values. *)
Definition net_in (h : heap T) (m : mlp T) (i : nat) (os : list nat) : Prop :=
  (forall p, In p (mlp_params m) -> p < length (nodes h) /\ no_dot (nodes h) p) /\
  exists ls, net_params (vof (nodes h)) i m ls /\ map (fun '(o, _, _, _) => o) ls = os.

(** A batch of inputs and targets *)
Definition sample_in (h : heap T) (i : nat) (os : list nat) (s : nat * nat) : Prop :=
  let (x, y) := s in
  x < length (nodes h) /\ y < length (nodes h) /\ no_dot (nodes h) x /\ no_dot (nodes h) y /\
  exists n, 0 < n /\ shape (vof (nodes h) x) = [n; i] /\ shape (vof (nodes h) y) = [n; net_out i os].

(** The shapes of the parameters *)
Definition param_shapes (h : heap T) (m : mlp T) : list (list nat) := map (fun p => shape (vof (nodes h) p)) (mlp_params m).

End SpecLoop.
