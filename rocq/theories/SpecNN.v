(** * SpecNN: what layers and networks compute, as functions of matrices *)
From Verif Require Import Base ModelIndex ModelTensor ModelOps ModelJvp ModelGraph ModelNN Spec SpecDual SpecGraph.

Section SpecNN.
Context {T : Type} {NT : Num T}.

(** Element [(r, c)] of a layer applied to the matrix [X] with [i] columns: weights [W] of [i] rows and
    [o] columns in row-major order, one bias per column, then [F]. *)
Definition layer_val (i o : nat) (W b : list T) (F : T -> T) (X : nat -> nat -> T) (r c : nat) : T :=
  F (n_add (sumn i (fun t => n_mul (X r t) (nth (t * o + c) W n_zero))) (nth c b n_zero)).

(** A network: per layer the number of outputs, weights, biases and activation; [i] is the number of
    inputs. *)
Fixpoint net_val (i : nat) (ls : list (nat * list T * list T * (T -> T))) (X : nat -> nat -> T) : nat -> nat -> T :=
  match ls with
  | [] => X
  | (o, W, b, F) :: ls' => net_val o ls' (layer_val i o W b F X)
  end.

(** Number of outputs *)
Fixpoint net_out (i : nat) (os : list nat) : nat := match os with [] => i | o :: os' => net_out o os' end.

(** The activations the library offers (element_wise_ops.rs:23-70, 323; [None] in [Linear::new]),
    with the scalar function each applies *)
Inductive act_fn : act T -> (T -> T) -> Prop :=
| act_none : act_fn (fun h t => Ret (h, t)) (fun x => x)
| act_relu : act_fn op_relu (fun x => if n_lt x n_zero then n_zero else x)
| act_tanh : act_fn op_tanh n_tanh
| act_abs : act_fn op_abs n_abs
| act_neg : act_fn op_neg n_neg.

(** The parameters of the layers are in the heap, with the shapes of a network with [i] inputs and
    layers of [os] outputs: weights [[i, o]], biases [[1, o]] or [[o]]; their values are [ls]. *)
Inductive net_params (v : nat -> raw T) : nat -> list (linear T) -> list (nat * list T * list T * (T -> T)) -> Prop :=
| np_nil i : net_params v i [] []
| np_cons i l m o F ls :
    act_fn (activation l) F ->
    wf (v (weights l)) -> shape (v (weights l)) = [i; o] ->
    wf (v (bias l)) -> shape (v (bias l)) = [1; o] \/ shape (v (bias l)) = [o] ->
    0 < i -> 0 < o ->
    net_params v o m ls -> net_params v i (l :: m) ((o, array (v (weights l)), array (v (bias l)), F) :: ls).

(** A matrix given by its array *)
Definition entries (cols : nat) (a : list T) (r c : nat) : T := nth (r * cols + c) a n_zero.

End SpecNN.

(** ** Training *)
Section Training.
Context {T : Type} {NT : Num T}.

(** Every parameter has a gradient of its own shape. *)
Definition has_grads (h : heap T) (ps : list nat) : Prop :=
  Forall (fun p => p < length (nodes h) /\ positive (shape (vof (nodes h) p)) /\
                   exists g, grads h p = Some g /\ wf g /\ shape g = shape (vof (nodes h) p)) ps.

(** Tensor [new] in [h'] is a stepped version of [p] in [h]: same shape, elements [p - c * grad]
    (written with the operations the code uses, a negation and an addition), a tensor that did not exist
    in [h], and it has no gradient. *)
Definition stepped (c : T) (h h' : heap T) (p new : nat) : Prop :=
  exists g, grads h p = Some g /\
    shape (vof (nodes h') new) = shape (vof (nodes h) p) /\
    array (vof (nodes h') new) = map (fun '(x, y) => n_add x (n_neg (n_mul c y))) (combine (array (vof (nodes h) p)) (array g)) /\
    length (nodes h) <= new < length (nodes h') /\ grads h' new = None.

(** [k] rounds: compute anything (forward passes, losses, [backward], [zero_grad]), then step. *)
Inductive trained (step : raw T) : nat -> heap T -> list nat -> heap T -> list nat -> Prop :=
| tr_start h ps : trained step 0 h ps h ps
| tr_round k h ps h1 ps1 h2 h3 ps3 :
    trained step k h ps h1 ps1 -> extends h1 h2 -> sgd_new_params step h2 ps1 = Ret (h3, ps3) ->
    trained step (S k) h ps h3 ps3.

(** [p], what it was computed from, ..., all of it still referenced from the last element *)
Inductive chain (ns : list (node T)) : nat -> nat -> nat -> Prop :=
| ch_zero p : chain ns 0 p p
| ch_more k p q r : chain ns k p q -> q < r -> uses ns r q -> chain ns (S k) p r.

End Training.
