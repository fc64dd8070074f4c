(** * ModelNN: nn/linear.rs, nn/feed_foward.rs, nn/module.rs, optim/sgd.rs *)
From Verif Require Import Base ModelIndex ModelTensor ModelOps ModelJvp ModelGraph.

Section NN.
Context {T : Type} {NT : Num T}.

(** [fn(RcTensor<T>) -> RcTensor<T>]: linear.rs:13.  A user may pass any function. *)
Definition act : Type := heap T -> nat -> outcome (heap T * nat).

(** [Linear]: linear.rs:7-14 *)
Record linear : Type := mkLinear { weights : nat; bias : nat; activation : act }.

(** [Linear::new]: linear.rs:24-37 *)
Definition linear_new (w b : nat) (a : option act) : linear :=
  mkLinear w b (match a with Some f => f | None => fun h t => Ret (h, t) end).

(** [Linear::forward]: linear.rs:46-52 ([to_tensor] of an [RcTensor] is the same handle) *)
Definition linear_forward (l : linear) (h : heap T) (batch : nat) : outcome (heap T * nat) :=
  let* (h1, y) := op_bmm h batch (weights l) in
  let* (h2, z) := op_add h1 y (bias l) in
  activation l h2 z.

(** [Linear::params]: linear.rs:20-22, 54-56 *)
Definition linear_params (l : linear) : list nat := [weights l; bias l].

(** [Vec::remove]: panics when out of bounds: linear.rs:58-59 *)
Definition vremove {A : Type} (v : list A) (i : nat) : outcome (A * list A) :=
  let* x := vindex v i in Ret (x, firstn i v ++ skipn (S i) v).

(** [Linear::update_params]: linear.rs:57-60 *)
Definition linear_update_params (l : linear) (new_params : list nat) : outcome linear :=
  let* (b, rest) := vremove new_params 1 in
  let* (w, _) := vremove rest 0 in
  Ret (mkLinear w b (activation l)).

(** [Mlp]: feed_foward.rs:8-19; the array of layers *)
Definition mlp : Type := list linear.

(** [Mlp::forward]: feed_foward.rs:27-31 *)
Definition mlp_forward (m : mlp) (h : heap T) (batch : nat) : outcome (heap T * nat) :=
  foldM (fun '(h, prev) layer => linear_forward layer h prev) m (h, batch).

(** [Mlp::params]: feed_foward.rs:33-38 *)
Definition mlp_params (m : mlp) : list nat := flat_map linear_params m.

(** [Mlp::update_params]: feed_foward.rs:40-47: layers from the last to the first, parameters
    taken from the end of the list. *)
Fixpoint mlp_update_loop (rev_layers : list linear) (rev_params : list nat) (acc : list linear)
  : outcome (list linear) :=
  match rev_layers with
  | [] => Ret acc
  | l :: rest =>
    match rev_params with
    | b :: w :: ps =>
      let* l' := linear_update_params l [w; b] in mlp_update_loop rest ps (l' :: acc)
    | _ => Panic PUnwrap
    end
  end.
Definition mlp_update_params (m : mlp) (new_params : list nat) : outcome mlp :=
  mlp_update_loop (rev m) (rev new_params) [].

(** One parameter of [sgd_step]: sgd.rs:35-39: [p.clone() - &step_size * p.grad()].  The product is
    an [RcTensor] without history; [Sub<RcTensor> for RcTensor] (rc_tensor.rs:310-318) allocates a
    negation and an addition with history. *)
Definition sgd_param (step_size : raw T) (h : heap T) (p : nat) : outcome (heap T * nat) :=
  let* g := unwrap_opt (grads h p) in
  let* prod := mul_raw step_size (LRaw g) in
  let (h1, ip) := alloc h prod None None in
  let* (h2, new) := op_sub h1 p ip in
  Ret (zero_grad h2 new, new).

(** [sgd_step]: sgd.rs:29-42, parameters updated in order.  [step_size] is the value of the
    [Scalar]. *)
Definition sgd_new_params (step_size : raw T) (h : heap T) (ps : list nat)
  : outcome (heap T * list nat) :=
  foldM (fun '(h, acc) p => let* (h', new) := sgd_param step_size h p in Ret (h', acc ++ [new]))
        ps (h, []).

Definition sgd_step_mlp (m : mlp) (step_size : raw T) (h : heap T) : outcome (heap T * mlp) :=
  let* (h', new_params) := sgd_new_params step_size h (mlp_params m) in
  let* m' := mlp_update_params m new_params in
  Ret (h', m').

Definition sgd_step_linear (l : linear) (step_size : raw T) (h : heap T)
  : outcome (heap T * linear) :=
  let* (h', new_params) := sgd_new_params step_size h (linear_params l) in
  let* l' := linear_update_params l new_params in
  Ret (h', l').

(** One round of the training loop in main.rs:79-87, feed_foward.rs:119-127:
    [res = mlp.forward(x); loss = (&res - &y).abs().sum(); loss.backward(); sgd_step(&mut mlp, step)].
    Resetting the gradients of [x] and [y] afterwards (main.rs:91-92) is left out: the statements
    about it hold whatever those gradients are. *)
Definition train_step (m : mlp) (step_size : raw T) (h : heap T) (x y : nat) : outcome (heap T * mlp) :=
  let* (h1, res) := mlp_forward m h x in
  let* (h2, diff) := op_sub h1 res y in
  let* (h3, ab) := op_abs h2 diff in
  let* (h4, loss) := op_sum h3 ab in
  let* h5 := backward h4 loss in
  sgd_step_mlp m step_size h5.

(** The loop, over the samples it draws: main.rs:78-93, feed_foward.rs:119-127 *)
Definition train (m : mlp) (step_size : raw T) (h : heap T) (samples : list (nat * nat)) : outcome (heap T * mlp) :=
  foldM (fun '(h, m) '(x, y) => train_step m step_size h x y) samples (h, m).

End NN.
Arguments linear T : clear implicits.
Arguments mlp T : clear implicits.
Arguments act T : clear implicits.
