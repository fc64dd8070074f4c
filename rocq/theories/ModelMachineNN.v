(** * ModelMachineNN: layers, networks, SGD and main.rs with every calculation done by the program of ModelKernel.v

    Here a layer's activation is given by its name; those of the crate that map a tensor to a tensor are listed in [activ].  What
    remains outside the small language is which tensor is passed where. *)
From Coq Require String.
Import String.StringSyntax.
From Verif Require Import Base ModelIndex ModelTensor ModelOps ModelJvp ModelGraph ModelNN ModelUsize ModelRust ModelKernel ModelMachine.
#[local] Open Scope string_scope.

(** The crate's functions that can be an activation, and none: linear.rs:13, 24-37, functional/element_wise_ops.rs:23-70,
    323-334, rc_tensor.rs:329-345 *)
Inductive activ : Type := ANone | ARelu | ATanh | AAbs | ANeg.
(** [Linear]: linear.rs:7-14 *)
Record layer : Type := mkLayer { l_weights : nat; l_bias : nat; l_activation : activ }.

Section MachineNN.
Context {U : usize_ops} {T : Type} {NT : Num T}.
Variable N : nat.

(** The activation applied: linear.rs:51, 33-36 *)
Definition m_activate (a : activ) (h : heap T) (i : nat) : outcome (heap T * nat) :=
  match a with
  | ANone => Ret (h, i)
  | ARelu => m_op1 N KRelu h i
  | ATanh => m_op1 N KTanh h i
  | AAbs => m_op1 N KAbs h i
  | ANeg => m_op1 N KNeg h i
  end.
(** [Sub]: rc_tensor.rs:298-327 *)
Definition m_sub (h : heap T) (i j : nat) : outcome (heap T * nat) :=
  let* (h', nj) := m_op1 N KNeg h j in m_op2 N KAdd h' i nj.
(** [RcTensor::sum]: rc_tensor.rs:181-189 *)
Definition m_sum (h : heap T) (i : nat) : outcome (heap T * nat) :=
  let* a := hget h i in
  let* (t, g) := get_two (go N "RawTensor::sum" [VTen (LRaw (n_val a))]) in
  Ret (alloc h t (Some (KSum, [i])) (Some g)).
(** [Linear::forward]: linear.rs:46-52 *)
Definition m_linear_forward (l : layer) (h : heap T) (batch : nat) : outcome (heap T * nat) :=
  let* (h1, y) := m_op2 N KBmm h batch (l_weights l) in
  let* (h2, z) := m_op2 N KAdd h1 y (l_bias l) in
  m_activate (l_activation l) h2 z.
(** [Mlp::forward]: feed_foward.rs:27-31 *)
Definition m_mlp_forward (m : list layer) (h : heap T) (batch : nat) : outcome (heap T * nat) :=
  foldM (fun '(h, prev) l => m_linear_forward l h prev) m (h, batch).
(** [Mlp::params], [Linear::params]: feed_foward.rs:33-38, linear.rs:54-56 *)
Definition layer_params (m : list layer) : list nat := flat_map (fun l => [l_weights l; l_bias l]) m.
(** [Mlp::update_params], [Linear::update_params]: feed_foward.rs:40-47, linear.rs:57-60: from the last layer to the first,
    the parameters taken from the end of the list, the bias first *)
Fixpoint layer_update_loop (rev_layers : list layer) (rev_params : list nat) (acc : list layer) : outcome (list layer) :=
  match rev_layers with
  | [] => Ret acc
  | l :: rest =>
    match rev_params with
    | b :: w :: ps => layer_update_loop rest ps (mkLayer w b (l_activation l) :: acc)
    | _ => Panic PUnwrap
    end
  end.
Definition layer_update_params (m : list layer) (new_params : list nat) : outcome (list layer) :=
  layer_update_loop (rev m) (rev new_params) [].
(** One parameter of [sgd_step]: sgd.rs:35-39 *)
Definition m_sgd_param (step_size : raw T) (h : heap T) (p : nat) : outcome (heap T * nat) :=
  let* g := unwrap_opt (grads h p) in
  let* prod := m_mul_raw N step_size (LRaw g) in
  let (h1, ip) := alloc h prod None None in
  let* (h2, new) := m_sub h1 p ip in
  Ret (zero_grad h2 new, new).
(** [sgd_step]: sgd.rs:29-42 *)
Definition m_sgd_step (m : list layer) (step_size : raw T) (h : heap T) : outcome (heap T * list layer) :=
  let* (h', new_params) :=
    foldM (fun '(h, acc) p => let* (h', new) := m_sgd_param step_size h p in Ret (h', acc ++ [new])) (layer_params m) (h, []) in
  let* m' := layer_update_params m new_params in
  Ret (h', m').
(** One round: main.rs:79-87, feed_foward.rs:119-127 *)
Definition m_train_step (m : list layer) (step_size : raw T) (h : heap T) (x y : nat) : outcome (heap T * list layer) :=
  let* (h1, res) := m_mlp_forward m h x in
  let* (h2, diff) := m_sub h1 res y in
  let* (h3, ab) := m_op1 N KAbs h2 diff in
  let* (h4, loss) := m_sum h3 ab in
  let* h5 := m_backward N h4 loss in
  m_sgd_step m step_size h5.
(** The loop, over the samples it draws: main.rs:78-93, feed_foward.rs:119-127 *)
Definition m_train (m : list layer) (step_size : raw T) (h : heap T) (samples : list (nat * nat)) : outcome (heap T * list layer) :=
  foldM (fun '(h, m) '(x, y) => m_train_step m step_size h x y) samples (h, m).

(** [RcTensor::new]: rc_tensor.rs:90-93 *)
Definition m_new (h : heap T) (a : list T) (s : list nat) : outcome (heap T * nat) :=
  let* t := m_raw_new N a s in Ret (alloc h t None None).
(** [main]: main.rs:10-96: the network (lines 29-45), input and expectation (75-76), the rounds (78-93).  Left out, as in
    ModelMain.v: where the random numbers come from, printing. *)
Definition m_main (inp hid out rounds : nat) (one step : T) (w1 b1 w2 b2 w3 b3 input : list T) : outcome (heap T * list layer) :=
  let* (h, iw1) := m_new (mkHeap [] (fun _ => None)) w1 [inp; hid] in
  let* (h, ib1) := m_new h b1 [1; hid] in
  let* (h, iw2) := m_new h w2 [hid; hid] in
  let* (h, ib2) := m_new h b2 [1; hid] in
  let* (h, iw3) := m_new h w3 [hid; out] in
  let* (h, ib3) := m_new h b3 [1; out] in
  let* (h, x) := m_new h input [1; inp] in
  let* t := m_raw_filler N [1; out] one in
  let (h, y) := alloc h t None None in
  foldM (fun '(h, m) (_ : unit) =>
      let* (h1, m1) := m_train_step m (raw_scalar step) h x y in
      Ret (zero_grad (zero_grad h1 y) x, m1))
    (repeat tt rounds) (h, [mkLayer iw1 ib1 ARelu; mkLayer iw2 ib2 ATanh; mkLayer iw3 ib3 ATanh]).
End MachineNN.
