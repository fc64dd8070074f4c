(** * ModelMain: the program in main.rs *)
From Verif Require Import Base ModelIndex ModelTensor ModelOps ModelJvp ModelGraph ModelNN.

Section Main.
Context {T : Type} {NT : Num T}.

(** [functional::relu], [functional::tanh] as activations: main.rs:33,38,43 *)
Definition relu_layer (w b : nat) : linear T := linear_new w b (Some op_relu).
Definition tanh_layer (w b : nat) : linear T := linear_new w b (Some op_tanh).

(** The network of main.rs:29-45: three layers, [inp -> hid -> hid -> out] (8, 8192, 8192, 8 in the
    code), with the parameters in the order in which they are sampled.  [sample_vector(&shape)]
    (main.rs:14-21) draws [shape.iter().product()] numbers; here they are arguments. *)
Definition main_net (inp hid out : nat) (w1 b1 w2 b2 w3 b3 : list T) (h : heap T) : outcome (heap T * mlp T) :=
  let* (h, iw1) := op_new h w1 [inp; hid] in
  let* (h, ib1) := op_new h b1 [1; hid] in
  let* (h, iw2) := op_new h w2 [hid; hid] in
  let* (h, ib2) := op_new h b2 [1; hid] in
  let* (h, iw3) := op_new h w3 [hid; out] in
  let* (h, ib3) := op_new h b3 [1; out] in
  Ret (h, [relu_layer iw1 ib1; tanh_layer iw2 ib2; tanh_layer iw3 ib3]).

(** The body of the loop: main.rs:79-92.  [step] is [RcTensor::scalar(1e-2)] (main.rs:86), given by its value. *)
Definition main_round (step : T) (x y : nat) (hm : heap T * mlp T) : outcome (heap T * mlp T) :=
  let (h, m) := hm in
  let* (h1, m1) := train_step m (raw_scalar step) h x y in
  Ret (zero_grad (zero_grad h1 y) x, m1).

(** Everything before the loop: main.rs:11-76.  [one] is 1.0.  Left out: the random numbers (any values are allowed). *)
Definition main_setup (inp hid out : nat) (one : T) (w1 b1 w2 b2 w3 b3 input : list T) : outcome (heap T * mlp T * nat * nat) :=
  let* (h, m) := main_net inp hid out w1 b1 w2 b2 w3 b3 (mkHeap [] (fun _ => None)) in
  let* (h, x) := op_new h input [1; inp] in
  let* (h, y) := op_filler h [1; out] one in
  Ret (h, m, x, y).

(** [main]: main.rs:10-96.  [rounds] is 2.  Left out: printing. *)
Definition main_program (inp hid out rounds : nat) (one step : T) (w1 b1 w2 b2 w3 b3 input : list T) : outcome (heap T * mlp T) :=
  let* (h, m, x, y) := main_setup inp hid out one w1 b1 w2 b2 w3 b3 input in
  foldM (fun hm _ => main_round step x y hm) (repeat tt rounds) (h, m).

End Main.
