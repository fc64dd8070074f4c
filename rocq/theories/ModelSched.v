(** * ModelSched: whole programs under any thread schedule

    The models of ModelGraph, ModelNN and ModelMain run [bmm_raw] and [bmm_jvp] in one order.  Here every
    call of theirs may go as any run of the machines of ModelPar goes, so that a program has a set of
    outcomes.  Everything else on a program's path is done by the calling thread alone. *)
From Verif Require Import Base ModelIndex ModelTensor ModelOps ModelJvp ModelGraph ModelNN ModelMain ModelPar.

(** A computation with several possible outcomes.  A run that never ends has none.
    (The rest of this file: functional/misc.rs:46-139, 211-331 and their callers.) *)
Definition nd (A : Type) : Type := outcome A -> Prop.
(** A computation of the calling thread alone: everything but functional/misc.rs:87-120, 258-326 *)
Definition just {A : Type} (m : outcome A) : nd A := fun r => r = m.
(** Sequencing, as [let*]: a panic of a scope (functional/misc.rs:87-120, 258-326) is passed on to the caller. *)
Definition nbind {A B : Type} (m : nd A) (f : A -> nd B) : nd B := fun r =>
  (exists a, m (Ret a) /\ f a r) \/ (exists p, m (Panic p) /\ r = Panic p) \/ (m NoFuel /\ r = NoFuel).
Notation "'let~' x ':=' m 'in' k" := (nbind m (fun x => k)) (at level 200, x pattern, m at level 100, k at level 200, right associativity).
(** Loops (autograd/jvp.rs:37-50, feed_foward.rs:27-31, main.rs:78-93) *)
Fixpoint nfoldM {A B : Type} (f : A -> B -> nd A) (l : list B) (a : A) : nd A :=
  match l with [] => just (Ret a) | x :: t => let~ a' := f a x in nfoldM f t a' end.

Section Any.
Context {T : Type} {NT : Num T}.

(** ** The two concurrent functions *)

(** [bmm_raw]: functional/misc.rs:46-139; every row as some run of its scope (lines 87-120) leaves it *)
Definition bmm_raw_any (left right : tlike T) : nd (raw T) := fun o =>
  exists row, (forall n li, row_runs left right li (nth 0 (tl_shape right) 0) (nth 1 (tl_shape right) 0) (row n li)) /\
    o = bmm_raw_with row left right.

(** [bmm_jvp]: functional/misc.rs:211-331; any run of the scope (lines 258-326) that comes to its end, or in which a
    job panics (which panic is passed on is left open) *)
Definition bmm_jvp_any (workers : nat) (fifo : bool) (tensors grads : list (raw T)) : nd (list (raw T)) := fun o =>
  match bmm_jvp_start tensors grads with
  | Ret (st0, shapes) =>
    (exists st, par_run workers fifo (Some st0) (Some st) /\ finished st /\ o = bmm_jvp_finish shapes st) \/
    (par_run workers fifo (Some st0) None /\ exists p, o = Panic p)
  | Panic p => o = Panic p
  | NoFuel => o = NoFuel
  end.

(** ** What calls them, with the two functions as parameters *)
Section With.
Variables (bmm : tlike T -> tlike T -> nd (raw T)) (bmm_back : list (raw T) -> list (raw T) -> nd (list (raw T))).

(** [jvp_from_full_jacobians]: autograd/jvp.rs:56-70 *)
Definition full_jacobians_nd (left right : raw T) : nd (raw T) :=
  let left_one := is_scalar left || (product (shape left) =? 1) in
  let right_one := is_scalar right || (product (shape right) =? 1) in
  if right_one || left_one then just (assert left_one ;; mul_raw left (LRaw right))
  else bmm (LRaw left) (LRaw right).

(** [tanh_derivative_outer]: element_wise_ops.rs:72-81 *)
Definition tanh_jvp_nd (tensors grads : list (raw T)) : nd (list (raw T)) :=
  let~ (t, g) := just (one_one tensors grads) in
  let~ jacobian := just (tanh_derivative t) in
  let~ new_grad := full_jacobians_nd g jacobian in
  just (Ret [new_grad]).

(** [dot_jvp]: functional/misc.rs:362-374 *)
Definition dot_jvp_nd (tensors grads : list (raw T)) : nd (list (raw T)) :=
  let~ (l, r, jac) := just (two_one tensors grads) in
  let~ left_jvp := full_jacobians_nd jac r in
  let~ right_jvp := full_jacobians_nd jac l in
  just (Ret [left_jvp; right_jvp]).

(** Calling the [fn] pointer: autograd/jvp.rs:34 *)
Definition jvp_nd (k : opk) (tensors outer : list (raw T)) : nd (list (raw T)) :=
  match k with
  | KTanh => tanh_jvp_nd tensors outer
  | KBmm => bmm_back tensors outer
  | KDot => dot_jvp_nd tensors outer
  | _ => just (jvp k tensors outer)
  end.

(** [Derivative::compute_jvp]: autograd/jvp.rs:30-51 *)
Fixpoint compute_jvp_nd (fuel : nat) (ns : list (node T)) (k : opk) (inputs : list nat)
    (outer : list (raw T)) (gr : nat -> option (raw T)) : nd (nat -> option (raw T)) :=
  match fuel with
  | O => just NoFuel
  | S f =>
    let~ ins := just (mapM (vindex ns) inputs) in
    let~ self_grads := jvp_nd k (map n_val ins) outer in
    nfoldM (fun gr '(g, (i, nd)) =>
             let~ gr' := just (assert (length (array g) =? length (array (n_val nd))) ;;
                               let* shaped_grad := raw_new (array g) (shape (n_val nd)) in
                               update_grad gr i shaped_grad) in
             match n_fn nd with
             | Some (k', inputs') => compute_jvp_nd f ns k' inputs' [g] gr'
             | None => just (Ret gr')
             end)
          (combine self_grads (combine inputs ins)) gr
  end.

(** [RcTensor::backward]: rc_tensor.rs:50-60 *)
Definition backward_nd (h : heap T) (i : nat) : nd (heap T) :=
  let~ nd := just (hget h i) in
  let~ _ := just (assert (length (array (n_val nd)) =? 1)) in
  let~ (k, inputs) := just (unwrap_opt (n_fn nd)) in
  let~ gr := compute_jvp_nd (S (length (nodes h))) (nodes h) k inputs [raw_scalar n_one] (grads h) in
  just (Ret (mkHeap (nodes h) gr)).

(** [RcTensor::bmm], [bmm_rc]: rc_tensor.rs:206-225 *)
Definition op_bmm_nd (h : heap T) (i j : nat) : nd (heap T * nat) :=
  let~ a := just (hget h i) in
  let~ b := just (hget h j) in
  let~ t := bmm (LRaw (n_val a)) (LRaw (n_val b)) in
  just (Ret (alloc h t (Some (KBmm, [i; j])) None)).
(** [bmm_rc] with a view on the right: rc_tensor.rs:213-225, tensor_view.rs:112-118 *)
Definition op_bmm_view_nd (h : heap T) (i j : nat) (o : list slice_range) : nd (heap T * nat) :=
  let~ a := just (hget h i) in
  let~ b := just (hget h j) in
  let~ v := just (view_new (n_val b) o) in
  let~ t := bmm (LRaw (n_val a)) (LView v) in
  let~ r := just (tl_to_tensor (LView v)) in
  just (let (h1, ir) := alloc h r None None in Ret (alloc h1 t (Some (KBmm, [i; ir])) None)).

(** Programs, as in ModelGraph: rc_tensor.rs:65-67 *)
Definition push_nd (s : state T) (m : nd (heap T * nat)) : nd (state T) :=
  let~ r := m in just (push s (Ret r)).
(** One call: rc_tensor.rs:206-225 and 50-60 are those in which threads run. *)
Definition exec_nd (s : state T) (c : cmd T) : nd (state T) :=
  let h := hp s in
  let v := vindex (env s) in
  match c with
  | CBmm x y => let~ i := just (v x) in let~ j := just (v y) in push_nd s (op_bmm_nd h i j)
  | CBmmView x y o => let~ i := just (v x) in let~ j := just (v y) in push_nd s (op_bmm_view_nd h i j o)
  | CBackward x => let~ i := just (v x) in let~ h' := backward_nd h i in just (Ret (mkState h' (env s)))
  | _ => just (exec s c)
  end.
(** Calls one after the other, until one panics (rc_tensor.rs:45-373) *)
Definition run_nd (p : list (cmd T)) (s : state T) : nd (state T) := nfoldM exec_nd p s.

(** [Linear::forward]: linear.rs:46-52.  The activation is deterministic: [relu], [tanh], or none (the
    activations a user can pass are [fn] pointers; one that multiplies matrices is left out). *)
Definition linear_forward_nd (l : linear T) (h : heap T) (batch : nat) : nd (heap T * nat) :=
  let~ (h1, y) := op_bmm_nd h batch (weights l) in
  just (let* (h2, z) := op_add h1 y (bias l) in activation l h2 z).

(** [Mlp::forward]: feed_foward.rs:27-31 *)
Definition mlp_forward_nd (m : mlp T) (h : heap T) (batch : nat) : nd (heap T * nat) :=
  nfoldM (fun '(h, prev) layer => linear_forward_nd layer h prev) m (h, batch).

(** One round of training: main.rs:79-87, feed_foward.rs:119-127 *)
Definition train_step_nd (m : mlp T) (step_size : raw T) (h : heap T) (x y : nat) : nd (heap T * mlp T) :=
  let~ (h1, res) := mlp_forward_nd m h x in
  let~ (h4, loss) := just (let* (h2, diff) := op_sub h1 res y in let* (h3, ab) := op_abs h2 diff in op_sum h3 ab) in
  let~ h5 := backward_nd h4 loss in
  just (sgd_step_mlp m step_size h5).

(** A round of [main]: main.rs:79-92 *)
Definition main_round_nd (step : T) (x y : nat) (hm : heap T * mlp T) : nd (heap T * mlp T) :=
  let (h, m) := hm in
  let~ (h1, m1) := train_step_nd m (raw_scalar step) h x y in
  just (Ret (zero_grad (zero_grad h1 y) x, m1)).
(** [main]: main.rs:10-96, all rounds *)
Definition main_program_nd (inp hid out rounds : nat) (one step : T) (w1 b1 w2 b2 w3 b3 input : list T) : nd (heap T * mlp T) :=
  let~ (h, m, x, y) := just (main_setup inp hid out one w1 b1 w2 b2 w3 b3 input) in
  nfoldM (fun hm _ => main_round_nd step x y hm) (repeat tt rounds) (h, m).

End With.

(** The outcomes of a program on a pool of [workers] threads, see [par_step]:
    functional/misc.rs:87-120, 258-326; rc_tensor.rs:45-373 *)
Definition run_any (workers : nat) (fifo : bool) (p : list (cmd T)) (s : state T) : nd (state T) :=
  run_nd bmm_raw_any (bmm_jvp_any workers fifo) p s.
(** The outcomes of [main]: main.rs:10-96 *)
Definition main_program_any (workers : nat) (fifo : bool) inp hid out rounds one step w1 b1 w2 b2 w3 b3 input : nd (heap T * mlp T) :=
  main_program_nd bmm_raw_any (bmm_jvp_any workers fifo) inp hid out rounds one step w1 b1 w2 b2 w3 b3 input.

End Any.
