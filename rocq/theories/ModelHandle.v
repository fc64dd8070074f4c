(** * ModelHandle: gradients as tensors

    ModelGraph keeps the VALUE of a stored gradient.  In the code the gradient cell holds an [RcTensor]
    (raw_tensor.rs:47): a tensor with a history and a gradient cell of its own, which [grad()] hands out
    and [update_grad] stores.  This file models that: a cell holds a handle. *)
From Verif Require Import Base ModelIndex ModelTensor ModelOps ModelJvp ModelGraph.

(** All tensors, the gradients among them, and their cells: raw_tensor.rs:40-49 *)
Record hheap (T : Type) : Type := mkHH { hnodes : list (node T); hgrads : nat -> option nat }.
Arguments mkHH {T} hnodes hgrads.
Arguments hnodes {T} h.
Arguments hgrads {T} h.

Section Handle.
Context {T : Type} {NT : Num T}.

(** No tensors (rc_tensor.rs:28) *)
Definition h_empty : hheap T := mkHH [] (fun _ => None).

(** [RcTensor::from_raw]: rc_tensor.rs:65-67 *)
Definition h_alloc (h : hheap T) (v : raw T) (fn : option (opk * list nat)) (g : option nat) : hheap T * nat :=
  (mkHH (hnodes h ++ [mkNode v fn]) (upd (hgrads h) (length (hnodes h)) g), length (hnodes h)).

(** A forward operation of ModelGraph reads tensors and appends new ones; it does not look at gradient
    cells, and the cells of new tensors are empty ([sum] and [grad] are treated below).
    (rc_tensor.rs:195-373, functional/misc.rs:386-398, element_wise_ops.rs:23-70) *)
Definition h_forward (op : heap T -> outcome (heap T * nat)) (h : hheap T) : outcome (hheap T * nat) :=
  let* (h', i) := op (mkHeap (hnodes h) (fun _ => None)) in
  Ret (mkHH (nodes h') (fun j => if j <? length (hnodes h) then hgrads h j else None), i).

(** [update_grad]: raw_tensor.rs:307-313.  An empty cell takes the tensor it is given; otherwise
    [other_grad + &grad] (line 310) is the addition of [RcTensor]s, rc_tensor.rs:260-275, which makes a
    tensor with a history. *)
Definition h_update_grad (h : hheap T) (i j : nat) : outcome (hheap T) :=
  match hgrads h i with
  | None => Ret (mkHH (hnodes h) (upd (hgrads h) i (Some j)))
  | Some other_grad =>
    let* (h', s) := h_forward (fun h => op_add h other_grad j) h in
    Ret (mkHH (hnodes h') (upd (hgrads h') i (Some s)))
  end.

(** [zero_grad]: raw_tensor.rs:303-305 *)
Definition h_zero_grad (h : hheap T) (i : nat) : hheap T := mkHH (hnodes h) (upd (hgrads h) i None).

(** [Derivative::compute_jvp]: autograd/jvp.rs:30-51.  [shaped_grad] (line 44) is a new tensor without
    history.  The tensors the rules return are only read (lines 38-48), so their values are enough. *)
Fixpoint h_compute_jvp (fuel : nat) (h : hheap T) (k : opk) (inputs : list nat) (outer : list (raw T))
  : outcome (hheap T) :=
  match fuel with
  | O => NoFuel
  | S f =>
    let* ins := mapM (vindex (hnodes h)) inputs in
    let* self_grads := jvp k (map n_val ins) outer in
    foldM (fun h '(g, (i, nd)) =>
             assert (length (array g) =? length (array (n_val nd))) ;;
             let* shaped_grad := raw_new (array g) (shape (n_val nd)) in
             let (h1, j) := h_alloc h shaped_grad None None in
             let* h2 := h_update_grad h1 i j in
             match n_fn nd with
             | Some (k', inputs') => h_compute_jvp f h2 k' inputs' [g]
             | None => Ret h2
             end)
          (combine self_grads (combine inputs ins)) h
  end.

(** [RcTensor::backward]: rc_tensor.rs:50-60 *)
Definition h_backward (h : hheap T) (i : nat) : outcome (hheap T) :=
  let* nd := vindex (hnodes h) i in
  assert (length (array (n_val nd)) =? 1) ;;
  let* (k, inputs) := unwrap_opt (n_fn nd) in
  h_compute_jvp (S (length (hnodes h))) h k inputs [raw_scalar n_one].

(** [RcTensor::sum]: rc_tensor.rs:181-189 with raw_tensor.rs:318-329: the cell of the new scalar holds a
    new tensor of ones. *)
Definition h_sum (h : hheap T) (i : nat) : outcome (hheap T * nat) :=
  let* nd := vindex (hnodes h) i in
  let (h1, g) := h_alloc h (raw_filler (shape (n_val nd)) n_one) None None in
  let* (h2, s) := h_forward (fun h => op_sum h i) h1 in
  Ret (mkHH (hnodes h2) (upd (hgrads h2) s (Some g)), s).

(** [grad]: rc_tensor.rs:123-133: the stored tensor itself, not a copy *)
Definition h_grad (h : hheap T) (i : nat) : outcome nat := unwrap_opt (hgrads h i).

(** Programs, as in ModelGraph: rc_tensor.rs:28 *)
Record hstate : Type := mkHState { hhp : hheap T; henv : list nat }.
(** A program starts without tensors (rc_tensor.rs:28). *)
Definition h_init : hstate := mkHState h_empty [].

(** [from_raw]: rc_tensor.rs:65-67 *)
Definition h_push (s : hstate) (r : outcome (hheap T * nat)) : outcome hstate :=
  let* (h, i) := r in Ret (mkHState h (henv s ++ [i])).

(** One call: rc_tensor.rs:45-373 and the other functions named in ModelGraph; the gradient calls are those above. *)
Definition h_exec (s : hstate) (c : cmd T) : outcome hstate :=
  let h := hhp s in
  let v := vindex (henv s) in
  let f op := h_push s (h_forward op h) in
  match c with
  | CNew a sh => f (fun h => op_new h a sh)
  | CFiller sh x => f (fun h => op_filler h sh x)
  | CScalar x => f (fun h => op_scalar h x)
  | CFrom n => f (fun h => op_from h n)
  | CAdd x y => let* i := v x in let* j := v y in f (fun h => op_add h i j)
  | CSub x y => let* i := v x in let* j := v y in f (fun h => op_sub h i j)
  | CNeg x => let* i := v x in f (fun h => op_neg h i)
  | CMul x y => let* i := v x in let* j := v y in f (fun h => op_mul h i j)
  | CAbs x => let* i := v x in f (fun h => op_abs h i)
  | CRelu x => let* i := v x in f (fun h => op_relu h i)
  | CTanh x => let* i := v x in f (fun h => op_tanh h i)
  | CSum x => let* i := v x in h_push s (h_sum h i)
  | CBmm x y => let* i := v x in let* j := v y in f (fun h => op_bmm h i j)
  | CDot x y => let* i := v x in let* j := v y in f (fun h => op_dot h i j)
  | CDotMethod x y => let* i := v x in let* j := v y in f (fun h => op_dot_method h i j)
  | CDeepClone x => let* i := v x in f (fun h => op_deep_clone h i)
  | CGrad x => let* i := v x in let* g := h_grad h i in Ret (mkHState h (henv s ++ [g]))
  | CViewToTensor x o => let* i := v x in f (fun h => op_view_to_tensor h i o)
  | CViewSum x o => let* i := v x in f (fun h => op_view_sum h i o)
  | CMulView x y o => let* i := v x in let* j := v y in f (fun h => op_mul_view h i j o)
  | CBmmView x y o => let* i := v x in let* j := v y in f (fun h => op_bmm_view h i j o)
  | CUpdateGrad x y =>
    let* i := v x in let* j := v y in
    let* h' := h_update_grad h i j in Ret (mkHState h' (henv s))
  | CZeroGrad x => let* i := v x in Ret (mkHState (h_zero_grad h i) (henv s))
  | CBackward x => let* i := v x in let* h' := h_backward h i in Ret (mkHState h' (henv s))
  end.

(** Calls one after the other, until one panics (rc_tensor.rs:45-373) *)
Definition h_run (p : list (cmd T)) (s : hstate) : outcome hstate := foldM h_exec p s.

(** What the program can see of variable [x]: its value, and the value of its gradient: rc_tensor.rs:173-193 *)
Definition hvar_value (s : hstate) (x : nat) : outcome (raw T) :=
  let* i := vindex (henv s) x in let* nd := vindex (hnodes (hhp s)) i in Ret (n_val nd).
(** The value of the tensor that [get_grad] gives: rc_tensor.rs:123-128 *)
Definition hvar_grad (s : hstate) (x : nat) : option (raw T) :=
  match nth_error (henv s) x with
  | Some i =>
    match hgrads (hhp s) i with
    | Some j => option_map n_val (nth_error (hnodes (hhp s)) j)
    | None => None
    end
  | None => None
  end.

End Handle.
Arguments hstate T : clear implicits.
