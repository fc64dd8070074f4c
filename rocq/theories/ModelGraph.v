(** * ModelGraph: [RcTensor], history, gradients (rc_tensor.rs, autograd/jvp.rs)

    An [RcTensor] is a shared pointer to an immutable value plus a history ([grad_fn]) and a
    mutable gradient cell.  The heap is the append-only list of all [RawTensor]s behind [Arc]s
    (nothing is ever freed in the model); a handle is a position in that list; the gradient cells
    are kept beside it. *)
From Verif Require Import Base ModelIndex ModelTensor ModelOps ModelJvp.

(** The [fn] pointers that occur as [Derivative::jacobian_vector_product]:
    rc_tensor.rs:185 ([ones]), 221 ([bmm_jvp]), 270/288 ([add_jvp]), 338 (neg);
    element_wise_ops.rs:32 (tanh), 46 (relu), 125 ([add_jvp]), 330 ([abs_jvp]);
    functional/misc.rs:393 ([dot_jvp]).  [Derivative] is private to the crate, so there are no
    others. *)
Inductive opk : Set := KAdd | KNeg | KAbs | KRelu | KTanh | KSum | KBmm | KDot.

(** [RawTensor] with its [Option<Derivative>] (raw_tensor.rs:40-49, autograd/jvp.rs:6-12;
    [debug_info] is dropped). *)
Record node (T : Type) : Type := mkNode { n_val : raw T; n_fn : option (opk * list nat) }.
Arguments mkNode {T} n_val n_fn.
Arguments n_val {T} n.
Arguments n_fn {T} n.

(** All tensors and their gradient cells.  [RwLock<Option<RcTensor>>] (raw_tensor.rs:47) is
    modelled by the optional value of the stored gradient; its own history is dropped (see
    DESIGN.md). *)
Record heap (T : Type) : Type :=
  mkHeap { nodes : list (node T); grads : nat -> option (raw T) }.
Arguments mkHeap {T} nodes grads.
Arguments nodes {T} h.
Arguments grads {T} h.

Definition upd {A : Type} (f : nat -> A) (i : nat) (x : A) : nat -> A :=
  fun j => if j =? i then x else f j.

Section Graph.
Context {T : Type} {NT : Num T}.

Definition empty_heap : heap T := mkHeap [] (fun _ => None).

(** Dereferencing a handle; handles always point to live tensors in Rust. ([Deref], rc_tensor.rs:30-39) *)
Definition hget (h : heap T) (i : nat) : outcome (node T) := vindex (nodes h) i.

(** [RcTensor::from_raw] (rc_tensor.rs:65-67), with history and initial gradient *)
Definition alloc (h : heap T) (v : raw T) (fn : option (opk * list nat)) (g : option (raw T))
  : heap T * nat :=
  (mkHeap (nodes h ++ [mkNode v fn]) (upd (grads h) (length (nodes h)) g), length (nodes h)).

(** [update_grad]: raw_tensor.rs:307-313, rc_tensor.rs:154-158 (single-threaded; the race is in
    ModelPar.v) *)
Definition update_grad (gr : nat -> option (raw T)) (i : nat) (g : raw T)
  : outcome (nat -> option (raw T)) :=
  match gr i with
  | None => Ret (upd gr i (Some g))
  | Some other_grad =>
    let* s := add_raw (LRaw other_grad) (LRaw g) in Ret (upd gr i (Some s))
  end.

(** [zero_grad]: raw_tensor.rs:303-305, rc_tensor.rs:160-163 *)
Definition zero_grad (h : heap T) (i : nat) : heap T := mkHeap (nodes h) (upd (grads h) i None).

(** Calling the [fn] pointer: autograd/jvp.rs:34 (the field of line 10) *)
Definition jvp (k : opk) (tensors outer : list (raw T)) : outcome (list (raw T)) :=
  match k with
  | KAdd => add_jvp tensors outer
  | KNeg => neg_jvp tensors outer
  | KAbs => abs_jvp tensors outer
  | KRelu => relu_jvp tensors outer
  | KTanh => tanh_jvp tensors outer
  | KSum => ones tensors outer
  | KBmm => bmm_jvp tensors outer
  | KDot => dot_jvp tensors outer
  end.

(** [Derivative::compute_jvp]: autograd/jvp.rs:30-51.  [fuel] bounds the recursion depth. *)
Fixpoint compute_jvp (fuel : nat) (ns : list (node T)) (k : opk) (inputs : list nat)
    (outer : list (raw T)) (gr : nat -> option (raw T)) : outcome (nat -> option (raw T)) :=
  match fuel with
  | O => NoFuel
  | S f =>
    let* ins := mapM (vindex ns) inputs in
    let* self_grads := jvp k (map n_val ins) outer in
    foldM (fun gr '(g, (i, nd)) =>
             assert (length (array g) =? length (array (n_val nd))) ;;
             let* shaped_grad := raw_new (array g) (shape (n_val nd)) in
             let* gr' := update_grad gr i shaped_grad in
             match n_fn nd with
             | Some (k', inputs') => compute_jvp f ns k' inputs' [g] gr'
             | None => Ret gr'
             end)
          (combine self_grads (combine inputs ins)) gr
  end.

(** [RcTensor::backward]: rc_tensor.rs:50-60 *)
Definition backward (h : heap T) (i : nat) : outcome (heap T) :=
  let* nd := hget h i in
  assert (length (array (n_val nd)) =? 1) ;;
  let* (k, inputs) := unwrap_opt (n_fn nd) in
  let* gr := compute_jvp (S (length (nodes h))) (nodes h) k inputs [raw_scalar n_one] (grads h) in
  Ret (mkHeap (nodes h) gr).

(** ** Operations on handles *)

(** [RcTensor::new], [new_with_filler], [scalar], [From]: rc_tensor.rs:81-93, 228-258 *)
Definition op_new (h : heap T) (a : list T) (s : list nat) : outcome (heap T * nat) :=
  let* t := raw_new a s in Ret (alloc h t None None).
Definition op_filler (h : heap T) (s : list nat) (x : T) : outcome (heap T * nat) :=
  Ret (alloc h (raw_filler s x) None None).
Definition op_scalar (h : heap T) (x : T) : outcome (heap T * nat) :=
  Ret (alloc h (raw_scalar x) None None).
Definition op_from (h : heap T) (n : nest T) : outcome (heap T * nat) :=
  let* t := raw_from n in Ret (alloc h t None None).

(** [Add]: rc_tensor.rs:260-296 *)
Definition op_add (h : heap T) (i j : nat) : outcome (heap T * nat) :=
  let* a := hget h i in
  let* b := hget h j in
  let* t := add_raw (LRaw (n_val a)) (LRaw (n_val b)) in
  Ret (alloc h t (Some (KAdd, [i; j])) None).

(** [Neg for &RcTensor]: rc_tensor.rs:329-345 *)
Definition op_neg (h : heap T) (i : nat) : outcome (heap T * nat) :=
  let* a := hget h i in
  let* t := neg_raw (LRaw (n_val a)) in
  Ret (alloc h t (Some (KNeg, [i])) None).

(** [Sub]: rc_tensor.rs:298-327 *)
Definition op_sub (h : heap T) (i j : nat) : outcome (heap T * nat) :=
  let* (h', nj) := op_neg h j in op_add h' i nj.

(** [Mul]: rc_tensor.rs:347-373: no history *)
Definition op_mul (h : heap T) (i j : nat) : outcome (heap T * nat) :=
  let* a := hget h i in
  let* b := hget h j in
  let* t := mul_raw (n_val a) (LRaw (n_val b)) in
  Ret (alloc h t None None).

(** [RcTensor::abs], [functional::abs]: rc_tensor.rs:45-47, element_wise_ops.rs:323-334 *)
Definition op_abs (h : heap T) (i : nat) : outcome (heap T * nat) :=
  let* a := hget h i in
  let* t := abs_raw (LRaw (n_val a)) in
  Ret (alloc h t (Some (KAbs, [i])) None).

(** [functional::relu]: element_wise_ops.rs:38-70 *)
Definition op_relu (h : heap T) (i : nat) : outcome (heap T * nat) :=
  let* a := hget h i in
  let* t := relu_raw (LRaw (n_val a)) in
  Ret (alloc h t (Some (KRelu, [i])) None).

(** [functional::tanh]: element_wise_ops.rs:23-36 *)
Definition op_tanh (h : heap T) (i : nat) : outcome (heap T * nat) :=
  let* a := hget h i in
  let* t := tanh_raw (LRaw (n_val a)) in
  Ret (alloc h t (Some (KTanh, [i])) None).

(** [RcTensor::sum]: rc_tensor.rs:181-189; the scalar's own gradient cell is preset with ones of
    the summed tensor's shape by raw_tensor.rs:324-327. *)
Definition op_sum (h : heap T) (i : nat) : outcome (heap T * nat) :=
  let* a := hget h i in
  let* t := tl_sum (LRaw (n_val a)) in
  Ret (alloc h t (Some (KSum, [i])) (Some (raw_filler (shape (n_val a)) n_one))).

(** [RcTensor::bmm], [bmm_rc]: rc_tensor.rs:206-225, right operand an [RcTensor] *)
Definition op_bmm (h : heap T) (i j : nat) : outcome (heap T * nat) :=
  let* a := hget h i in
  let* b := hget h j in
  let* t := bmm_raw (LRaw (n_val a)) (LRaw (n_val b)) in
  Ret (alloc h t (Some (KBmm, [i; j])) None).

(** [functional::dot]: functional/misc.rs:386-398 *)
Definition op_dot (h : heap T) (i j : nat) : outcome (heap T * nat) :=
  let* a := hget h i in
  let* b := hget h j in
  let* t := dot_raw (LRaw (n_val a)) (LRaw (n_val b)) in
  Ret (alloc h t (Some (KDot, [i; j])) None).

(** The method [RcTensor::dot], rc_tensor.rs:165-171, and [TensorView::dot],
    tensor_view.rs:95-101 *)
Definition op_dot_method (h : heap T) (i j : nat) : outcome (heap T * nat) := Panic PTodo.

(** [deep_clone]: tensor_like.rs:58-63 *)
Definition op_deep_clone (h : heap T) (i : nat) : outcome (heap T * nat) :=
  let* a := hget h i in
  let* t := tl_deep_clone (LRaw (n_val a)) in
  Ret (alloc h t None None).

(** [grad]: rc_tensor.rs:123-133; the handle of the stored gradient, as a tensor of its own *)
Definition op_grad (h : heap T) (i : nat) : outcome (heap T * nat) :=
  let* g := unwrap_opt (grads h i) in
  Ret (alloc h g None None).

(** The trait method [update_grad] called by a user: rc_tensor.rs:154-158, raw_tensor.rs:307-313 *)
Definition op_update_grad (h : heap T) (i j : nat) : outcome (heap T) :=
  let* g := hget h j in
  let* gr := update_grad (grads h) i (n_val g) in
  Ret (mkHeap (nodes h) gr).

(** [x.view(offset)] and what can be done with it: [to_tensor] (tensor_view.rs:112-118), [sum]
    (120-125), [&x * &view] (raw_tensor.rs:402-410), [x.bmm(&view)] (rc_tensor.rs:214-225, where
    [right.to_tensor()] of line 220 makes a fresh tensor). *)
Definition op_view_to_tensor (h : heap T) (i : nat) (o : list slice_range)
  : outcome (heap T * nat) :=
  let* a := hget h i in
  let* v := view_new (n_val a) o in
  let* t := tl_to_tensor (LView v) in
  Ret (alloc h t None None).
Definition op_view_sum (h : heap T) (i : nat) (o : list slice_range) : outcome (heap T * nat) :=
  let* a := hget h i in
  let* v := view_new (n_val a) o in
  let* t := tl_sum (LView v) in
  Ret (alloc h t None None).
Definition op_mul_view (h : heap T) (i j : nat) (o : list slice_range) : outcome (heap T * nat) :=
  let* a := hget h i in
  let* b := hget h j in
  let* v := view_new (n_val b) o in
  let* t := mul_raw (n_val a) (LView v) in
  Ret (alloc h t None None).
Definition op_bmm_view (h : heap T) (i j : nat) (o : list slice_range) : outcome (heap T * nat) :=
  let* a := hget h i in
  let* b := hget h j in
  let* v := view_new (n_val b) o in
  let* t := bmm_raw (LRaw (n_val a)) (LView v) in
  let* r := tl_to_tensor (LView v) in
  let (h1, ir) := alloc h r None None in
  Ret (alloc h1 t (Some (KBmm, [i; ir])) None).

(** ** Programs: sequences of API calls

    [env] lists the tensors the program has obtained so far, in order; commands name their
    operands by position in [env].
    The functions behind the commands: rc_tensor.rs:45-373, functional/misc.rs:386-398,
    element_wise_ops.rs:23-70, tensor_like.rs:58-63, tensor_view.rs:112-125. *)
Inductive cmd : Type :=
| CNew (a : list T) (s : list nat)
| CFiller (s : list nat) (x : T)
| CScalar (x : T)
| CFrom (n : nest T)
| CAdd (x y : nat) | CSub (x y : nat) | CNeg (x : nat) | CMul (x y : nat)
| CAbs (x : nat) | CRelu (x : nat) | CTanh (x : nat) | CSum (x : nat)
| CBmm (x y : nat) | CDot (x y : nat) | CDotMethod (x y : nat) | CDeepClone (x : nat)
| CGrad (x : nat)
| CViewToTensor (x : nat) (o : list slice_range)
| CViewSum (x : nat) (o : list slice_range)
| CMulView (x y : nat) (o : list slice_range)
| CBmmView (x y : nat) (o : list slice_range)
| CUpdateGrad (x y : nat) | CZeroGrad (x : nat) | CBackward (x : nat).

(** All tensors (rc_tensor.rs:28) and those the program has a name for *)
Record state : Type := mkState { hp : heap T; env : list nat }.
(** A program starts without tensors (rc_tensor.rs:28). *)
Definition init_state : state := mkState empty_heap [].

(** The command's result is a new tensor: bind it. ([from_raw], rc_tensor.rs:65-67) *)
Definition push (s : state) (r : outcome (heap T * nat)) : outcome state :=
  let* (h, i) := r in Ret (mkState h (env s ++ [i])).

(** One call; the cases are the [op_] functions above, with their lines, and rc_tensor.rs:50-60 ([backward]), 160-163 ([zero_grad]). *)
Definition exec (s : state) (c : cmd) : outcome state :=
  let h := hp s in
  let v := vindex (env s) in
  match c with
  | CNew a sh => push s (op_new h a sh)
  | CFiller sh x => push s (op_filler h sh x)
  | CScalar x => push s (op_scalar h x)
  | CFrom n => push s (op_from h n)
  | CAdd x y => let* i := v x in let* j := v y in push s (op_add h i j)
  | CSub x y => let* i := v x in let* j := v y in push s (op_sub h i j)
  | CNeg x => let* i := v x in push s (op_neg h i)
  | CMul x y => let* i := v x in let* j := v y in push s (op_mul h i j)
  | CAbs x => let* i := v x in push s (op_abs h i)
  | CRelu x => let* i := v x in push s (op_relu h i)
  | CTanh x => let* i := v x in push s (op_tanh h i)
  | CSum x => let* i := v x in push s (op_sum h i)
  | CBmm x y => let* i := v x in let* j := v y in push s (op_bmm h i j)
  | CDot x y => let* i := v x in let* j := v y in push s (op_dot h i j)
  | CDotMethod x y => let* i := v x in let* j := v y in push s (op_dot_method h i j)
  | CDeepClone x => let* i := v x in push s (op_deep_clone h i)
  | CGrad x => let* i := v x in push s (op_grad h i)
  | CViewToTensor x o => let* i := v x in push s (op_view_to_tensor h i o)
  | CViewSum x o => let* i := v x in push s (op_view_sum h i o)
  | CMulView x y o => let* i := v x in let* j := v y in push s (op_mul_view h i j o)
  | CBmmView x y o => let* i := v x in let* j := v y in push s (op_bmm_view h i j o)
  | CUpdateGrad x y =>
    let* i := v x in let* j := v y in
    let* h' := op_update_grad h i j in Ret (mkState h' (env s))
  | CZeroGrad x => let* i := v x in Ret (mkState (zero_grad h i) (env s))
  | CBackward x =>
    let* i := v x in let* h' := backward h i in Ret (mkState h' (env s))
  end.

(** Calls one after the other, until one panics (rc_tensor.rs:45-373) *)
Definition run (p : list cmd) (s : state) : outcome state := foldM exec p s.

(** What the program can see of the tensor bound to variable [x]: its value and its gradient. (rc_tensor.rs:173-193) *)
Definition var_value (s : state) (x : nat) : outcome (raw T) :=
  let* i := vindex (env s) x in let* nd := hget (hp s) i in Ret (n_val nd).
(** [get_grad]: rc_tensor.rs:123-128 *)
Definition var_grad (s : state) (x : nat) : option (raw T) :=
  match nth_error (env s) x with Some i => grads (hp s) i | None => None end.

End Graph.
Arguments cmd T : clear implicits.
Arguments state T : clear implicits.
