(** * ModelApi: the whole public interface of the tensor module

    ModelGraph has the calls on [RcTensor]s.  The crate also exports [RawTensor] and [TensorView]
    (src/tensor/mod.rs:11-16), and every [RcTensor] dereferences to its [RawTensor] (rc_tensor.rs:30-39).
    Here programs hold values of the three types and call every public function on them that makes a
    tensor or changes a gradient.  Left out: the functions that only read ([get], [elem], [shape],
    [count], [is_scalar], [==], indexing, [iter_indices], [same_shape], [broadcastable], formatting).
    Stored gradients are values, as in ModelGraph. *)
From Verif Require Import Base ModelIndex ModelTensor ModelOps ModelJvp ModelGraph.

(** A value a program can hold.  [VRc]: an [RcTensor] (rc_tensor.rs:27-28).  [VRaw]: a [RawTensor], owned
    or borrowed (raw_tensor.rs:39-49); an owned one is kept in the heap too, with its own cell.  [VView]:
    a [TensorView], which holds an [RcTensor], a shape and an offset (tensor_view.rs:12-27). *)
Inductive val : Type :=
| VRc (i : nat) | VRaw (i : nat) | VView (i : nat) (s : list nat) (o : list slice_range).

(** Public calls; operands are positions in the program's list of values.
    They are the public functions of rc_tensor.rs:30-373, raw_tensor.rs:75-424, tensor_view.rs:47-156,
    tensor_like.rs:13-145, functional/misc.rs:333-398 and element_wise_ops.rs:23-129, 396-414; which one a
    constructor stands for is said at its case of [a_exec]. *)
Inductive call (T : Type) : Type :=
| ARc (c : cmd T)                  (** a call of ModelGraph that needs no operands: [new] ... *)
| ARawNew (a : list T) (s : list nat) | ARawFiller (s : list nat) (x : T) | ARawScalar (x : T)
| ARawFrom (n : nest T) | ARawDefault
| ADeref (x : nat) | AClone (x : nat) | AToTensor (x : nat) | ATensor (x : nat) | ADeepClone (x : nat)
| ASlice (x : nat) (o : list slice_range) | AReshape (x : nat) (s : list nat)
| ASum (x : nat) | ABmm (x y : nat) | ABmmRc (x y : nat) | ADotMethod (x y : nat)
| AFnDot (x y : nat) | AFnDotNoDerivative (x y : nat) | AFnProduct (x y : nat) | AFnUnary (x : nat) (f : T -> T)
| ARelu (x : nat) | ATanh (x : nat) | AAbs (x : nat)
| AAdd (x y : nat) | ASub (x y : nat) | ANeg (x : nat) | AMul (x y : nat)
| ALeftScalar (x : nat) (c : T) | ARightScalar (x : nat) (c : T)
| AGrad (x : nat) | AUpdateGrad (x y : nat) | AZeroGrad (x : nat) | ABackward (x : nat).
Arguments ARc {T} c.
Arguments ARawNew {T} a s.
Arguments ARawFiller {T} s x.
Arguments ARawScalar {T} x.
Arguments ARawFrom {T} n.
Arguments ARawDefault {T}.
Arguments ADeref {T} x.
Arguments AClone {T} x.
Arguments AToTensor {T} x.
Arguments ATensor {T} x.
Arguments ADeepClone {T} x.
Arguments ASlice {T} x o.
Arguments AReshape {T} x s.
Arguments ASum {T} x.
Arguments ABmm {T} x y.
Arguments ABmmRc {T} x y.
Arguments ADotMethod {T} x y.
Arguments AFnDot {T} x y.
Arguments AFnDotNoDerivative {T} x y.
Arguments AFnProduct {T} x y.
Arguments AFnUnary {T} x f.
Arguments ARelu {T} x.
Arguments ATanh {T} x.
Arguments AAbs {T} x.
Arguments AAdd {T} x y.
Arguments ASub {T} x y.
Arguments ANeg {T} x.
Arguments AMul {T} x y.
Arguments ALeftScalar {T} x c.
Arguments ARightScalar {T} x c.
Arguments AGrad {T} x.
Arguments AUpdateGrad {T} x y.
Arguments AZeroGrad {T} x.
Arguments ABackward {T} x.

Section Api.
Context {T : Type} {NT : Num T}.
Implicit Types h : heap T.

(** [RawTensor::default()]: raw_tensor.rs:75-87 *)
Definition raw_default : raw T := mkRaw [] [].

(** The value behind the trait [TensorLike]: tensor_like.rs:13 *)
Definition as_like h (v : val) : outcome (tlike T) :=
  match v with
  | VRc i | VRaw i => let* nd := hget h i in Ret (LRaw (n_val nd))
  | VView i s o => let* nd := hget h i in Ret (LView (mkView (n_val nd) s o))
  end.

(** [RawTensor::clone]: raw_tensor.rs:51-60: value, history and current gradient; a cell of its own *)
Definition op_copy h (i : nat) : outcome (heap T * nat) :=
  let* nd := hget h i in Ret (alloc h (n_val nd) (n_fn nd) (grads h i)).

(** A new tensor with value [m], without history and gradient: [from_raw] (rc_tensor.rs:65-67) or an
    owned [RawTensor] *)
Definition leaf h (m : outcome (raw T)) : outcome (heap T * nat) := let* t := m in Ret (alloc h t None None).

(** [to_tensor()]: rc_tensor.rs:195-197 (the same tensor), raw_tensor.rs:339-341 (a copy),
    tensor_view.rs:112-118 (a new tensor) *)
Definition op_to_tensor h (v : val) : outcome (heap T * nat) :=
  match v with
  | VRc i => Ret (h, i)
  | VRaw i => op_copy h i
  | VView i s o => let* l := as_like h v in leaf h (tl_to_tensor l)
  end.

(** [slice]: rc_tensor.rs:203-205 and [view], 95-97 (of the tensor itself), raw_tensor.rs:342-344 (of a copy),
    tensor_view.rs:139-141 (of the tensor behind the view) *)
Definition op_slice h (v : val) (o : list slice_range) : outcome (heap T * val) :=
  let at_ h i := let* nd := hget h i in let* w := view_new (n_val nd) o in Ret (h, VView i (v_shape w) (v_offset w)) in
  match v with
  | VRc i => at_ h i
  | VRaw i => let* (h', j) := op_copy h i in at_ h' j
  | VView i _ _ => at_ h i
  end.

(** [RcTensor::bmm_rc] with any right operand: rc_tensor.rs:213-225; [right.to_tensor()] is line 219. *)
Definition op_bmm_any h (i : nat) (right : val) : outcome (heap T * nat) :=
  let* a := hget h i in
  let* l := as_like h right in
  let* t := bmm_raw (LRaw (n_val a)) l in
  let* (h1, j) := op_to_tensor h right in
  Ret (alloc h1 t (Some (KBmm, [i; j])) None).

(** [RawTensor::sum]: raw_tensor.rs:318-329: no history, the cell preset with ones *)
Definition op_raw_sum h (i : nat) : outcome (heap T * nat) :=
  let* a := hget h i in
  let* t := tl_sum (LRaw (n_val a)) in
  Ret (alloc h t None (Some (raw_filler (shape (n_val a)) n_one))).

(** Two operands read through [TensorLike]: raw_tensor.rs:287-301, 370-411, functional/misc.rs:46-139, 333-360 *)
Definition op_two h (v w : val) (op : tlike T -> tlike T -> outcome (raw T)) : outcome (heap T * nat) :=
  let* l := as_like h v in let* r := as_like h w in leaf h (op l r).

(** The program's tensors, all of them behind an [Arc] (rc_tensor.rs:28), and the values it has got so far, in order *)
Record astate : Type := mkA { ahp : heap T; aenv : list val }.
(** Before the first call there are no tensors (rc_tensor.rs:28). *)
Definition a_init : astate := mkA empty_heap [].

(** The call makes an [RcTensor], a [RawTensor], any value.
    ([from_raw], rc_tensor.rs:65-67; raw_tensor.rs:39-49; tensor_view.rs:12-27) *)
Definition bind_rc (a : astate) (r : outcome (heap T * nat)) : option (outcome astate) :=
  Some (let* (h, i) := r in Ret (mkA h (aenv a ++ [VRc i]))).
(** The call makes a [RawTensor]: raw_tensor.rs:39-49. *)
Definition bind_raw (a : astate) (r : outcome (heap T * nat)) : option (outcome astate) :=
  Some (let* (h, i) := r in Ret (mkA h (aenv a ++ [VRaw i]))).
(** The call makes a value of any of the three types: rc_tensor.rs:28, raw_tensor.rs:39-49, tensor_view.rs:12-27. *)
Definition bind_val (a : astate) (r : outcome (heap T * val)) : option (outcome astate) :=
  Some (let* (h, v) := r in Ret (mkA h (aenv a ++ [v]))).

(** One call.  [None]: the call does not type-check, no such program exists.
    The lines of /repo are given at every case; first rc_tensor.rs:81-93 *)
Definition a_exec (a : astate) (c : call T) : option (outcome astate) :=
  let h := ahp a in
  let v := nth_error (aenv a) in
  match c with
  (** rc_tensor.rs:81-93, 228-258 *)
  | ARc (CNew x s) => bind_rc a (op_new h x s)
  | ARc (CFiller s x) => bind_rc a (op_filler h s x)
  | ARc (CScalar x) => bind_rc a (op_scalar h x)
  | ARc (CFrom n) => bind_rc a (op_from h n)
  | ARc _ => None
  (** raw_tensor.rs:75-122, 154-203, 413-424 *)
  | ARawNew x s => bind_raw a (op_new h x s)
  | ARawFiller s x => bind_raw a (op_filler h s x)
  | ARawScalar x => bind_raw a (op_scalar h x)
  | ARawFrom n => bind_raw a (op_from h n)
  | ARawDefault => bind_raw a (leaf h (Ret raw_default))
  (** [&*x]: rc_tensor.rs:30-39 *)
  | ADeref x => match v x with Some (VRc i) => bind_raw a (Ret (h, i)) | _ => None end
  (** rc_tensor.rs:27 and tensor_view.rs:18 (derived: another handle), raw_tensor.rs:51-60 *)
  | AClone x =>
    match v x with
    | Some (VRaw i) => bind_raw a (op_copy h i)
    | Some w => bind_val a (Ret (h, w))
    | None => None
    end
  | AToTensor x => match v x with Some w => bind_rc a (op_to_tensor h w) | None => None end
  (** [tensor()]: rc_tensor.rs:191-193, raw_tensor.rs:331-333, tensor_view.rs:107-110 *)
  | ATensor x =>
    match v x with
    | Some (VRc i) | Some (VView i _ _) => bind_rc a (Ret (h, i))
    | Some (VRaw i) => bind_raw a (Ret (h, i))
    | None => None
    end
  (** tensor_like.rs:58-63 *)
  | ADeepClone x =>
    match v x with Some w => bind_rc a (let* l := as_like h w in leaf h (tl_deep_clone l)) | None => None end
  | ASlice x o => match v x with Some w => bind_val a (op_slice h w o) | None => None end
  (** tensor_view.rs:66-79 *)
  | AReshape x s =>
    match v x with
    | Some (VView i s0 o) =>
      bind_val a (let* nd := hget h i in
                  let* w := view_reshape (mkView (n_val nd) s0 o) s in Ret (h, VView i (v_shape w) (v_offset w)))
    | _ => None
    end
  (** rc_tensor.rs:181-189, raw_tensor.rs:318-329, tensor_view.rs:120-125 *)
  | ASum x =>
    match v x with
    | Some (VRc i) => bind_rc a (op_sum h i)
    | Some (VRaw i) => bind_raw a (op_raw_sum h i)
    | Some (VView i s o) => bind_rc a (let* l := as_like h (VView i s o) in leaf h (tl_sum l))
    | None => None
    end
  (** rc_tensor.rs:206-212, raw_tensor.rs:348-353, tensor_view.rs:143-148 *)
  | ABmm x y =>
    match v x, v y with
    | Some (VRc i), Some w => bind_rc a (op_bmm_any h i w)
    | Some (VRaw i), Some w => bind_raw a (op_two h (VRaw i) w bmm_raw)
    | Some (VView i s o), Some w => bind_rc a (op_two h (VView i s o) w bmm_raw)
    | _, _ => None
    end
  (** rc_tensor.rs:214-225, raw_tensor.rs:295-301, tensor_view.rs:150-156 *)
  | ABmmRc x y =>
    match v x, v y with
    | Some (VRc i), Some w => bind_rc a (op_bmm_any h i w)
    | Some u, Some w => bind_rc a (op_two h u w bmm_raw)
    | _, _ => None
    end
  (** rc_tensor.rs:165-171 and tensor_view.rs:95-101 ([todo!()]), raw_tensor.rs:287-293 *)
  | ADotMethod x y =>
    match v x, v y with
    | Some (VRaw i), Some w => bind_rc a (op_two h (VRaw i) w dot_raw)
    | Some _, Some _ => Some (Panic PTodo)
    | _, _ => None
    end
  (** functional/misc.rs:386-398, 351-360, 333-349; element_wise_ops.rs:396-414 *)
  | AFnDot x y =>
    match v x, v y with Some (VRc i), Some (VRc j) => bind_rc a (op_dot h i j) | _, _ => None end
  | AFnDotNoDerivative x y =>
    match v x, v y with Some u, Some w => bind_rc a (op_two h u w dot_raw) | _, _ => None end
  | AFnProduct x y =>
    match v x, v y with Some u, Some w => bind_raw a (op_two h u w element_wise_multiplication) | _, _ => None end
  | AFnUnary x f =>
    match v x with Some w => bind_raw a (let* l := as_like h w in leaf h (generic_unary_op l f)) | None => None end
  (** element_wise_ops.rs:23-70, rc_tensor.rs:45-47 *)
  | ARelu x => match v x with Some (VRc i) => bind_rc a (op_relu h i) | _ => None end
  | ATanh x => match v x with Some (VRc i) => bind_rc a (op_tanh h i) | _ => None end
  | AAbs x => match v x with Some (VRc i) => bind_rc a (op_abs h i) | _ => None end
  (** rc_tensor.rs:260-296, raw_tensor.rs:370-392 *)
  | AAdd x y =>
    match v x, v y with
    | Some (VRc i), Some (VRc j) => bind_rc a (op_add h i j)
    | Some (VRaw i), Some w => bind_raw a (op_two h (VRaw i) w add_raw)
    | _, _ => None
    end
  (** rc_tensor.rs:298-327, raw_tensor.rs:356-368; in the latter the right operand is no view and its
      negation is dropped again *)
  | ASub x y =>
    match v x, v y with
    | Some (VRc i), Some (VRc j) => bind_rc a (op_sub h i j)
    | Some (VRaw i), Some (VRc j) | Some (VRaw i), Some (VRaw j) =>
      bind_raw a (let* b := hget h j in op_two h (VRaw i) (VRaw j) (fun l r =>
        let* n := neg_raw (LRaw (n_val b)) in add_raw l (LRaw n)))
    | _, _ => None
    end
  (** rc_tensor.rs:329-345, raw_tensor.rs:265-273 *)
  | ANeg x =>
    match v x with
    | Some (VRc i) => bind_rc a (op_neg h i)
    | Some (VRaw i) => bind_raw a (let* l := as_like h (VRaw i) in leaf h (neg_raw l))
    | _ => None
    end
  (** rc_tensor.rs:347-373, raw_tensor.rs:394-411 *)
  | AMul x y =>
    match v x, v y with
    | Some (VRc i), Some w => bind_rc a (let* b := hget h i in let* r := as_like h w in leaf h (mul_raw (n_val b) r))
    | Some (VRaw i), Some w => bind_raw a (let* b := hget h i in let* r := as_like h w in leaf h (mul_raw (n_val b) r))
    | _, _ => None
    end
  (** tensor_like.rs:67-81 *)
  | ALeftScalar x c =>
    match v x with
    | Some w => bind_raw a (let* l := as_like h w in leaf h (Ret (left_scalar_multiplication l c)))
    | None => None
    end
  | ARightScalar x c =>
    match v x with
    | Some w => bind_raw a (let* l := as_like h w in leaf h (Ret (right_scalar_multiplication l c)))
    | None => None
    end
  (** rc_tensor.rs:123-133 *)
  | AGrad x => match v x with Some (VRc i) => bind_rc a (op_grad h i) | _ => None end
  (** rc_tensor.rs:154-163, raw_tensor.rs:303-313; for a view the [todo!()] of tensor_like.rs:27-32 *)
  | AUpdateGrad x y =>
    match v x, v y with
    | Some (VRc i), Some (VRc j) | Some (VRaw i), Some (VRc j) =>
      Some (let* h' := op_update_grad h i j in Ret (mkA h' (aenv a)))
    | Some (VView _ _ _), Some (VRc j) => Some (Panic PTodo)
    | _, _ => None
    end
  | AZeroGrad x =>
    match v x with
    | Some (VRc i) | Some (VRaw i) => Some (Ret (mkA (zero_grad h i) (aenv a)))
    | Some (VView _ _ _) => Some (Panic PTodo)
    | None => None
    end
  (** rc_tensor.rs:50-60 *)
  | ABackward x =>
    match v x with
    | Some (VRc i) => Some (let* h' := backward h i in Ret (mkA h' (aenv a)))
    | _ => None
    end
  end.

(** Several calls, until one panics; [None] when one of the calls made does not type-check:
    the calls are those of [a_exec], rc_tensor.rs:30-373 and the other files named there *)
Fixpoint a_run (p : list (call T)) (a : astate) : option (outcome astate) :=
  match p with
  | [] => Some (Ret a)
  | c :: p' =>
    match a_exec a c with
    | Some (Ret a') => a_run p' a'
    | Some (Panic e) => Some (Panic e)
    | Some NoFuel => Some NoFuel
    | None => None
    end
  end.

End Api.
Arguments astate T : clear implicits.
