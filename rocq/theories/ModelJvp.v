(** * ModelJvp: the backward rules
    (autograd/jvp.rs, and the [_jvp] functions of functional/*.rs) *)
From Verif Require Import Base ModelIndex ModelTensor ModelOps.

Section Jvp.
Context {T : Type} {NT : Num T}.

(** ** Diagonal Jacobians *)

(** One round of the inner [for jac_idx0] loop of [jvp_from_diagonal_broadcast]:
    element_wise_ops.rs:166-180 *)
Definition jdb_body (diagonal grad : raw T) (jvp_shape input_shape idx orig_idx : list nat)
    (jac_idx1 : nat) (arr : list T) (jac_idx0 : nat) : outcome (list T) :=
  let* r1 := global_index orig_idx input_shape None in
  let* output_idx := unwrap r1 in
  let* r2 := global_index [jac_idx0; output_idx] jvp_shape None in
  let* output_jac_idx := unwrap r2 in
  let* grad_val := raw_at grad [jac_idx0; jac_idx1] in
  let* diag_val := raw_at diagonal idx in
  let* old := vindex arr output_jac_idx in
  vset arr output_jac_idx (n_add old (n_mul diag_val grad_val)).

(** The [loop] of element_wise_ops.rs:160-185 *)
Fixpoint jdb_loop (fuel : nat) (diagonal grad : raw T)
    (jvp_shape broadcast_shape input_shape : list nat) (dim_0 : nat)
    (idx orig_idx : list nat) (arr : list T) : outcome (list T) :=
  match fuel with
  | O => NoFuel
  | S f =>
    let* r := global_index idx (shape diagonal) None in
    let* jac_idx1 := unwrap r in
    let* arr' := foldM (jdb_body diagonal grad jvp_shape input_shape idx orig_idx jac_idx1)
                   (seq 0 dim_0) arr in
    let* (idx', more) := increment_index idx (shape diagonal) in
    if more then
      let* (orig_idx', ok) := increment_index orig_idx broadcast_shape in
      assert ok ;;
      jdb_loop f diagonal grad jvp_shape broadcast_shape input_shape dim_0 idx' orig_idx' arr'
    else Ret arr'
  end.

(** [jvp_from_diagonal_broadcast]: element_wise_ops.rs:130-189.  It is only called with
    [Some jvp_shape]; the [None] case of line 145 is kept. *)
Definition jvp_from_diagonal_broadcast (diagonal : raw T) (jvp_shape : option (list nat))
    (broadcast_shape input_shape : list nat) (grad : raw T) : outcome (raw T) :=
  assert (length (shape grad) <=? 2) ;;
  let* dim_0 := (if length (shape grad) <=? 1 then Ret 1 else vindex (shape grad) 0) in
  let js := match jvp_shape with
            | Some v => v
            | None => [dim_0; length (array diagonal)]
            end in
  let* js0 := vindex js 0 in
  assert (dim_0 =? js0) ;;
  let* js1 := vindex js 1 in
  let* arr := jdb_loop (index_fuel (shape diagonal)) diagonal grad js broadcast_shape input_shape
                dim_0 (repeat 0 (length (shape diagonal))) (repeat 0 (length broadcast_shape))
                (repeat n_zero (js0 * js1)) in
  raw_new arr js.

(** The loop of [generic_unary_jvp], element_wise_ops.rs:377-385, which collects the diagonal *)
Fixpoint unary_diag_loop (fuel : nat) (t : raw T) (deriv : T -> T) (idx : list nat)
    (acc : list T) : outcome (list T) :=
  match fuel with
  | O => NoFuel
  | S f =>
    let* v := raw_at t idx in
    let* (idx', more) := increment_index idx (shape t) in
    if more then unary_diag_loop f t deriv idx' (acc ++ [deriv v])
    else Ret (acc ++ [deriv v])
  end.

(** [generic_unary_jvp]: element_wise_ops.rs:360-394 *)
Definition generic_unary_jvp (tensor grad : raw T) (deriv : T -> T) : outcome (list (raw T)) :=
  let diag_length := length (array tensor) in
  let diag_shape := [1; diag_length] in
  let dim_0 := match shape grad with [] => 1 | d :: _ => d end in
  let jvp_shape := [dim_0; diag_length] in
  let* a := unary_diag_loop (index_fuel (shape tensor)) tensor deriv
              (repeat 0 (length (shape tensor))) [] in
  let* diag := raw_new a diag_shape in
  let* j := jvp_from_diagonal_broadcast diag (Some jvp_shape) (shape tensor) (shape tensor) grad in
  Ret [j].

(** The loop of [generic_binop_jvp], element_wise_ops.rs:233-239 *)
Fixpoint binop_diag_loop (fuel : nat) (left right : raw T) (deriv : T -> T -> T)
    (broadcast_shape idx : list nat) (acc : list T) : outcome (list T) :=
  match fuel with
  | O => NoFuel
  | S f =>
    let* l := raw_at left idx in
    let* r := raw_at right idx in
    let* (idx', more) := increment_index idx broadcast_shape in
    if more then binop_diag_loop f left right deriv broadcast_shape idx' (acc ++ [deriv l r])
    else Ret (acc ++ [deriv l r])
  end.

(** [generic_binop_jvp]: element_wise_ops.rs:201-259 *)
Definition generic_binop_jvp (left right grad : raw T) (deriv : T -> T -> T)
  : outcome (list (raw T)) :=
  let broadcast_shape := max_shape (shape left) (shape right) in
  let diag_length := product broadcast_shape in
  let diag_shape := [1; diag_length] in
  (if 2 <=? length (shape grad)
   then let* g1 := vindex (shape grad) 1 in assert (g1 =? diag_length)
   else Ret tt) ;;
  let dim_0 := match shape grad with [] => 1 | d :: _ => d end in
  let right_jvp_shape := [dim_0; length (array right)] in
  let left_jvp_shape := [dim_0; length (array left)] in
  let* a := binop_diag_loop (index_fuel broadcast_shape) left right deriv broadcast_shape
              (repeat 0 (length broadcast_shape)) [] in
  let* diag := raw_new a diag_shape in
  let* left_jvp := jvp_from_diagonal_broadcast diag (Some left_jvp_shape) broadcast_shape
                     (shape left) grad in
  let* right_jvp := jvp_from_diagonal_broadcast diag (Some right_jvp_shape) broadcast_shape
                      (shape right) grad in
  Ret [left_jvp; right_jvp].

(** [tensors[0]] and [grads[0]] after the length assertions that open most rules:
    autograd/jvp.rs:73-74, element_wise_ops.rs:72-81, 191-259, 336-350, 360-394 *)
Definition one_one (tensors grads : list (raw T)) : outcome (raw T * raw T) :=
  match tensors, grads with
  | [t], [g] => Ret (t, g)
  | _, _ => Panic PAssert
  end.
(** The same for rules with two inputs: element_wise_ops.rs:191-259, functional/misc.rs:222-227, 362-374 *)
Definition two_one (tensors grads : list (raw T)) : outcome (raw T * raw T * raw T) :=
  match tensors, grads with
  | [t; u], [g] => Ret (t, u, g)
  | _, _ => Panic PAssert
  end.

(** [add_jvp]: element_wise_ops.rs:191-199 *)
Definition add_jvp (tensors grads : list (raw T)) : outcome (list (raw T)) :=
  let* (l, r, grad) := two_one tensors grads in
  generic_binop_jvp l r grad (fun _ _ => n_one).

(** The closure of [Neg for &RcTensor], rc_tensor.rs:338-340.  It indexes without asserting the
    lengths; in the graph they are always 1 and 1. *)
Definition neg_jvp (tensors grads : list (raw T)) : outcome (list (raw T)) :=
  let* t := vindex tensors 0 in
  let* g := vindex grads 0 in
  generic_unary_jvp t g (fun _ => n_neg n_one).

(** The closure of [relu], element_wise_ops.rs:46-66 *)
Definition relu_jvp (tensors grads : list (raw T)) : outcome (list (raw T)) :=
  let* (t, g) := one_one tensors grads in
  generic_unary_jvp t g (fun x => if n_lt x n_zero then n_zero else n_one).

(** [abs_jvp]: element_wise_ops.rs:336-350 *)
Definition abs_jvp (tensors grads : list (raw T)) : outcome (list (raw T)) :=
  let* (t, g) := one_one tensors grads in
  assert (length (shape g) =? 2) ;;
  generic_unary_jvp t g (fun x => if n_ge x n_zero then n_one else n_sub n_zero n_one).

(** ** Full Jacobians *)

(** [jvp_from_full_jacobians]: autograd/jvp.rs:56-70 *)
Definition jvp_from_full_jacobians (left right : raw T) : outcome (raw T) :=
  let left_one := is_scalar left || (product (shape left) =? 1) in
  let right_one := is_scalar right || (product (shape right) =? 1) in
  if right_one || left_one then assert left_one ;; mul_raw left (LRaw right)
  else bmm_raw (LRaw left) (LRaw right).

(** [ones], the rule of [sum]: autograd/jvp.rs:72-79 *)
Definition ones (tensors grads : list (raw T)) : outcome (list (raw T)) :=
  let* (t, g) := one_one tensors grads in
  Ret [raw_filler [product (shape g); product (shape t)] n_one].

(** [tanh_derivative] with [full_jacobian_output = true]: element_wise_ops.rs:84-110
    (the other branch, lines 89-96, is only used by tests). *)
Definition tanh_derivative (t : raw T) : outcome (raw T) :=
  let len := product (shape t) in
  let* a := mapM (fun '(i, j) =>
                    if i =? j then
                      let* x := vindex (array t) i in
                      Ret (n_sub n_one (n_mul (n_tanh x) (n_tanh x)))
                    else Ret n_zero)
                 (list_prod (seq 0 len) (seq 0 len)) in
  raw_new a [len; len].

(** [tanh_derivative_outer]: element_wise_ops.rs:72-81 *)
Definition tanh_jvp (tensors grads : list (raw T)) : outcome (list (raw T)) :=
  let* (t, g) := one_one tensors grads in
  let* jacobian := tanh_derivative t in
  let* new_grad := jvp_from_full_jacobians g jacobian in
  Ret [new_grad].

(** [dot_jvp]: functional/misc.rs:362-374 *)
Definition dot_jvp (tensors grads : list (raw T)) : outcome (list (raw T)) :=
  let* (l, r, jac) := two_one tensors grads in
  let* left_jvp := jvp_from_full_jacobians jac r in
  let* right_jvp := jvp_from_full_jacobians jac l in
  Ret [left_jvp; right_jvp].

(** ** [bmm_jvp] and [SplitArrayWriter]: functional/misc.rs:141-331 *)

(** [slice.rchunks(w)]: chunks of [w] elements counted from the END of the slice, the last chunk
    yielded (the one at the beginning of the slice) may be shorter. (functional/misc.rs:155) *)
Fixpoint rchunks_aux {A : Type} (fuel w : nat) (l : list A) : list (list A) :=
  match fuel with
  | O => []
  | S f =>
    match l with
    | [] => []
    | _ => skipn (length l - w) l :: rchunks_aux f w (firstn (length l - w) l)
    end
  end.
(** The fuel is enough for every [w > 0]: functional/misc.rs:155. *)
Definition rchunks {A : Type} (w : nat) (l : list A) : list (list A) :=
  rchunks_aux (length l) w l.

(** [bit_width], [width]: functional/misc.rs:152-153 *)
Definition bit_width : nat := 5.
Definition width : nat := 32.

(** [SplitArrayWriter::new]: functional/misc.rs:151-165: the segments, in [rchunks_mut] order;
    segment [s] is served by channel [s]. *)
Definition split_new (slice : list T) : list (list T) := rchunks width slice.

(** The array behind the segments once all borrows end: segment 0 is its tail. (functional/misc.rs:326-331) *)
Definition split_join (segments : list (list T)) : list T := concat (rev segments).

(** The channel that [get_writer]'s closure picks (functional/misc.rs:173-176); [senders[i]]
    panics when there is no such channel. *)
Definition writer_channel (nsegs global_idx : nat) : outcome nat :=
  let sender_idx := Nat.shiftr global_idx bit_width in
  if sender_idx <? nsegs then Ret sender_idx else Panic PIndex.

(** What a receiver task does with one message (functional/misc.rs:191-196). *)
Definition receive (slice_idx : nat) (slice : list T) (m : nat * T) : outcome (list T) :=
  let (global_idx, value) := m in
  if global_idx <? slice_idx * width then Panic PArith
  else
    let local_idx := global_idx - slice_idx * width in
    assert (local_idx <? length slice) ;;
    let* old := vindex slice local_idx in
    vset slice local_idx (n_add old value).

(** Send one message and apply it: the sequential reading of writer + receiver.
    (functional/misc.rs:173-176, 191-196) *)
Definition deliver (segments : list (list T)) (m : nat * T) : outcome (list (list T)) :=
  let* c := writer_channel (length segments) (fst m) in
  let* slice := vindex segments c in
  let* slice' := receive c slice m in
  vset segments c slice'.

(** One spawned writer task (functional/misc.rs:272-318) for [i], [k], [j]: the messages it sends,
    in order, as (message for the left array, message for the right array) per row of the
    incoming gradient. *)
Definition bmm_task (a b jac : raw T) (out_shape left_jac_shape left_out_shape right_out_shape : list nat)
    (i k j : nat) : outcome (list ((nat * T) * (nat * T))) :=
  let* r := global_index [i; j] out_shape None in
  let* self_jac_idx0 := unwrap r in
  let* r := global_index [i; k] (shape a) None in
  let* left_jac_idx1 := unwrap r in
  let* r := global_index [k; j] (shape b) None in
  let* right_jac_idx1 := unwrap r in
  let* ljs0 := vindex left_jac_shape 0 in
  assert (self_jac_idx0 <? ljs0) ;;
  let* js1 := vindex (shape jac) 1 in
  assert (self_jac_idx0 <? js1) ;;
  let* ljs1 := vindex left_jac_shape 1 in
  assert (left_jac_idx1 <? ljs1) ;;
  let* js0 := vindex (shape jac) 0 in
  mapM (fun input_jac_idx =>
          let* r := global_index [input_jac_idx; left_jac_idx1] left_out_shape None in
          let* tmp_left := unwrap r in
          let* g := raw_at jac [input_jac_idx; self_jac_idx0] in
          let* bv := raw_at b [k; j] in
          let* r := global_index [input_jac_idx; right_jac_idx1] right_out_shape None in
          let* tmp_right := unwrap r in
          let* av := raw_at a [i; k] in
          Ret ((tmp_left, n_mul g bv), (tmp_right, n_mul g av)))
       (seq 0 js0).

(** The order in which [bmm_jvp] spawns its tasks: functional/misc.rs:263-265 *)
Definition ikj (n kk m : nat) : list (nat * nat * nat) :=
  list_prod (list_prod (seq 0 n) (seq 0 kk)) (seq 0 m).

(** [bmm_jvp]: functional/misc.rs:211-331, messages applied in spawn order (ModelPar.v treats all
    interleavings). *)
Definition bmm_jvp (tensors grads : list (raw T)) : outcome (list (raw T)) :=
  let* (a, b, jac) := two_one tensors grads in
  let* a1 := vindex (shape a) 1 in
  let* b0 := vindex (shape b) 0 in
  assert (a1 =? b0) ;;
  let* a0 := vindex (shape a) 0 in
  let* b1 := vindex (shape b) 1 in
  let out_shape := [a0; b1] in
  let left_jac_shape := [a0 * b1; a0 * a1] in
  let* j0 := vindex (shape jac) 0 in
  let left_out_shape := [j0; a0 * a1] in
  let right_out_shape := [j0; b0 * b1] in
  let left_array := repeat n_zero (j0 * (a0 * a1)) in
  let right_array := repeat n_zero (j0 * (b0 * b1)) in
  let* tasks := mapM (fun '(i, k, j) =>
                        bmm_task a b jac out_shape left_jac_shape left_out_shape right_out_shape
                          i k j) (ikj a0 a1 b1) in
  let* left_segs := foldM deliver (map fst (concat tasks)) (split_new left_array) in
  let* right_segs := foldM deliver (map snd (concat tasks)) (split_new right_array) in
  let* l := raw_new (split_join left_segs) left_out_shape in
  let* r := raw_new (split_join right_segs) right_out_shape in
  Ret [l; r].

End Jvp.
